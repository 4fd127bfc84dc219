(** Specification of a shared memory, independent of the memory table.

    An event is a read or a write of a value at an address and a time.  A list
    of events is a sequential execution from an initial memory when every read
    returns what the memory holds at that point. *)
From Coq Require Import ZArith List Bool.
Import ListNotations.
Local Open Scope Z_scope.

(** (context, segment, virtual) *)
Definition maddress : Type := (Z * Z * Z)%type.
(** Eight 32-bit limbs, little-endian. *)
Definition mvalue : Type := list Z.

Definition address_eqb (a b : maddress) : bool :=
  let '(c, s, v) := a in let '(c', s', v') := b in (c =? c') && (s =? s') && (v =? v').

Record event : Type := { ev_read : bool; ev_addr : maddress; ev_value : mvalue; ev_time : Z }.

Definition memory : Type := maddress -> mvalue.
Definition update (m : memory) (a : maddress) (v : mvalue) : memory :=
  fun b => if address_eqb b a then v else m b.

Fixpoint sequential (m : memory) (l : list event) : Prop :=
  match l with
  | [] => True
  | e :: l => if ev_read e then ev_value e = m (ev_addr e) /\ sequential m l
              else sequential (update m (ev_addr e) (ev_value e)) l
  end.

(** Time never goes backwards. *)
Fixpoint timed (l : list event) : Prop :=
  match l with
  | [] => True
  | e :: l => Forall (fun f => ev_time e <= ev_time f) l /\ timed l
  end.

Definition zero_value : mvalue := repeat 0 8.

(** The segments whose initial content is not zero: code, trie data and the
    two linked lists of the state. *)
Definition preinitialized (a : maddress) : Prop := let '(_, s, _) := a in In s [0; 12; 34; 35].
