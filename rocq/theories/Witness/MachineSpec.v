(** What the memory log of the machine must satisfy, independently of the
    machine: the operations, taken in the order of their timestamps, are an
    execution of a memory. *)
From Coq Require Import ZArith List Bool.
From Verif Require Import Witness.MemoryModel.
Import ListNotations.
Local Open Scope Z_scope.

(** A memory holds an integer at every address. *)
Definition upd (f : maddr -> Z) (a : maddr) (v : Z) : maddr -> Z := fun b => if maddr_eqb b a then v else f b.

(** Every read returns what the memory holds at that point. *)
Fixpoint reads_ok (f : maddr -> Z) (l : list mop) : Prop :=
  match l with
  | [] => True
  | o :: l => match mo_kind o with
              | MRead => mo_value o = f (mo_address o) /\ reads_ok f l
              | MWrite => reads_ok (upd f (mo_address o) (mo_value o)) l
              end
  end.
(** The memory after the operations. *)
Fixpoint after (f : maddr -> Z) (l : list mop) : maddr -> Z :=
  match l with
  | [] => f
  | o :: l => match mo_kind o with
              | MRead => after f l
              | MWrite => after (upd f (mo_address o) (mo_value o)) l
              end
  end.

(** The operations with timestamp 0, then those with timestamp 1, ..., up to
    T - 1; those with the same timestamp in the order of the log. *)
Definition by_time (T : nat) (l : list mop) : list mop :=
  flat_map (fun t => filter (fun o => mo_timestamp o =? Z.of_nat t) l) (seq 0 T).

(** A 256-bit word. *)
Definition word (x : Z) : Prop := 0 <= x < 2^256.
