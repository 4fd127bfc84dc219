(** Reference semantics of kernel assembly, written from the EVM
    specification and independent of the optimizer's arithmetic. *)
From Coq Require Import ZArith List Bool Arith String.
From Verif Require Import Kernel.OptModel.
Import ListNotations.
Local Open Scope Z_scope.
Local Open Scope string_scope.

Definition word (x : Z) : Prop := 0 <= x < 2^256.
Definition stack : Type := list Z.

(** EVM words; the first argument is the top of the stack. *)
Definition evm_byte (i x : Z) : Z := if Z.ltb i 32 then (x / 256 ^ (31 - i)) mod 256 else 0.
Definition evm_unary (op : string) : option (Z -> Z) :=
  if op =? "ISZERO" then Some (fun x => if Z.eqb x 0 then 1 else 0)
  else if op =? "NOT" then Some (fun x => 2^256 - 1 - x)
  else None.
Definition evm_binary (op : string) : option (Z -> Z -> Z) :=
  if op =? "ADD" then Some (fun a b => (a + b) mod 2^256)
  else if op =? "SUB" then Some (fun a b => (a - b) mod 2^256)
  else if op =? "MUL" then Some (fun a b => (a * b) mod 2^256)
  else if op =? "DIV" then Some (fun a b => if Z.eqb b 0 then 0 else a / b)
  else if op =? "MOD" then Some (fun a b => if Z.eqb b 0 then 0 else a mod b)
  else if op =? "EXP" then Some (fun a b => (a ^ b) mod 2^256)
  else if op =? "SHL" then Some (fun a b => if Z.ltb a 256 then (b * 2 ^ a) mod 2^256 else 0)
  else if op =? "SHR" then Some (fun a b => if Z.ltb a 256 then b / 2 ^ a else 0)
  else if op =? "AND" then Some Z.land
  else if op =? "OR" then Some Z.lor
  else if op =? "XOR" then Some Z.lxor
  else if op =? "LT" then Some (fun a b => if Z.ltb a b then 1 else 0)
  else if op =? "GT" then Some (fun a b => if Z.gtb a b then 1 else 0)
  else if op =? "EQ" then Some (fun a b => if Z.eqb a b then 1 else 0)
  else if op =? "BYTE" then Some evm_byte
  else None.

Definition digits : list string := ["1"; "2"; "3"; "4"; "5"; "6"; "7"; "8"; "9"; "10"; "11"; "12"; "13"; "14"; "15"; "16"].
Fixpoint index_of (s : string) (l : list string) : option nat :=
  match l with [] => None | x :: r => if s =? x then Some O else match index_of s r with Some n => Some (S n) | None => None end end.
(** DUPk copies the k-th element, SWAPk exchanges the top with the k+1-st. *)
Definition dup_of (op : string) : option nat := index_of op (map (fun d => "DUP" ++ d) digits).
Definition swap_of (op : string) : option nat := index_of op (map (fun d => "SWAP" ++ d) digits).

Definition set_nth (n : nat) (v : Z) (s : stack) : stack := (firstn n s ++ v :: skipn (S n) s)%list.

Inductive effect : Type := NotPure | Underflow | Result (s : stack).
(** Instructions that only touch the stack. *)
Definition pure_op (op : string) (s : stack) : effect :=
  match evm_unary op with
  | Some f => match s with a :: r => Result (f a :: r) | _ => Underflow end
  | None =>
  match evm_binary op with
  | Some f => match s with a :: b :: r => Result (f a b :: r) | _ => Underflow end
  | None =>
  if op =? "POP" then match s with _ :: r => Result r | _ => Underflow end
  else if String.prefix "DUP" op then
    match dup_of op with
    | Some k => match nth_error s k with Some v => Result (v :: s) | None => Underflow end
    | None => Underflow
    end
  else match swap_of op with
  | Some k => match s, nth_error s (S k) with
              | a :: r, Some b => Result (set_nth (S k) a (b :: r))
              | _, _ => Underflow
              end
  | None => NotPure
  end
  end
  end.

Section Machine.
  (** The rest of the machine: memory, storage, context, prover inputs. *)
  Variable world : Type.
  (** What an unlisted instruction or prover input does: continue, jump to an
      address, halt, or fail. *)
  Inductive action : Type := Continue (w : world) (s : stack) | JumpTo (v : Z) (w : world) (s : stack) | Halt (w : world) (s : stack) | Fail.
  Variable other : item -> world -> stack -> action.
  (** The address of every label. *)
  Variable address : string -> Z.

  Definition declares (i : item) : option string :=
    match i with GlobalLabelDeclaration l | LocalLabelDeclaration l => Some l | _ => None end.
  Definition labels (code : list item) : list string :=
    flat_map (fun i => match declares i with Some l => [l] | None => [] end) code.

  (** The position of the label with a given address. *)
  Fixpoint find_label (v : Z) (code : list item) : option nat :=
    match code with
    | [] => None
    | i :: r =>
        match declares i with
        | Some l => if Z.eqb (address l) v then Some O else option_map S (find_label v r)
        | None => option_map S (find_label v r)
        end
    end.

  Inductive result : Type := Next (pc : nat) (w : world) (s : stack) | Stop (w : world) (s : stack) | Stuck.

  Definition jump (code : list item) (v : Z) (w : world) (s : stack) : result :=
    match find_label v code with Some q => Next q w s | None => Stuck end.

  (** One instruction.  Running off the end stops. *)
  Definition step (code : list item) (pc : nat) (w : world) (s : stack) : result :=
    match nth_error code pc with
    | None => Stop w s
    | Some (Push (Literal x)) => Next (S pc) w (x :: s)
    | Some (Push (Label l)) => Next (S pc) w (address l :: s)
    | Some (Push _) => Stuck
    | Some (GlobalLabelDeclaration _) | Some (LocalLabelDeclaration _) => Next (S pc) w s
    | Some (StandardOp op) =>
        if op =? "JUMP" then match s with v :: r => jump code v w r | _ => Stuck end
        else if op =? "JUMPI" then
          match s with v :: c :: r => if Z.eqb c 0 then Next (S pc) w r else jump code v w r | _ => Stuck end
        else match pure_op op s with
        | Result s' => Next (S pc) w s'
        | Underflow => Stuck
        | NotPure =>
            match other (StandardOp op) w s with
            | Continue w' s' => Next (S pc) w' s'
            | JumpTo v w' s' => jump code v w' s'
            | Halt w' s' => Stop w' s'
            | Fail => Stuck
            end
        end
    | Some (ProverInput f) =>
        match other (ProverInput f) w s with
        | Continue w' s' => Next (S pc) w' s'
        | JumpTo v w' s' => jump code v w' s'
        | Halt w' s' => Stop w' s'
        | Fail => Stuck
        end
    | Some (Other _) => Stuck
    end.

  (** The final state reached within n instructions: [Some (Some _)] stopped,
      [Some None] failed, [None] still running. *)
  Fixpoint run (n : nat) (code : list item) (pc : nat) (w : world) (s : stack) : option (option (world * stack)) :=
    match n with
    | O => None
    | S n' =>
        match step code pc w s with
        | Next pc' w' s' => run n' code pc' w' s'
        | Stop w' s' => Some (Some (w', s'))
        | Stuck => Some None
        end
    end.

  (** Where execution may enter the code: at a position of the unchanged part
      before the optimized file (or at its start), or at a label. *)
  Inductive entry : Type := AtPosition (pc : nat) | AtAddress (v : Z).
  Definition entry_pos (e : entry) (code : list item) : option nat :=
    match e with AtPosition pc => Some pc | AtAddress v => find_label v code end.

  (** Running [code'] has the same effect as running [code], unless [code]
      fails: if [code] stops, [code'] stops in the same state, and if [code']
      comes to an end, so does [code], by failing or in the same way. *)
  Definition refines (code code' : list item) (e : entry) (w : world) (s : stack) : Prop :=
    match entry_pos e code, entry_pos e code' with
    | Some pc, Some pc' =>
        (forall n r, run n code pc w s = Some (Some r) -> exists n', run n' code' pc' w s = Some (Some r)) /\
        (forall n' x, run n' code' pc' w s = Some x -> exists n y, run n code pc w s = Some y /\ (y = x \/ y = None))
    | None, None => True
    | _, _ => False
    end.

  Definition well_behaved : Prop := forall i w s w' s', Forall word s ->
    (other i w s = Continue w' s' \/ (exists v, other i w s = JumpTo v w' s') \/ other i w s = Halt w' s') -> Forall word s'.
  Definition literals_ok (code : list item) : Prop := Forall (fun i => match i with Push (Literal x) => word x | _ => True end) code.
  Definition addresses_ok (code : list item) : Prop :=
    (forall l, word (address l)) /\ NoDup (labels code) /\
    forall l l', In l (labels code) -> In l' (labels code) -> address l = address l' -> l = l'.
End Machine.
