(** Specification side of the sparse Merkle tree: the contents after a history of
    calls, and what it means for the hash not to collide on the nodes of a log. *)

From Coq Require Import List Arith NArith Bool.
From Verif.Smt Require Import SmtModel.
Import ListNotations.
Local Open Scope N_scope.

(** A call of [set] ([delete k] is [set k 0]). *)
Definition call := (quad * N)%type.

(** The contents: a total function, zero meaning absent. *)
Definition upd (m : quad -> N) (k : quad) (v : N) : quad -> N := fun x => if quad_eqb x k then v else m x.
Definition contents (calls : list call) : quad -> N :=
  fold_left (fun m c => upd m (fst c) (snd c)) calls (fun _ => 0).

(** The values are [U256]s and the key elements are below 2^64. *)
Definition valid_call (c : call) : Prop :=
  e0 (fst c) < 2 ^ 64 /\ e1 (fst c) < 2 ^ 64 /\ e2 (fst c) < 2 ^ 64 /\ e3 (fst c) < 2 ^ 64 /\ snd c < 2 ^ 256.

Section Poseidon.
Variable pos : node -> quad.

Definition smt_run (s : smt) (calls : list call) : option smt :=
  fold_left (fun s c => match s with Some s' => set pos s' (fst c) (snd c) | None => None end) calls (Some s).

(** The hash separates the nodes of [ns] and maps none of them to zero. *)
Definition separates (ns : list node) : Prop :=
  (forall n m, In n ns -> In m ns -> pos n = pos m -> n = m) /\ (forall n, In n ns -> pos n <> zero).

(** The nodes hashed so far. *)
Definition hashed (s : smt) : list node := map snd (db s).

End Poseidon.

(** Two different keys leave each other within the first 252 bits of their paths. *)
Definition spread (ks : list quad) : Prop :=
  forall k k', In k ks -> In k' ks -> firstn 252 (split k) = firstn 252 (split k') -> k = k'.

(** Independent reader of a serialized tree: follow the path [bits] of [k] from [ptr],
    [depth] bits having been consumed.  [None]: malformed, or a non-empty hash node hides
    the answer. *)
Fixpoint ser_lookup (v : list N) (ptr : nat) (bits : list bool) (depth : nat) (k : quad) : option N :=
  match nth_error v ptr, nth_error v (ptr + 1), nth_error v (ptr + 2) with
  | Some 0, Some 0, _ => Some 0
  | Some 2, Some rk, Some x =>
      if match remove_key_bits k depth with Some r => key2u r =? rk | None => false end then Some x else Some 0
  | Some 1, Some l, Some r =>
      match bits with
      | [] => None
      | b :: bits' => ser_lookup v (N.to_nat (if b then r else l)) bits' (S depth) k
      end
  | _, _, _ => None
  end.

(** Building a partial tree: hash nodes first, then [set] calls (the order the
    documentation of [set_hash] asks for). *)
Section PoseidonPartial.
Variable pos : node -> quad.
Definition hash_run (s : smt) (hs : list (list bool * quad)) : option smt :=
  fold_left (fun s c => match s with Some s' => set_hash pos s' (fst c) (snd c) | None => None end) hs (Some s).
End PoseidonPartial.

(** No position is a prefix of a later one. *)
Fixpoint hash_positions_ok (hs : list (list bool * quad)) : Prop :=
  match hs with
  | [] => True
  | (p, h) :: r => (forall p' h', In (p', h') r -> is_prefix_of p p' = false) /\ hash_positions_ok r
  end.
