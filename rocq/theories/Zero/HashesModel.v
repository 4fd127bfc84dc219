(** The hashes of the previous 256 blocks: zero/src/rpc/mod.rs:62-199.

    A hash is an abstract value; the node is a function from a block number to
    the hash and the parent hash of the block, if there is one. Requests are
    made concurrently but [buffered] keeps their order, so they are answered
    here one after the other. Retries are part of the node (C39). *)
From Coq Require Import ZArith List Bool.
From Verif Require Import Zero.IntervalModel.
Import ListNotations.
Local Open Scope Z_scope.

Definition PREVIOUS_HASHES_COUNT : nat := 256.

Section Hashes.
  Variable Hash : Type.
  Variable zero : Hash.
  Variable hash_eqb : Hash -> Hash -> bool.
  (** [get_block] of the provider: the hash and the parent hash *)
  Variable get_block : Z -> option (Hash * Hash).

  (** itertools' [chunks(2)], each chunk as (first, second) *)
  Fixpoint chunks2 (l : list Z) : list (Z * option Z) :=
    match l with [] => [] | [a] => [(a, None)] | a :: b :: l => (a, Some b) :: chunks2 l end.
  (** mod.rs:71-91 *)
  Definition odd_offset (target : Z) : Z := target mod 2.
  Definition previous_block_numbers (target : Z) : list (Z * option Z) :=
    chunks2 (filter (fun i => 0 <=? i) (map (fun k => target - 1 + odd_offset target - Z.of_nat k) (seq 0 (PREVIOUS_HASHES_COUNT + 1)))).
  (** mod.rs:93-118 *)
  Fixpoint collect (l : list (Z * option Z)) : res (list (list (Hash * option Z))) :=
    match l with
    | [] => Fine []
    | (n, p) :: l => match get_block n with None => Fails | Some (h, ph) => bind (collect l) (fun r => Fine ([(h, Some n); (ph, p)] :: r)) end
    end.
  (** [prev_hashes[i] = hash]; panics out of bounds *)
  Fixpoint store (i : nat) (h : Hash) (l : list Hash) : res (list Hash) :=
    match l, i with [], _ => Panics | _ :: l, 0%nat => Fine (h :: l) | x :: l, S i => bind (store i h l) (fun l => Fine (x :: l)) end.
  (** mod.rs:120-133 *)
  Definition fill (target : Z) (acc : res (list Hash)) (p : Hash * option Z) : res (list Hash) :=
    match snd p with
    | None => acc
    | Some n => bind acc (fun a => if (target - n <? 0) || (Z.of_nat PREVIOUS_HASHES_COUNT <? target - n) then Panics
                                   else store (PREVIOUS_HASHES_COUNT - Z.to_nat (target - n)) (fst p) a)
    end.
  Definition from_block (target : Z) : res (list Hash) :=
    bind (collect (previous_block_numbers target)) (fun collected =>
      fold_left (fill target) (firstn PREVIOUS_HASHES_COUNT (skipn (Z.to_nat (odd_offset target)) (concat collected))) (Fine (repeat zero PREVIOUS_HASHES_COUNT))).

  (** mod.rs:138-171. The answer of [eth_call] is the list of its 32-byte
      chunks, newest first, [None] if the last one is shorter. *)
  Definition from_call (answer : option (list (option Hash))) : res (list Hash) :=
    match answer with
    | None => Fails
    | Some chunks => let l := rev (skipn 1 chunks) in
        if forallb (fun c => match c with Some _ => true | None => false end) l && (List.length l =? PREVIOUS_HASHES_COUNT)%nat
        then Fine (map (fun c => match c with Some h => h | None => zero end) l) else Fails
    end.
  (** mod.rs:173-199 *)
  Definition fetch_previous_block_hashes (answer : option (list (option Hash))) (target : Z) : res (list Hash) :=
    match from_call answer with
    | Fine l => if negb (forallb (fun h => hash_eqb h zero) l) then Fine l else from_block target
    | _ => from_block target
    end.
End Hashes.
