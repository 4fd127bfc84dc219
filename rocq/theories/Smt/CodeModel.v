(** Model of the Poseidon bytecode hash and of the SMT key derivation.

    Sources: /repo/smt_trie/src/code.rs, /repo/smt_trie/src/keys.rs.

    Simplifications: bytes and field elements are natural numbers; the
    permutation is the parameter [pos] of SmtModel.v (12 inputs as three groups
    of four, first four outputs). *)

From Coq Require Import List Arith NArith Bool.
From Verif.Smt Require Import SmtModel.
Import ListNotations.
Local Open Scope N_scope.

(** code.rs:38-44 [poseidon_pad_byte_vec]: the [while] loop, then the last byte. *)
Fixpoint pad_zeros (fuel : nat) (bytes : list N) : list N :=
  match fuel with
  | O => bytes
  | S f => if (length bytes mod 56 =? 0)%nat then bytes else pad_zeros f (bytes ++ [0x00])
  end.
Definition or_last (bytes : list N) (x : N) : list N :=
  match rev bytes with
  | [] => []
  | l :: r => rev (N.lor l x :: r)
  end.
Definition poseidon_pad_byte_vec (bytes : list N) : list N :=
  or_last (pad_zeros 56 (bytes ++ [0x01])) 0x80.

(** [u64::from_le_bytes] of seven bytes and a zero byte. *)
Fixpoint from_le_bytes (bytes : list N) : N :=
  match bytes with
  | [] => 0
  | b :: r => b + 256 * from_le_bytes r
  end.

(** [chunks_exact(n)]. *)
Fixpoint chunks_exact {A} (fuel n : nat) (l : list A) : list (list A) :=
  match fuel with
  | O => []
  | S f => if (length l <? n)%nat then [] else firstn n l :: chunks_exact f n (skipn n l)
  end.

(** code.rs:20-28: the eight elements of a 56-byte block. *)
Definition block_elt (block : list N) (i : nat) : N := from_le_bytes (firstn 7 (skipn (7 * i) block)).
Definition block_lo (block : list N) : quad := Q (block_elt block 0) (block_elt block 1) (block_elt block 2) (block_elt block 3).
Definition block_hi (block : list N) : quad := Q (block_elt block 4) (block_elt block 5) (block_elt block 6) (block_elt block 7).

(** The sponge state a block is absorbed in (code.rs:19-30). *)
Definition absorb (capacity : quad) (block : list N) : node := Nd (block_lo block) (block_hi block) capacity.

(** Byte [i] of an address. *)
Definition byte_at (l : list N) (i : nat) : N := nth i l 0.
(** keys.rs:25-29: [u32::from_be_bytes(addr.0\[16 - 4 * i .. 16 - 4 * i + 4\])]. *)
Definition addr_elt (addr : list N) (i : nat) : N :=
  let o := (16 - 4 * i)%nat in
  ((byte_at addr o * 256 + byte_at addr (o + 1)) * 256 + byte_at addr (o + 2)) * 256 + byte_at addr (o + 3).

(** keys.rs:10-21. *)
Definition HASH_ZEROS : quad := Q 4330397376401421145 14124799381142128323 8742572140681234676 14345658006221440202.
Definition SMT_KEY_BALANCE : N := 0.
Definition SMT_KEY_NONCE : N := 1.
Definition SMT_KEY_CODE : N := 2.
Definition SMT_KEY_STORAGE : N := 3.
Definition SMT_KEY_LENGTH : N := 4.

(** The array hashed (keys.rs:23-32 and the four similar functions). *)
Definition key_input (addr : list N) (kind : N) (capacity : quad) : node :=
  Nd (Q (addr_elt addr 0) (addr_elt addr 1) (addr_elt addr 2) (addr_elt addr 3))
     (Q (addr_elt addr 4) 0 kind 0) capacity.

(** keys.rs:74-82: the slot as eight 32-bit limbs, least significant first. *)
Definition slot_elt (slot : N) (i : nat) : N := slot / 2 ^ (32 * N.of_nat i) mod 2 ^ 32.
Definition slot_input (slot : N) : node :=
  Nd (Q (slot_elt slot 0) (slot_elt slot 1) (slot_elt slot 2) (slot_elt slot 3))
     (Q (slot_elt slot 4) (slot_elt slot 5) (slot_elt slot 6) (slot_elt slot 7)) zero.

Section Poseidon.
Variable pos : node -> quad.

(** code.rs:16-36 [poseidon_hash_padded_byte_vec]. *)
Definition poseidon_hash_padded_byte_vec (bytes : list N) : quad :=
  fold_left (fun capacity block => pos (absorb capacity block)) (chunks_exact (length bytes) 56 bytes) zero.

(** code.rs:10-14 [hash_contract_bytecode]. *)
Definition hash_contract_bytecode (code : list N) : quad :=
  poseidon_hash_padded_byte_vec (poseidon_pad_byte_vec code).

(** keys.rs:23-35, 37-49, 51-63, 65-86, 88-100. *)
Definition key_balance (addr : list N) : quad := pos (key_input addr SMT_KEY_BALANCE HASH_ZEROS).
Definition key_nonce (addr : list N) : quad := pos (key_input addr SMT_KEY_NONCE HASH_ZEROS).
Definition key_code (addr : list N) : quad := pos (key_input addr SMT_KEY_CODE HASH_ZEROS).
Definition key_storage (addr : list N) (slot : N) : quad := pos (key_input addr SMT_KEY_STORAGE (pos (slot_input slot))).
Definition key_code_length (addr : list N) : quad := pos (key_input addr SMT_KEY_LENGTH HASH_ZEROS).

End Poseidon.
