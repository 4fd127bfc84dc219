(** Specification side of bits.rs, code.rs and keys.rs. *)

From Coq Require Import List Arith NArith Bool.
From Verif.Smt Require Import SmtModel SmtSpec BitsModel CodeModel.
Import ListNotations.
Local Open Scope N_scope.

(** The bit sequence a [Bits] stands for: the lowest [count] bits, highest first. *)
Definition bits_list (b : bits) : list bool :=
  map (fun i => N.testbit (packed b) (N.of_nat (count b - 1 - i))) (seq 0 (count b)).
(** The unused bits are zero. *)
Definition bits_wf (b : bits) : Prop := packed b < 2 ^ N.of_nat (count b) /\ (count b <= 256)%nat.

(** A byte string. *)
Definition is_bytes (l : list N) : Prop := Forall (fun b => b < 256) l.

(** The sponge states visited while absorbing [blocks]. *)
Section Poseidon.
Variable pos : node -> quad.
Fixpoint absorbed (capacity : quad) (blocks : list (list N)) : list node :=
  match blocks with
  | [] => []
  | b :: r => absorb capacity b :: absorbed (pos (absorb capacity b)) r
  end.
Definition code_states (code : list N) : list node :=
  absorbed zero (chunks_exact (length (poseidon_pad_byte_vec code)) 56 (poseidon_pad_byte_vec code)).

(** The state entries of an account. *)
Inductive entry :=
  | Balance (a : list N)
  | Nonce (a : list N)
  | Code (a : list N)
  | Storage (a : list N) (slot : N)
  | CodeLength (a : list N).

Definition entry_key (e : entry) : quad :=
  match e with
  | Balance a => key_balance pos a
  | Nonce a => key_nonce pos a
  | Code a => key_code pos a
  | Storage a s => key_storage pos a s
  | CodeLength a => key_code_length pos a
  end.
Definition entry_valid (e : entry) : Prop :=
  match e with
  | Balance a | Nonce a | Code a | CodeLength a => length a = 20%nat /\ is_bytes a
  | Storage a s => length a = 20%nat /\ is_bytes a /\ s < 2 ^ 256
  end.
(** What is hashed to derive the key. *)
Definition entry_states (e : entry) : list node :=
  match e with
  | Balance a => [key_input a SMT_KEY_BALANCE HASH_ZEROS]
  | Nonce a => [key_input a SMT_KEY_NONCE HASH_ZEROS]
  | Code a => [key_input a SMT_KEY_CODE HASH_ZEROS]
  | Storage a s => [slot_input s; key_input a SMT_KEY_STORAGE (pos (slot_input s))]
  | CodeLength a => [key_input a SMT_KEY_LENGTH HASH_ZEROS]
  end.
End Poseidon.
