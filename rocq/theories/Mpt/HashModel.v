(** Model of trie hashing: RLP output of the [rlp] crate as used by
    /repo/mpt_trie/src/trie_hashing.rs, and the node encoding itself.

    [keccak] is a parameter.  Hash caching (partial_trie.rs [hash_intern]) is not
    modelled here but in CacheModel.v. *)

From Coq Require Import List Arith NArith Bool.
From Verif.Mpt Require Import TrieModel NibblesModel HexPrefixProofs.
Import ListNotations.
Local Open Scope nat_scope.

Fixpoint drop_zeros (l : list N) : list N :=
  match l with
  | 0%N :: t => drop_zeros t
  | _ => l
  end.

(** [rlp] crate [insert_size]: big-endian bytes of a [usize] (64 bits) length
    without leading zero bytes. *)
Definition len_bytes (n : nat) : list N := drop_zeros (be_bytes 8 (N.of_nat n)).

(** [rlp] crate [BasicEncoder::encode_value] as used by [RlpStream::append] on
    [Vec<u8>], [&\[u8\]] (and by [append_empty_data] on no bytes). *)
Definition rlp_bytes (b : list N) : list N :=
  match b with
  | [] => [128%N]
  | [x] => if (x <? 128)%N then [x] else [129%N; x]
  | _ => if length b <=? 55 then (128 + N.of_nat (length b))%N :: b
         else (183 + N.of_nat (length (len_bytes (length b))))%N :: len_bytes (length b) ++ b
  end.

(** [rlp] crate [RlpStream::new_list(n)] after [n] items: header and payload. *)
Definition rlp_list (payload : list N) : list N :=
  if length payload <=? 55 then (192 + N.of_nat (length payload))%N :: payload
  else (247 + N.of_nat (length (len_bytes (length payload))))%N :: len_bytes (length payload) ++ payload.

(** trie_hashing.rs:11-18 [EncodedNode]. *)
Inductive encoded : Type :=
| Raw (b : list N)
| Hashed (h : list N).

(** trie_hashing.rs:82-87 [append_to_stream]: the bytes appended. *)
Definition append_to_stream (e : encoded) : list N :=
  match e with
  | Raw b => b
  | Hashed h => rlp_bytes h
  end.

Section Keccak.
Variable keccak : list N -> list N.

(** trie_hashing.rs:75-80 [hash_bytes_if_large_enough]. *)
Definition hash_bytes_if_large_enough (b : list N) : encoded :=
  if 32 <=? length b then Hashed (keccak b) else Raw b.

(** trie_hashing.rs:36-73 [rlp_encode_and_hash_node].  [hp_spec leaf l] is what
    [to_hex_prefix_encoding] returns (theorem C10_encode_spec). *)
Fixpoint encode (n : node) : encoded :=
  match n with
  | Empty => Raw [128%N]
  | Hash h => Hashed h
  | Branch children value =>
      hash_bytes_if_large_enough
        (rlp_list (flat_map (fun c => append_to_stream (encode c)) children ++ rlp_bytes value))
  | Ext ns child =>
      hash_bytes_if_large_enough
        (rlp_list (rlp_bytes (hp_spec false ns) ++ append_to_stream (encode child)))
  | Leaf ns value =>
      hash_bytes_if_large_enough
        (rlp_list (rlp_bytes (hp_spec true ns) ++ rlp_bytes value))
  end.

(** trie_hashing.rs:20-34 [hash_trie] and [From<&EncodedNode> for H256]. *)
Definition hash_trie (n : node) : list N :=
  match encode n with
  | Raw b => keccak b
  | Hashed h => h
  end.

End Keccak.
