(** What it means for a trie to be another trie with some subtrees replaced by
    their hashes. *)

From Coq Require Import List Arith NArith Bool.
From Verif.Mpt Require Import TrieModel TrieSpec HashModel.
Import ListNotations.

Section Prune.
Variable keccak : list N -> list N.

(** [prunes P T]: [P] is [T] with some subtrees replaced by hash nodes holding
    their hash.  Only a subtree whose RLP is at least 32 bytes long is referred
    to by hash in its parent, so only those may be replaced. *)
Inductive prunes : node -> node -> Prop :=
| pr_hash h T : encode keccak T = Hashed h -> prunes (Hash h) T
| pr_empty : prunes Empty Empty
| pr_leaf ns v : prunes (Leaf ns v) (Leaf ns v)
| pr_ext ns p t : prunes p t -> prunes (Ext ns p) (Ext ns t)
| pr_branch ps ts v : Forall2 prunes ps ts -> prunes (Branch ps v) (Branch ts v).

(** Following [k] from the root of [t], a hash node is reached. *)
Definition meets_hash (t : node) (k : nibbles) : Prop :=
  exists p h, is_prefix p k /\ sub_at t p (Hash h).

(** The same, or [k] ends inside an extension below which there is a hash node. *)
Definition near_hash (t : node) (k : nibbles) : Prop :=
  exists p h, (is_prefix p k \/ is_prefix k p) /\ sub_at t p (Hash h).

(** All RLP strings hashed while computing the hash of [t] (one per node). *)
Definition node_rlp (n : node) : list N :=
  match n with
  | Empty => [128%N]
  | Hash _ => []
  | Branch ch v => rlp_list (flat_map (fun c => append_to_stream (encode keccak c)) ch ++ rlp_bytes v)
  | Ext ns c => rlp_list (rlp_bytes (HexPrefixProofs.hp_spec false ns) ++ append_to_stream (encode keccak c))
  | Leaf ns v => rlp_list (rlp_bytes (HexPrefixProofs.hp_spec true ns) ++ rlp_bytes v)
  end.

Fixpoint rlp_strings (n : node) : list (list N) :=
  match n with
  | Hash _ => []
  | Branch ch _ => node_rlp n :: flat_map rlp_strings ch
  | Ext _ c => node_rlp n :: rlp_strings c
  | _ => [node_rlp n]
  end.

(** [keccak] has no collision between the strings hashed for [a] and for [b]. *)
Definition no_collision (a b : node) : Prop :=
  forall x y, In x (rlp_strings a) -> In y (rlp_strings b) -> keccak x = keccak y -> x = y.

(** A well-formed node value: branches have 16 children, nibbles are below 16
    and at most 64, hashes have 32 bytes, values are shorter than 2^60 bytes
    (any vector in a 64-bit address space). *)
Inductive wf_node : node -> Prop :=
| wf_empty : wf_node Empty
| wf_hash h : length h = 32 -> wf_node (Hash h)
| wf_leaf ns v : valid_key ns -> (N.of_nat (length v) < 2 ^ 60)%N -> wf_node (Leaf ns v)
| wf_ext ns c : valid_key ns -> wf_node c -> wf_node (Ext ns c)
| wf_branch ch v : length ch = 16 -> Forall wf_node ch -> (N.of_nat (length v) < 2 ^ 60)%N -> wf_node (Branch ch v).

(** No hash nodes. *)
Inductive no_hash : node -> Prop :=
| nh_empty : no_hash Empty
| nh_leaf ns v : no_hash (Leaf ns v)
| nh_ext ns c : no_hash c -> no_hash (Ext ns c)
| nh_branch ch v : Forall no_hash ch -> no_hash (Branch ch v).

End Prune.
