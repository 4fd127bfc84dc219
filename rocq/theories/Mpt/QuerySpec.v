(** Independent description of paths and of branch collapse. *)

From Coq Require Import List Arith NArith Bool.
From Verif.Mpt Require Import TrieModel TrieSpec QueryModel.
Import ListNotations.

(** The piece of the key a segment stands for. *)
Definition piece (s : segment) : nibbles :=
  match s with
  | SEmpty | SHash => []
  | SBranch i => [i]
  | SExt ns | SLeaf ns => ns
  end.
Definition pieces (l : list segment) : nibbles := flat_map piece l.

(** The segment describes the node. *)
Definition describes (s : segment) (n : node) : Prop :=
  match s, n with
  | SEmpty, Empty | SHash, Hash _ | SBranch _, Branch _ _ => True
  | SExt ns, Ext ns' _ | SLeaf ns, Leaf ns' _ => ns = ns'
  | _, _ => False
  end.

(** The trie has a branch node at path [p]. *)
Definition branch_at (t : node) (p : nibbles) : Prop := exists ch v, sub_at t p (Branch ch v).

(** All branch nodes of [t] are still there in [t']. *)
Definition no_branch_lost (t t' : node) : Prop := forall p, branch_at t p -> branch_at t' p.

(** In [t'], the node [c] that used to sit at [p] can be found at [q]: a leaf is
    found by its whole key, an extension by what it leads to. *)
Definition found_at (t' : node) (p q : nibbles) (c : node) : Prop :=
  match c with
  | Empty => False
  | Leaf ns v => q = p ++ ns /\ stored t' q (Val v)
  | Ext ns d => q = p ++ ns /\ sub_at t' q d
  | Branch _ _ | Hash _ => q = p /\ sub_at t' q c
  end.
