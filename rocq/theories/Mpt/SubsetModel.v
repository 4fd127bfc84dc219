(** Model of /repo/mpt_trie/src/trie_subsets.rs.

    The error value (a debug query of the offending key) is not modelled: an
    error is [SErr].  [hash_intern] is the uncached [encode] (see CacheModel.v). *)

From Coq Require Import List Arith NArith Bool.
From Verif.Mpt Require Import TrieModel HashModel.
Import ListNotations.
Local Open Scope nat_scope.

(** trie_subsets.rs:31-44, 155-160 [TrackedNodeIntern], [TrackedNode] and
    [TrackedNodeInfo] in one type: the kind with its children, the underlying
    node and the [touched] flag. *)
Inductive tracked : Type :=
| TEmpty (under : node) (touched : bool)
| THash (under : node) (touched : bool)
| TBranch (children : list tracked) (under : node) (touched : bool)
| TExt (child : tracked) (under : node) (touched : bool)
| TLeaf (under : node) (touched : bool).

Inductive sub_res (A : Type) : Type :=
| SOk (a : A)
| SErr
| SPanic.
Arguments SOk {A} a.
Arguments SErr {A}.
Arguments SPanic {A}.

Definition sbind {A B} (r : sub_res A) (f : A -> sub_res B) : sub_res B :=
  match r with SOk a => f a | SErr => SErr | SPanic => SPanic end.

(** trie_subsets.rs:46-85 [TrackedNode::new], [tracked_branch]. *)
Fixpoint track (n : node) : tracked :=
  match n with
  | Empty => TEmpty n false
  | Hash _ => THash n false
  | Branch children _ => TBranch (map track children) n false
  | Ext _ child => TExt (track child) n false
  | Leaf _ _ => TLeaf n false
  end.

(** trie_subsets.rs:162-176 [get_nibbles_expected]; [None] is [unreachable!]. *)
Definition nibbles_expected (u : node) : option nibbles :=
  match u with
  | Ext ns _ => Some ns
  | Leaf ns _ => Some ns
  | _ => None
  end.

(** trie_subsets.rs:277-340 [mark_nodes_that_are_needed]: the trie after marking. *)
Fixpoint mark (t : tracked) (key : nibbles) {struct t} : sub_res tracked :=
  match t with
  | TEmpty u _ => SOk (TEmpty u true)
  | THash u _ => match key with [] => SOk (THash u true) | _ => SErr end
  | TBranch children u _ =>
      match key with
      | [] => SOk (TBranch children u true)
      | nib :: key' =>
          sbind ((fix at_child (ch : list tracked) (i : nat) : sub_res (list tracked) :=
                    match ch, i with
                    | [], _ => SPanic
                    | c :: r, 0 => sbind (mark c key') (fun c' => SOk (c' :: r))
                    | c :: r, S i' => sbind (at_child r i') (fun r' => SOk (c :: r'))
                    end) children nib)
            (fun ch' => SOk (TBranch ch' u true))
      end
  | TExt child u touched =>
      match key with
      | [] => SOk (TExt child u touched)
      | _ =>
          match nibbles_expected u with
          | None => SPanic
          | Some ns =>
              if identical_up_to_smallest key ns then
                (* [pop_nibbles_front(nibbles.count)] on a shorter key panics *)
                if length key <? length ns then SPanic
                else sbind (mark child (skipn (length ns) key)) (fun c' => SOk (TExt c' u true))
              else SOk (TExt child u true)
          end
      end
  | TLeaf u _ => SOk (TLeaf u true)
  end.

(** trie_subsets.rs:374-389 [reset_tracked_trie_state] together with the
    [info.reset()] the caller performs on each child before recursing.
    [reset_info] is [TrackedNodeInfo::reset] (169-171). *)
Definition reset_info (t : tracked) : tracked :=
  match t with
  | TEmpty u _ => TEmpty u false
  | THash u _ => THash u false
  | TBranch ch u _ => TBranch ch u false
  | TExt c u _ => TExt c u false
  | TLeaf u _ => TLeaf u false
  end.

Fixpoint reset_state (t : tracked) : tracked :=
  match t with
  | TBranch children u b => TBranch (map (fun c => reset_info (reset_state c)) children) u b
  | TExt child u b => TExt (reset_info (reset_state child)) u b
  | TEmpty u _ => TEmpty u false
  | THash u _ => THash u false
  | TLeaf u _ => TLeaf u false
  end.

Section Keccak.
Variable keccak : list N -> list N.

(** trie_subsets.rs:342-372 [create_partial_trie_subset_from_tracked_trie] with
    [partial_trie_extension] and [partial_trie_branch] (87-153).  The
    [unreachable!] accessors are replaced by the fields of [under]; [track]
    builds kinds that agree with them. *)
Definition hashed_away (u : node) (touched : bool) : option node :=
  if touched then None
  else match encode keccak u with Hashed h => Some (Hash h) | Raw _ => None end.

Definition branch_value (u : node) : bytes := match u with Branch _ v => v | _ => [] end.
Definition ext_nibbles (u : node) : nibbles := match u with Ext ns _ => ns | _ => [] end.

Fixpoint extract (t : tracked) : node :=
  match t with
  | TEmpty u b => match hashed_away u b with Some h => h | None => Empty end
  | THash u b => match hashed_away u b with Some h => h | None => u end
  | TBranch children u b =>
      match hashed_away u b with
      | Some h => h
      | None => Branch (map extract children) (branch_value u)
      end
  | TExt child u b =>
      match hashed_away u b with
      | Some h => h
      | None => Ext (ext_nibbles u) (extract child)
      end
  | TLeaf u b => match hashed_away u b with Some h => h | None => u end
  end.

(** trie_subsets.rs:243-256: the marking loop. *)
Fixpoint mark_all (t : tracked) (keys : list nibbles) : sub_res tracked :=
  match keys with
  | [] => SOk t
  | k :: r => sbind (mark t k) (fun t' => mark_all t' r)
  end.

(** trie_subsets.rs:213-222, 243-262 [create_trie_subset(_intern)]. *)
Definition create_trie_subset (trie : node) (keys : list nibbles) : sub_res node :=
  sbind (mark_all (track trie) keys) (fun t => SOk (extract t)).

(** trie_subsets.rs:227-241 [create_trie_subsets]. *)
Fixpoint subsets_loop (t : tracked) (kss : list (list nibbles)) : sub_res (list node) :=
  match kss with
  | [] => SOk []
  | ks :: r =>
      sbind (mark_all t ks)
        (fun t' => sbind (subsets_loop (reset_state t') r)
                     (fun l => SOk (extract t' :: l)))
  end.
Definition create_trie_subsets (trie : node) (kss : list (list nibbles)) : sub_res (list node) :=
  subsets_loop (track trie) kss.

End Keccak.
