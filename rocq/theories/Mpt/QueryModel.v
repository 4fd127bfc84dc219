(** Model of trie path queries and of the branch-collapse report.

    Sources: /repo/mpt_trie/src/special_query.rs, /repo/mpt_trie/src/utils.rs,
    /repo/evm_arithmetization/src/tries.rs.

    Simplifications: the lazy iterator [TriePathIter] is modelled by the list of
    the segments it yields when drained; [MptKey] (a bounded sequence of at most
    64 nibbles) is the list of its nibbles. *)

From Coq Require Import List Arith NArith Bool.
From Verif.Mpt Require Import TrieModel.
Import ListNotations.

(** utils.rs:79-101 [TrieSegment]. *)
Inductive segment : Type :=
| SEmpty
| SHash
| SBranch (nib : nibble)
| SExt (ns : nibbles)
| SLeaf (ns : nibbles).

(** special_query.rs:28-91 [TriePathIter::next] iterated, and 94-119
    [path_for_query].  [incl] is [always_include_final_node_if_possible].
    [pop_nibbles_clamped] is [skipn]; a nibble outside the child array panics. *)
Fixpoint path_for_query (n : node) (key : nibbles) (incl : bool) {struct n} : res (list segment) :=
  match n with
  | Empty => Ok [SEmpty]
  | Hash _ => Ok [SHash]
  | Branch children _ =>
      match key with
      | [] => Ok []
      | nib :: key' =>
          bind ((fix at_child (ch : list node) (i : nat) : res (list segment) :=
                   match ch, i with
                   | [], _ => Panic
                   | c :: _, 0 => path_for_query c key' incl
                   | _ :: t, S i' => at_child t i'
                   end) children nib)
            (fun l => Ok (SBranch nib :: l))
      end
  | Ext ns child =>
      if identical_up_to_smallest key ns then
        bind (path_for_query child (skipn (length ns) key) incl) (fun l => Ok (SExt ns :: l))
      else Ok (if incl then [SExt ns] else [])
  | Leaf ns _ =>
      Ok (if nibbles_eqb key ns || incl then [SLeaf ns] else [])
  end.

(** utils.rs:110-126 [IntoTrieKey::into_key]; pushing beyond 64 nibbles panics. *)
Fixpoint into_key_acc (key : nibbles) (l : list segment) : res nibbles :=
  match l with
  | [] => Ok key
  | SEmpty :: r | SHash :: r => into_key_acc key r
  | SBranch nib :: r => bind (merge_nibble key nib) (fun k => into_key_acc k r)
  | SExt ns :: r | SLeaf ns :: r => bind (merge_nibbles key ns) (fun k => into_key_acc k r)
  end.
Definition into_key (l : list segment) : res nibbles := into_key_acc [] l.

(** tries.rs:434-453 [node_deletion_resulted_in_a_branch_collapse]. *)
Definition node_deletion_resulted_in_a_branch_collapse (old_path new_path : list segment)
  : res (option nibbles) :=
  if length old_path <? 2 then Ok None
  else if length new_path <? length old_path
       then bind (into_key new_path) (fun k => Ok (Some k))
       else Ok None.

(** tries.rs:410-428 [delete_node_and_report_remaining_key_if_branch_collapsed],
    [get_trie_trace]: the trie afterwards and the reported key. *)
Definition reporting_remove (t : node) (key : nibbles) (s : strategy) : res (node * option nibbles) :=
  bind (path_for_query t key true) (fun old_trace =>
  bind (trie_delete t key s) (fun r =>
  bind (path_for_query (fst r) key true) (fun new_trace =>
  bind (node_deletion_resulted_in_a_branch_collapse old_trace new_trace) (fun k =>
  Ok (fst r, k))))).
