(** Model of the Merkle-Patricia trie operations of [mpt_trie].

    Sources: /repo/mpt_trie/src/trie_ops.rs, /repo/mpt_trie/src/partial_trie.rs,
    /repo/mpt_trie/src/nibbles.rs.

    Simplifications used throughout this file:
    - a [Nibbles] value is the list of its nibbles, front first.  NibblesModel.v
      models the packed representation and proves that its operations
      implement the list operations used here;
    - [Arc<Box<N>>] wrappers are transparent: a child is the node itself.
      (CacheModel.v models the hash cells attached to the wrappers);
    - a panic ([expect], [assert!], [usize] underflow in a checked build,
      out-of-range index) is the explicit result [Panic];
    - [trace!] logging is dropped. *)

From Coq Require Import List Arith NArith Bool.
Import ListNotations.

(** Bytes; a [Vec<u8>], an [H256] and an RLP string are lists of bytes. *)
Notation bytes := (list N) (only parsing).

(** nibbles.rs:31 [Nibble] (a [u8] below 16). *)
Notation nibble := nat (only parsing).

(** nibbles.rs:301-307 [Nibbles], as the list of nibbles, front first. *)
Notation nibbles := (list nat) (only parsing).

(** partial_trie.rs:124-160 [Node].  [Branch] always carries 16 children in
    Rust (an array); here the length is an invariant ([shape_ok] in TrieSpec). *)
Inductive node : Type :=
| Empty
| Hash (h : bytes)
| Branch (children : list node) (value : bytes)
| Ext (ns : nibbles) (child : node)
| Leaf (ns : nibbles) (value : bytes).

(** trie_ops.rs:86-94 [ValOrHash]. *)
Inductive val_or_hash : Type :=
| Val (v : bytes)
| VHash (h : bytes).

(** trie_ops.rs:22-55 [TrieOpError].  [HashNodeExtError] carries the node type;
    it is only ever raised for an [Empty] child, see [collapse_ext]. *)
Inductive op_error : Type :=
| HashNodeInsertError (h : bytes)
| HashNodeDeleteError (h : bytes)
| HashNodeExtError
| ExtensionCollapsedIntoHashError (k : nibbles) (h : bytes)
| ExistingHashNodeError (h : bytes).

(** Result of a Rust function returning [TrieOpResult] that may also panic. *)
Inductive res (A : Type) : Type :=
| Ok (a : A)
| Err (e : op_error)
| Panic.
Arguments Ok {A} a.
Arguments Err {A} e.
Arguments Panic {A}.

Definition bind {A B} (r : res A) (f : A -> res B) : res B :=
  match r with Ok a => f a | Err e => Err e | Panic => Panic end.

(** partial_trie.rs:325-332 [OnOrphanedHashNode]. *)
Inductive strategy : Type := CollapseToExtension | Reject.

(** ** Nibble sequence operations (list level) *)

(** nibbles.rs:631-634 [nibbles_are_identical_up_to_smallest_count]. *)
Fixpoint identical_up_to_smallest (a b : nibbles) : bool :=
  match a, b with
  | x :: a', y :: b' => Nat.eqb x y && identical_up_to_smallest a' b'
  | _, _ => true
  end.

(** nibbles.rs:739-779 [find_nibble_idx_that_differs_between_nibbles_different_lengths]:
    index of the first difference, or the smaller length. *)
Fixpoint diff_idx (a b : nibbles) : nat :=
  match a, b with
  | x :: a', y :: b' => if Nat.eqb x y then S (diff_idx a' b') else 0
  | _, _ => 0
  end.

(** nibbles.rs:570-600 [truncate_n_nibbles_front(_mut)] (clamped). *)
Definition truncate_front (n : nat) (k : nibbles) : nibbles := skipn n k.

(** nibbles.rs:577-614 [truncate_n_nibbles_back(_mut)] (clamped). *)
Definition truncate_back (n : nat) (k : nibbles) : nibbles := firstn (length k - n) k.

(** nibbles.rs:705-713 [merge_nibbles]: panics above 64 nibbles. *)
Definition merge_nibbles (a b : nibbles) : res nibbles :=
  if length a + length b <=? 64 then Ok (a ++ b) else Panic.

(** nibbles.rs:692-699 [merge_nibble] / 512-517 [push_nibble_back]: panics when
    the sequence already holds 64 nibbles. *)
Definition merge_nibble (a : nibbles) (n : nibble) : res nibbles :=
  if length a <? 64 then Ok (a ++ [n]) else Panic.

(** Derived [PartialEq] of [Nibbles] (count and packed equal). *)
Fixpoint nibbles_eqb (a b : nibbles) : bool :=
  match a, b with
  | [], [] => true
  | x :: a', y :: b' => Nat.eqb x y && nibbles_eqb a' b'
  | _, _ => false
  end.

(** ** Node helpers *)

(** trie_ops.rs:824-826 [node_is_empty]. *)
Definition node_is_empty (n : node) : bool :=
  match n with Empty => true | _ => false end.

(** trie_ops.rs:785-806 [new_branch_child_arr]. *)
Definition new_branch_child_arr : list node := repeat Empty 16.

(** [children\[i\] = c] on the child array. *)
Fixpoint set_child (ch : list node) (i : nat) (c : node) : list node :=
  match ch, i with
  | [], _ => []
  | _ :: t, 0 => c :: t
  | x :: t, S i' => x :: set_child t i' c
  end.

(** trie_ops.rs:808-810 [get_num_non_empty_children]. *)
Definition get_num_non_empty_children (ch : list node) : nat :=
  length (filter (fun c => negb (node_is_empty c)) ch).

(** trie_ops.rs:812-822 [get_other_non_empty_child_and_nibble_in_two_elem_branch]:
    first slot other than [our] holding a non-empty child; [None] models the
    [expect] failing.  [i] is the index of the head of [ch]. *)
Fixpoint get_other_non_empty_child (i : nat) (ch : list node) (our : nat)
  : option (nat * node) :=
  match ch with
  | [] => None
  | c :: t => if negb (Nat.eqb i our) && negb (node_is_empty c)
              then Some (i, c)
              else get_other_non_empty_child (S i) t our
  end.

(** trie_ops.rs:857-878 [create_node_from_insert_val]. *)
Definition create_node_from_insert_val (ns : nibbles) (v : val_or_hash) : node :=
  match v with
  | Val x => Leaf ns x
  | VHash h => match ns with [] => Hash h | _ => Ext ns (Hash h) end
  end.

(** trie_ops.rs:880-888 [create_node_if_ins_val_not_hash] specialised by
    [leaf_from_insert_val] (850-855) and [branch_from_insert_val] (835-840). *)
Definition node_if_ins_val_not_hash (v : val_or_hash) (f : bytes -> node) : res node :=
  match v with
  | Val x => Ok (f x)
  | VHash h => Err (ExistingHashNodeError h)
  end.

(** ** Insert *)

(** trie_ops.rs:165-170, 689-708: common prefix and postfixes. *)
Record pre_post := { common_prefix : nibbles; existing_postfix : nibbles; new_postfix : nibbles }.

Definition get_pre_and_postfixes (existing new : nibbles) : pre_post :=
  let i := diff_idx existing new in
  {| common_prefix := firstn i existing;
     existing_postfix := skipn i existing;
     new_postfix := skipn i new |}.

(** trie_ops.rs:710-783 [place_branch_and_potentially_ext_prefix] with
    [check_if_existing_or_new_node_should_go_in_branch_value_field] and
    [ins_entry_into_leaf_and_nibble] inlined.  [get_nibble 0] of an empty
    sequence and [expect_val] on a hash panic. *)
Definition place_branch (info : pre_post) (existing : node) (key : nibbles) (v : val_or_hash)
  : res node :=
  let new_child := create_node_from_insert_val (skipn (length (common_prefix info) + 1) key) v in
  let finish ch value :=
    let b := Branch ch value in
    Ok (match common_prefix info with [] => b | p => Ext p b end) in
  match existing_postfix info, new_postfix info, existing with
  | [], np, Leaf _ value =>
      match np with
      | [] => Panic
      | n :: _ => finish (set_child new_branch_child_arr n new_child) value
      end
  | ep, [], _ =>
      match v with
      | VHash _ => Panic
      | Val x => match ep with
                 | [] => Panic
                 | e :: _ => finish (set_child new_branch_child_arr e existing) x
                 end
      end
  | ep, n :: _, _ =>
      match ep with
      | [] => Panic
      | e :: _ => finish (set_child (set_child new_branch_child_arr e existing) n new_child) []
      end
  end.

(** trie_ops.rs:432-522 [insert_into_trie_rec].  The Rust function returns
    [Result<Option<_>>] but every success is [Some]; the [Option] is dropped. *)
Fixpoint insert_rec (n : node) (key : nibbles) (v : val_or_hash) {struct n} : res node :=
  match n with
  | Empty => Ok (create_node_from_insert_val key v)
  | Hash h => Err (HashNodeInsertError h)
  | Branch children value =>
      match key with
      | [] => node_if_ins_val_not_hash v (fun x => Branch children x)
      | nib :: key' =>
          bind ((fix at_child (ch : list node) (i : nat) : res node :=
                   match ch, i with
                   | [], _ => Panic
                   | c :: _, 0 => insert_rec c key' v
                   | _ :: t, S i' => at_child t i'
                   end) children nib)
            (fun updated => Ok (Branch (set_child children nib updated) value))
      end
  | Ext ns child =>
      let info := get_pre_and_postfixes ns key in
      if identical_up_to_smallest ns key then
        bind (insert_rec child (truncate_front (length ns) key) v)
          (fun updated => Ok (Ext ns updated))
      else
        let post := truncate_front 1 (existing_postfix info) in
        let existing := match post with [] => child | _ => Ext post child end in
        place_branch info existing key v
  | Leaf ns value =>
      if nibbles_eqb ns key then node_if_ins_val_not_hash v (fun x => Leaf ns x)
      else
        let info := get_pre_and_postfixes ns key in
        let existing := Leaf (truncate_front (length (common_prefix info) + 1) ns) value in
        place_branch info existing key v
  end.

(** trie_ops.rs:307-319 [trie_insert]: the new root. *)
Definition trie_insert (n : node) (key : nibbles) (v : val_or_hash) : res node :=
  insert_rec n key v.

(** trie_ops.rs:321-331 [trie_extend]: returns the node left behind and whether
    all inserts succeeded (an error stops the loop, keeping earlier inserts).
    The third component is [Ok tt], the error, or a panic. *)
Fixpoint trie_extend (n : node) (kvs : list (nibbles * val_or_hash)) : node * res unit :=
  match kvs with
  | [] => (n, Ok tt)
  | (k, v) :: rest =>
      match trie_insert n k v with
      | Ok n' => trie_extend n' rest
      | Err e => (n, Err e)
      | Panic => (n, Panic)
      end
  end.

(** ** Get *)

(** trie_ops.rs:333-374 [trie_get], [trie_get_intern].  On an extension longer
    than the key, [pop_nibbles_front] underflows: [Panic]. *)
Fixpoint trie_get (n : node) (key : nibbles) {struct n} : res (option bytes) :=
  match n with
  | Empty | Hash _ => Ok None
  | Branch children value =>
      match key with
      | [] => Ok (match value with [] => None | _ => Some value end)
      | nib :: key' =>
          (fix at_child (ch : list node) (i : nat) : res (option bytes) :=
             match ch, i with
             | [], _ => Panic
             | c :: _, 0 => trie_get c key'
             | _ :: t, S i' => at_child t i'
             end) children nib
      end
  | Ext ns child =>
      if length key <? length ns then Panic
      else
        let r := firstn (length ns) key in
        if identical_up_to_smallest r ns then trie_get child (skipn (length ns) key)
        else Ok None
  | Leaf ns value =>
      if identical_up_to_smallest ns key then Ok (Some value) else Ok None
  end.

(** ** Delete *)

(** trie_ops.rs:652-687 [collapse_ext_node_if_needed].  Building the error of
    the [Reject] arm calls [merge_nibbles], which may itself panic. *)
Definition collapse_ext (ext : nibbles) (child : node) (curr_key : nibbles) (s : strategy)
  : res node :=
  match child with
  | Branch _ _ => Ok (Ext ext child)
  | Ext other c => bind (merge_nibbles ext other) (fun k => Ok (Ext k c))
  | Leaf ns value => bind (merge_nibbles ext ns) (fun k => Ok (Leaf k value))
  | Hash h =>
      match s with
      | CollapseToExtension => Ok (Ext ext child)
      | Reject => bind (merge_nibbles curr_key ext)
                    (fun k => Err (ExtensionCollapsedIntoHashError k h))
      end
  | Empty => Err HashNodeExtError
  end.

(** trie_ops.rs:615-626 [try_collapse_if_extension]. *)
Definition try_collapse_if_extension (n : node) (curr_key : nibbles) (s : strategy) : res node :=
  match n with
  | Ext ns child => collapse_ext ns child curr_key s
  | _ => Ok n
  end.

(** trie_ops.rs:524-613 [delete_intern]. *)
Fixpoint delete_intern (n : node) (key : nibbles) (s : strategy) {struct n}
  : res (option (node * bytes)) :=
  match n with
  | Empty => Ok None
  | Hash h => Err (HashNodeDeleteError h)
  | Branch children value =>
      match key with
      | [] => Ok (Some (Branch children [], value))
      | nib :: key' =>
          bind ((fix at_child (ch : list node) (i : nat) : res (option (node * bytes)) :=
                   match ch, i with
                   | [], _ => Panic
                   | c :: _, 0 => delete_intern c key' s
                   | _ :: t, S i' => at_child t i'
                   end) children nib)
            (fun r =>
               match r with
               | None => Ok None
               | Some (updated, deleted) =>
                   if node_is_empty updated && (get_num_non_empty_children children <=? 2) then
                     match get_other_non_empty_child 0 children nib with
                     | None => Panic
                     | Some (i, c) => Ok (Some (Ext [i] c, deleted))
                     end
                   else
                     bind (try_collapse_if_extension updated key' s)
                       (fun u => Ok (Some (Branch (set_child children nib u) value, deleted)))
               end)
      end
  | Ext ns child =>
      if identical_up_to_smallest ns key then
        let key' := truncate_front (length ns) key in
        bind (delete_intern child key' s)
          (fun r =>
             match r with
             | None => Ok None
             | Some (updated, deleted) =>
                 bind (collapse_ext ns updated key' s)
                   (fun u => Ok (Some (u, deleted)))
             end)
      else Ok None
  | Leaf ns value =>
      if nibbles_eqb ns key then Ok (Some (Empty, value)) else Ok None
  end.

(** trie_ops.rs:381-406 [trie_delete]: new root and deleted value.  [None]
    leaves the trie as it was. *)
Definition trie_delete (n : node) (key : nibbles) (s : strategy)
  : res (node * option bytes) :=
  bind (delete_intern n key s)
    (fun r =>
       match r with
       | None => Ok (n, None)
       | Some (updated_root, deleted) =>
           bind (try_collapse_if_extension updated_root [] s)
             (fun n' => Ok (n', Some deleted))
       end).

(** ** Iteration (explicit stack) *)

(** trie_ops.rs:182-193 [IterStackEntry], [BranchStackEntry]. *)
Inductive iter_entry : Type :=
| IRoot (n : node)
| IExt (num_nibbles : nat)
| IBranch (children : list node) (value : bytes) (curr_nib : nat).

(** trie_ops.rs:198-201 [PartialTrieIter]: the running key and the stack (top
    of the stack first). *)
Record iter := { curr_key_after_last_branch : nibbles; trie_stack : list iter_entry }.

Definition is_hash (n : node) : bool := match n with Hash _ => true | _ => false end.

(** trie_ops.rs:204-239 [advance_iter_to_next_empty_leaf_or_hash_node]: descends
    to the first leaf or hash node, pushing stack entries. *)
Fixpoint advance (n : node) (it : iter) (curr_key : nibbles) {struct n}
  : res (iter * option (nibbles * val_or_hash)) :=
  match n with
  | Empty => Ok (it, None)
  | Hash h => Ok (it, Some (curr_key, VHash h))
  | Branch children value =>
      let it' := {| curr_key_after_last_branch := curr_key;
                    trie_stack := IBranch children value 1 :: trie_stack it |} in
      bind (merge_nibble curr_key 0)
        (fun k =>
           match children with
           | [] => Panic
           | c :: _ => advance c it' k
           end)
  | Ext ns child =>
      let it' := if is_hash child then it
                 else {| curr_key_after_last_branch := curr_key_after_last_branch it;
                         trie_stack := IExt (length ns) :: trie_stack it |} in
      bind (merge_nibbles curr_key ns) (fun k => advance child it' k)
  | Leaf ns value =>
      bind (merge_nibbles curr_key ns) (fun k => Ok (it, Some (k, Val value)))
  end.

(** trie_ops.rs:245-303 [Iterator::next]: one turn of the [while] loop.  The
    outcome is the new iterator and the item found by this turn, if any;
    [None] for the pair means the stack was empty ([break]). *)
Definition iter_turn (it : iter) : res (option (iter * option (nibbles * val_or_hash))) :=
  match trie_stack it with
  | [] => Ok None
  | e :: stack =>
      let popped := {| curr_key_after_last_branch := curr_key_after_last_branch it;
                       trie_stack := stack |} in
      match e with
      | IRoot root => bind (advance root popped []) (fun r => Ok (Some r))
      | IExt n =>
          Ok (Some ({| curr_key_after_last_branch :=
                         truncate_back n (curr_key_after_last_branch it);
                       trie_stack := stack |}, None))
      | IBranch children value curr_nib =>
          if (1 <=? curr_nib) && (curr_nib <=? 15) then
            let it' := {| curr_key_after_last_branch := curr_key_after_last_branch it;
                          trie_stack := IBranch children value (S curr_nib) :: stack |} in
            bind (merge_nibble (curr_key_after_last_branch it) curr_nib)
              (fun k =>
                 match nth_error children curr_nib with
                 | None => Panic
                 | Some c => bind (advance c it' k) (fun r => Ok (Some r))
                 end)
          else if curr_nib =? 16 then
            let key := curr_key_after_last_branch it in
            let item := match value with [] => None | _ => Some (key, Val value) end in
            let key' := match key with [] => [] | _ => truncate_back 1 key end in
            Ok (Some ({| curr_key_after_last_branch := key'; trie_stack := stack |}, item))
          else Panic
      end
  end.

(** Result of draining the iterator with a bounded number of loop turns. *)
Inductive drained : Type :=
| Done (items : list (nibbles * val_or_hash))
| DrainPanic
| OutOfFuel.

(** trie_ops.rs:242-304: [next] called until it returns [None], collecting the
    items.  [fuel] bounds the total number of loop turns. *)
Fixpoint drain (fuel : nat) (it : iter) : drained :=
  match fuel with
  | 0 => OutOfFuel
  | S f =>
      match iter_turn it with
      | Ok None => Done []
      | Ok (Some (it', item)) =>
          match drain f it' with
          | Done l => Done (match item with Some x => x :: l | None => l end)
          | r => r
          end
      | Err _ => DrainPanic
      | Panic => DrainPanic
      end
  end.

(** trie_ops.rs:408-413 [trie_items]: the initial iterator. *)
Definition trie_items (n : node) : iter :=
  {| curr_key_after_last_branch := []; trie_stack := [IRoot n] |}.

(** trie_ops.rs:423-429 [trie_has_item_by_key] on the drained items. *)
Definition has_item_by_key (items : list (nibbles * val_or_hash)) (k : nibbles) : bool :=
  existsb (fun kv => nibbles_eqb (fst kv) k) items.
