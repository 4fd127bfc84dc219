(** Model of the trie diff tool.

    Source: /repo/mpt_trie/src/debug_tools/diff.rs (and [TrieNodeType],
    [get_segment_from_node_and_key_piece] of /repo/mpt_trie/src/utils.rs).

    Simplifications: the [warn!] log is dropped; the [curr_depth] field, which is
    never copied into a result ([DiffPoint::new] stores 0), is dropped. *)

From Coq Require Import List Arith NArith Bool.
From Verif.Mpt Require Import TrieModel HashModel QueryModel.
Import ListNotations.
Local Open Scope nat_scope.

(** utils.rs:18-35 [TrieNodeType]. *)
Inductive node_type : Type := TEmpty | THash | TBranch | TExtension | TLeaf.
(** utils.rs:43-53. *)
Definition type_of (n : node) : node_type :=
  match n with Empty => TEmpty | Hash _ => THash | Branch _ _ => TBranch | Ext _ _ => TExtension | Leaf _ _ => TLeaf end.
Definition type_eqb (a b : node_type) : bool :=
  match a, b with
  | TEmpty, TEmpty | THash, THash | TBranch, TBranch | TExtension, TExtension | TLeaf, TLeaf => true
  | _, _ => false
  end.

(** utils.rs:232-243 [get_segment_from_node_and_key_piece]; [get_nibble 0] of an
    empty piece cannot happen at its call sites and is 0 here. *)
Definition segment_of (n : node) (k_piece : nibbles) : segment :=
  match n with
  | Empty => SEmpty
  | Hash _ => SHash
  | Branch _ _ => SBranch (hd 0 k_piece)
  | Ext _ _ => SExt k_piece
  | Leaf _ _ => SLeaf k_piece
  end.

(** diff.rs:26-31 [get_key_piece_from_node]. *)
Definition key_piece (n : node) : nibbles :=
  match n with Ext ns _ | Leaf ns _ => ns | _ => [] end.

(** diff.rs:443-448 [get_value_from_node]. *)
Definition value_of (n : node) : option bytes :=
  match n with Branch _ v | Leaf _ v => Some v | _ => None end.

(** diff.rs:49-54 [DiffDetectionState]. *)
Inductive detection : Type := NodeTypesDiffer | HashDiffDetected | NoDiffDetected.
(** diff.rs:64-67 [get_int_repr]. *)
Definition int_repr (d : detection) : nat :=
  match d with NodeTypesDiffer => 0 | HashDiffDetected => 1 | NoDiffDetected => 2 end.
(** diff.rs:57-62 [pick_most_significant_state]. *)
Definition pick_most_significant_state (self other : detection) : detection :=
  if int_repr other <? int_repr self then self else other.

(** diff.rs:119-131 [NodeInfo]. *)
Record node_info := { info_key : nibbles; info_value : option bytes; info_type : node_type; info_hash : bytes }.
(** diff.rs:71-83 [DiffPoint]. *)
Record diff_point := { dp_depth : nat; dp_path : list segment; dp_key : nibbles; dp_a : node_info; dp_b : node_info }.

Section Keccak.
Variable keccak : list N -> list N.

Definition bytes_eqb (a b : list N) : bool := if list_eq_dec N.eq_dec a b then true else false.

(** diff.rs:86-103 [DiffPoint::new], 147-156 [NodeInfo::new]. *)
Definition new_diff_point (a b : node) (parent_k : nibbles) (path : list segment) : res diff_point :=
  bind (merge_nibbles parent_k (key_piece a)) (fun a_key =>
  bind (merge_nibbles parent_k (key_piece b)) (fun b_key =>
  Ok {| dp_depth := 0; dp_path := path; dp_key := parent_k;
        dp_a := {| info_key := a_key; info_value := value_of a; info_type := type_of a; info_hash := hash_trie keccak a |};
        dp_b := {| info_key := b_key; info_value := value_of b; info_type := type_of b; info_hash := hash_trie keccak b |} |})).

(** diff.rs:290-415 [find_all_diff_points_between_tries_rec].  The list is what the
    call pushes on [depth_states]; each pushed state holds exactly one point, in
    one of its two fields, so the state is modelled by the point (and the later
    [longest_key_node_diff.or(longest_key_hash_diff)], lines 170-176, by the
    identity).  A fresh field is always [None], so
    [replace_longest_field_if_our_key_is_larger] always stores the point. *)
Fixpoint find_rec (a b : node) (curr_key : nibbles) (curr_path : list segment) {struct a}
  : res (detection * list diff_point) :=
  if bytes_eqb (hash_trie keccak a) (hash_trie keccak b) then Ok (NoDiffDetected, [])
  else if negb (type_eqb (type_of a) (type_of b) && nibbles_eqb (key_piece a) (key_piece b))
  then bind (new_diff_point a b curr_key curr_path) (fun d => Ok (NodeTypesDiffer, [d]))
  else
    match a, b with
    | Empty, Empty => Ok (NoDiffDetected, [])
    | Hash ha, Hash hb =>
        if bytes_eqb ha hb then Ok (NoDiffDetected, [])
        else bind (new_diff_point a b curr_key (curr_path ++ [segment_of a []]))
               (fun d => Ok (HashDiffDetected, [d]))
    | Branch ca _, Branch cb _ =>
        bind ((fix children (i : nat) (la lb : list node) (most : detection) (acc : list diff_point)
                 : res (detection * list diff_point) :=
                 match la, lb with
                 | x :: la', y :: lb' =>
                     bind (merge_nibble curr_key i) (fun k =>
                     bind (find_rec x y k (curr_path ++ [SBranch i])) (fun r =>
                     children (S i) la' lb' (pick_most_significant_state most (fst r)) (acc ++ snd r)))
                 | _, _ => Ok (most, acc)
                 end) 0 ca cb NoDiffDetected [])
          (fun r =>
             match fst r with
             | NoDiffDetected => Ok r
             | _ => if bytes_eqb (hash_trie keccak a) (hash_trie keccak b) then Ok (NoDiffDetected, snd r)
                    else bind (new_diff_point a b curr_key curr_path)
                           (fun d => Ok (HashDiffDetected, snd r ++ [d]))
             end)
    | Ext na xa, Ext _ xb =>
        bind (merge_nibbles curr_key na) (fun k => find_rec xa xb k (curr_path ++ [SExt na]))
    | Leaf _ _, Leaf _ _ =>
        if bytes_eqb (hash_trie keccak a) (hash_trie keccak b) then Ok (NoDiffDetected, [])
        else bind (new_diff_point a b curr_key curr_path) (fun d => Ok (HashDiffDetected, [d]))
    | _, _ => Panic
    end.

(** diff.rs:22 [MAX_DIFF_POINTS_TO_COLLECT]. *)
Definition max_diff_points : nat := 10.

(** diff.rs:159-193 [create_full_diff_between_tries], [find_all_diff_points_between_tries]. *)
Definition create_full_diff (a b : node) : res (list diff_point) :=
  bind (find_rec a b [] []) (fun r => Ok (firstn max_diff_points (snd r))).

End Keccak.
