(** Model of the sparse Merkle tree.

    Sources: /repo/smt_trie/src/smt.rs, /repo/smt_trie/src/utils.rs,
    /repo/smt_trie/src/db.rs.

    Simplifications:
    - a field element is the integer [to_canonical_u64] returns; groups of four
      elements ([Key], [HashOut], thirds of a [Node]) are records [quad];
    - [Bits] is the list of its bits, first pushed first (BitsModel.v models the
      packed representation and relates it to lists);
    - [F::poseidon] is a parameter giving the first four outputs, the only ones
      this crate uses;
    - [MemoryDb] (a hash map) is the log of [set_node] calls, newest first;
      [kv_store] is an association list;
    - a panic ([unwrap] of [None], failed [assert!], [unreachable!], shift of a
      [u64] by 64 or more in a checked build) is [None];
    - the [siblings] vector of the descent is kept as a list of pairs (bit taken,
      node), innermost first; [siblings\[level\]] is its head. *)

From Coq Require Import List Arith NArith Bool.
Import ListNotations.
Local Open Scope N_scope.

(** Four field elements. *)
Record quad := Q { e0 : N; e1 : N; e2 : N; e3 : N }.
Definition zero : quad := Q 0 0 0 0.
Definition one_zero : quad := Q 1 0 0 0.
Definition elt (q : quad) (i : nat) : N :=
  match i with 0%nat => e0 q | 1%nat => e1 q | 2%nat => e2 q | _ => e3 q end.
Definition quad_eqb (a b : quad) : bool :=
  (e0 a =? e0 b) && (e1 a =? e1 b) && (e2 a =? e2 b) && (e3 a =? e3 b).
(** [r.0.iter().all(F::is_zero)]. *)
Definition is_zero (q : quad) : bool := quad_eqb q zero.

(** smt.rs:26 [Node]: elements 0..4, 4..8, 8..12. *)
Record node := Nd { n0 : quad; n1 : quad; n2 : quad }.
Definition node_eqb (a b : node) : bool := quad_eqb (n0 a) (n0 b) && quad_eqb (n1 a) (n1 b) && quad_eqb (n2 a) (n2 b).

(** smt.rs:72-76 [is_one_siblings]. *)
Definition is_one_siblings (n : node) : bool := e0 (n2 n) =? 1.

(** [n.0\[b*4..(b+1)*4\]] and its assignment, [b] a bit. *)
Definition slot (n : node) (b : bool) : quad := if b then n1 n else n0 n.
Definition set_slot (n : node) (b : bool) (h : quad) : node :=
  if b then Nd (n0 n) h (n2 n) else Nd h (n1 n) (n2 n).

(** utils.rs:79-97 [get_unique_sibling]; [-1] is [None]. *)
Definition get_unique_sibling (n : node) : option nat :=
  match is_zero (n0 n), is_zero (n1 n), is_zero (n2 n) with
  | false, true, true => Some 0%nat
  | true, false, true => Some 1%nat
  | true, true, false => Some 2%nat
  | _, _, _ => None
  end.

(** ** Keys *)

(** smt.rs:31-41 [Key::split]: in 64 rounds, the lowest bit of each element. *)
Definition split_round (a : quad) : list bool :=
  [N.odd (e0 a); N.odd (e1 a); N.odd (e2 a); N.odd (e3 a)].
Definition div2_quad (a : quad) : quad := Q (e0 a / 2) (e1 a / 2) (e2 a / 2) (e3 a / 2).
Fixpoint split_rounds (n : nat) (a : quad) : list bool :=
  match n with
  | O => []
  | S n' => split_round a ++ split_rounds n' (div2_quad a)
  end.
Definition split (k : quad) : list bool := split_rounds 64 k.

(** [u64] shifts: amounts of 64 or more panic. *)
Definition shr64 (x : N) (n : nat) : option N := if (n <? 64)%nat then Some (N.shiftr x (N.of_nat n)) else None.
Definition shl64 (x : N) (n : nat) : option N :=
  if (n <? 64)%nat then Some (N.shiftl x (N.of_nat n) mod 2 ^ 64) else None.

Definition quad_of (a b c d : option N) : option quad :=
  match a, b, c, d with
  | Some w, Some x, Some y, Some z => Some (Q w x y z)
  | _, _, _, _ => None
  end.

(** smt.rs:43-56 [Key::join].  [accs\[j\]] and [n\[j\]] after looking at all bits:
    bit [i] goes to element [i mod 4], shifted by [i / 4]. *)
Fixpoint join_accs (i : nat) (bits : list bool) (j : nat) : N :=
  match bits with
  | [] => 0
  | b :: r =>
      let rest := join_accs (S i) r j in
      if (i mod 4 =? j)%nat && b then N.lor (N.shiftl 1 (N.of_nat (i / 4))) rest else rest
  end.
Definition join_n (count j : nat) : nat := ((count + 3 - j) / 4)%nat.
Definition join_elt (bits : list bool) (rem_key : quad) (j : nat) : option N :=
  match shl64 (elt rem_key j) (join_n (length bits) j) with
  | Some x => Some (N.lor x (join_accs 0 bits j))
  | None => None
  end.
Definition join (bits : list bool) (rem_key : quad) : option quad :=
  quad_of (join_elt bits rem_key 0) (join_elt bits rem_key 1) (join_elt bits rem_key 2) (join_elt bits rem_key 3).

(** smt.rs:58-69 [Key::remove_key_bits]. *)
Definition remove_elt (k : quad) (nbits i : nat) : option N :=
  let full_levels := (nbits / 4)%nat in
  shr64 (elt k i) (if (full_levels * 4 + i <? nbits)%nat then S full_levels else full_levels).
Definition remove_key_bits (k : quad) (nbits : nat) : option quad :=
  quad_of (remove_elt k nbits 0) (remove_elt k nbits 1) (remove_elt k nbits 2) (remove_elt k nbits 3).

(** ** Values *)

(** utils.rs:33-38 [f2limbs]: 32-bit limb [i] of a [U256]. *)
Definition limb (x : N) (i : N) : N := (x / 2 ^ (32 * i)) mod 2 ^ 32.
Definition f2limbs (x : N) : quad * quad :=
  (Q (limb x 0) (limb x 1) (limb x 2) (limb x 3), Q (limb x 4) (limb x 5) (limb x 6) (limb x 7)).
(** utils.rs:41-48 [limbs2f]: [U256] arithmetic wraps. *)
Definition limbs2f (a b : quad) : N :=
  (e0 a + e1 a * 2 ^ 32 + e2 a * 2 ^ 64 + e3 a * 2 ^ 96 +
   e0 b * 2 ^ 128 + e1 b * 2 ^ 160 + e2 b * 2 ^ 192 + e3 b * 2 ^ 224) mod 2 ^ 256.
(** utils.rs:61-63 [key2u]; 66-75 [u2h], [u2k]. *)
Definition key2u (k : quad) : N := e0 k + e1 k * 2 ^ 64 + e2 k * 2 ^ 128 + e3 k * 2 ^ 192.
Definition u2k (x : N) : quad :=
  Q (x mod 2 ^ 64) ((x / 2 ^ 64) mod 2 ^ 64) ((x / 2 ^ 128) mod 2 ^ 64) ((x / 2 ^ 192) mod 2 ^ 64).

(** ** The tree *)

(** db.rs [MemoryDb]. *)
Definition database := list (quad * node).
Fixpoint get_node (d : database) (k : quad) : option node :=
  match d with
  | [] => None
  | (h, n) :: r => if quad_eqb h k then Some n else get_node r k
  end.
Definition set_node (d : database) (k : quad) (n : node) : database := (k, n) :: d.

(** [kv_store]. *)
Fixpoint kv_get (kv : list (quad * N)) (k : quad) : option N :=
  match kv with
  | [] => None
  | (k', v) :: r => if quad_eqb k' k then Some v else kv_get r k
  end.
Definition kv_remove (kv : list (quad * N)) (k : quad) : list (quad * N) :=
  filter (fun e => negb (quad_eqb (fst e) k)) kv.
Definition kv_insert (kv : list (quad * N)) (k : quad) (v : N) : list (quad * N) := (k, v) :: kv_remove kv k.
Definition kv_default (kv : list (quad * N)) (k : quad) : N :=
  match kv_get kv k with Some v => v | None => 0 end.

(** smt.rs:86-90 [Smt]. *)
Record smt := { db : database; kv_store : list (quad * N); root : quad }.
Definition smt_default : smt := {| db := []; kv_store := []; root := zero |}.

Section Poseidon.
(** [F::poseidon(node)\[0..4\]]. *)
Variable pos : node -> quad.

(** The nodes [hash0] and [hash_key_hash] hash (smt.rs:94-112). *)
Definition node0 (x y : quad) : node := Nd x y zero.
Definition leaf_node (k h : quad) : node := Nd k h one_zero.
Definition value_node (v : N) : node := node0 (fst (f2limbs v)) (snd (f2limbs v)).

(** smt.rs:94-99 [Smt::hash0], 102-112 [Smt::hash_key_hash]: new database and hash. *)
Definition store (d : database) (n : node) : database * quad := (set_node d (pos n) n, pos n).

(** smt.rs:122-158, 181-202: the descent of [get] and [set].  [keys] holds the bits
    not consumed yet ([get_bit] past the end panics).  Result: the path and, if a
    leaf was met, its remaining key, value hash and value node. *)
Fixpoint descend (d : database) (r : quad) (keys : list bool) (path : list (bool * node))
  : option (list (bool * node) * option (quad * quad * node)) :=
  if is_zero r then Some (path, None)
  else match get_node d r with
       | None => None
       | Some sibling =>
           if is_one_siblings sibling then
             match get_node d (n1 sibling) with
             | None => None
             | Some val => Some (path, Some (n0 sibling, n1 sibling, val))
             end
           else
             match keys with
             | [] => None
             | b :: keys' => descend d (slot sibling b) keys' ((b, sibling) :: path)
             end
       end.

Definition path_bits (path : list (bool * node)) : list bool := rev (map fst path).

(** smt.rs:116-160 [Smt::get]. *)
Definition get (s : smt) (key : quad) : option N :=
  match descend (db s) (root s) (split key) [] with
  | Some (path, Some (found_rem_key, _, val)) =>
      match join (path_bits path) found_rem_key with
      | Some found_key =>
          let found_val := limbs2f (n0 val) (n1 val) in
          if quad_eqb found_key key
          then if found_val =? kv_default (kv_store s) key then Some found_val else None
          else if kv_default (kv_store s) key =? 0 then Some 0 else None
      | None => None
      end
  | _ => None
  end.

(** smt.rs:332-343: rehash upwards, [n] being the innermost node. *)
Fixpoint rebuild (d : database) (n : node) (up : list (bool * node)) : database * quad :=
  let '(d', h) := store d n in
  match up with
  | [] => (d', h)
  | (b, m) :: up' => rebuild d' (set_slot m b h) up'
  end.

(** Write [h] where the path leads, then rehash; an empty path replaces the root. *)
Definition put (d : database) (path : list (bool * node)) (h : quad) : database * quad :=
  match path with
  | [] => (d, h)
  | (b, m) :: up => rebuild d (set_slot m b h) up
  end.

(** The rehash when nothing was written. *)
Definition rehash (d : database) (path : list (bool * node)) (r : quad) : database * quad :=
  match path with
  | [] => (d, r)
  | (_, m) :: up => rebuild d m up
  end.

(** smt.rs:236-241: leave the nodes with a unique non-zero child. *)
Fixpoint climb (up : list (bool * node)) : list (bool * node) :=
  match up with
  | [] => []
  | (b, m) :: up' => match get_unique_sibling m with Some _ => climb up' | None => up end
  end.

(** smt.rs:210-264, 332-343: the removal of the leaf the path leads to. *)
Definition remove_leaf (d : database) (path : list (bool * node)) : option (database * quad) :=
  match path with
  | [] => Some (d, zero)
  | (b, m) :: up =>
      let m' := set_slot m b zero in
      match get_unique_sibling m' with
      | None => None
      | Some u =>
          let k := match u with 0%nat => n0 m' | 1%nat => n1 m' | _ => n2 m' end in
          match get_node d k with
          | None => None
          | Some sib =>
              if is_one_siblings sib then
                match get_node d (n1 sib), (u <? 2)%nat with
                | Some _, true =>
                    match join (path_bits up ++ [negb (u =? 0)%nat]) (n0 sib) with
                    | None => None
                    | Some ins_key =>
                        let up' := climb up in
                        match remove_key_bits ins_key (length up') with
                        | None => None
                        | Some old_key =>
                            let '(d1, h) := store d (leaf_node old_key (n1 sib)) in
                            Some (put d1 up' h)
                        end
                    end
                | _, _ => None
                end
              else Some (rebuild d m' up)
          end
      end
  end.

(** smt.rs:282-284: length of the common prefix; [None] if the bits run out. *)
Fixpoint first_diff (a b : list bool) : option nat :=
  match a, b with
  | x :: a', y :: b' => if Bool.eqb x y then option_map S (first_diff a' b') else Some O
  | _, _ => None
  end.

(** smt.rs:300-307: internal nodes with a single child, innermost first. *)
Fixpoint wrap_single (d : database) (bits : list bool) (r2 : quad) : database * quad :=
  match bits with
  | [] => (d, r2)
  | b :: bits' => let '(d', h) := store d (set_slot (node0 zero zero) b r2) in wrap_single d' bits' h
  end.

(** smt.rs:279-314: a leaf with another key is met. *)
Definition split_leaf (d : database) (path : list (bool * node)) (key found_key : quad) (old_val_h : quad) (value : N)
  : option (database * quad) :=
  let keys := split key in
  let found_keys := split found_key in
  let level := length path in
  match first_diff (skipn level keys) (skipn level found_keys) with
  | None => None
  | Some m =>
      let level2 := (level + m)%nat in
      match remove_key_bits found_key (S level2), remove_key_bits key (S level2) with
      | Some old_key, Some new_key =>
          let '(d1, old_leaf_hash) := store d (leaf_node old_key old_val_h) in
          let '(d2, new_val_h) := store d1 (value_node value) in
          let '(d3, new_leaf_hash) := store d2 (leaf_node new_key new_val_h) in
          let b := nth level2 keys false in
          let bb := nth level2 found_keys false in
          let node := set_slot (set_slot (node0 zero zero) b new_leaf_hash) bb old_leaf_hash in
          let '(d4, r2) := store d3 node in
          let '(d5, r2') := wrap_single d4 (rev (firstn m (skipn level keys))) r2 in
          Some (put d5 path r2')
      | _, _ => None
      end
  end.

(** smt.rs:165-345 [Smt::set]. *)
Definition set (s : smt) (key : quad) (value : N) : option smt :=
  let kv := if value =? 0 then kv_remove (kv_store s) key else kv_insert (kv_store s) key value in
  let finish r := match r with Some (d, h) => Some {| db := d; kv_store := kv; root := h |} | None => None end in
  match descend (db s) (root s) (split key) [] with
  | None => None
  | Some (path, None) =>
      if value =? 0 then finish (Some (rehash (db s) path (root s)))
      else match remove_key_bits key (length path) with
           | None => None
           | Some new_key =>
               let '(d1, new_val_h) := store (db s) (value_node value) in
               let '(d2, new_leaf_hash) := store d1 (leaf_node new_key new_val_h) in
               finish (Some (put d2 path new_leaf_hash))
           end
  | Some (path, Some (found_rem_key, found_old_val_h, _)) =>
      match join (path_bits path) found_rem_key with
      | None => None
      | Some found_key =>
          if value =? 0 then
            if quad_eqb key found_key then finish (remove_leaf (db s) path)
            else finish (Some (rehash (db s) path (root s)))
          else if quad_eqb key found_key then
            let '(d1, new_val_h) := store (db s) (value_node value) in
            let '(d2, new_leaf_hash) := store d1 (leaf_node found_rem_key new_val_h) in
            finish (Some (put d2 path new_leaf_hash))
          else finish (split_leaf (db s) path key found_key found_old_val_h value)
      end
  end.

(** smt.rs:348-351 [Smt::delete]. *)
Definition delete (s : smt) (key : quad) : option smt :=
  set {| db := db s; kv_store := kv_remove (kv_store s) key; root := root s |} key 0.

(** smt.rs:361-373: the descent of [set_hash]; a missing node counts as empty. *)
Fixpoint descend_hash (d : database) (r : quad) (key : list bool) (path : list (bool * node))
  : option (list (bool * node) * quad) :=
  match key with
  | [] => Some (path, r)
  | b :: key' =>
      let sibling := match get_node d r with Some n => n | None => Nd zero zero zero end in
      if is_one_siblings sibling then None
      else descend_hash d (slot sibling b) key' ((b, sibling) :: path)
  end.

(** smt.rs:355-402 [Smt::set_hash]. *)
Definition set_hash (s : smt) (key : list bool) (hash : quad) : option smt :=
  match descend_hash (db s) (root s) key [] with
  | Some (path, r) =>
      if is_zero r then
        let '(d, h) := put (db s) path hash in
        Some {| db := d; kv_store := kv_store s; root := h |}
      else None
  | None => None
  end.

(** ** Serialization *)

Fixpoint set_nth (l : list N) (i : nat) (x : N) : list N :=
  match l, i with
  | [], _ => []
  | _ :: r, O => x :: r
  | y :: r, S i' => y :: set_nth r i' x
  end.

Fixpoint is_prefix_of (a b : list bool) : bool :=
  match a, b with
  | [], _ => true
  | x :: a', y :: b' => Bool.eqb x y && is_prefix_of a' b'
  | _ :: _, [] => false
  end.

(** smt.rs:18-20. *)
Definition HASH_TYPE : N := 0.
Definition INTERNAL_TYPE : N := 1.
Definition LEAF_TYPE : N := 2.

(** smt.rs:447-508 [serialize].  [keys_to_include] is the list of the split keys
    whose prefixes are included.  [fuel] bounds the depth; a database path longer
    than 256 leaves the included prefixes, so 300 is enough (C17). *)
Fixpoint serialize_rec (fuel : nat) (d : database) (keys_to_include : list (list bool)) (key : quad)
    (v : list N) (cur_bits : list bool) : option (list N * nat) :=
  match fuel with
  | O => None
  | S f =>
      if is_zero key then Some (v, O)
      else
        match existsb (is_prefix_of cur_bits) keys_to_include, get_node d key with
        | true, Some node =>
            if is_zero (n0 node) && is_zero (n1 node) && is_zero (n2 node) then None
            else if is_one_siblings node then
              match get_node d (n1 node) with
              | None => None
              | Some val => Some (v ++ [LEAF_TYPE; key2u (n0 node); limbs2f (n0 val) (n1 val)], length v)
              end
            else
              let index := length v in
              match serialize_rec f d keys_to_include (n0 node) (v ++ [INTERNAL_TYPE; 0; 0]) (cur_bits ++ [false]) with
              | None => None
              | Some (v1, i_left) =>
                  let v2 := set_nth v1 (index + 1) (N.of_nat i_left) in
                  match serialize_rec f d keys_to_include (n1 node) v2 (cur_bits ++ [true]) with
                  | None => None
                  | Some (v3, i_right) => Some (set_nth v3 (index + 2) (N.of_nat i_right), index)
                  end
              end
        | _, _ => Some (v ++ [HASH_TYPE; key2u key], length v)
        end
  end.

(** smt.rs:415-439 [serialize_and_prune]. *)
Definition serialize_and_prune (s : smt) (keys : list quad) : option (list N) :=
  match serialize_rec 300 (db s) (map split keys) (root s) [0; 0] [] with
  | None => None
  | Some (v, _) => Some (if (length v =? 2)%nat then v ++ [0; 0] else v)
  end.

(** smt.rs:441-444 [Smt::serialize]. *)
Definition serialize (s : smt) : option (list N) := serialize_and_prune s (map fst (kv_store s)).

(** smt.rs:519-546 [_hash_serialize]. *)
Fixpoint hash_serialize_rec (fuel : nat) (v : list N) (ptr : nat) : option quad :=
  match fuel with
  | O => None
  | S f =>
      match nth_error v ptr with
      | None => None
      | Some ty =>
          if ty =? HASH_TYPE then option_map u2k (nth_error v (ptr + 1))
          else if ty =? INTERNAL_TYPE then
            match nth_error v (ptr + 1), nth_error v (ptr + 2) with
            | Some l, Some r =>
                match hash_serialize_rec f v (N.to_nat (l mod 2 ^ 64)) with
                | None => None
                | Some hl =>
                    match hash_serialize_rec f v (N.to_nat (r mod 2 ^ 64)) with
                    | None => None
                    | Some hr => Some (pos (node0 hl hr))
                    end
                end
            | _, _ => None
            end
          else if ty =? LEAF_TYPE then
            match nth_error v (ptr + 1), nth_error v (ptr + 2) with
            | Some k, Some x => Some (pos (leaf_node (u2k k) (pos (value_node x))))
            | _, _ => None
            end
          else None
      end
  end.

(** smt.rs:511-517 [hash_serialize], [hash_serialize_u256]. *)
Definition hash_serialize (fuel : nat) (v : list N) : option quad := hash_serialize_rec fuel v 2.

End Poseidon.
