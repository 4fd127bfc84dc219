(** Independent specification of the trie API: a finite map, given as a
    function from keys to optional values, and an ordered list of entries.
    Nothing here uses the insert/delete/get functions of the model. *)

From Coq Require Import List Arith NArith Bool.
From Verif.Mpt Require Import TrieModel.
Import ListNotations.

Definition is_prefix (a b : nibbles) : Prop := exists c, b = a ++ c.

(** No key of the set is a proper prefix of another one.  Fixed-length keys
    (accounts, storage slots) and RLP encodings (transaction indices) satisfy
    this. *)
Definition prefix_free (K : nibbles -> Prop) : Prop :=
  forall a b, K a -> K b -> is_prefix a b -> a = b.

(** Keys the [Nibbles] type can hold: at most 64 nibbles, each below 16. *)
Definition valid_key (k : nibbles) : Prop :=
  Forall (fun n => n < 16) k /\ length k <= 64.

Definition key_domain (K : nibbles -> Prop) : Prop :=
  prefix_free K /\ forall k, K k -> valid_key k.

(** The abstract map. *)
Definition kvmap := nibbles -> option bytes.
Definition empty_map : kvmap := fun _ => None.
Definition key_eq_dec : forall a b : nibbles, {a = b} + {a <> b} := list_eq_dec Nat.eq_dec.
Definition upd (m : kvmap) (k : nibbles) (o : option bytes) : kvmap :=
  fun k' => if key_eq_dec k' k then o else m k'.

(** API calls that change a trie. *)
Inductive op : Type :=
| OpInsert (k : nibbles) (v : bytes)
| OpDelete (k : nibbles).

Definition op_key (o : op) : nibbles :=
  match o with OpInsert k _ => k | OpDelete k => k end.

(** What a caller observes from one call on a map. *)
Inductive out : Type := OutInserted | OutDeleted (old : option bytes).

Definition spec_step (m : kvmap) (o : op) : kvmap * out :=
  match o with
  | OpInsert k v => (upd m k (Some v), OutInserted)
  | OpDelete k => (upd m k None, OutDeleted (m k))
  end.

Fixpoint spec_run (m : kvmap) (l : list op) : kvmap * list out :=
  match l with
  | [] => (m, [])
  | o :: l' => let (m1, x) := spec_step m o in
               let (m2, xs) := spec_run m1 l' in (m2, x :: xs)
  end.

(** The same calls on the modelled trie. *)
Definition trie_step (s : strategy) (t : node) (o : op) : res (node * out) :=
  match o with
  | OpInsert k v => bind (trie_insert t k (Val v)) (fun t' => Ok (t', OutInserted))
  | OpDelete k => bind (trie_delete t k s) (fun r => Ok (fst r, OutDeleted (snd r)))
  end.

Fixpoint trie_run (s : strategy) (t : node) (l : list op) : res (node * list out) :=
  match l with
  | [] => Ok (t, [])
  | o :: l' => bind (trie_step s t o)
                 (fun r => bind (trie_run s (fst r) l')
                             (fun r' => Ok (fst r', snd r :: snd r')))
  end.

(** Strict lexicographic order on keys, a proper prefix being smaller. *)
Inductive key_lt : nibbles -> nibbles -> Prop :=
| key_lt_nil x b : key_lt [] (x :: b)
| key_lt_hd x y a b : x < y -> key_lt (x :: a) (y :: b)
| key_lt_tl x a b : key_lt a b -> key_lt (x :: a) (x :: b).

(** [sub_at n p c]: following path [p] from [n] one reaches exactly node [c]. *)
Inductive sub_at : node -> nibbles -> node -> Prop :=
| sub_here n : sub_at n [] n
| sub_branch ch v i c p m :
    nth_error ch i = Some c -> sub_at c p m -> sub_at (Branch ch v) (i :: p) m
| sub_ext ns c p m : sub_at c p m -> sub_at (Ext ns c) (ns ++ p) m.

(** The entries a trie stores: leaf values, branch values and hash nodes, each
    with its full path. *)
Inductive stored (t : node) : nibbles -> val_or_hash -> Prop :=
| stored_leaf p ns v : sub_at t p (Leaf ns v) -> stored t (p ++ ns) (Val v)
| stored_branch p ch v : sub_at t p (Branch ch v) -> v <> [] -> stored t p (Val v)
| stored_hash p h : sub_at t p (Hash h) -> stored t p (VHash h).
