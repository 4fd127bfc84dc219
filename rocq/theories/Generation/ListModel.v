(** Model of the linked lists of accounts and storage slots.

    Sources in /repo/evm_arithmetization/src: generation/mpt.rs:330-531,
    generation/linked_list.rs:8-37.

    Simplifications: the two segments' addresses, the hash of a trie and the
    decoders of accounts and slots are parameters; the map of storage tries is a
    function; a [BTreeMap] of pointers is the list of its insertions. *)

From Coq Require Import List Arith NArith Bool.
From Verif.Mpt Require Import TrieModel NibblesModel NibblesProofs.
From Verif.Generation Require Import LoadModel.
Import ListNotations.
Local Open Scope nat_scope.

Definition U256_MAX : N := (2 ^ 256 - 1)%N.

(** linked_list.rs:28-38 [empty_list_mem]. *)
Definition empty_list_mem (n : nat) (segment : N) : list cell :=
  map (fun i => if i =? 0 then Some U256_MAX else if i =? n - 1 then Some segment else Some 0%N) (seq 0 n).
(** linked_list.rs:8-9. *)
Definition ACCOUNTS_NODE_SIZE := 4.
Definition STORAGE_NODE_SIZE := 5.

(** mpt.rs:24-30 [AccountRlp]. *)
Record acct := { ac_nonce : N; ac_balance : N; ac_root : list N; ac_code : N }.

(** The buffers that the traversal extends. *)
Record lists := { state_leaves : list cell; storage_leaves : list cell; list_data : list cell; accounts_pointers : list (N * N); storage_pointers : list ((N * N) * N) }.

(** [v[len - 1] = x]: panics on an empty vector. *)
Definition set_last (m : list cell) (x : cell) : lres (list cell) := match length m with 0 => LPanic | S k => LOk (set_cell m k x) end.

Section Lists.
  Variable accounts_segment storage_segment : N.
  Variable hash_of : node -> list N.
  Variable decode_account : list N -> option acct.
  Variable decode_slot : list N -> option N.
  Variable storage_of : list nat -> option node.

  Definition over_children {S} (f : node -> nat -> S -> lres S) : list node -> nat -> S -> lres S :=
    fix go ch i s := match ch with [] => LOk s | c :: ch => let! s := f c i s in go ch (1 + i) s end.

  (** mpt.rs:488-524, a leaf of a storage trie under its whole key. *)
  Definition storage_leaf (addr : N) (key : list nat) (v : list N) (s : lists) : lres lists :=
    let len := length (storage_leaves s) in
    let! sl := set_last (storage_leaves s) (Some (storage_segment + N.of_nat len)%N) in
    let! slot := nibbles_u256 key in
    match decode_slot v with
    | None => LErr InvalidRlp
    | Some w =>
        LOk {| state_leaves := state_leaves s; storage_leaves := sl ++ [Some addr; Some slot; Some w; Some 0%N; Some storage_segment]; list_data := list_data s;
               accounts_pointers := accounts_pointers s; storage_pointers := storage_pointers s ++ [((addr, slot), (storage_segment + N.of_nat len)%N)] |}
    end.

  (** mpt.rs:440-531 [get_storage_leaves]: the value of a branch is not looked at. *)
  Fixpoint get_storage_leaves (addr : N) (t : node) (key : list nat) (s : lists) {struct t} : lres lists :=
    match t with
    | Branch ch _ => over_children (fun c i s => let! k := nib_panic (merge_nibbles key [i]) in get_storage_leaves addr c k s) ch 0 s
    | Ext ns c => let! k := nib_panic (merge_nibbles key ns) in get_storage_leaves addr c k s
    | Leaf ns v => let! k := nib_panic (merge_nibbles key ns) in storage_leaf addr k v s
    | _ => LOk s
    end.

  Definition bytes_same (a b : list N) : bool := if list_eq_dec N.eq_dec a b then true else false.

  (** mpt.rs:381-434, a leaf of the state trie under its whole key. *)
  Definition state_leaf (key : list nat) (v : list N) (s : lists) : lres lists :=
    match decode_account v with
    | None => LErr InvalidRlp
    | Some a =>
        let storage_trie := match storage_of key with Some t => t | None => Hash (ac_root a) end in
        if negb (bytes_same (hash_of storage_trie) (ac_root a)) then LPanic else
        let len := length (state_leaves s) in
        let! sl := set_last (state_leaves s) (Some (accounts_segment + N.of_nat len)%N) in
        let! addr := nibbles_u256 key in
        let s := {| state_leaves := sl ++ [Some addr; num (length (list_data s)); Some 0%N; Some accounts_segment]; storage_leaves := storage_leaves s;
                    list_data := list_data s ++ [Some (ac_nonce a); Some (ac_balance a); Some 0%N; Some (ac_code a)]; accounts_pointers := accounts_pointers s; storage_pointers := storage_pointers s |} in
        let! s := get_storage_leaves addr storage_trie [] s in
        LOk {| state_leaves := state_leaves s; storage_leaves := storage_leaves s; list_data := list_data s;
               accounts_pointers := accounts_pointers s ++ [(addr, (accounts_segment + N.of_nat len)%N)]; storage_pointers := storage_pointers s |}
    end.

  (** mpt.rs:330-438 [get_state_and_storage_leaves]. *)
  Fixpoint get_state_and_storage_leaves (t : node) (key : list nat) (s : lists) {struct t} : lres lists :=
    match t with
    | Branch ch v =>
        match v with
        | [] => over_children (fun c i s => let! k := nib_panic (merge_nibbles key [i]) in get_state_and_storage_leaves c k s) ch 0 s
        | _ => LErr InvalidMptInput
        end
    | Ext ns c => let! k := nib_panic (merge_nibbles key ns) in get_state_and_storage_leaves c k s
    | Leaf ns v => let! k := nib_panic (merge_nibbles key ns) in state_leaf k v s
    | _ => LOk s
    end.

  (** mpt.rs:546-600 [load_linked_lists_and_txn_and_receipt_mpts], the part on
      linked lists; [td] is the trie data after the other two tries. *)
  Definition load_linked_lists (t : node) (td : list cell) : lres lists :=
    get_state_and_storage_leaves t []
      {| state_leaves := empty_list_mem ACCOUNTS_NODE_SIZE accounts_segment; storage_leaves := empty_list_mem STORAGE_NODE_SIZE storage_segment; list_data := td; accounts_pointers := []; storage_pointers := [] |}.
End Lists.
