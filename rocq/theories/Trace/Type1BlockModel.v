(** The block loop of BatchModel.v for type-1 worlds: [impl World for Type1World]
    (/repo/evm_arithmetization/src/world.rs:173-274) and the transaction and
    receipt tries (/repo/evm_arithmetization/src/tries.rs:187-266).

    BatchModel has integers where Rust has addresses, hashes and [U256]s: the
    byte string of an address is its 20 big-endian bytes, of a hash its 32, and
    an integer stands for the value modulo the type's size.  As in BatchModel
    errors and panics are [None]. *)

From Coq Require Import List Arith NArith ZArith Bool.
From Verif.Mpt Require Import NibblesModel TrieModel HashModel HexPrefixProofs RlpProofs.
From Verif.Trace Require Import WireModel Type1Model Type1WorldModel BatchModel.
Import ListNotations.
Local Open Scope nat_scope.

(** The bytes of an address and of a hash, and a [U256]. *)
Definition addr_bytes (a : Z) : list N := be_bytes 20 (Z.to_N (a mod 2 ^ 160)).
Definition hash_bytes (h : Z) : list N := be_bytes 32 (Z.to_N (h mod 2 ^ 256)).
Definition u256 (x : Z) : N := Z.to_N (x mod 2 ^ 256).
Definition hash_of_bytes (b : list N) : Z := Z.of_N (from_be b).
(** A byte string. *)
Definition byte_string (b : list Z) : list N := map (fun x => Z.to_N (x mod 256)) b.

Definition done {A B} (r : A * outcome B) : option A := match r with (a, WireModel.Done _) => Some a | _ => None end.
Definition done_with {A B} (r : A * outcome B) : option (A * B) := match r with (a, WireModel.Done b) => Some (a, b) | _ => None end.
Definition ok_or_none {A} (o : outcome A) : option A := match o with WireModel.Done a => Some a | _ => None end.

Section Block.
  Variable keccak : list N -> list N.

  (** A closure of [update_balance] or [update_nonce] may panic: it is applied
      to the value it will be given. *)
  Definition checked_update (w : world) (addr : Z) (field : account -> N) (f : Z -> option Z) (upd : (N -> N) -> option world) : option world :=
    match state_get (w_state w) (hkey keccak (addr_bytes addr)) with
    | WireModel.Done o =>
        match f (Z.of_N (field (match o with Some a => a | None => default_account keccak end))) with
        | Some v => upd (fun _ => u256 v)
        | None => None
        end
    | _ => None
    end.

  Definition type1_impl : world_impl world nibbles nibbles := {|
    contains w a := ok_or_none (w_contains keccak w (addr_bytes a));
    update_balance w a f := checked_update w a a_balance f (fun g => done (w_update_balance keccak w (addr_bytes a) g));
    update_nonce w a f := checked_update w a a_nonce f (fun g => done (w_update_nonce keccak w (addr_bytes a) g));
    set_code w a c := done (w_set_code keccak w (addr_bytes a) (match c with inl code => inl (byte_string code) | inr h => inr (hash_bytes h) end));
    reporting_destroy w a := done_with (w_reporting_destroy keccak w (addr_bytes a));
    create_storage w a := done (w_create_storage keccak w (addr_bytes a));
    destroy_storage w a := done (w_destroy_storage keccak w (addr_bytes a));
    store_int w a k v := done (w_store_int keccak w (addr_bytes a) (u256 k) (u256 v));
    reporting_destroy_slot w a k := done_with (w_reporting_destroy_slot keccak w (addr_bytes a) (u256 k));
    mask_storage w ms := done (w_mask_storage keccak w (map (fun e => (addr_bytes (fst e), snd e)) ms));
    mask w ps := done (w_mask keccak w ps);
    root w := hash_of_bytes (w_root keccak w);
    path_of_address a := hkey keccak (addr_bytes a) |}.

  (** world.rs:236-248 [store_hash], [load_int]. *)
  Definition type1_store_hash (w : world) (a h v : Z) : option world := done (w_store_hash keccak w (addr_bytes a) (hash_bytes h) (hash_bytes v)).
  Definition type1_load_int (w : world) (a k : Z) : option Z := option_map Z.of_N (ok_or_none (w_load_int keccak w (addr_bytes a) (u256 k))).

  (** tries.rs:45-52 [MptKey::from_txn_ix] *)
  Definition txn_key (ix : nat) : nibbles := nibbles_of (rlp_uint (N.of_nat ix)).
  (** tries.rs:187-266 [TransactionTrie], [ReceiptTrie] *)
  Definition type1_tries : index_trie trie := {|
    t_new := empty_trie Reject;
    t_insert t ix b := match trie_get (t_node t) (txn_key ix) with
                       | Panic => None
                       | _ => ok_or_none (trie_put t (txn_key ix) (Val (byte_string b)))
                       end;
    t_mask t l := ok_or_none (trie_mask keccak t (map txn_key l));
    t_root t := hash_of_bytes (troot keccak t) |}.

  Definition type1_slot_key (k : Z) : nibbles := slot_key keccak (u256 k).
  (** core.rs:626-652 with neither, the first or the second feature. *)
  Definition type1_no_hook (w : world) : option (list (Z * list nibbles) * list nibbles * world) := Some ([], [], w).
  Definition type1_beacon_hook (block_timestamp parent_beacon_block_root : Z) (w : world) : option (list (Z * list nibbles) * list nibbles * world) :=
    do_beacon_hook type1_impl type1_slot_key block_timestamp parent_beacon_block_root w.
  Definition type1_scalable_hook (block_number block_timestamp : Z) (ger_data : option (Z * Z)) (w : world) : option (list (Z * list nibbles) * list nibbles * world) :=
    do_scalable_hook type1_impl type1_load_int type1_store_hash type1_slot_key (fun h => nibbles_of (hash_bytes h))
      (fun a b => hash_of_bytes (keccak (be_bytes 32 (u256 a) ++ be_bytes 32 (u256 b)))) block_number block_timestamp ger_data w.
  Inductive is_hook : (world -> option (list (Z * list nibbles) * list nibbles * world)) -> Prop :=
  | hook_none : is_hook type1_no_hook
  | hook_beacon t r : is_hook (type1_beacon_hook t r)
  | hook_scalable n t g : is_hook (type1_scalable_hook n t g).

  Definition type1_entrypoint (map_receipt_bytes : bytes -> option bytes) (receipt_status : bytes -> option bool)
    (hook : world -> option (list (Z * list nibbles) * list nibbles * world)) (fatal_missing_code : bool) :=
    entrypoint type1_impl type1_tries (fun c => hash_of_bytes (keccak (byte_string c))) type1_slot_key map_receipt_bytes receipt_status hook fatal_missing_code.
End Block.
