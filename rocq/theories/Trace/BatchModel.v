(** The batch loop of the trace decoder: trace_decoder/src/core.rs (entrypoint,
    batch, middle) with the types of interface.rs.

    The world (state and storage) is any implementation of the World trait
    (evm_arithmetization/src/world.rs:32-117), given as a record; an error
    (anyhow) or a panic is [None].  Addresses, hashes and U256 are integers,
    byte strings lists of integers.  BTreeMaps are lists in key order,
    BTreeSets lists of their elements in insertion order.  Overflow of a u64
    or U256 addition is a panic (as in a debug build; a release build wraps
    the u64 gas).  The transaction and receipt tries (tries.rs:192-266 of
    evm_arithmetization) are any type with the operations used.  The
    observer, and the parts of GenerationInputs copied unchanged from the
    input, are left out. *)
From Coq Require Import ZArith List Bool Arith.
Import ListNotations.

Definition bytes : Type := list Z.

(** interface.rs:151-161 *)
Inductive code_usage : Type := Read (hash : Z) | Write (code : bytes).
(** interface.rs:113-144 *)
Record txn_trace : Type := {
  t_balance : option Z; t_nonce : option Z; t_storage_read : list Z; t_storage_written : list (Z * Z);
  t_code_usage : option code_usage; t_self_destructed : bool }.
(** interface.rs:80-109: TxnInfo and TxnMeta *)
Record txn_info : Type := { i_traces : list (Z * txn_trace); i_byte_code : bytes; i_receipt : bytes; i_gas_used : Z }.
Definition default_txn : txn_info := {| i_traces := []; i_byte_code := []; i_receipt := []; i_gas_used := 0 |}.

(** * core.rs:275-304 *)

(** Iterator::chunks; the fuel is the number of elements. *)
Fixpoint chunks_aux {A : Type} (fuel hint : nat) (l : list A) : list (list A) :=
  match fuel, l with
  | S f, _ :: _ => firstn hint l :: chunks_aux f hint (skipn hint l)
  | _, _ => []
  end.
Definition chunks {A : Type} (hint : nat) (l : list A) : list (list A) := chunks_aux (length l) hint l.

Definition batch (txns : list txn_info) (batch_size_hint : nat) : list (list (option txn_info)) :=
  let hint := Nat.max batch_size_hint 1 in
  let txns := map Some txns in
  let n_batches := length (chunks hint txns) in
  if 2 <=? n_batches then chunks hint txns
  else if 2 <=? length txns then [firstn (length txns / 2) txns; skipn (length txns / 2) txns]
  else map (fun it => [it]) (txns ++ repeat None (2 - length txns)).

(** * The world *)

Record world_impl (W Path Key : Type) : Type := {
  contains : W -> Z -> option bool;
  (* the closure may panic *)
  update_balance : W -> Z -> (Z -> option Z) -> option W;
  update_nonce : W -> Z -> (Z -> option Z) -> option W;
  (* Either::Left is the code, Either::Right a hash *)
  set_code : W -> Z -> bytes + Z -> option W;
  reporting_destroy : W -> Z -> option (W * option Path);
  create_storage : W -> Z -> option W;
  destroy_storage : W -> Z -> option W;
  store_int : W -> Z -> Z -> Z -> option W;
  reporting_destroy_slot : W -> Z -> Z -> option (W * option Key);
  mask_storage : W -> list (Z * list Key) -> option W;
  mask : W -> list Path -> option W;
  root : W -> Z;
  path_of_address : Z -> Path }.
Arguments contains {W Path Key}. Arguments update_balance {W Path Key}. Arguments update_nonce {W Path Key}. Arguments set_code {W Path Key}.
Arguments reporting_destroy {W Path Key}. Arguments create_storage {W Path Key}. Arguments destroy_storage {W Path Key}. Arguments store_int {W Path Key}.
Arguments reporting_destroy_slot {W Path Key}. Arguments mask_storage {W Path Key}. Arguments mask {W Path Key}. Arguments root {W Path Key}.
Arguments path_of_address {W Path Key}.

(** TransactionTrie and ReceiptTrie *)
Record index_trie (T : Type) : Type := { t_new : T; t_insert : T -> nat -> bytes -> option T; t_mask : T -> list nat -> option T; t_root : T -> Z }.
Arguments t_new {T}. Arguments t_insert {T}. Arguments t_mask {T}. Arguments t_root {T}.

Notation "'try' x <- r ; e" := (match r with Some x => e | None => None end) (at level 200, x pattern, r at level 100, e at level 200).

(** u64 and U256 addition *)
Definition u64_add (a b : Z) : option Z := if Z.ltb (a + b) (2^64) then Some (a + b)%Z else None.
Definition u256_add (a b : Z) : option Z := if Z.ltb (a + b) (2^256) then Some (a + b)%Z else None.

Section Middle.
  Context {W Path Key T : Type}.
  Variable impl : world_impl W Path Key.
  Variable trie : index_trie T.
  (** World::CodeHasher::hash *)
  Variable code_hash : bytes -> Z.
  (** MptKey::from_hash(keccak(slot)) *)
  Variable slot_key : Z -> Key.
  (** core.rs:782-789, and the status read by decode_receipt *)
  Variable map_receipt_bytes : bytes -> option bytes.
  Variable receipt_status : bytes -> option bool.
  (** do_pre_execution, core.rs:626-652: fills the empty masks and changes the
      world; which hook runs is a compile-time feature. *)
  Variable do_pre_execution : W -> option (list (Z * list Key) * list Path * W).
  Variable fatal_missing_code : bool.

  (** Hash2Code, core.rs:795-837: hash to code *)
  Definition code_map : Type := Z -> option bytes.
  Definition code_insert (m : code_map) (code : bytes) : code_map := fun h => if Z.eqb h (code_hash code) then Some code else m h.

  (** BTreeMap::entry(addr).or_default() followed by extend *)
  Fixpoint extend_mask (masks : list (Z * list Key)) (addr : Z) (keys : list Key) : list (Z * list Key) :=
    match masks with
    | [] => [(addr, keys)]
    | (a, ks) :: r => if Z.eqb a addr then (a, ks ++ keys) :: r else (a, ks) :: extend_mask r addr keys
    end.

  (** The variables of the loop: those of the block, then those of a batch. *)
  Record st : Type := {
    s_world : W; s_code : code_map; s_txns : T; s_receipts : T; s_ix : nat;
    b_gas : Z; b_byte_code : list bytes; b_contract_code : list bytes; b_storage_masks : list (Z * list Key); b_state_mask : list Path }.
  Definition with_world (s : st) (w : W) : st :=
    {| s_world := w; s_code := s_code s; s_txns := s_txns s; s_receipts := s_receipts s; s_ix := s_ix s; b_gas := b_gas s; b_byte_code := b_byte_code s;
       b_contract_code := b_contract_code s; b_storage_masks := b_storage_masks s; b_state_mask := b_state_mask s |}.
  Definition with_code (s : st) (c : code_map) : st :=
    {| s_world := s_world s; s_code := c; s_txns := s_txns s; s_receipts := s_receipts s; s_ix := s_ix s; b_gas := b_gas s; b_byte_code := b_byte_code s;
       b_contract_code := b_contract_code s; b_storage_masks := b_storage_masks s; b_state_mask := b_state_mask s |}.
  Definition with_contract (s : st) (c : bytes) : st :=
    {| s_world := s_world s; s_code := s_code s; s_txns := s_txns s; s_receipts := s_receipts s; s_ix := s_ix s; b_gas := b_gas s; b_byte_code := b_byte_code s;
       b_contract_code := b_contract_code s ++ [c]; b_storage_masks := b_storage_masks s; b_state_mask := b_state_mask s |}.
  Definition with_storage_mask (s : st) (addr : Z) (keys : list Key) : st :=
    {| s_world := s_world s; s_code := s_code s; s_txns := s_txns s; s_receipts := s_receipts s; s_ix := s_ix s; b_gas := b_gas s; b_byte_code := b_byte_code s;
       b_contract_code := b_contract_code s; b_storage_masks := extend_mask (b_storage_masks s) addr keys; b_state_mask := b_state_mask s |}.
  Definition with_state_mask (s : st) (paths : list Path) : st :=
    {| s_world := s_world s; s_code := s_code s; s_txns := s_txns s; s_receipts := s_receipts s; s_ix := s_ix s; b_gas := b_gas s; b_byte_code := b_byte_code s;
       b_contract_code := b_contract_code s; b_storage_masks := b_storage_masks s; b_state_mask := b_state_mask s ++ paths |}.

  Definition is_default (t : txn_trace) : bool :=
    match t with
    | {| t_balance := None; t_nonce := None; t_storage_read := []; t_storage_written := []; t_code_usage := None; t_self_destructed := false |} => true
    | _ => false
    end.
  Definition opt_list {A : Type} (o : option A) : list A := match o with Some a => [a] | None => [] end.

  (** core.rs:558-565 *)
  Fixpoint write_slots (addr : Z) (written : list (Z * Z)) (s : st) : option st :=
    match written with
    | [] => Some s
    | (k, v) :: r =>
        try s <- (if Z.eqb v 0 then try (w, key) <- reporting_destroy_slot impl (s_world s) addr k; Some (with_storage_mask (with_world s w) addr (opt_list key))
                  else try w <- store_int impl (s_world s) addr k v; Some (with_world s w));
        write_slots addr r s
    end.

  (** core.rs:526-553 *)
  Definition use_code (addr : Z) (usage : option code_usage) (s : st) : option st :=
    match usage with
    | None => Some s
    | Some (Read hash) =>
        match fatal_missing_code, s_code s hash with
        | true, None => None
        | _, Some code => try w <- set_code impl (s_world s) addr (inl code); Some (with_contract (with_world s w) code)
        | _, None => try w <- set_code impl (s_world s) addr (inr hash); Some (with_world s w)
        end
    | Some (Write code) =>
        let s := with_code s (code_insert (s_code s) code) in
        try w <- set_code impl (s_world s) addr (inl code); Some (with_contract (with_world s w) code)
    end.

  (** core.rs:467-579: one account of a transaction *)
  Definition do_trace (receipt : bytes) (addr : Z) (t : txn_trace) (s : st) : option st :=
    try bytes <- map_receipt_bytes receipt;
    try status <- receipt_status bytes;
    try known <- contains impl (s_world s) addr;
    let born := negb known in
    try s <- (if born then try w <- create_storage impl (s_world s) addr; Some (with_world s w) else Some s);
    let do_writes := negb (is_default t) && (if born then status else true) in
    let s := with_storage_mask s addr (map slot_key (map fst (t_storage_written t) ++ t_storage_read t)) in
    try s <-
      (if do_writes then
         try s <- match t_balance t with Some new => try w <- update_balance impl (s_world s) addr (fun _ => Some new); Some (with_world s w) | None => Some s end;
         try s <- match t_nonce t with Some new => try w <- update_nonce impl (s_world s) addr (fun _ => Some new); Some (with_world s w) | None => Some s end;
         try s <- use_code addr (t_code_usage t) s;
         try s <- write_slots addr (t_storage_written t) s;
         Some (with_state_mask s [path_of_address impl addr])
       else Some (with_state_mask s [path_of_address impl addr]));
    if t_self_destructed t then
      try w <- destroy_storage impl (s_world s) addr;
      try (w, path) <- reporting_destroy impl w addr;
      Some (with_state_mask (with_world s w) (opt_list path))
    else Some s.
  Fixpoint do_traces (receipt : bytes) (traces : list (Z * txn_trace)) (s : st) : option st :=
    match traces with
    | [] => Some s
    | (addr, t) :: r => try s <- do_trace receipt addr t s; do_traces receipt r s
    end.

  (** core.rs:431-585: one transaction, [None] the dummy *)
  Definition do_txn (txn : option txn_info) (s : st) : option st :=
    let i := match txn with Some i => i | None => default_txn end in
    try s <-
      match i_byte_code i with
      | [] => Some s
      | _ =>
          try txns <- t_insert trie (s_txns s) (s_ix s) (i_byte_code i);
          try r <- map_receipt_bytes (i_receipt i);
          try receipts <- t_insert trie (s_receipts s) (s_ix s) r;
          Some {| s_world := s_world s; s_code := s_code s; s_txns := txns; s_receipts := receipts; s_ix := s_ix s; b_gas := b_gas s;
                  b_byte_code := b_byte_code s ++ [i_byte_code i]; b_contract_code := b_contract_code s; b_storage_masks := b_storage_masks s;
                  b_state_mask := b_state_mask s |}
      end;
    try gas <- u64_add (b_gas s) (i_gas_used i);
    let s := {| s_world := s_world s; s_code := s_code s; s_txns := s_txns s; s_receipts := s_receipts s; s_ix := s_ix s; b_gas := gas;
                b_byte_code := b_byte_code s; b_contract_code := b_contract_code s; b_storage_masks := b_storage_masks s; b_state_mask := b_state_mask s |} in
    try s <- do_traces (i_receipt i) (i_traces i) s;
    Some {| s_world := s_world s; s_code := s_code s; s_txns := s_txns s; s_receipts := s_receipts s;
            s_ix := match txn with Some _ => S (s_ix s) | None => s_ix s end; b_gas := b_gas s;
            b_byte_code := b_byte_code s; b_contract_code := b_contract_code s; b_storage_masks := b_storage_masks s; b_state_mask := b_state_mask s |}.
  Fixpoint do_txns (txns : list (option txn_info)) (s : st) : option st :=
    match txns with [] => Some s | t :: r => try s <- do_txn t s; do_txns r s end.

  (** core.rs:588-596 *)
  Fixpoint do_withdrawals (ws : list (Z * Z)) (s : st) : option st :=
    match ws with
    | [] => Some s
    | (addr, amt) :: r =>
        let s := with_state_mask s [path_of_address impl addr] in
        try w <- update_balance impl (s_world s) addr (fun it => u256_add it amt);
        do_withdrawals r (with_world s w)
    end.

  (** core.rs:331-347, 375-379 and the TrieRoots *)
  Record batch_out : Type := {
    o_first_txn_ix : nat; o_gas_used : Z; o_contract_code : list bytes; o_byte_code : list bytes; o_withdrawals : list (Z * Z);
    o_world : W; o_txns : T; o_receipts : T; (* before *)
    o_roots : Z * Z * Z (* after: state, transactions, receipts *) }.

  (** core.rs:403-621.  [loop_ix] counts the transactions seen, dummies
      included, and [loop_len] is their number in the block. *)
  Fixpoint middle_loop (batches : list (list (option txn_info))) (loop_len loop_ix : nat) (withdrawals : list (Z * Z))
    (world : W) (code : code_map) (txns receipts : T) (ix : nat) : option (list batch_out) :=
    match batches with
    | [] => Some []
    | b :: rest =>
        let s := {| s_world := world; s_code := code; s_txns := txns; s_receipts := receipts; s_ix := ix; b_gas := 0; b_byte_code := [];
                    b_contract_code := [[]]; b_storage_masks := []; b_state_mask := [] |} in
        try s <-
          (if ix =? 0 then
             try (masks, paths, w) <- do_pre_execution (s_world s);
             Some {| s_world := w; s_code := s_code s; s_txns := s_txns s; s_receipts := s_receipts s; s_ix := s_ix s; b_gas := b_gas s; b_byte_code := b_byte_code s;
                     b_contract_code := b_contract_code s; b_storage_masks := masks; b_state_mask := paths |}
           else Some s);
        try s <- do_txns b s;
        let loop_ix := loop_ix + length b in
        let last := loop_ix =? loop_len in
        try s <- (if last then do_withdrawals withdrawals s else Some s);
        (* before: the clones taken at the start of the batch, masked *)
        try w <- mask impl world (b_state_mask s);
        try r <- t_mask trie receipts (seq ix (s_ix s - ix));
        try t <- t_mask trie txns (seq ix (s_ix s - ix));
        try w <- mask_storage impl w (b_storage_masks s);
        let out := {| o_first_txn_ix := ix; o_gas_used := b_gas s; o_contract_code := b_contract_code s; o_byte_code := b_byte_code s;
                      o_withdrawals := if last then withdrawals else [];
                      o_world := w; o_txns := t; o_receipts := r;
                      o_roots := (root impl (s_world s), t_root trie (s_txns s), t_root trie (s_receipts s)) |} in
        try outs <- middle_loop rest loop_len loop_ix (if last then [] else withdrawals) (s_world s) (s_code s) (s_txns s) (s_receipts s) (s_ix s);
        Some (out :: outs)
    end.
  Definition middle (world : W) (batches : list (list (option txn_info))) (code : code_map) (withdrawals : list (Z * Z)) : option (list batch_out) :=
    middle_loop batches (length (concat batches)) 0 withdrawals world code (t_new trie) (t_new trie) 0.

  (** GenerationInputs, as far as it differs between batches *)
  Record inputs : Type := {
    g_txn_number_before : nat; g_gas_used_before : Z; g_gas_used_after : Z; g_signed_txns : list bytes; g_withdrawals : list (Z * Z);
    g_world : W; g_txns : T; g_receipts : T; g_roots_after : Z * Z * Z; g_contract_code : list (Z * bytes) }.
  (** core.rs:117-170 *)
  Fixpoint finish (outs : list batch_out) (running_gas_used : Z) : option (list inputs) :=
    match outs with
    | [] => Some []
    | o :: r =>
        try after <- u64_add running_gas_used (o_gas_used o);
        try gs <- finish r after;
        Some ({| g_txn_number_before := o_first_txn_ix o; g_gas_used_before := running_gas_used; g_gas_used_after := after;
                 g_signed_txns := o_byte_code o; g_withdrawals := o_withdrawals o; g_world := o_world o; g_txns := o_txns o; g_receipts := o_receipts o;
                 g_roots_after := o_roots o; g_contract_code := map (fun c => (code_hash c, c)) (o_contract_code o) |} :: gs)
    end.
  (** core.rs:42-173, after [start] has built the world; common/src/lib.rs:44-47 *)
  Definition gwei_to_wei (amt : Z) : option Z := if Z.ltb (amt * 10^9) (2^256) then Some (amt * 10^9)%Z else None.
  Fixpoint scale_withdrawals (ws : list (Z * Z)) : option (list (Z * Z)) :=
    match ws with
    | [] => Some []
    | (a, amt) :: r => try amt <- gwei_to_wei amt; try r <- scale_withdrawals r; Some ((a, amt) :: r)
    end.
  Definition entrypoint (world : W) (txns : list txn_info) (code : code_map) (withdrawals : list (Z * Z)) (batch_size_hint : nat) : option (list inputs) :=
    if batch_size_hint =? 0 then None
    else
      try ws <- scale_withdrawals withdrawals;
      try outs <- middle world (batch txns batch_size_hint) code ws;
      finish outs 0.
End Middle.

(** * core.rs:654-785: the hooks run by do_pre_execution *)
Section Hooks.
  Context {W Path Key : Type}.
  Variable impl : world_impl W Path Key.
  (** World::load_int (an error or an absent slot is 0 for the caller) and World::store_hash *)
  Variable load_int : W -> Z -> Z -> option Z.
  Variable store_hash : W -> Z -> Z -> Z -> option W.
  (** MptKey::from_slot_position, MptKey::from_hash, and keccak of two 32-byte words *)
  Variable slot_position : Z -> Key.
  Variable hash_key : Z -> Key.
  Variable keccak2 : Z -> Z -> Z.

  Definition masked : Type := (list (Z * list Key) * list Path * W)%type.
  Definition BEACON_ROOTS_CONTRACT_ADDRESS : Z := 0x000F3df6D732807Ef1319fB7B8bB8522d0Beac02.
  Definition HISTORY_BUFFER_LENGTH : Z := 8191.

  Fixpoint beacon_stores (l : list (Z * Z)) (masks : list (Z * list Key)) (w : W) : option (list (Z * list Key) * W) :=
    match l with
    | [] => Some (masks, w)
    | (ix, u) :: r =>
        let masks := extend_mask masks BEACON_ROOTS_CONTRACT_ADDRESS [slot_position ix] in
        if Z.eqb u 0 then
          try (w, key) <- reporting_destroy_slot impl w BEACON_ROOTS_CONTRACT_ADDRESS ix;
          beacon_stores r (extend_mask masks BEACON_ROOTS_CONTRACT_ADDRESS (opt_list key)) w
        else
          try w <- store_int impl w BEACON_ROOTS_CONTRACT_ADDRESS ix u;
          beacon_stores r (extend_mask masks BEACON_ROOTS_CONTRACT_ADDRESS [slot_position ix]) w
    end.
  (** core.rs:743-785 *)
  Definition do_beacon_hook (block_timestamp parent_beacon_block_root : Z) (w : W) : option masked :=
    let timestamp_idx := (block_timestamp mod HISTORY_BUFFER_LENGTH)%Z in
    let root_idx := (timestamp_idx + HISTORY_BUFFER_LENGTH)%Z in
    try (masks, w) <- beacon_stores [(timestamp_idx, block_timestamp); (root_idx, parent_beacon_block_root)] [] w;
    Some (masks, [path_of_address impl BEACON_ROOTS_CONTRACT_ADDRESS], w).

  Definition ADDRESS_SCALABLE_L2 : Z := 0x000000000000000000000000000000005ca1ab1e.
  Definition GLOBAL_EXIT_ROOT_ADDRESS : Z := 0xa40D5f56745a118D0906a34E69aeC8C0Db1cB8fA.
  Definition LAST_BLOCK_STORAGE_POS : Z := 0.
  Definition STATE_ROOT_STORAGE_POS : Z := 1.
  Definition TIMESTAMP_STORAGE_POS : Z := 2.
  Definition GLOBAL_EXIT_ROOT_STORAGE_POS : Z := 0.

  Fixpoint scalable_stores (l : list (Z * Z)) (masks : list (Z * list Key)) (w : W) : option (list (Z * list Key) * W) :=
    match l with
    | [] => Some (masks, w)
    | (ix, u) :: r =>
        if Z.eqb u 0 then None
        else
          try w <- store_int impl w ADDRESS_SCALABLE_L2 ix u;
          scalable_stores r (extend_mask masks ADDRESS_SCALABLE_L2 [slot_position ix]) w
    end.
  (** core.rs:659-736 *)
  Definition do_scalable_hook (block_number block_timestamp : Z) (ger_data : option (Z * Z)) (w : W) : option masked :=
    if Z.eqb block_number 0 then None
    else
      let timestamp := match load_int w ADDRESS_SCALABLE_L2 TIMESTAMP_STORAGE_POS with Some t => t | None => 0%Z end in
      let timestamp := Z.max timestamp block_timestamp in
      try (masks, w) <- scalable_stores [(LAST_BLOCK_STORAGE_POS, block_number); (TIMESTAMP_STORAGE_POS, timestamp)] [] w;
      let prev_block_root_hash := root impl w in
      let arr := keccak2 (block_number - 1) STATE_ROOT_STORAGE_POS in
      try w <- store_hash w ADDRESS_SCALABLE_L2 arr prev_block_root_hash;
      let masks := extend_mask masks ADDRESS_SCALABLE_L2 [hash_key arr] in
      let paths := [path_of_address impl ADDRESS_SCALABLE_L2] in
      match ger_data with
      | Some (ger_root, l1blockhash) =>
          let arr := keccak2 ger_root GLOBAL_EXIT_ROOT_STORAGE_POS in
          try w <- store_hash w GLOBAL_EXIT_ROOT_ADDRESS arr l1blockhash;
          Some (extend_mask masks GLOBAL_EXIT_ROOT_ADDRESS [hash_key arr], paths ++ [path_of_address impl GLOBAL_EXIT_ROOT_ADDRESS], w)
      | None => Some (masks, paths, w)
      end.
End Hooks.
