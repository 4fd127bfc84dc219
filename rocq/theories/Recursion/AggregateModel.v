(** * The recursive circuits that glue segment proofs into a proof of a chain

    Source: /repo/evm_arithmetization/src/fixed_recursive_verifier.rs and
    /repo/evm_arithmetization/src/proof.rs.

    Modelled: what every aggregation circuit says about public inputs: the
    layout of the public values, the selections, every [connect] and every
    conditional equality between the public values of a proof and those of the
    proofs it verifies, and which verifier key each inner proof is checked
    against.

    Simplifications, all stated where they apply:
    - the inner verifier is ideal: a proof for a key is a tree that satisfies
      the circuit of that key.  Plonky2 is not part of this repository;
    - a public input that carries a limb of a verifier key is not spelled out:
      the key at the end of the public inputs is the field [slot];
    - a Boolean target is a [bool] (they are all made by
      [add_virtual_bool_target_safe], which asserts that);
    - the Poseidon hash is the parameter [H], the proof of the segment itself
      (the root circuit) is the parameter [root], and a circuit that is not one
      of ours is the parameter [foreign]. *)

From Coq Require Import ZArith List Bool Lia.
Import ListNotations.
Open Scope Z_scope.

(** The Goldilocks prime, the field of the circuits. *)
Definition P : Z := 18446744069414584321.

(** ** Public values as targets *)

(** [TrieRootsTarget], proof.rs 971-978: each root is eight 32-bit limbs. *)
Record trie_roots := mkTR {
  state_root : list Z;
  transactions_root : list Z;
  receipts_root : list Z }.

(** [BlockMetadataTarget], proof.rs 1161-1189. *)
Record metadata := mkMD {
  block_beneficiary : list Z;
  block_timestamp : Z;
  block_number : Z;
  block_difficulty : Z;
  block_random : list Z;
  block_gaslimit : Z;
  block_chain_id : Z;
  block_base_fee : list Z;
  block_gas_used : Z;
  block_blob_gas_used : list Z;
  block_excess_blob_gas : list Z;
  parent_beacon_block_root : list Z;
  block_bloom : list Z }.

(** [BlockHashesTarget], proof.rs 1371-1378: 256 hashes of eight limbs, then
    the hash of the block itself. *)
Record hashes := mkBH { prev_hashes : list Z; cur_hash : list Z }.

(** [ExtraBlockDataTarget], proof.rs 1447-1465. *)
Record extra := mkED {
  checkpoint_state_trie_root : list Z;
  checkpoint_consolidated_hash : list Z;
  txn_number_before : Z;
  txn_number_after : Z;
  gas_used_before : Z;
  gas_used_after : Z }.

(** [RegistersDataTarget], proof.rs 1586-1599. *)
Record registers := mkRD {
  program_counter : Z;
  is_kernel : Z;
  stack_len : Z;
  stack_top : list Z;
  context : Z;
  gas_used : Z }.

(** [PublicValuesTarget], proof.rs 626-649.  A Merkle cap is the list of its
    elements, [DEFAULT_CAP_LEN * NUM_HASH_OUT_ELTS] of them; the burn address is
    the empty list when the feature [cdk_erigon] is off. *)
Record pv := mkPV {
  trie_roots_before : trie_roots;
  trie_roots_after : trie_roots;
  burn_addr : list Z;
  block_metadata : metadata;
  block_hashes : hashes;
  extra_block_data : extra;
  registers_before : registers;
  registers_after : registers;
  mem_before : list Z;
  mem_after : list Z }.

(** [FinalPublicValuesTarget], proof.rs 218-231. *)
Record final_pv := mkFV {
  chain_id : Z;
  f_checkpoint_state_trie_root : list Z;
  new_state_trie_root : list Z;
  f_checkpoint_consolidated_hash : list Z;
  new_consolidated_hash : list Z }.

(** ** The layout of the public inputs *)

(** [&l[o .. o + n]]. *)
Definition slice (o n : nat) (l : list Z) : list Z := firstn n (skipn o l).
Definition at_ (i : nat) (l : list Z) : Z := nth i l 0.

(** [TrieRootsTarget::SIZE], [BlockMetadataTarget::SIZE], … *)
Definition TR_SIZE : nat := 24.
Definition MD_SIZE : nat := 97.
Definition BH_SIZE : nat := 2056.
Definition ED_SIZE : nat := 16.
Definition RD_SIZE : nat := 13.
Definition MC_SIZE : nat := 64.
(** [BurnAddrTarget::get_size], proof.rs 1072-1077. *)
Definition BA_SIZE (cdk : bool) : nat := if cdk then 8 else 0.

(** The number of public values of [add_virtual_public_values_public_input]
    (recursive_verifier.rs 677-711).  This is not [PublicValuesTarget::SIZE],
    which leaves out the registers, the burn address and most of the caps and
    is only used as a lower bound in an assertion. *)
Definition PV_SIZE (cdk : bool) : nat :=
  (2 * TR_SIZE + BA_SIZE cdk + MD_SIZE + BH_SIZE + ED_SIZE + 2 * RD_SIZE + 2 * MC_SIZE)%nat.

(** proof.rs 986-1000 *)
Definition trie_roots_of (l : list Z) : trie_roots :=
  mkTR (slice 0 8 l) (slice 8 8 l) (slice 16 8 l).

(** proof.rs 1197-1227 *)
Definition metadata_of (l : list Z) : metadata :=
  mkMD (slice 0 5 l) (at_ 5 l) (at_ 6 l) (at_ 7 l) (slice 8 8 l) (at_ 16 l) (at_ 17 l)
       (slice 18 2 l) (at_ 20 l) (slice 21 2 l) (slice 23 2 l) (slice 25 8 l) (slice 33 64 l).

(** proof.rs 1387-1392 *)
Definition hashes_of (l : list Z) : hashes := mkBH (slice 0 2048 l) (slice 2048 8 l).

(** proof.rs 1473-1489 *)
Definition extra_of (l : list Z) : extra :=
  mkED (slice 0 8 l) (slice 8 4 l) (at_ 12 l) (at_ 13 l) (at_ 14 l) (at_ 15 l).

(** proof.rs 1607-1623 *)
Definition registers_of (l : list Z) : registers :=
  mkRD (at_ 0 l) (at_ 1 l) (at_ 2 l) (slice 3 8 l) (at_ 11 l) (at_ 12 l).

(** [PublicValuesTarget::from_public_inputs], proof.rs 855-904. *)
Definition pv_of (cdk : bool) (l : list Z) : pv :=
  let o1 := TR_SIZE in
  let o2 := (o1 + TR_SIZE)%nat in
  let o3 := (o2 + BA_SIZE cdk)%nat in
  let o4 := (o3 + MD_SIZE)%nat in
  let o5 := (o4 + BH_SIZE)%nat in
  let o6 := (o5 + ED_SIZE)%nat in
  let o7 := (o6 + RD_SIZE)%nat in
  let o8 := (o7 + RD_SIZE)%nat in
  let o9 := (o8 + MC_SIZE)%nat in
  mkPV (trie_roots_of (slice 0 TR_SIZE l))
       (trie_roots_of (slice o1 TR_SIZE l))
       (slice o2 (BA_SIZE cdk) l)
       (metadata_of (slice o3 MD_SIZE l))
       (hashes_of (slice o4 BH_SIZE l))
       (extra_of (slice o5 ED_SIZE l))
       (registers_of (slice o6 RD_SIZE l))
       (registers_of (slice o7 RD_SIZE l))
       (slice o8 MC_SIZE l)
       (slice o9 MC_SIZE l).

(** The final public values, in the order of
    [add_virtual_final_public_values_public_input] (recursive_verifier.rs
    656-675) and [FinalPublicValues::from_public_inputs] (proof.rs 171-199). *)
Definition FV_SIZE : nat := 25.
Definition final_of (l : list Z) : final_pv :=
  mkFV (at_ 0 l) (slice 1 8 l) (slice 9 8 l) (slice 17 4 l) (slice 21 4 l).

(** ** Gates *)

(** [CircuitBuilder::connect] and [conditional_assert_eq] on arrays. *)
Definition conn (x y : Z) : bool := x =? y.
Definition conn_arr (n : nat) (a b : list Z) : bool :=
  forallb (fun i => conn (at_ i a) (at_ i b)) (seq 0 n).
Definition ceq (c : bool) (x y : Z) : bool := negb c || (x =? y).
Definition ceq_arr (n : nat) (c : bool) (a b : list Z) : bool :=
  forallb (fun i => ceq c (at_ i a) (at_ i b)) (seq 0 n).
(** [builder.select(c, x, y)]. *)
Definition sel (c : bool) (x y : Z) : Z := if c then x else y.
Definition sel_arr (n : nat) (c : bool) (a b : list Z) : list Z :=
  map (fun i => sel c (at_ i a) (at_ i b)) (seq 0 n).
(** [builder.sub] and [builder.range_check(x, 32)]. *)
Definition fsub (x y : Z) : Z := (x - y) mod P.
Definition range_check32 (x : Z) : bool := x <? 2 ^ 32.

(** [TrieRootsTarget::{select, connect, conditional_assert_eq}], proof.rs
    1004-1064. *)
Definition tr_select (c : bool) (a b : trie_roots) : trie_roots :=
  mkTR (sel_arr 8 c (state_root a) (state_root b))
       (sel_arr 8 c (transactions_root a) (transactions_root b))
       (sel_arr 8 c (receipts_root a) (receipts_root b)).
Definition tr_connect (a b : trie_roots) : bool :=
  conn_arr 8 (state_root a) (state_root b) &&
  conn_arr 8 (transactions_root a) (transactions_root b) &&
  conn_arr 8 (receipts_root a) (receipts_root b).
Definition tr_cond (c : bool) (a b : trie_roots) : bool :=
  ceq_arr 8 c (state_root a) (state_root b) &&
  ceq_arr 8 c (transactions_root a) (transactions_root b) &&
  ceq_arr 8 c (receipts_root a) (receipts_root b).

(** [BurnAddrTarget::{select, connect, conditional_assert_eq}], proof.rs
    1094-1156. *)
Definition ba_select (cdk c : bool) (a b : list Z) : list Z := sel_arr (BA_SIZE cdk) c a b.
Definition ba_connect (cdk : bool) (a b : list Z) : bool := conn_arr (BA_SIZE cdk) a b.
Definition ba_cond (cdk c : bool) (a b : list Z) : bool := ceq_arr (BA_SIZE cdk) c a b.

(** [BlockMetadataTarget::select] and [connect], proof.rs 1231-1320. *)
Definition md_select (c : bool) (a b : metadata) : metadata :=
  mkMD (sel_arr 5 c (block_beneficiary a) (block_beneficiary b))
       (sel c (block_timestamp a) (block_timestamp b))
       (sel c (block_number a) (block_number b))
       (sel c (block_difficulty a) (block_difficulty b))
       (sel_arr 8 c (block_random a) (block_random b))
       (sel c (block_gaslimit a) (block_gaslimit b))
       (sel c (block_chain_id a) (block_chain_id b))
       (sel_arr 2 c (block_base_fee a) (block_base_fee b))
       (sel c (block_gas_used a) (block_gas_used b))
       (sel_arr 2 c (block_blob_gas_used a) (block_blob_gas_used b))
       (sel_arr 2 c (block_excess_blob_gas a) (block_excess_blob_gas b))
       (sel_arr 8 c (parent_beacon_block_root a) (parent_beacon_block_root b))
       (sel_arr 64 c (block_bloom a) (block_bloom b)).
Definition md_connect (a b : metadata) : bool :=
  conn_arr 5 (block_beneficiary a) (block_beneficiary b) &&
  conn (block_timestamp a) (block_timestamp b) &&
  conn (block_number a) (block_number b) &&
  conn (block_difficulty a) (block_difficulty b) &&
  conn_arr 8 (block_random a) (block_random b) &&
  conn (block_gaslimit a) (block_gaslimit b) &&
  conn (block_chain_id a) (block_chain_id b) &&
  conn_arr 2 (block_base_fee a) (block_base_fee b) &&
  conn (block_gas_used a) (block_gas_used b) &&
  conn_arr 2 (block_blob_gas_used a) (block_blob_gas_used b) &&
  conn_arr 2 (block_excess_blob_gas a) (block_excess_blob_gas b) &&
  conn_arr 8 (parent_beacon_block_root a) (parent_beacon_block_root b) &&
  conn_arr 64 (block_bloom a) (block_bloom b).

(** [BlockMetadataTarget::conditional_assert_eq], proof.rs 1323-1363.  As
    written: the blob gas used, the excess blob gas and the parent beacon root
    are not compared. *)
Definition md_cond (c : bool) (a b : metadata) : bool :=
  ceq_arr 5 c (block_beneficiary a) (block_beneficiary b) &&
  ceq c (block_timestamp a) (block_timestamp b) &&
  ceq c (block_number a) (block_number b) &&
  ceq c (block_difficulty a) (block_difficulty b) &&
  ceq_arr 8 c (block_random a) (block_random b) &&
  ceq c (block_gaslimit a) (block_gaslimit b) &&
  ceq c (block_chain_id a) (block_chain_id b) &&
  ceq_arr 2 c (block_base_fee a) (block_base_fee b) &&
  ceq c (block_gas_used a) (block_gas_used b) &&
  ceq_arr 64 c (block_bloom a) (block_bloom b).

(** [BlockHashesTarget], proof.rs 1396-1441. *)
Definition bh_select (c : bool) (a b : hashes) : hashes :=
  mkBH (sel_arr 2048 c (prev_hashes a) (prev_hashes b))
       (sel_arr 8 c (cur_hash a) (cur_hash b)).
Definition bh_connect (a b : hashes) : bool :=
  conn_arr 2048 (prev_hashes a) (prev_hashes b) && conn_arr 8 (cur_hash a) (cur_hash b).
Definition bh_cond (c : bool) (a b : hashes) : bool :=
  ceq_arr 2048 c (prev_hashes a) (prev_hashes b) && ceq_arr 8 c (cur_hash a) (cur_hash b).

(** [ExtraBlockDataTarget], proof.rs 1493-1580. *)
Definition ed_select (c : bool) (a b : extra) : extra :=
  mkED (sel_arr 8 c (checkpoint_state_trie_root a) (checkpoint_state_trie_root b))
       (sel_arr 4 c (checkpoint_consolidated_hash a) (checkpoint_consolidated_hash b))
       (sel c (txn_number_before a) (txn_number_before b))
       (sel c (txn_number_after a) (txn_number_after b))
       (sel c (gas_used_before a) (gas_used_before b))
       (sel c (gas_used_after a) (gas_used_after b)).
Definition ed_connect (a b : extra) : bool :=
  conn_arr 8 (checkpoint_state_trie_root a) (checkpoint_state_trie_root b) &&
  conn_arr 4 (checkpoint_consolidated_hash a) (checkpoint_consolidated_hash b) &&
  conn (txn_number_before a) (txn_number_before b) &&
  conn (txn_number_after a) (txn_number_after b) &&
  conn (gas_used_before a) (gas_used_before b) &&
  conn (gas_used_after a) (gas_used_after b).
Definition ed_cond (c : bool) (a b : extra) : bool :=
  ceq_arr 8 c (checkpoint_state_trie_root a) (checkpoint_state_trie_root b) &&
  ceq_arr 4 c (checkpoint_consolidated_hash a) (checkpoint_consolidated_hash b) &&
  ceq c (txn_number_before a) (txn_number_before b) &&
  ceq c (txn_number_after a) (txn_number_after b) &&
  ceq c (gas_used_before a) (gas_used_before b) &&
  ceq c (gas_used_after a) (gas_used_after b).

(** [RegistersDataTarget], proof.rs 1627-1678. *)
Definition rd_select (c : bool) (a b : registers) : registers :=
  mkRD (sel c (program_counter a) (program_counter b))
       (sel c (is_kernel a) (is_kernel b))
       (sel c (stack_len a) (stack_len b))
       (sel_arr 8 c (stack_top a) (stack_top b))
       (sel c (context a) (context b))
       (sel c (gas_used a) (gas_used b)).
Definition rd_connect (a b : registers) : bool :=
  conn (program_counter a) (program_counter b) &&
  conn (is_kernel a) (is_kernel b) &&
  conn (stack_len a) (stack_len b) &&
  conn_arr 8 (stack_top a) (stack_top b) &&
  conn (context a) (context b) &&
  conn (gas_used a) (gas_used b).
Definition rd_cond (c : bool) (a b : registers) : bool :=
  ceq c (program_counter a) (program_counter b) &&
  ceq c (is_kernel a) (is_kernel b) &&
  ceq c (stack_len a) (stack_len b) &&
  ceq_arr 8 c (stack_top a) (stack_top b) &&
  ceq c (context a) (context b) &&
  ceq c (gas_used a) (gas_used b).

(** [MemCapTarget], proof.rs 1708-1763. *)
Definition mc_select (c : bool) (a b : list Z) : list Z := sel_arr MC_SIZE c a b.
Definition mc_connect (a b : list Z) : bool := conn_arr MC_SIZE a b.
Definition mc_cond (c : bool) (a b : list Z) : bool := ceq_arr MC_SIZE c a b.

(** [PublicValuesTarget::select], proof.rs 907-967. *)
Definition pv_select (cdk c : bool) (a b : pv) : pv :=
  mkPV (tr_select c (trie_roots_before a) (trie_roots_before b))
       (tr_select c (trie_roots_after a) (trie_roots_after b))
       (ba_select cdk c (burn_addr a) (burn_addr b))
       (md_select c (block_metadata a) (block_metadata b))
       (bh_select c (block_hashes a) (block_hashes b))
       (ed_select c (extra_block_data a) (extra_block_data b))
       (rd_select c (registers_before a) (registers_before b))
       (rd_select c (registers_after a) (registers_after b))
       (mc_select c (mem_before a) (mem_before b))
       (mc_select c (mem_after a) (mem_after b)).

(** ** The circuits *)

(** [create_segment_aggregation_circuit], fixed_recursive_verifier.rs
    1190-1318: [pub] the public values of the proof, [l] and [r] those selected
    for its children. *)
Definition segment_agg_gates (cdk : bool) (pub l r : pv) (lhs_is_agg is_dummy : bool) : bool :=
  let is_not_dummy := negb is_dummy in
  tr_connect (trie_roots_before pub) (trie_roots_before l) &&
  tr_connect (trie_roots_after pub) (trie_roots_after l) &&
  md_connect (block_metadata pub) (block_metadata l) &&
  bh_connect (block_hashes pub) (block_hashes l) &&
  ed_connect (extra_block_data pub) (extra_block_data l) &&
  rd_connect (registers_before pub) (registers_before l) &&
  mc_connect (mem_before pub) (mem_before l) &&
  tr_cond is_not_dummy (trie_roots_before pub) (trie_roots_before r) &&
  tr_cond is_not_dummy (trie_roots_after pub) (trie_roots_after r) &&
  ba_cond cdk is_not_dummy (burn_addr l) (burn_addr r) &&
  ba_cond cdk is_not_dummy (burn_addr pub) (burn_addr r) &&
  md_cond is_not_dummy (block_metadata pub) (block_metadata r) &&
  bh_cond is_not_dummy (block_hashes pub) (block_hashes r) &&
  ed_cond is_not_dummy (extra_block_data pub) (extra_block_data r) &&
  rd_cond is_not_dummy (registers_after pub) (registers_after r) &&
  rd_cond is_not_dummy (registers_after l) (registers_before r) &&
  mc_cond is_not_dummy (mem_after pub) (mem_after r) &&
  mc_cond is_not_dummy (mem_after l) (mem_before r) &&
  negb (is_dummy && lhs_is_agg) &&
  mc_cond is_dummy (mem_after pub) (mem_after l) &&
  rd_cond is_dummy (registers_after pub) (registers_after l).

(** [connect_extra_public_values], 1634-1670. *)
Definition connect_extra_public_values (pvs l r : extra) : bool :=
  conn_arr 8 (checkpoint_state_trie_root pvs) (checkpoint_state_trie_root r) &&
  conn_arr 8 (checkpoint_state_trie_root pvs) (checkpoint_state_trie_root l) &&
  conn (txn_number_before pvs) (txn_number_before l) &&
  conn (txn_number_after pvs) (txn_number_after r) &&
  conn (txn_number_after l) (txn_number_before r) &&
  conn (gas_used_before pvs) (gas_used_before l) &&
  conn (gas_used_after pvs) (gas_used_after r) &&
  conn (gas_used_after l) (gas_used_before r).

(** [connect_initial_final_segment], 1509-1526; [main] and [halt] are the
    offsets of the kernel labels. *)
Definition connect_initial_final_segment (main halt : Z) (x : pv) : bool :=
  conn (stack_len (registers_before x)) 0 &&
  conn (stack_len (registers_after x)) 0 &&
  conn (context (registers_before x)) 0 &&
  conn (context (registers_after x)) 0 &&
  conn (gas_used (registers_before x)) 0 &&
  conn (is_kernel (registers_before x)) 1 &&
  conn (is_kernel (registers_after x)) 1 &&
  conn (program_counter (registers_after x)) halt &&
  conn (program_counter (registers_before x)) main.

(** [check_init_merkle_cap], 1486-1507; the constant cap is [cap]. *)
Definition check_init_merkle_cap (cap : list Z) (x : pv) : bool :=
  mc_connect (mem_before x) cap.

(** [create_batch_aggregation_circuit], 1353-1433. *)
Definition batch_agg_gates (cdk : bool) (main halt : Z) (cap : list Z) (pub l r : pv) : bool :=
  bh_connect (block_hashes pub) (block_hashes r) &&
  bh_connect (block_hashes pub) (block_hashes l) &&
  md_connect (block_metadata pub) (block_metadata r) &&
  md_connect (block_metadata pub) (block_metadata l) &&
  tr_connect (trie_roots_after pub) (trie_roots_after r) &&
  tr_connect (trie_roots_after l) (trie_roots_before r) &&
  tr_connect (trie_roots_before pub) (trie_roots_before l) &&
  ba_connect cdk (burn_addr l) (burn_addr r) &&
  ba_connect cdk (burn_addr pub) (burn_addr r) &&
  connect_extra_public_values (extra_block_data pub) (extra_block_data l) (extra_block_data r) &&
  rd_connect (registers_after pub) (registers_after r) &&
  rd_connect (registers_before pub) (registers_before l) &&
  connect_initial_final_segment main halt r &&
  connect_initial_final_segment main halt l &&
  check_init_merkle_cap cap r &&
  check_init_merkle_cap cap l.

(** [connect_block_hashes], 1896-1916. *)
Definition connect_block_hashes (l r : pv) : bool :=
  forallb (fun i =>
    forallb (fun j =>
      conn (at_ (8 * (i + 1) + j) (prev_hashes (block_hashes l)))
           (at_ (8 * i + j) (prev_hashes (block_hashes r)))) (seq 0 8)) (seq 0 255) &&
  forallb (fun i =>
    conn (at_ i (cur_hash (block_hashes l)))
         (at_ i (slice (255 * 8) 8 (prev_hashes (block_hashes r))))) (seq 0 8).

(** [connect_initial_values_block], 2007-2025; [empty_trie] are the limbs of the
    hash of the empty trie. *)
Definition connect_initial_values_block (empty_trie : list Z) (x : pv) : bool :=
  conn (txn_number_before (extra_block_data x)) 0 &&
  conn (gas_used_before (extra_block_data x)) 0 &&
  conn_arr 8 (transactions_root (trie_roots_before x)) empty_trie &&
  conn_arr 8 (receipts_root (trie_roots_before x)) empty_trie.

(** [connect_final_block_values_to_intermediary], 1995-2005. *)
Definition connect_final_block_values (x : pv) : bool :=
  conn (block_gas_used (block_metadata x)) (gas_used_after (extra_block_data x)).

(** [connect_checkpoint_block], 1965-1993. *)
Definition connect_checkpoint_block (H : list Z -> list Z) (x : pv) (has_not_parent : bool) : bool :=
  ceq_arr 8 has_not_parent (state_root (trie_roots_before x))
                           (checkpoint_state_trie_root (extra_block_data x)) &&
  ceq_arr 4 has_not_parent (checkpoint_consolidated_hash (extra_block_data x))
                           (H (prev_hashes (block_hashes x))).

(** [connect_block_proof], 1918-1963. *)
Definition connect_block_proof (H : list Z -> list Z) (empty_trie : list Z)
    (has_parent : bool) (l r : pv) : bool :=
  conn_arr 8 (state_root (trie_roots_after l)) (state_root (trie_roots_before r)) &&
  conn_arr 8 (checkpoint_state_trie_root (extra_block_data l))
             (checkpoint_state_trie_root (extra_block_data r)) &&
  conn (block_number (block_metadata l)) (fsub (block_number (block_metadata r)) 1) &&
  connect_initial_values_block empty_trie r &&
  connect_final_block_values r &&
  connect_checkpoint_block H r (negb has_parent) &&
  connect_block_hashes l r.

(** [check_block_timestamp], 1623-1633. *)
Definition check_block_timestamp (prev_timestamp timestamp : Z) : bool :=
  range_check32 (fsub timestamp prev_timestamp).

(** [create_block_circuit], 1540-1594: [parent] are the public values of the
    parent block proof, [agg] those of the proof of this block's batches. *)
Definition block_gates (cdk : bool) (H : list Z -> list Z) (empty_trie : list Z)
    (has_parent : bool) (pub parent agg : pv) : bool :=
  tr_connect (trie_roots_before pub) (trie_roots_before parent) &&
  tr_connect (trie_roots_after pub) (trie_roots_after agg) &&
  md_connect (block_metadata pub) (block_metadata agg) &&
  bh_connect (block_hashes pub) (block_hashes agg) &&
  ed_connect (extra_block_data pub) (extra_block_data agg) &&
  check_block_timestamp (block_timestamp (block_metadata parent))
                        (block_timestamp (block_metadata agg)) &&
  ba_connect cdk (burn_addr parent) (burn_addr agg) &&
  ba_connect cdk (burn_addr pub) (burn_addr agg) &&
  connect_block_proof H empty_trie has_parent parent agg.

(** [FinalPublicValuesTarget::connect_parent], proof.rs 266-309. *)
Definition wrapper_gates (H : list Z -> list Z) (f : final_pv) (x : pv) : bool :=
  conn (chain_id f) (block_chain_id (block_metadata x)) &&
  conn_arr 8 (f_checkpoint_state_trie_root f) (state_root (trie_roots_before x)) &&
  conn_arr 8 (new_state_trie_root f) (state_root (trie_roots_after x)) &&
  conn_arr 8 (f_checkpoint_state_trie_root f) (checkpoint_state_trie_root (extra_block_data x)) &&
  conn_arr 4 (f_checkpoint_consolidated_hash f)
             (checkpoint_consolidated_hash (extra_block_data x)) &&
  conn_arr 4 (new_consolidated_hash f)
             (H (skipn 8 (prev_hashes (block_hashes x)) ++ cur_hash (block_hashes x))).

(** [create_two_to_one_block_circuit], 1846-1881: [vals] are the public inputs
    before the key, [l] and [r] those selected for the children. *)
Definition two_to_one_gates (H : list Z -> list Z) (vals l r : list Z) (l_agg r_agg : bool) : bool :=
  let side (c : bool) (x : list Z) := sel_arr 4 c (slice 0 4 x) (H (slice 0 FV_SIZE x)) in
  conn_arr 4 vals (H (side l_agg l ++ side r_agg r)) &&
  forallb (fun i => conn (at_ i vals) 0) (seq 4 (FV_SIZE - 4)).

(** ** Proofs *)

(** The verifier keys: one for each circuit of [AllRecursiveCircuits]
    (fixed_recursive_verifier.rs 84-118), and those of all other circuits. *)
Inductive vkey := VRoot | VSegment | VBatch | VBlock | VWrapper | VTwoToOne | VForeign (n : nat).

(** Public inputs: the values, then a verifier key
    ([add_verifier_data_public_inputs], called by every circuit here). *)
Record pis := mkPIs { vals : list Z; slot : vkey }.

(** A proof is a tree.  In an aggregation circuit both candidates for a child,
    the cyclic one and the base one, have public input targets; only one of them
    is verified.  [BlockP0] is a block proof with [has_parent_block] false: the
    public inputs of the parent are then targets without a proof
    ([conditionally_verify_cyclic_proof_or_dummy], 1597-1603). *)
Inductive proof :=
| ForeignP (n : nat) (i : pis)
| RootP (i : pis)
| SegmentP (i : pis) (l_agg r_agg dummy : bool) (la lb ra rb : pis) (lp rp : proof)
| BatchP (i : pis) (l_agg r_agg : bool) (la lb ra rb : pis) (lp rp : proof)
| BlockP0 (i parent agg : pis) (ap : proof)
| BlockP (i parent agg : pis) (pp ap : proof)
| WrapperP (i blk : pis) (bp : proof)
| TwoToOneP (i : pis) (l_agg r_agg : bool) (la lb ra rb : pis) (lp rp : proof).

Definition key_of (p : proof) : vkey :=
  match p with
  | ForeignP n _ => VForeign n
  | RootP _ => VRoot
  | SegmentP _ _ _ _ _ _ _ _ _ _ => VSegment
  | BatchP _ _ _ _ _ _ _ _ _ => VBatch
  | BlockP0 _ _ _ _ | BlockP _ _ _ _ _ => VBlock
  | WrapperP _ _ _ => VWrapper
  | TwoToOneP _ _ _ _ _ _ _ _ _ => VTwoToOne
  end.

Definition inputs_of (p : proof) : pis :=
  match p with
  | ForeignP _ i => i
  | RootP i => i
  | SegmentP i _ _ _ _ _ _ _ _ _ => i
  | BatchP i _ _ _ _ _ _ _ _ => i
  | BlockP0 i _ _ _ => i
  | BlockP i _ _ _ _ => i
  | WrapperP i _ _ => i
  | TwoToOneP i _ _ _ _ _ _ _ _ => i
  end.

Section Circuits.
  Variable cdk : bool.
  Variable H : list Z -> list Z.
  Variable main halt : Z.
  Variable cap empty_trie : list Z.
  Variable root : pis -> Prop.
  Variable foreign : nat -> pis -> Prop.

  (** The number of public inputs is part of the circuit's common data, so it is
      that of the targets; field elements are canonical. *)
  Definition shaped (n : nat) (i : pis) : Prop :=
    length (vals i) = n /\ Forall (fun x => 0 <= x < P) (vals i).

  Definition pub (i : pis) : pv := pv_of cdk (vals i).

  (** [verify_proof] against key [k] with public inputs [i]. *)
  Definition against (p : proof) (k : vkey) (i : pis) : Prop :=
    key_of p = k /\ inputs_of p = i.

  (** [conditionally_verify_cyclic_proof(is_agg, agg, base, base_vk)] inside a
      proof whose own key slot is [k]: the key carried by the cyclic candidate is
      connected to [k], and the proof that is verified is the cyclic one against
      [k] or the base one against the constant base key. *)
  Definition cyclic (p : proof) (is_agg : bool) (agg base : pis) (k base_vk : vkey) : Prop :=
    slot agg = k /\
    against p (if is_agg then k else base_vk) (if is_agg then agg else base).

  (** When an inner verifier accepts. *)
  Fixpoint valid (p : proof) : Prop :=
    match p with
    | ForeignP n i => foreign n i
    | RootP i => shaped (PV_SIZE cdk) i /\ root i
    | SegmentP i la_ ra_ dummy la lb ra rb lp rp =>
        Forall (shaped (PV_SIZE cdk)) [i; la; lb; ra; rb] /\
        (* add_segment_agg_child, 1672-1694 *)
        cyclic lp la_ la lb (slot i) VRoot /\
        (* add_segment_agg_child_with_dummy, 1696-1725 *)
        cyclic rp ra_ ra (if dummy then lb else rb) (slot i) VRoot /\
        valid lp /\ valid rp /\
        segment_agg_gates cdk (pub i)
          (pv_select cdk la_ (pub la) (pub lb))
          (pv_select cdk ra_ (pub ra) (pub rb)) la_ dummy = true
    | BatchP i la_ ra_ la lb ra rb lp rp =>
        Forall (shaped (PV_SIZE cdk)) [i; la; lb; ra; rb] /\
        (* add_batch_agg_child, 1727-1751 *)
        cyclic lp la_ la lb (slot i) VSegment /\
        cyclic rp ra_ ra rb (slot i) VSegment /\
        valid lp /\ valid rp /\
        batch_agg_gates cdk main halt cap (pub i)
          (pv_select cdk la_ (pub la) (pub lb))
          (pv_select cdk ra_ (pub ra) (pub rb)) = true
    | BlockP0 i parent agg ap =>
        Forall (shaped (PV_SIZE cdk)) [i; parent; agg] /\
        slot parent = slot i /\
        against ap VBatch agg /\ valid ap /\
        block_gates cdk H empty_trie false (pub i) (pub parent) (pub agg) = true
    | BlockP i parent agg pp ap =>
        Forall (shaped (PV_SIZE cdk)) [i; parent; agg] /\
        slot parent = slot i /\
        against pp (slot i) parent /\ valid pp /\
        against ap VBatch agg /\ valid ap /\
        block_gates cdk H empty_trie true (pub i) (pub parent) (pub agg) = true
    | WrapperP i blk bp =>
        shaped FV_SIZE i /\ shaped (PV_SIZE cdk) blk /\
        against bp VBlock blk /\ valid bp /\
        wrapper_gates H (final_of (vals i)) (pub blk) = true
    | TwoToOneP i la_ ra_ la lb ra rb lp rp =>
        Forall (shaped FV_SIZE) [i; la; lb; ra; rb] /\
        cyclic lp la_ la lb (slot i) VWrapper /\
        cyclic rp ra_ ra rb (slot i) VWrapper /\
        valid lp /\ valid rp /\
        two_to_one_gates H (vals i)
          (sel_arr FV_SIZE la_ (vals la) (vals lb))
          (sel_arr FV_SIZE ra_ (vals ra) (vals rb)) la_ ra_ = true
    end.

  (** [verify_block] (2703-2710), [verify_block_wrapper] (2760-2767) and
      [verify_two_to_one_block] (2824-2831): the first and the last also check
      the key at the end of the public inputs
      ([check_cyclic_proof_verifier_data]). *)
  Definition verify_block (p : proof) : Prop :=
    valid p /\ key_of p = VBlock /\ slot (inputs_of p) = VBlock.
  Definition verify_block_wrapper (p : proof) : Prop :=
    valid p /\ key_of p = VWrapper.
  Definition verify_two_to_one_block (p : proof) : Prop :=
    valid p /\ key_of p = VTwoToOne /\ slot (inputs_of p) = VTwoToOne.
End Circuits.
