{
 "claims": [
  {
   "property": "C01",
   "status": "proved",
   "theorems": [
    "C01_history_refines_map",
    "C01_insert_then_get",
    "C01_history_prefix_free_partial",
    "C01_get_panics_refuted",
    "C01_get_prefix_key_refuted",
    "C01_insert_short_key_refuted"
   ],
   "note": "Proved for all histories over fixed-length keys; for prefix-free keys of varying length every answer is right but a lookup of an absent key can panic; outside prefix-free keys the API is wrong (witnesses)."
  },
  {
   "property": "C02",
   "status": "proved",
   "theorems": [
    "C02_delete_then_get",
    "C02_insert_delete_roundtrip",
    "C02_delete_drops_branch_value_refuted"
   ],
   "note": "Same domain as C01, both strategies."
  },
  {
   "property": "C03",
   "status": "proved",
   "theorems": [
    "C03_same_contents_same_trie",
    "C03_same_contents_same_root"
   ],
   "note": ""
  },
  {
   "property": "C04",
   "status": "proved",
   "theorems": [
    "C04_iteration_complete",
    "C04_iteration_with_hash_nodes"
   ],
   "note": ""
  },
  {
   "property": "C05",
   "status": "proved",
   "theorems": [
    "C05_operations",
    "C05_stateless_execution",
    "C05_insert_outcome",
    "C05_get",
    "C05_delete_error",
    "C05_collapse_to_extension_refuted",
    "C05_reject_panics_refuted"
   ],
   "note": "Strategy Reject; the other strategy changes the root (witness), and Reject can panic while building its error (witness)."
  },
  {
   "property": "C06",
   "status": "proved",
   "theorems": [
    "C06_same_root",
    "C06_requested_keys",
    "C06_minimal",
    "C06_failures",
    "C06_fixed_length_keys",
    "C06_short_key_panics_refuted"
   ],
   "note": "Keys ending inside an extension panic (witness)."
  },
  {
   "property": "C07",
   "status": "proved",
   "theorems": [
    "C07_independent",
    "C07_empty_list_refuted"
   ],
   "note": "Holds when every key list has a non-empty key; false otherwise (witness)."
  },
  {
   "property": "C08",
   "status": "partial",
   "theorems": [
    "C08_no_root_interning",
    "C08_exclusive",
    "C08_clone_stale_refuted",
    "C08_failed_extend_stale_refuted"
   ],
   "note": "False in general (two witnesses); proved under either of two side conditions on the interleaving."
  },
  {
   "property": "C09",
   "status": "proved",
   "theorems": [
    "C09_get_nibble",
    "C09_equality",
    "C09_pop_next_front",
    "C09_pop_next_back",
    "C09_pop_empty_panics",
    "C09_pop_front",
    "C09_pop_back",
    "C09_pop_too_many_panics",
    "C09_push_nibble",
    "C09_push_nibbles",
    "C09_range",
    "C09_truncate",
    "C09_split",
    "C09_reverse",
    "C09_identical",
    "C09_diff_idx"
   ],
   "note": "All sequences below 80 nibbles (the word holds 80); pushes panic beyond 64 as documented."
  },
  {
   "property": "C10",
   "status": "proved",
   "theorems": [
    "C10_encode_spec",
    "C10_encode_injective",
    "C10_decode_extension",
    "C10_decode_leaf_refuted",
    "C10_decode_empty_panics_refuted"
   ],
   "note": "Decoding inverts encoding for extension paths; for leaf paths the decoder is wrong (witness)."
  },
  {
   "property": "C11",
   "status": "proved",
   "theorems": [
    "C11_path_is_in_the_trie",
    "C11_path_follows_key",
    "C11_ends_in_leaf_iff",
    "C11_final_node",
    "C11_path_agrees_with_get"
   ],
   "note": ""
  },
  {
   "property": "C12",
   "status": "proved",
   "theorems": [
    "C12_report"
   ],
   "note": ""
  },
  {
   "property": "C13",
   "status": "proved",
   "theorems": [
    "C13_equal_roots_no_diff",
    "C13_points_are_real",
    "C13_covers_all_differences",
    "C13_empty_iff_equal_roots",
    "C13_branch_value_refuted"
   ],
   "note": "Tries with branch values (prefix keys) are excluded; C13_branch_value_refuted shows the diff misses them."
  },
  {
   "property": "C14",
   "status": "proved",
   "theorems": [
    "C14_split_length",
    "C14_join_split",
    "C14_split_injective",
    "C14_remainder_injective",
    "C14_long_prefix_refuted"
   ],
   "note": "Prefixes up to 252 bits; longer ones panic (witness)."
  },
  {
   "property": "C15",
   "status": "proved",
   "theorems": [
    "C15_get",
    "C15_set_total",
    "C15_delete_is_set_zero",
    "C15_get_absent_refuted",
    "C15_close_keys_refuted"
   ],
   "note": "get of an absent key can panic and keys sharing 252 path bits make set panic (witnesses)."
  },
  {
   "property": "C16",
   "status": "proved",
   "theorems": [
    "C16_root_from_contents",
    "C16_root_binds_contents"
   ],
   "note": ""
  },
  {
   "property": "C17",
   "status": "proved",
   "theorems": [
    "C17_serialize_and_prune",
    "C17_serialize",
    "C17_tree_with_hash_nodes"
   ],
   "note": "Serializations shorter than 2^64 words."
  },
  {
   "property": "C18",
   "status": "proved",
   "theorems": [
    "C18_pad_length",
    "C18_pad_injective",
    "C18_hash_injective",
    "C18_elements_canonical"
   ],
   "note": ""
  },
  {
   "property": "C19",
   "status": "proved",
   "theorems": [
    "C19_addcy_sound"
   ],
   "note": "At most 2^32 rows (the 2-adicity of the field bounds any committed trace)."
  },
  {
   "property": "C20",
   "status": "proved",
   "theorems": [
    "C20_mul_sound"
   ],
   "note": ""
  },
  {
   "property": "C21",
   "status": "proved",
   "theorems": [
    "C21_modular_sound"
   ],
   "note": ""
  },
  {
   "property": "C22",
   "status": "proved",
   "theorems": [
    "C22_divmod_shift_sound",
    "C22_shift_evm",
    "C22_div_by_zero_partial"
   ],
   "note": "The claim for a zero denominator is false, see C49."
  },
  {
   "property": "C23",
   "status": "proved",
   "theorems": [
    "C23_byte_sound"
   ],
   "note": ""
  },
  {
   "property": "C24",
   "status": "proved",
   "theorems": [
    "C24_generation_complete",
    "C24_result"
   ],
   "note": "Trace generation for all sixteen operations and range checks is total, its table satisfies all constraints and the range-check lookup, and its visible rows are the operations in order. Table length bound 2^32 is the field's 2-adicity. eval_ext_circuit not modelled."
  },
  {
   "property": "C25",
   "status": "proved",
   "theorems": [
    "C25_logic_sound",
    "C25_logic_complete",
    "C25_result"
   ],
   "note": "Soundness of an accepted logic table, completeness of trace generation, and the result of an operation."
  },
  {
   "property": "C26",
   "status": "proved",
   "theorems": [
    "C26_memory_sound",
    "C26_first_row_refuted"
   ],
   "note": "Hypotheses: table of at most 2^31 rows accepted by constraints and lookups; the looking tables put small timestamps/addresses and boolean flags on visible rows (ctl_ok); no two operations on one address share a timestamp (no_races). The exception for the first row is shown real."
  },
  {
   "property": "C27",
   "status": "partial",
   "theorems": [
    "C27_exported_partial",
    "C27_trie_data_refuted",
    "C27_dummy_read_refuted",
    "C27_stale_refuted"
   ],
   "note": "The full claim is refuted in three ways: the filter is free when the next row is in a preinitialised segment, a dummy read appended to an address drops its value, and is_stale can be +1 and -1 in a live context. The partial theorem characterises export exactly when none of these happens."
  },
  {
   "property": "C28",
   "status": "proved",
   "theorems": [
    "C28_byte_packing_sound",
    "C28_byte_packing_complete",
    "C28_no_transfer_refuted"
   ],
   "note": "Soundness for every accepted table; completeness of generation whenever some operation is non-empty; with none the generated table is rejected (witness)."
  },
  {
   "property": "C29",
   "status": "partial",
   "theorems": [
    "C29_without_wrong_rules",
    "C29_optimizer_partial",
    "C29_byte_refuted",
    "C29_de_morgan_refuted"
   ],
   "note": "False of the code: folding BYTE uses the little-endian index, and the De Morgan rewrite is wrong when the second operand is DUP1 (witness programs for both). With these two rewrites left out the optimizer is proved correct for every program and machine; the real optimizer is proved correct for programs where they cannot fire (no BYTE, and no NOT or no DUP1). Labels have the same symbolic address before and after."
  },
  {
   "property": "C30",
   "status": "proved",
   "theorems": [
    "C30_terminates",
    "C30_never_grows",
    "C30_no_panic"
   ],
   "note": "Length in items and in assembled bytes. Termination includes the possible panic of a constant shift by 2^64 or more (shown by an example); without SHL and SHR there is a result."
  },
  {
   "property": "C31",
   "status": "proved",
   "theorems": [
    "C31_stack_macro"
   ],
   "note": "For every expansion that the search returns and whose mnemonics exist (DUP/SWAP 1-16; the assembler panics on others), for any heap tie-breaking, hash order and costs. That the search always finds a path is not claimed."
  },
  {
   "property": "C32",
   "status": "proved",
   "theorems": [
    "C32_permutation_swaps"
   ],
   "note": "For stacks of at most 256 elements (indices are cast to u8), any hash order; a panic for lists that are not rearrangements."
  },
  {
   "property": "C33",
   "status": "proved",
   "theorems": [
    "C33_layout",
    "C33_accepts"
   ],
   "note": "For the layout and encoding passes over fully expanded files, of any size; an address is encoded modulo 2^24, so it is exact below 2^24 bytes. C33_accepts says exactly when the passes do not panic."
  },
  {
   "property": "C34",
   "status": "proved",
   "theorems": [
    "C34_batch"
   ],
   "note": ""
  },
  {
   "property": "C35",
   "status": "proved",
   "theorems": [
    "C35_chain",
    "C35_type1_masks",
    "C35_type1_chain"
   ],
   "note": "For any world whose masking keeps roots (masks_keep_roots); the type-1 world is shown to (C35_type1_masks), so C35_type1_chain has no such hypothesis."
  },
  {
   "property": "C36",
   "status": "proved",
   "theorems": [
    "C36_execute",
    "C36_unique"
   ],
   "note": "Both directions: the machine accepts exactly the serializations of tree lists and returns the trees. frontend rejects lists of other than one tree."
  },
  {
   "property": "C37",
   "status": "proved",
   "theorems": [
    "C37_decode_key",
    "C37_decode_encode",
    "C37_empty_path_refuted"
   ],
   "note": "For non-empty paths; the decoding of an encoded empty path is refuted (it reads the flag byte as a nibble), as the wire format has no empty path."
  },
  {
   "property": "C38",
   "status": "partial",
   "theorems": [
    "C38_closed",
    "C38_single",
    "C38_unknown",
    "C38_follow",
    "C38_same_block_refuted",
    "C38_overflow_refuted"
   ],
   "note": "Proved for closed intervals whose ends are written differently, single blocks and the follow mode; refuted where two spellings name the same block and for a last block of 2^64 - 1."
  },
  {
   "property": "C39",
   "status": "proved",
   "theorems": [
    "C39_retry"
   ],
   "note": "Time is not modelled."
  },
  {
   "property": "C40",
   "status": "partial",
   "theorems": [
    "C40_step",
    "C40_sync",
    "C40_writes",
    "C40_new",
    "C40_frontend",
    "C40_block",
    "Type1WorldDemo.C40_create_storage_refuted",
    "Type1WorldDemo.C40_destroy_refuted"
   ],
   "note": "Proved for all worlds the constructor or the frontend makes, all writes, deletions, updates and masks, and for every world of a block. create_storage on an account that has storage, and destroying an account before its storage, are refuted; the block loop does neither (C40_block)."
  },
  {
   "property": "C41",
   "status": "proved",
   "theorems": [
    "C41_round_trip",
    "C41_injective",
    "C41_unpack",
    "C41_rejected",
    "C41_canonical_refuted"
   ],
   "note": "Unpacking looks at the three lowest 32-bit limbs only; C41_canonical_refuted: two words may denote one cell (limbs above the third are ignored)."
  },
  {
   "property": "C42",
   "status": "proved",
   "theorems": [
    "C42_set",
    "C42_history",
    "C42_new",
    "C42_preinitialized",
    "C42_preinit_memory"
   ],
   "note": "For memories where every context has the 39 segments, which new() makes and every operation keeps; allocation never fails in the model."
  },
  {
   "property": "C43",
   "status": "proved",
   "theorems": [
    "C43_bytes_roundtrip",
    "C43_h256_roundtrip",
    "C43_hex_digits_roundtrip",
    "C43_integer_conversion"
   ],
   "note": ""
  },
  {
   "property": "C44",
   "status": "proved",
   "theorems": [
    "C44_root_binds",
    "C44_equal_roots_equal_tries",
    "C44_witness_soundness"
   ],
   "note": ""
  },
  {
   "property": "C45",
   "status": "proved",
   "theorems": [
    "C45_root_is_yellow_paper_root"
   ],
   "note": ""
  },
  {
   "property": "C46",
   "status": "proved",
   "theorems": [
    "C46_partial_tree_faithful",
    "C46_nested_hash_refuted"
   ],
   "note": "Hash nodes placed top-down below one another are lost (witness), hence the prefix condition."
  },
  {
   "property": "C47",
   "status": "proved",
   "theorems": [
    "C47_push_pop",
    "C47_pop",
    "C47_get_bit",
    "C47_add",
    "C47_common_prefix",
    "C47_push_overflow_refuted"
   ],
   "note": ""
  },
  {
   "property": "C48",
   "status": "proved",
   "theorems": [
    "C48_entry_keys_distinct"
   ],
   "note": ""
  },
  {
   "property": "C49",
   "status": "proved",
   "theorems": [
    "C49_div_by_zero_refuted",
    "C49_shr_large_refuted"
   ],
   "note": "Refutation with witnesses: the constraints do not determine DIV by zero, nor SHR with a zero third register."
  },
  {
   "property": "C50",
   "status": "partial",
   "theorems": [
    "C50_visible_rows_sound",
    "C50_range_check_opcode_refuted"
   ],
   "note": "Proved for rows that are not range checks; refuted without that restriction."
  },
  {
   "property": "C51",
   "status": "partial",
   "theorems": [
    "C51_logic_circuit",
    "C51_memory_circuit",
    "C51_mem_continuation_circuit",
    "C51_byte_packing_circuit"
   ],
   "note": "Proved for the logic, memory, memory continuation and byte packing tables; arithmetic, CPU and keccak tables not yet."
  },
  {
   "property": "C52",
   "status": "proved",
   "theorems": [
    "C52_hygiene",
    "C52_terminates",
    "C52_fuel",
    "C52_recursive_macro_diverges"
   ],
   "note": "Macros whose bodies write no ordinary labels; the macro counter is unbounded in the model (u32 in the code)."
  },
  {
   "property": "C53",
   "status": "proved",
   "theorems": [
    "C53_sequential",
    "C53_hint_independent",
    "C53_type1_hint_independent"
   ],
   "note": "The world, the index tries, keccak and the pre-execution are parameters, instantiated with the type-1 world in C53_type1_hint_independent; overflow and panics abort."
  },
  {
   "property": "C54",
   "status": "proved",
   "theorems": [
    "C54_masks_cover",
    "C54_type1_reads"
   ],
   "note": "C54_type1_reads: for type 1 the touched accounts and slots read the same in the pruned world."
  },
  {
   "property": "C55",
   "status": "partial",
   "theorems": [
    "C53_sequential",
    "C55_once_idempotent",
    "C55_beacon_idempotent",
    "C55_pre_execution_once_refuted"
   ],
   "note": "Once for blocks with a transaction and for idempotent hooks such as the beacon root; refuted for the scalable hook on an empty block."
  },
  {
   "property": "C56",
   "status": "partial",
   "theorems": [
    "C56_parse",
    "C56_unambiguous",
    "C56_parse_cbor",
    "C56_no_panic_refuted"
   ],
   "note": "Acceptance is an equivalence, for any CBOR decoder meeting the laws and for a concrete one; freedom from panics is refuted (a 33-byte balance)."
  },
  {
   "property": "C57",
   "status": "partial",
   "theorems": [
    "C57_storage",
    "C57_frontend",
    "C57_noncanonical_refuted"
   ],
   "note": "For canonical trees with keys of 64 nibbles; refuted for non-canonical trees."
  },
  {
   "property": "C58",
   "status": "partial",
   "theorems": [
    "C58_fold",
    "C58_unique",
    "C58_world",
    "C58_accepts",
    "C58_rejects",
    "C58_root",
    "C58_lone_leaf_refuted"
   ],
   "note": "Acceptance and contents are equivalences; the root holds for compact trees whose leaves are on the path of their key, under collision freedom on the nodes hashed, and is refuted for a lone leaf under a branch."
  },
  {
   "property": "C59",
   "status": "partial",
   "theorems": [
    "C59_update_balance",
    "C59_update_nonce",
    "C59_set_code",
    "C59_store",
    "C59_destroy",
    "C59_destroy_storage",
    "C59_destroy_slot",
    "C59_load",
    "C59_ok",
    "C59_root",
    "C59_root_binds",
    "C59_incremental",
    "C59_code_length_stale_refuted"
   ],
   "note": "Proved except for set_code with a hash, refuted."
  },
  {
   "property": "C60",
   "status": "proved",
   "theorems": [
    "C60_storages_ok",
    "C60_store_int",
    "C60_destroy_slot",
    "C60_update_balance",
    "C60_update_nonce",
    "C60_set_code",
    "C60_destroy",
    "C60_update_total",
    "C60_mask",
    "C60_mask_storage"
   ],
   "note": "For worlds that are consistent (C40) with canonical storage tries; C60_mask_storage for addresses with different hashes."
  },
  {
   "property": "C61",
   "status": "proved",
   "theorems": [
    "C54_type1_reads",
    "C40_block",
    "C35_type1_chain"
   ],
   "note": "Hash values of addresses in the block are assumed different; the receipt parsing and the hash are parameters."
  },
  {
   "property": "C62",
   "status": "proved",
   "theorems": [
    "C62_run_log",
    "C62_segment_log",
    "C62_run_cpu",
    "C62_store_over_operand_refuted",
    "C62_store_over_top_refuted"
   ],
   "note": "For runs through clean states (MachineRun.clean); the two refutations show that the conditions on stores cannot be dropped."
  },
  {
   "property": "C63",
   "status": "proved",
   "theorems": [
    "C63_user_opcodes",
    "C63_effect_arity",
    "C63_stack_instruction"
   ],
   "note": "For states meeting the invariant of C62 (wf, bounded)."
  },
  {
   "property": "C64",
   "status": "proved",
   "theorems": [
    "C64_exception",
    "C64_syscall",
    "C64_exit_kernel",
    "C64_round_trip"
   ],
   "note": "Gas below 2^32, as the machine keeps it."
  },
  {
   "property": "C65",
   "status": "partial",
   "theorems": [
    "C65_jump",
    "C65_jumpi",
    "C65_quiet",
    "C65_observe_contract",
    "C65_user_jump_observes_refuted",
    "C65_jumpi_poison_refuted",
    "C65_first_code_stays_refuted",
    "C65_user_jump_panics_refuted"
   ],
   "note": "The jump is right for every destination where the observation does not fail; that the known codes hash to their keys is proved for jumps of the kernel with the code as return data, and refuted for a user program that has a JUMPDEST at the offset of the kernel label."
  },
  {
   "property": "C66",
   "status": "proved",
   "theorems": [
    "C66_mload_general",
    "C66_mstore_general",
    "C66_mload_32bytes",
    "C66_mstore_32bytes",
    "C66_keccak_general",
    "C66_set_context",
    "C66_context_round_trip"
   ],
   "note": "Stores outside the stack of the current context."
  },
  {
   "property": "C67",
   "status": "proved",
   "theorems": [
    "C67_user_step",
    "C67_user_run"
   ],
   "note": "For programs that do not jump to the labels where the observation may fail."
  },
  {
   "property": "C68",
   "status": "partial",
   "theorems": [
    "C68_accepts",
    "C68_round_trip",
    "C68_trailing_refuted"
   ],
   "note": "The exact set of accepted texts is proved; it is larger than the documented one."
  },
  {
   "property": "C69",
   "status": "partial",
   "theorems": [
    "C69_checks",
    "C69_genesis_refuted"
   ],
   "note": "For starts above 0; refuted at 0."
  },
  {
   "property": "C70",
   "status": "partial",
   "theorems": [
    "C70_digest",
    "C70_initialize",
    "C70_verifier",
    "C70_empty",
    "C70_test_flag_refuted"
   ],
   "note": "For runs with one test flag per directory; refuted across flags."
  },
  {
   "property": "C71",
   "status": "partial",
   "theorems": [
    "C71_from_block",
    "C71_missing",
    "C71_fetch",
    "C71_short_answer_refuted",
    "C71_odd_needs_target_refuted"
   ],
   "note": "For a node that knows the blocks up to the target and answers the call fully, with zeros, with another shape or not at all."
  },
  {
   "property": "C72",
   "status": "partial",
   "theorems": [
    "C72_block",
    "C72_complete",
    "C72_single_batch",
    "C72_failed_segment_refuted"
   ],
   "note": "For blocks whose segments and batches do not fail; refuted when a segment fails and the aggregation accepts the rest."
  },
  {
   "property": "C73",
   "status": "partial",
   "theorems": [
    "C73_safe",
    "C73_finite",
    "C73_progress",
    "C73_complete",
    "C73_failure",
    "C73_empty_pool_refuted",
    "C73_zero_batch_refuted"
   ],
   "note": "For a pool and a block batch of at least one; refuted for zero, which the options allow."
  },
  {
   "property": "C74",
   "status": "partial",
   "theorems": [
    "C74_wrapper_partial",
    "C74_timestamp",
    "C74_two_to_one",
    "C74_example",
    "C74_foreign_key_refuted",
    "C74_checkpoint_hash_refuted",
    "C74_chain_id_refuted",
    "C74_metadata_refuted",
    "C74_burn_addr_refuted",
    "C74_first_roots_refuted"
   ],
   "note": "Proved for trees whose aggregation proofs carry their own keys; without that, and for six public values, refuted. The inner verifier is ideal."
  },
  {
   "property": "C75",
   "status": "proved",
   "theorems": [
    "C75_segment",
    "C75_single_segment",
    "C75_batch",
    "C75_first_block",
    "C75_next_block",
    "C75_wrapper",
    "two_blocks"
   ],
   "note": "On public values as limbs; the inner verifier is ideal."
  },
  {
   "property": "C76",
   "status": "partial",
   "theorems": [
    "C76_decode",
    "C76_kernel_exception",
    "C76_used",
    "C76_arithmetic_refuted"
   ],
   "note": "Proved for every row; the opcode of a row delegated to the arithmetic table is only tied to its flag by that table's lookup, refuted at the level of the CPU table."
  },
  {
   "property": "C77",
   "status": "partial",
   "theorems": [
    "C77_shape",
    "C77_clock",
    "C77_code_context",
    "C77_used",
    "C77_start_refuted"
   ],
   "note": "All proved except the state of the first row, refuted."
  },
  {
   "property": "C78",
   "status": "partial",
   "theorems": [
    "C78_control_partial",
    "C78_jumps",
    "C78_used",
    "C78_trap_used",
    "C78_push_refuted",
    "C78_mload_32bytes_refuted",
    "C78_jump_mode_refuted",
    "C78_jumpi_condition_refuted"
   ],
   "note": "Proved for every instruction the constraints cover; refuted for the others with accepted tables."
  },
  {
   "property": "C79",
   "status": "partial",
   "theorems": [
    "C79_length",
    "C79_overflow",
    "C79_operands",
    "C79_dup",
    "C79_swap",
    "C79_old_top",
    "C79_new_top",
    "C79_used",
    "C79_pop_refuted",
    "C79_get_context_refuted",
    "C79_mstore_length_refuted",
    "C79_underflow_refuted"
   ],
   "note": "Proved with the exceptions named in each theorem; the exceptions are refuted with accepted tables."
  },
  {
   "property": "C80",
   "status": "partial",
   "theorems": [
    "C80_unused_partial",
    "C80_used",
    "C80_stray_write_refuted",
    "C80_padding_write_refuted"
   ],
   "note": "Proved for the channels listed by quiet; others refuted with accepted tables."
  },
  {
   "property": "C81",
   "status": "proved",
   "theorems": [
    "C81_gas",
    "C81_used"
   ],
   "note": "For operations of the arithmetic table, given that the opcode is one of that table's (see C76)."
  },
  {
   "property": "C82",
   "status": "partial",
   "theorems": [
    "C82_results",
    "C82_not",
    "C82_eq_iszero",
    "C82_shift",
    "C82_used",
    "C82_shift_refuted",
    "C82_kernel_push_refuted",
    "C82_stop_frame_refuted"
   ],
   "note": "Proved for the instructions listed; three results refuted with accepted tables."
  },
  {
   "property": "C83",
   "status": "partial",
   "theorems": [
    "C83_sponge_sound_partial",
    "C83_sponge_tables_partial",
    "C83_lookups_link_rows",
    "C83_logic_link",
    "C83_sponge_complete",
    "keccak_preserves"
   ],
   "note": "Soundness under the conditions that C84 shows to be needed (digest cells are bytes, not the last row, rows joined with their own permutation). Completeness without conditions."
  },
  {
   "property": "C84",
   "status": "partial",
   "theorems": [
    "C84_any_digest_refuted",
    "C84_last_row_refuted",
    "C84_empty_string_refuted",
    "C84_exchanged_outputs_refuted",
    "C84_exchanged_case_refuted"
   ],
   "note": "Refuted: three independent ways to show a wrong digest in accepted tables."
  },
  {
   "property": "C85",
   "status": "partial",
   "theorems": [
    "C85_outputs_partial",
    "C85_lookups_partial",
    "C85_hash_tables_partial",
    "C85_complete",
    "C85_case"
   ],
   "note": "Soundness when the cells for bits are bits, a condition that C86 shows to be needed. Completeness without conditions."
  },
  {
   "property": "C86",
   "status": "partial",
   "theorems": [
    "C86_first_lane_refuted",
    "C86_any_state_refuted",
    "C86_wrong_output_refuted"
   ],
   "note": "Refuted: the first output lane is free in an accepted table."
  },
  {
   "property": "C87",
   "status": "proved",
   "theorems": [
    "C87_load_extract",
    "C87_transactions",
    "C87_case"
   ],
   "note": "Loading succeeds, keeps the earlier cells, and extraction from any later memory that agrees on the written cells gives the trie back."
  },
  {
   "property": "C88",
   "status": "partial",
   "theorems": [
    "C88_receipts",
    "C88_case",
    "C88_h160_exact",
    "C88_h160_overflow_refuted",
    "C88_blob_receipts_unreadable",
    "C88_blob_receipt_refuted",
    "C88_last_receipt_refuted"
   ],
   "note": "Proved for types 0, 1 and 2 when something follows the receipt in memory. Refuted for blob receipts (loaded, but never read back), for a receipt without logs at the end of memory (panic), and for u256_to_h160, which truncates words of 161 to 167 bits."
  },
  {
   "property": "C89",
   "status": "proved",
   "theorems": [
    "C89_inputs_decode",
    "C89_inputs_injective",
    "C89_case"
   ],
   "note": "Every list of transactions is decoded back from its prover inputs, hence the inputs are injective."
  },
  {
   "property": "C90",
   "status": "proved",
   "theorems": [
    "C90_accounts",
    "C90_storage",
    "C90_pointers",
    "C90_sorted",
    "C90_loads",
    "C90_case",
    "C90_branch_value_refuted"
   ],
   "note": "The lists are cycles through the leaves, with the recorded pointers, in strictly increasing order for 64-nibble keys. C90_branch_value_refuted: a value at a branch of a storage trie, which 64-nibble keys exclude, is silently left out (in the state trie it is an error)."
  },
  {
   "property": "C91",
   "status": "partial",
   "theorems": [
    "C91_segments",
    "C91_end",
    "C91_failure_forever",
    "C91_case",
    "C91_ends_refuted",
    "C91_retry_refuted"
   ],
   "note": "Proved: numbering, continuity of registers, memory and extra data, the end at halt. Refuted: after an error the iterator repeats the failing segment for ever (C91_failure_forever, C91_ends_refuted; the loop of zero/src/prover.rs does not stop at an error), and after a failure of the first segment it resumes on the memory of the failed run (C91_retry_refuted)."
  },
  {
   "property": "C92",
   "status": "partial",
   "theorems": [
    "C92_bn_field",
    "C92_bls_field",
    "C92_bn_inverse",
    "C92_bls_inverse",
    "C92_bls_sqrt",
    "C92_lexicographic_partial",
    "C92_lexicographic_refuted",
    "C92_g1_prime_accepted",
    "C92_g1_larger_rejected",
    "C92_case"
   ],
   "note": "Proved: arithmetic modulo the primes without panics, inv as the power p-2, sqrt (completeness for elements that satisfy Fermat's identity; primality of p is not proved). Refuted: the constant MODULUS_MINUS_ONE_DIV_TWO is (p+1)/2, so neither (p+1)/2 nor its negation counts as the larger one; and g1_from_bytes accepts an abscissa equal to p."
  },
  {
   "property": "C93",
   "status": "proved",
   "theorems": [
    "C93_withdrawals",
    "C93_trace",
    "C93_case"
   ],
   "note": "The laws of the world about balances and nonces are hypotheses (account_laws), met by the world of C93_case."
  },
  {
   "property": "C94",
   "status": "partial",
   "theorems": [
    "C94_base_fields",
    "C94_bn_tower",
    "C94_bls_tower",
    "C94_bn_frobenius",
    "C94_bls_frobenius",
    "C94_bn_inverse_partial",
    "C94_bls_inverse_partial",
    "C94_case"
   ],
   "note": "Rings, generators, sparse products and Frobenius maps are proved for all elements. Inverses are proved for every element whose norm to the base field satisfies x * inv x = 1 there; missing: that this holds of every non-zero element, which needs the primality of p."
  }
 ]
}