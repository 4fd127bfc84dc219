{"id": "C01", "title": "MPT insert/get is a map update", "statement": "After a successful insert(k, v) on a trie, get(k) returns v and get(k') is unchanged for every other key k'; an insert into a trie without hash nodes never fails.", "quantifier": "every trie reachable by any sequence of API calls whose keys come from one prefix-free key set (fixed-length account/storage keys, RLP transaction indices), every key, every value", "why_tests_cant": "key sets, shapes and histories are unbounded; splitting of leaves/extensions at every possible nibble position must be right", "anchors": ["mpt_trie/src/trie_ops.rs: insert_into_trie_rec, place_branch_and_potentially_ext_prefix, trie_get_intern", "mpt_trie/src/partial_trie.rs: PartialTrie::insert/get"]}
{"id": "C02", "title": "MPT delete removes exactly one key", "statement": "delete(k) returns Some(old value) exactly when get(k) was Some(old value) and None otherwise; afterwards get(k) is None and every other key is unchanged; it never fails on a trie without hash nodes.", "quantifier": "every trie reachable through the API with prefix-free keys and without hash nodes, every key of the set", "why_tests_cant": "branch collapse has many shapes (leaf/extension/branch sibling, nested collapse at every ancestor)", "anchors": ["mpt_trie/src/trie_ops.rs: delete_intern, collapse_ext_node_if_needed, try_collapse_if_extension, trie_delete"]}
{"id": "C03", "title": "MPT root depends only on contents", "statement": "Two tries reached by any two histories of inserts and deletes that leave the same key/value contents are equal node for node, hence have the same root hash.", "quantifier": "all pairs of finite operation histories over a prefix-free key set", "why_tests_cant": "order and history independence quantifies over all permutations and insert/delete interleavings", "anchors": ["mpt_trie/src/trie_ops.rs: insert_into_trie_rec, delete_intern", "mpt_trie/src/trie_hashing.rs: hash_trie"]}
{"id": "C04", "title": "MPT iteration is complete, sound and ordered", "statement": "items() yields every stored key exactly once with its stored value, in strictly increasing lexicographic key order, yields a Hash entry at the path of every hash node and nothing else; contains(k) is true exactly when k is yielded.", "quantifier": "every trie reachable through the API with prefix-free keys", "why_tests_cant": "the iterator keeps an explicit stack and edits a running key in place; correctness depends on arbitrary nesting of extensions and branches", "anchors": ["mpt_trie/src/trie_ops.rs: PartialTrieIter::next, advance_iter_to_next_empty_leaf_or_hash_node, trie_items, trie_has_item_by_key"]}
{"id": "C05", "title": "Partial tries simulate full tries (stateless soundness)", "statement": "If P is obtained from T by replacing any subtrees by their hashes, then insert/delete on P either returns an error or produces a trie that is again T's result with some subtrees replaced by their hashes, so with the same root hash; get on P returns what get on T returns, or None where the path ends in a hash node.", "quantifier": "every trie T, every way of hashing out subtrees whose encoding is at least 32 bytes, every key and value, every operation sequence, deletion strategy Reject", "why_tests_cant": "quantifies over all pruned versions of all tries and all operation sequences", "anchors": ["mpt_trie/src/trie_ops.rs: insert_into_trie_rec, delete_intern, trie_get_intern", "mpt_trie/src/partial_trie.rs: OnOrphanedHashNode", "mpt_trie/src/trie_hashing.rs: rlp_encode_and_hash_node"]}
{"id": "C06", "title": "Trie subsets keep the root hash and the requested keys", "statement": "create_trie_subset(trie, keys) has the same root hash as trie, and get(k) on the subset equals get(k) on the trie for every requested k; it only fails if a requested key runs into a hash node.", "quantifier": "every trie, every list of keys", "why_tests_cant": "all tries and all key lists", "anchors": ["mpt_trie/src/trie_subsets.rs: create_trie_subset, mark_nodes_that_are_needed, create_partial_trie_subset_from_tracked_trie"]}
{"id": "C07", "title": "create_trie_subsets agrees with independent create_trie_subset calls", "statement": "The i-th subset returned by create_trie_subsets equals the subset create_trie_subset would build for the i-th key list alone.", "quantifier": "every trie, every list of key lists", "why_tests_cant": "depends on the marking state left over by every earlier subset", "anchors": ["mpt_trie/src/trie_subsets.rs: create_trie_subsets, reset_tracked_trie_state"]}
{"id": "C08", "title": "A cached trie hash is never stale", "statement": "hash() on a caching trie always equals the hash recomputed from scratch from its current nodes.", "quantifier": "every interleaving of clone, insert, extend (including failing ones), delete, hash, and subset creation over any number of live trie handles", "why_tests_cant": "staleness shows only in particular interleavings of shared cache cells", "anchors": ["mpt_trie/src/partial_trie.rs: HashedPartialTrie::{get_hash,set_hash,insert,extend,delete,hash_intern}, Clone"]}
{"id": "C09", "title": "Nibbles operations implement sequences of nibbles", "statement": "Every Nibbles operation (push, pop, merge, split, truncate, reverse, range, common prefix, comparison up to the smallest count) on the packed representation equals the corresponding operation on the sequence of nibbles, within the 64/80 nibble capacity.", "quantifier": "all nibble sequences within capacity, all indices and counts", "why_tests_cant": "bit-packing arithmetic on 320-bit integers; the input space is astronomically large", "anchors": ["mpt_trie/src/nibbles.rs: Nibbles"]}
{"id": "C10", "title": "Hex-prefix encoding is correct, injective and decodable", "statement": "to_hex_prefix_encoding follows the yellow-paper HP function, distinct (nibbles, is_leaf) pairs get distinct encodings, and from_hex_prefix_encoding inverts it.", "quantifier": "all nibble sequences of length <= 64, both flags", "why_tests_cant": "parity and leading-zero cases over all lengths and contents", "anchors": ["mpt_trie/src/nibbles.rs: to_hex_prefix_encoding, from_hex_prefix_encoding"]}
{"id": "C11", "title": "Trie path queries follow the key", "statement": "path_for_query reports a path in which every segment describes the node found where the earlier segments lead; its key pieces and the queried key agree up to the shorter one; it ends in the leaf holding exactly the key iff get(k) is Some; asking for the final node adds at most one segment.", "quantifier": "every trie reachable through the API, every key", "why_tests_cant": "all tries and keys", "anchors": ["mpt_trie/src/special_query.rs: path_for_query, TriePathIter", "mpt_trie/src/utils.rs: IntoTrieKey::into_key"]}
{"id": "C12", "title": "Branch-collapse report names the surviving child", "statement": "delete_node_and_report_remaining_key_if_branch_collapsed returns None exactly when no branch node disappears; otherwise the branch that disappeared had one other child and the returned path is where that child is found in the trie afterwards. It succeeds whenever the deletion succeeds.", "quantifier": "every trie reachable through the API with prefix-free keys, every pruned version of it, every key, both orphan strategies", "why_tests_cant": "depends on trie shape before and after an arbitrary deletion", "anchors": ["evm_arithmetization/src/tries.rs: delete_node_and_report_remaining_key_if_branch_collapsed"]}
{"id": "C13", "title": "Trie diff finds a difference whenever the tries differ", "statement": "create_full_diff_between_tries reports nothing for equal roots; every reported point is a place where the two tries have nodes with different hashes, correctly described; for tries over prefix-free keys, absent Keccak collisions, the diff is empty iff the roots are equal, and when fewer than 10 points are reported every key whose value differs lies below one of them.", "quantifier": "all pairs of tries", "why_tests_cant": "all pairs of tries", "anchors": ["mpt_trie/src/debug_tools/diff.rs: create_full_diff_between_tries, find_all_diff_points_between_tries_rec, pick_most_significant_state"]}
{"id": "C14", "title": "SMT key split/join are inverse", "statement": "Key::split yields a 256-bit path; for every prefix of at most 252 bits Key::join(prefix, remove_key_bits) is the original key, distinct keys have distinct paths, and prefix plus remainder determine the key. (From 253 bits on the shifts overflow: shown as a refutation.)", "quantifier": "all 256-bit keys, all prefix lengths up to 252", "why_tests_cant": "2^256 keys times 257 split points", "anchors": ["smt_trie/src/smt.rs: Key::split, Key::join, Key::remove_key_bits"]}
{"id": "C15", "title": "SMT set/get is a map update", "statement": "After any history of set/delete calls, get of a key with non-zero value returns that value and whatever get returns for any key is the value of the last set; set succeeds whenever the keys differ within their first 252 path bits. (get of an absent key may panic instead of returning 0, and keys agreeing on 252 path bits make set panic: shown as refutations.)", "quantifier": "every sparse Merkle tree reachable through set/delete from the empty tree, every key, every value, for a collision-free hash", "why_tests_cant": "all histories and all path-sharing patterns between keys", "anchors": ["smt_trie/src/smt.rs: Smt::set, Smt::get, Smt::delete"]}
{"id": "C16", "title": "SMT root depends only on contents", "statement": "Two sequences of set calls leaving the same key/value contents give the same root, and different contents give different roots unless the hash collides.", "quantifier": "all pairs of histories", "why_tests_cant": "all histories", "anchors": ["smt_trie/src/smt.rs: Smt::set"]}
{"id": "C17", "title": "SMT serialization hashes to the root", "statement": "hash_serialize(serialize_and_prune(smt, keys)) equals the root of smt, for any key list and also for trees with hash nodes; an independent reader of the serialization finds the value (or absence) of every key in the list; serialize keeps every key.", "quantifier": "all trees, all key lists", "why_tests_cant": "all trees and prune sets", "anchors": ["smt_trie/src/smt.rs: serialize_and_prune, serialize, hash_serialize"]}
{"id": "C18", "title": "Poseidon byte padding is injective", "statement": "Distinct bytecodes pad to distinct byte sequences, always a non-zero multiple of the 56-byte rate and at most 56 bytes longer; all absorbed elements are canonical; equal hashes mean equal code unless the permutation collides.", "quantifier": "all byte strings", "why_tests_cant": "all lengths modulo the rate and all contents", "anchors": ["smt_trie/src/code.rs: poseidon_pad_byte_vec, hash_contract_bytecode"]}
{"id": "C19", "title": "Arithmetic table: ADD/SUB/LT/GT constraints are sound", "statement": "Any row satisfying the constraints, with range-checked limbs, has out = the EVM result of the flagged operation on its inputs (mod 2^256, with the right carry/borrow bit).", "quantifier": "all assignments of field elements to the row", "why_tests_cant": "a forged row is an adversarial input; soundness is about all of them", "anchors": ["evm_arithmetization/src/arithmetic/addcy.rs: eval_packed_generic_addcy, eval_packed_generic", "evm_arithmetization/src/arithmetic/arithmetic_stark.rs"]}
{"id": "C20", "title": "Arithmetic table: MUL constraints are sound", "statement": "Any row satisfying the MUL constraints with range-checked limbs has output = input0 * input1 mod 2^256.", "quantifier": "all assignments of field elements to the row", "why_tests_cant": "adversarial rows; field wrap-around must be excluded by magnitude bounds", "anchors": ["evm_arithmetization/src/arithmetic/mul.rs: eval_packed_generic"]}
{"id": "C21", "title": "Arithmetic table: ADDMOD/MULMOD/SUBMOD and field ops are sound", "statement": "Any two consecutive rows satisfying the modular constraints have output = (x op y) mod m reduced, with output 0 when m = 0; the FP254 variants use the BN254 base field modulus.", "quantifier": "all assignments of field elements to the two rows", "why_tests_cant": "adversarial rows", "anchors": ["evm_arithmetization/src/arithmetic/modular.rs: modular_constr_poly, submod_constr_poly, eval_packed"]}
{"id": "C22", "title": "Arithmetic table: DIV/MOD/SHL/SHR constraints are sound", "statement": "Any rows satisfying the MOD constraints have output = EVM remainder (0 for denominator 0); DIV rows with non-zero denominator have output = EVM quotient; SHL rows have output = input1 * input2 mod 2^256 and SHR rows with input2 <> 0 output = input1 / input2, so they are the EVM shifts when input2 is the power of two of the shift amount. With a zero denominator only 0 <= output <= dividend is enforced (see C49).", "quantifier": "all assignments of field elements", "why_tests_cant": "adversarial rows", "anchors": ["evm_arithmetization/src/arithmetic/divmod.rs", "evm_arithmetization/src/arithmetic/shift.rs", "evm_arithmetization/src/arithmetic/modular.rs"]}
{"id": "C23", "title": "Arithmetic table: BYTE constraints are sound", "statement": "Any row satisfying the BYTE constraints has output = the index-th most significant byte of the value, 0 for index >= 32.", "quantifier": "all assignments of field elements", "why_tests_cant": "adversarial rows", "anchors": ["evm_arithmetization/src/arithmetic/byte.rs: eval_packed"]}
{"id": "C24", "title": "Arithmetic table generation is complete", "statement": "The rows generated for any operation on any operands satisfy the constraints and all cells are in the range-check range.", "quantifier": "all operations, all 256-bit operands", "why_tests_cant": "2^512 operand pairs; a missing witness means an unprovable block", "anchors": ["evm_arithmetization/src/arithmetic/addcy.rs: generate", "evm_arithmetization/src/arithmetic/mul.rs: generate_mul", "evm_arithmetization/src/arithmetic/byte.rs: generate", "evm_arithmetization/src/arithmetic/modular.rs: generate_modular_op"]}
{"id": "C25", "title": "Logic table constraints are sound and complete", "statement": "A row satisfies the AND/OR/XOR constraints iff its result is the bitwise operation selected by its flag on its inputs; generated rows satisfy them.", "quantifier": "all assignments of field elements; all 256-bit operands", "why_tests_cant": "adversarial rows", "anchors": ["evm_arithmetization/src/logic.rs: eval_packed_generic, Operation::into_row"]}
{"id": "C26", "title": "Memory table constraints enforce read-over-write consistency", "statement": "In any memory trace satisfying the constraints and lookups, the operations other tables see, put in timestamp order, form an execution of a memory: every read returns the value last written at its address, or the initial value, which is zero except in preinitialised segments and at the address of the first row (whose initial value the constraints leave free).", "quantifier": "all traces of any length below the field-size bound", "why_tests_cant": "adversarial traces of any length; global consequence of two-row local constraints", "anchors": ["evm_arithmetization/src/memory/memory_stark.rs: eval_packed_generic, lookups"]}
{"id": "C27", "title": "Live memory is carried over to the next segment proof", "statement": "In any memory trace satisfying the constraints, the final value of every address in a non-stale context that is non-zero appears in the memory exported to the next segment.", "quantifier": "all traces", "why_tests_cant": "adversarial traces", "anchors": ["evm_arithmetization/src/memory/memory_stark.rs: eval_packed_generic (mem_after_filter)"]}
{"id": "C28", "title": "Byte packing constraints are sound", "statement": "Any row satisfying the byte-packing constraints packs exactly `len` big-endian bytes at consecutive addresses into the value, with zero padding.", "quantifier": "all assignments of field elements", "why_tests_cant": "adversarial rows", "anchors": ["evm_arithmetization/src/byte_packing/byte_packing_stark.rs: eval_packed_generic, ctl_looked_data"]}
{"id": "C29", "title": "Kernel assembly optimizer preserves program behaviour", "statement": "Running the optimized kernel code from any stack has the same effect as running the original code (whenever the original does not underflow).", "quantifier": "all assembly programs, all initial stacks and executions", "why_tests_cant": "rewrites interact and are iterated to a fixpoint on arbitrary code", "anchors": ["evm_arithmetization/src/cpu/kernel/optimizer.rs: optimize_asm and all passes", "evm_arithmetization/src/cpu/kernel/utils.rs: replace_windows"]}
{"id": "C30", "title": "Kernel optimizer terminates and never grows code", "statement": "optimize_asm terminates on every program and the result is never longer than the input; labels are preserved.", "quantifier": "all assembly programs", "why_tests_cant": "termination of nested rewriting loops", "anchors": ["evm_arithmetization/src/cpu/kernel/optimizer.rs: optimize_asm", "evm_arithmetization/src/cpu/kernel/utils.rs: replace_windows"]}
{"id": "C31", "title": "%stack macros realise exactly the declared permutation", "statement": "The instruction sequence emitted for %stack (names) -> (replacements) transforms every concrete stack whose top matches names into one whose top is the replacements, leaving the rest unchanged.", "quantifier": "all name lists, replacement lists, all concrete stacks", "why_tests_cant": "search-based code generation over an unbounded input space", "anchors": ["evm_arithmetization/src/cpu/kernel/stack/stack_manipulation.rs: expand_stack_manipulation, expand, shortest_path, next_ops, apply_to", "evm_arithmetization/src/cpu/kernel/stack/permutations.rs: get_stack_ops_for_perm"]}
{"id": "C32", "title": "Stack permutation synthesis is correct", "statement": "The transposition sequence produced for a permutation of the stack realises that permutation using only swaps with the top.", "quantifier": "all permutations of any length (also with repeated elements)", "why_tests_cant": "n! permutations for every n", "anchors": ["evm_arithmetization/src/cpu/kernel/stack/permutations.rs: find_permutation, permutation_to_cycles, combine_cycles, cycle_to_transpositions, transpositions_to_stack_ops"]}
{"id": "C33", "title": "Assembler places code and labels consistently", "statement": "In the assembled kernel every label's recorded offset is the byte position of the instruction following its declaration, every label push encodes that offset, and the byte length equals the final offset.", "quantifier": "all assembly files with unique labels and total size below 2^24 bytes", "why_tests_cant": "two passes must agree for every program", "anchors": ["evm_arithmetization/src/cpu/kernel/assembler.rs: assemble, find_labels, assemble_file, push_target_size, look_up_label"]}
{"id": "C34", "title": "Batching partitions transactions in order", "statement": "Concatenating the batches yields the original transactions in order, padded only with empty batches up to the required minimum, and every batch is within the size bound.", "quantifier": "all transaction lists and batch sizes", "why_tests_cant": "all lengths modulo the batch size", "anchors": ["trace_decoder/src/core.rs: batch"]}
{"id": "C35", "title": "Running totals and tries chain across batches", "statement": "For consecutive generated batch inputs, gas_used_before / txn_number_before of batch i+1 equal the after values of batch i, the final gas is the sum over all transactions, and withdrawals are applied exactly once, with the last batch.", "quantifier": "all blocks, all batch sizes", "why_tests_cant": "all transaction lists and batch partitions", "anchors": ["trace_decoder/src/core.rs: entrypoint, middle"]}
{"id": "C36", "title": "Witness instruction stream decodes to a unique trie", "statement": "The type-1 witness stack machine either rejects or yields a single trie; executing the serialization of a trie rebuilds that trie (node for node).", "quantifier": "all instruction streams, all witness tries", "why_tests_cant": "all streams", "anchors": ["trace_decoder/src/type1.rs: execute, finish_stack", "trace_decoder/src/wire.rs"]}
{"id": "C37", "title": "Witness key decoding is inverse to nibble packing", "statement": "decode_key recovers exactly the nibble path packed into the byte form, for odd/even lengths and the terminator flag, and rejects nothing valid.", "quantifier": "all nibble paths", "why_tests_cant": "all lengths and contents", "anchors": ["trace_decoder/src/wire.rs: key / decode_key"]}
{"id": "C38", "title": "Block interval streams enumerate exactly the requested blocks", "statement": "A closed interval a..=b enumerates a, a+1, ..., b once each in order and flags only b as last; an open interval enumerates all from its start.", "quantifier": "all intervals", "why_tests_cant": "all bounds including extremes", "anchors": ["zero/src/block_interval.rs: BlockInterval::new, into_bounded_stream, into_unbounded_stream"]}
{"id": "C39", "title": "Retry performs a bounded number of attempts and returns the first success", "statement": "The RPC retry policy returns the first non-retryable outcome and never performs more than the configured number of attempts, whatever sequence of responses the server gives.", "quantifier": "all sequences of server responses", "why_tests_cant": "unbounded environment behaviours", "anchors": ["zero/src/rpc/retry.rs"]}
{"id": "C40", "title": "World state keeps account storage roots in sync", "statement": "For a type-1 world, after any sequence of storage writes, slot deletions and account updates the storage root recorded in an account equals the root of its storage trie.", "quantifier": "all worlds satisfying the constructor's check, all operation sequences", "why_tests_cant": "all histories", "anchors": ["evm_arithmetization/src/world.rs: Type1World::new, on_storage, store_int, reporting_destroy_slot, create_storage"]}
{"id": "C41", "title": "Memory address bundling round-trips", "statement": "A (context, segment, offset) triple packed into a U256 address unpacks to the same triple, and distinct valid triples give distinct addresses.", "quantifier": "all contexts, segments and 32-bit offsets", "why_tests_cant": "2^96 addresses", "anchors": ["evm_arithmetization/src/witness/memory.rs: MemoryAddress::new_bundle", "evm_arithmetization/src/memory/segments.rs"]}
{"id": "C42", "title": "Prover memory behaves as a map with defaults", "statement": "MemoryState get after set returns the set value, other addresses are unaffected, unset addresses read as 0 (or the preinitialised value).", "quantifier": "all addresses, values, histories", "why_tests_cant": "all histories", "anchors": ["evm_arithmetization/src/witness/memory.rs: MemoryState::get/set/get_with_init/apply_ops"]}
{"id": "C43", "title": "Nibble conversions are lossless", "statement": "Converting a byte string, a 256-bit hash, an integer or a hexadecimal string to nibbles and back returns the original value; the integer conversions give the minimal digit string (padded to whole bytes in the padded variant).", "quantifier": "all byte strings up to 33 bytes, all hashes, all 256-bit integers, all hex strings below 80 digits", "why_tests_cant": "leading zeros, odd lengths and word boundaries: 2^256 inputs", "anchors": ["mpt_trie/src/nibbles.rs: from_bytes_be, bytes_be, from_h256_be, TryInto<H256>, FromStr, LowerHex, ToNibbles"]}
{"id": "C44", "title": "A trie root hash binds its contents", "statement": "A trie value supplied by anyone whose root hash equals the root of a full trie is that trie with some subtrees replaced by their hashes (or just the hash), unless Keccak collides on two of the strings hashed for the two tries; so operations that succeed on it give the results and the new root of the real state.", "quantifier": "every trie value, every full trie reached by an operation history, every further operation sequence, every 32-byte hash function without a collision among the strings hashed", "why_tests_cant": "quantifies over all adversarial witnesses and all tries; needs injectivity of RLP and hex-prefix encoding", "anchors": ["mpt_trie/src/trie_hashing.rs: hash_trie, rlp_encode_and_hash_node", "mpt_trie/src/nibbles.rs: to_hex_prefix_encoding", "mpt_trie/src/trie_ops.rs"]}
{"id": "C45", "title": "MPT root is the Yellow Paper root of the contents", "statement": "After any history of inserts and deletes from the empty trie, hash() equals TRIE(J) of the Yellow Paper (RLP, hex-prefix, composition and node-cap functions) for the resulting set J of key/value pairs.", "quantifier": "every history over a prefix-free key set, every listing of the resulting contents, every 32-byte hash function", "why_tests_cant": "tests compare a few roots with geth; agreement for all contents needs a proof", "anchors": ["mpt_trie/src/trie_hashing.rs: hash_trie, rlp_encode_and_hash_node, hash_bytes_if_large_enough", "mpt_trie/src/nibbles.rs: to_hex_prefix_encoding", "mpt_trie/src/trie_ops.rs"]}
{"id": "C46", "title": "Partial SMT stands for the full tree", "statement": "A sparse Merkle tree built with set_hash calls (no position a prefix of a later one) and set calls whose root equals the root of a full tree gives, for every further sequence of set calls that succeeds on both, the same root as the full tree, and get returns only values of the full tree. (set_hash below an existing hash node silently forgets it: shown as a refutation.)", "quantifier": "all hash-node lists, all build and update histories, every hash function without collisions among the nodes hashed", "why_tests_cant": "all pairs of partial and full trees and all update sequences", "anchors": ["smt_trie/src/smt.rs: Smt::set_hash, Smt::set, Smt::get"]}
{"id": "C47", "title": "Packed bit sequences behave as bit lists", "statement": "Bits::push_bit, pop_next_bit, get_bit, add and common_prefix on packed integers are append, remove-last, index, concatenation and longest common prefix on the bit lists they stand for, up to 256 bits. (Pushing a 257th bit silently loses the first: shown as a refutation.)", "quantifier": "all well-formed Bits values", "why_tests_cant": "2^257 values per operand", "anchors": ["smt_trie/src/bits.rs: Bits::push_bit, pop_next_bit, get_bit, add, common_prefix"]}
{"id": "C48", "title": "SMT keys of account entries are distinct", "statement": "key_balance, key_nonce, key_code, key_storage and key_code_length give different keys for different (kind, address, slot) triples unless the permutation collides on the arrays hashed.", "quantifier": "all pairs of addresses and slots", "why_tests_cant": "2^160 addresses, 2^256 slots", "anchors": ["smt_trie/src/keys.rs: key_balance, key_nonce, key_code, key_storage, key_code_length"]}
{"id": "C49", "title": "Division by zero is not determined by the arithmetic constraints", "statement": "The constraints force DIV by zero, and SHR with a zero third register, to give 0 as the EVM requires. (False: accepted tables exist with 5 / 0 = 5 and 5 >> 65536 = 5.)", "quantifier": "existence of an accepted table (refutation of a claim over all accepted tables)", "why_tests_cant": "honest trace generation never produces such rows", "anchors": ["evm_arithmetization/src/arithmetic/modular.rs: modular_constr_poly, check_reduced", "evm_arithmetization/src/arithmetic/divmod.rs: eval_packed"]}
{"id": "C50", "title": "Rows of the arithmetic table visible to the CPU hold the result of their opcode", "statement": "Every row selected by the cross-table filter, with reconstructed opcode op, holds the result of op on its registers. Proved for rows that are not range checks; false in general, because a range-check row may carry any opcode (e.g. 0x01 with registers 1, 1 and output 7).", "quantifier": "all accepted tables, all rows", "why_tests_cant": "adversarial tables", "anchors": ["evm_arithmetization/src/arithmetic/arithmetic_stark.rs: ctl_arithmetic_rows, eval_packed_generic"]}
{"id": "C51", "title": "The recursive verifier checks the same constraints as the prover", "statement": "For each STARK table the circuit version of the constraints (eval_ext_circuit) yields the same list of constraints, of the same kind and with the same value in the field, as the direct evaluation (eval_packed_generic).", "quantifier": "every pair of rows of field elements, every table modelled", "why_tests_cant": "random evaluation tests only sample points, and compare one random linear combination", "anchors": ["evm_arithmetization/src/logic.rs: eval_ext_circuit, eval_packed_generic", "evm_arithmetization/src/memory/memory_stark.rs: eval_ext_circuit, eval_packed_generic", "evm_arithmetization/src/byte_packing/byte_packing_stark.rs: eval_ext_circuit, eval_packed_generic", "evm_arithmetization/src/memory_continuation/memory_continuation_stark.rs: eval_ext_circuit, eval_packed_generic"]}
{"id": "C52", "title": "Macro expansion is hygienic and terminates", "statement": "Expanding macros never produces two equal local labels: labels a macro declares are renamed apart in every expansion, from each other and from every label a programmer can write. Expansion ends whenever no macro calls itself, directly or indirectly.", "quantifier": "all macro tables, files, nestings and repetitions", "why_tests_cant": "freshness must hold for every nesting of calls and repetitions", "anchors": ["evm_arithmetization/src/cpu/kernel/assembler.rs: expand_macros, expand_macro_call"]}
{"id": "C53", "title": "Generated inputs are one sequential pass, whatever the batch size", "statement": "The sequence of worlds, tries and totals the batches go through is that of executing the block's transactions one by one after a single pre-execution, then the withdrawals; the final state does not depend on the batch size hint.", "quantifier": "all worlds, all blocks with at least one transaction, all batch size hints", "why_tests_cant": "every batch size and every trace must be covered", "anchors": ["trace_decoder/src/core.rs: entrypoint, middle, do_trace"]}
{"id": "C54", "title": "Masks keep everything a batch touches", "statement": "In every generated batch the state mask contains each address whose account the batch reads or writes and each withdrawal address of the last batch, and the storage mask of an account contains each slot read or written.", "quantifier": "all blocks, all batches, all traces", "why_tests_cant": "a missing address shows up only on the block that touches it", "anchors": ["trace_decoder/src/core.rs: middle, do_trace"]}
{"id": "C55", "title": "The pre-execution hook takes effect once", "statement": "The block's pre-execution hook (beacon root or scalable contract update) takes effect exactly once per block. True when the block has a transaction or the hook is idempotent (beacon roots); false for cdk_erigon on empty blocks, where the scalable contract update is run once per dummy batch.", "quantifier": "all worlds and blocks", "why_tests_cant": "the empty-block padding path is rarely exercised", "anchors": ["trace_decoder/src/core.rs: middle, do_pre_execution, do_scalable_hook, do_beacon_hook"]}
{"id": "C56", "title": "The witness parser accepts exactly the serialized instruction lists", "statement": "parse(bytes) returns l exactly when bytes are a header byte 0 or 1 followed by the serializations of the instructions of a non-empty l; different instruction lists have no common serialization. It never panics - false: a balance of more than 32 bytes panics.", "quantifier": "all byte strings, all instruction lists, any CBOR codec meeting two laws (prefix decoding of integers and byte strings)", "why_tests_cant": "unbounded byte strings; tests replay a few recorded witnesses", "anchors": ["trace_decoder/src/wire.rs: parse, instruction, cbor, cbor_byte_vec"]}
{"id": "C57", "title": "The type-1 frontend returns the pre-state the witness stands for", "statement": "For a witness that serializes a well-formed state tree, frontend returns the state trie of that tree (one account per leaf, hashed-out nodes kept), a storage trie for each account whose root is the account's storage root, and the set of all codes in the witness. False for non-canonical trees (e.g. a branch with one child): the returned trie has another root than the witness tree.", "quantifier": "all witness trees and streams serializing them", "why_tests_cant": "all tree shapes", "anchors": ["trace_decoder/src/type1.rs: frontend, visit, node2storagetrie, finish_stack", "evm_arithmetization/src/tries.rs: StateMpt, StorageTrie"]}
{"id": "C58", "title": "The type-2 frontend returns the state the witness stands for", "statement": "For a type-2 (SMT) witness, frontend succeeds exactly when the instructions other than codes are the root-first serialization of a binary tree whose leaves have well-sized addresses, values and slots, no field twice, and hash nodes at most 256 deep. The world then holds exactly the fields of the leaves and the hash nodes at their paths, the codes are those of the witness, and (leaves on the path of their key, no lone leaf under a branch) building the SMT from the world does not panic and gives the root of the witness tree. False with a lone leaf under a branch: the root then differs.", "quantifier": "all instruction lists, all trees, any Poseidon without collisions on the nodes hashed", "why_tests_cant": "all tree shapes; tests replay one recorded witness", "anchors": ["trace_decoder/src/type2.rs: frontend, node2world, visit, iter2nodes", "evm_arithmetization/src/world.rs: Type2World::as_smt"]}
{"id": "C59", "title": "Operations on a type-2 world change the named field only, and the root follows", "statement": "update_balance, update_nonce, set_code(bytes), store_int, reporting_destroy_slot, destroy_storage and reporting_destroy change exactly the fields they name, load_int reads a field back; two worlds with the same fields (a zero and an absent field count as the same) have the same root and, without hash nodes, conversely; rebuilding the SMT after one change gives the root of setting that key in the old SMT. False: set_code with a hash keeps the code length of the previous code.", "quantifier": "all worlds, fields and values", "why_tests_cant": "all histories of operations", "anchors": ["evm_arithmetization/src/world.rs: impl World for Type2World, Type2World::as_smt"]}
{"id": "C60", "title": "The type-1 world reads back what was written", "statement": "In a type-1 world a stored slot or updated account field is read back, a destroyed slot or account reads as absent, no other account or slot changes, and masking changes nothing that was asked to be kept.", "quantifier": "all consistent worlds, addresses, slots and values", "why_tests_cant": "depends on the shape of the tries, in particular on extensions and collapsing branches", "anchors": ["evm_arithmetization/src/world.rs: Type1World", "evm_arithmetization/src/tries.rs: StateMpt, StorageTrie"]}
{"id": "C61", "title": "Pruned batch worlds answer as the full world does", "statement": "For a type-1 block every account and slot in the traces of a batch reads the same in the pruned world handed to the prover as in the full world the batch starts from, which has the same root, and the pruned world is consistent.", "quantifier": "all blocks, hooks, batch sizes, all hash functions without collisions on addresses", "why_tests_cant": "a wrong mask or root only shows on the block that needs it", "anchors": ["trace_decoder/src/core.rs: entrypoint, middle", "evm_arithmetization/src/world.rs: mask, mask_storage"]}
{"id": "C62", "title": "The memory log of a segment is the log of a memory", "statement": "After run_cpu the memory operations handed to the prover, taken in the order of their timestamps, form an execution of a memory: every read returns the last value written before it (or the initial value), all timestamps lie below five times the number of cycles plus one, and the execution ends in the memory of the machine; the initial memory differs from the one the segment started with only in the preinitialised segments. This needs: code cells and hashed or packed cells hold bytes, MSTORE_32BYTES does not hit its operands, MSTORE_GENERAL does not hit the cell of the new top of the stack, prover inputs leave cells in the log alone. Without the conditions on the two stores it is false.", "quantifier": "all programs, memories, oracles, cycle limits and numbers of cycles", "why_tests_cant": "the order of the timestamps differs from the order of the log, and a wrong channel or a missing operation only shows as an unprovable segment", "anchors": ["evm_arithmetization/src/witness/operation.rs: generate_*", "evm_arithmetization/src/witness/util.rs", "evm_arithmetization/src/generation/state.rs: run_cpu, Transition", "evm_arithmetization/src/witness/memory.rs: MemoryOp::new"]}
{"id": "C63", "title": "Stack instructions compute what the yellow paper says", "statement": "One cycle on a byte that is a native instruction on the stack (arithmetic, comparison, bitwise, shift, PUSH, DUP, SWAP, POP, PC, JUMPDEST) replaces the operands by the result of the independent specification, advances the counter by the width, adds the cost to the gas and changes no memory outside the stack of its context; too few operands, or a result that would be the 1025th item, or gas beyond the limit raise the exception of that name with nothing else changed. Every byte is an instruction, a syscall with the right arity, or invalid, as in the opcode table.", "quantifier": "all states of the machine, all bytes, all operands", "why_tests_cant": "operands range over 256-bit words and stacks of any height; the exception paths interleave with the rollback of partial logs", "anchors": ["evm_arithmetization/src/witness/operation.rs: generate_*", "evm_arithmetization/src/witness/transition.rs: perform_op, decode, try_perform_instruction, log_kernel_instruction"]}
{"id": "C64", "title": "Entering and leaving the kernel", "statement": "An exception or a syscall saves counter, mode and gas in one word on the stack, resets the gas and continues at the entry of the jump table in the kernel code; EXIT_KERNEL on that word restores counter, mode and gas exactly; it panics on a mode other than 0 or 1 and refuses gas beyond 32 bits.", "quantifier": "all states, exception codes, syscalls and words on the stack", "why_tests_cant": "packing into one word is only exercised with small counters and gas", "anchors": ["evm_arithmetization/src/witness/operation.rs: generate_syscall, generate_exception, generate_exit_kernel", "evm_arithmetization/src/witness/transition.rs: final_exception"]}
{"id": "C65", "title": "Jumps go to marked destinations and do nothing else", "statement": "JUMP and JUMPI continue at the destination if it is marked (always in the kernel), otherwise raise InvalidJump(i)Destination with nothing changed; apart from the two observed kernel labels they change only stack, counter and gas, and the codes known to the prover hash to their keys. For a user who jumps to the offset of observe_new_contract this is false: the prover then knows a wrong code for a hash the user chose, also after a refused JUMPI.", "quantifier": "all states and destinations; every hash function", "why_tests_cant": "tests do not place a JUMPDEST in user code at the offset of a kernel label", "anchors": ["evm_arithmetization/src/witness/operation.rs: generate_jump, generate_jumpi", "evm_arithmetization/src/generation/state.rs: jump_to, observe_contract, observe_address"]}
{"id": "C66", "title": "Memory instructions of the kernel", "statement": "MLOAD_GENERAL, MSTORE_GENERAL, MLOAD_32BYTES, MSTORE_32BYTES, KECCAK_GENERAL and SET_CONTEXT read and write exactly the cells their operand points to, in the byte order of the EVM; switching to another context and back restores the stack.", "quantifier": "all kernel states, addresses, lengths and contexts; cells hold bytes where bytes are read", "why_tests_cant": "cells and lengths range over the whole address space", "anchors": ["evm_arithmetization/src/witness/operation.rs: generate_mload_general, generate_mstore_general, generate_mload_32bytes, generate_mstore_32bytes, generate_keccak_general, generate_set_context"]}
{"id": "C67", "title": "User code runs until the kernel takes over", "statement": "From every user state with gas within the limit, execution follows the independent step function instruction by instruction, enters the kernel by a syscall or an exception after at most limit - gas + 1 instructions, with the return word and the entry as specified, and until then changes no memory outside its own stack.", "quantifier": "all user programs, stacks, gas limits below 2^32, jump destination tables; programs that avoid the observed kernel labels", "why_tests_cant": "a statement about every program and every execution", "anchors": ["evm_arithmetization/src/witness/transition.rs: transition", "evm_arithmetization/src/generation/state.rs: run_cpu"]}
{"id": "C68", "title": "Ranges on the command line are read as written", "statement": "A table range is accepted exactly if it is two numerals of 64 bits joined by two dots, and gives those numbers; what is displayed is read back as the same range. Text after a second pair of dots is ignored (refuted).", "quantifier": "all strings, all pairs of 64-bit bounds", "why_tests_cant": "the set of strings is infinite", "anchors": ["zero/src/parsing.rs: parse_range_exclusive, RangeParseError"]}
{"id": "C69", "title": "Nothing is proved on a bad start", "statement": "Before proving, the start is accepted exactly if the checkpoint is the block before the start, or the previous proof is that of the block before the start and the checkpoint is not after it; otherwise an error.", "quantifier": "all starts, checkpoints and previous proofs; start 0 panics or wraps (refuted)", "why_tests_cant": "all combinations of 64-bit numbers", "anchors": ["zero/src/pre_checks.rs: check_previous_proof_and_checkpoint"]}
{"id": "C70", "title": "Circuits loaded from disk are those of the configuration", "statement": "Two configurations have the same digest exactly if their ranges are equal; no file serves two purposes; after any sequence of prover and verifier starts on one directory with one test flag, each start gets the circuits, tables and verifier data of its own configuration. With runs that differ in the test flag this is false: the digest leaves it out, and a verifier without the flag gets the low-security circuits of an earlier run.", "quantifier": "all configurations with 64-bit bounds, all disks produced by earlier starts, every circuit builder whose table circuits depend on table, size and flag only", "why_tests_cant": "needs all pairs of configurations and all histories of a directory", "anchors": ["zero/src/prover_state/circuit.rs: CircuitConfig::get_configuration_digest", "zero/src/prover_state/persistence.rs: DiskResource::path", "zero/src/prover_state/mod.rs: ProverStateManager::initialize, verifier, load_table_circuit"]}
{"id": "C71", "title": "The previous block hashes are those of the chain", "statement": "Entry 256 - d of the vector is the hash of the block d before the target, zero before the genesis, whether it comes from the call or from the blocks two by two; a missing block is an error, not a zero. A node that answers the call with only some of the hashes is believed (refuted), and an odd target needs the target block itself (refuted).", "quantifier": "all chains, all heights from 1, all answers of the node", "why_tests_cant": "odd and even heights, short chains and fallbacks combine", "anchors": ["zero/src/rpc/mod.rs: fetch_previous_block_hashes, fetch_previous_block_hashes_from_block, fetch_previous_block_hashes_smart_contract"]}
{"id": "C72", "title": "A block proof covers every segment in order", "statement": "Whatever the order in which segment and batch proofs arrive and the way the folds are split, a block proof covers all segments of all batches in their order, on top of the previous block proof; a single batch never yields one; if nothing fails and there are two batches, one results. A segment whose proof fails is silently left out of the aggregation (refuted).", "quantifier": "all schedules, all splits of the folds, all provers and outcomes", "why_tests_cant": "a race between tasks cannot be exhausted by tests", "anchors": ["zero/src/prover.rs: BlockProverInput::prove", "zero/src/ops.rs: SegmentAggProof, BatchAggProof", "zero/src/proof_types.rs"]}
{"id": "C73", "title": "An interval is proved block after block without deadlock", "statement": "In every schedule: at most the pool size of blocks is at work, each proof is made on top of the proof of the block before, files are written once and only for the last block, each full block batch or all if asked for; every run is finite and not stuck if the pool is not empty; if every block can be proved all are proved and exactly the files to keep exist; if one cannot, the run does not succeed. A pool of zero waits for ever and a block batch of zero fails every block (refuted).", "quantifier": "all numbers of blocks, pool and batch sizes, outcomes and schedules", "why_tests_cant": "schedules are unbounded; deadlock cannot be observed by a test that ends", "anchors": ["zero/src/prover.rs: prove, prove_block, write_proof_to_dir"]}
{"id": "C74", "title": "An accepted chain proof is a chain of proved segments", "statement": "If the wrapped proof of a block is accepted (and every aggregation proof inside carries the key of its own circuit), there are blocks made of batches made of proved segments such that: the segments of a batch run from the kernel's main to halt with each one starting in the registers and memory in which the one before stops; batches continue each other's trie roots, counters, metadata and block hashes; each block starts with empty tries and no gas and uses the gas in its header; consecutive blocks agree on state root, number, block hashes and timestamps; the first block starts in the published checkpoint root and the last one ends in the published new root. A two-to-one proof carries the root of a hash tree over accepted wrapped proofs. Not guaranteed, each refuted by an accepted proof: the keys inside (the block circuit does not look at the key its batch proof carries), the published checkpoint hash and the chain id of earlier blocks when there are two blocks, the beacon root inside a batch, the burn address of a batch of one segment, and the trie roots before the first block of an unwrapped proof.", "quantifier": "all proof trees of any depth, all public inputs, both burn-address configurations, all Poseidon-like hash functions, all sets of proved segments", "why_tests_cant": "a test aggregates a handful of honest proofs; soundness is about every prover", "anchors": ["evm_arithmetization/src/fixed_recursive_verifier.rs: create_segment_aggregation_circuit, create_batch_aggregation_circuit, create_block_circuit, create_block_wrapper_circuit, create_two_to_one_block_circuit, verify_block, verify_block_wrapper, verify_two_to_one_block", "evm_arithmetization/src/proof.rs: PublicValuesTarget, FinalPublicValuesTarget::connect_parent"]}
{"id": "C75", "title": "The honest prover's aggregation is always accepted", "statement": "If two segment proofs belong to one batch and the second resumes the first, prove_segment_aggregation gives an accepted proof of the joint execution; likewise a single segment next to a dummy, two consecutive batches with prove_batch_aggregation, a first block (block number above 0, timestamp below 2^32, pre-state equal to the checkpoint) and a later block with prove_block, and a block with prove_block_wrapper; in each case the public values of the result are those of the joint execution.", "quantifier": "all proofs, public values and key arrangements; both burn-address configurations", "why_tests_cant": "the public values have thousands of limbs and the layout of the missing parent is written by hand with offsets; tests do not run the aggregation of more than one or two blocks", "anchors": ["evm_arithmetization/src/fixed_recursive_verifier.rs: prove_segment_aggregation, prove_batch_aggregation, prove_block, prove_block_wrapper, set_dummy_if_necessary", "evm_arithmetization/src/recursive_verifier.rs: add_virtual_public_values_public_input, set_public_value_targets"]}
{"id": "C76", "title": "CPU rows are decoded as the opcode table says", "statement": "In an accepted CPU table every row is either padding or carries exactly one operation flag, and except for the operations handed to the arithmetic table the flag, the mode and the opcode bits determine one instruction: privileged instructions only in kernel mode, an opcode that is neither native nor a kernel instruction raises a syscall or an exception with the right code, and no exception but the stop of a segment happens in the kernel. The opcode of the operations of the arithmetic table is not tied to their flag by the CPU table (ADDMOD accepted as a binary operation: refuted).", "quantifier": "all accepted CPU tables of any length, all rows, all label addresses of the kernel", "why_tests_cant": "tests only check rows made by the honest generator; soundness is about every table a prover may commit to", "anchors": ["evm_arithmetization/src/cpu/decode.rs: eval_packed_generic, OPCODES, COMBINED_OPCODES", "evm_arithmetization/src/cpu/syscalls_exceptions.rs", "evm_arithmetization/src/cpu/cpu_stark.rs: eval_packed_generic"]}
{"id": "C77", "title": "The CPU table is a run of instructions followed by padding", "statement": "In an accepted CPU table the clock counts rows from 1; there is a first padding row, every row before it is an instruction and every row from it on is padding, in kernel mode at halt_final, using no general memory channel; code is read in context 0 in kernel mode and in the current context otherwise. The state in the first row is free (refuted: a table starting in user mode at an arbitrary program counter).", "quantifier": "all accepted CPU tables of any non-zero length", "why_tests_cant": "tests only check rows made by the honest generator", "anchors": ["evm_arithmetization/src/cpu/control_flow.rs", "evm_arithmetization/src/cpu/halt.rs", "evm_arithmetization/src/cpu/clock.rs", "evm_arithmetization/src/cpu/membus.rs"]}
{"id": "C78", "title": "The CPU table executes instructions in the order of the program", "statement": "After every instruction but jumps the program counter of the next row is the one after the instruction and the mode is unchanged; the context changes only by SET_CONTEXT, to the context on the stack; a jump goes to the word on the stack, in user mode only if it is marked as a jump destination; EXIT_KERNEL restores program counter, mode and gas; syscalls and exceptions enter the kernel at the address found in the handler table. Refuted for: program counter and mode after PUSH and after MLOAD_32BYTES (and so for MSTORE_32BYTES), the mode after JUMP, and the condition of JUMPI, which is never read from the stack.", "quantifier": "all accepted CPU tables, all rows and next rows", "why_tests_cant": "tests only check rows made by the honest generator; an unconstrained column looks right on every honest trace", "anchors": ["evm_arithmetization/src/cpu/control_flow.rs: NATIVE_INSTRUCTIONS", "evm_arithmetization/src/cpu/jumps.rs", "evm_arithmetization/src/cpu/syscalls_exceptions.rs", "evm_arithmetization/src/cpu/contextops.rs"]}
{"id": "C79", "title": "The CPU table moves the stack as each instruction says", "statement": "After every instruction the stack length changes by what the instruction pushes less what it pops; operands are read at their stack positions, DUP and SWAP read, write and exchange the right cells, a push saves the old top, jumps and EXIT_KERNEL load the new top; an instruction that pushes cannot reach 1025 entries in user mode. Refuted: the length after MSTORE_GENERAL, the new top after POP, the save of the old top by GET_CONTEXT, NOT on an empty stack.", "quantifier": "all accepted CPU tables, all rows and next rows; SET_CONTEXT is excluded from the length (its length comes from memory)", "why_tests_cant": "tests only check rows made by the honest generator", "anchors": ["evm_arithmetization/src/cpu/stack.rs: STACK_BEHAVIORS, eval_packed_one, eval_packed", "evm_arithmetization/src/cpu/dup_swap.rs", "evm_arithmetization/src/cpu/contextops.rs", "evm_arithmetization/src/cpu/memio.rs"]}
{"id": "C80", "title": "The CPU table accesses no memory but what the instruction needs", "statement": "Memory channels that an instruction does not need are unused. Proved for the listed channels of each instruction; refuted for channel 2 of binary operations and channel 0 of the next row (an ADD in user mode writes two arbitrary kernel cells) and for the partial channel of padding rows.", "quantifier": "all accepted CPU tables, all rows, all instructions", "why_tests_cant": "the honest generator never uses a spare channel, so no test sees one used", "anchors": ["evm_arithmetization/src/cpu/stack.rs", "evm_arithmetization/src/cpu/membus.rs", "evm_arithmetization/src/cpu/halt.rs", "evm_arithmetization/src/cpu/cpu_stark.rs: ctl_data_gp_memory, ctl_data_partial_memory"]}
{"id": "C81", "title": "The CPU table charges each instruction its gas", "statement": "The gas counter of the next row grows by the gas of the instruction: the table of gas.rs, 3, 5 or 8 for arithmetic operations, nothing for kernel-only instructions.", "quantifier": "all accepted CPU tables, all rows and next rows", "why_tests_cant": "tests only check rows made by the honest generator", "anchors": ["evm_arithmetization/src/cpu/gas.rs: SIMPLE_OPCODES, eval_packed_accumulate, eval_packed_init"]}
{"id": "C82", "title": "The CPU table computes the results it does not delegate", "statement": "EQ, ISZERO, NOT (on words when limbs are 32-bit), PC, PUSH0, JUMPDEST, GET_CONTEXT, SET_CONTEXT with its pruning flag, the address and value of MLOAD_GENERAL and MSTORE_GENERAL, the new address left by MSTORE_32BYTES, the BN254 modulus handed to the arithmetic table, the frame pushed by syscalls and exceptions, and for shifts the cell of the shift table, are as the specification says. Refuted: the power of two for displacements of 2^32 and more, the value of a PUSH in kernel mode, and the mode saved by the stop exception.", "quantifier": "all accepted CPU tables, all rows and next rows", "why_tests_cant": "tests only check rows made by the honest generator", "anchors": ["evm_arithmetization/src/cpu/simple_logic/eq_iszero.rs", "evm_arithmetization/src/cpu/simple_logic/not.rs", "evm_arithmetization/src/cpu/pc.rs", "evm_arithmetization/src/cpu/push0.rs", "evm_arithmetization/src/cpu/shift.rs", "evm_arithmetization/src/cpu/memio.rs", "evm_arithmetization/src/cpu/contextops.rs", "evm_arithmetization/src/cpu/modfp254.rs", "evm_arithmetization/src/cpu/syscalls_exceptions.rs"]}
{"id": "C83", "title": "The sponge table computes Keccak-256 of the bytes it reads", "statement": "In an accepted Keccak sponge table, with an accepted logic table behind its exclusive ors and right permutations behind its Keccak lookups, a row that the CPU looks up shows the address, the length, the time and the Keccak-256 digest (pad10*1, rate 136, FIPS 202 permutation or any other) of exactly the bytes that the rows of its operation read from memory, byte k at the base address plus k. Proved for rows other than the last one whose digest cells are bytes, when timestamps of active rows differ or each row has its own permutation. Completeness: for every list of operations the generated table is accepted, shows the digests in order, reads every byte once and asks the other tables only for right results.", "quantifier": "all accepted sponge tables shorter than p/136 rows, all rows, all permutations of fifty words, all operation lists, messages of every length", "why_tests_cant": "tests check one honest row of one message against a reference implementation", "anchors": ["evm_arithmetization/src/keccak_sponge/keccak_sponge_stark.rs: eval_packed_generic, ctl_looked_data, ctl_looking_keccak_inputs, ctl_looking_keccak_outputs, ctl_looking_memory, ctl_looking_logic, generate_trace, generate_rows_for_op, generate_final_row", "evm_arithmetization/src/keccak_sponge/columns.rs"]}
{"id": "C84", "title": "The sponge table admits only the right digest", "statement": "The constraints of the sponge table with its lookups leave the digest no freedom. Refuted in three ways: the digest cells have no range check, so for every accepted table, every final row and every eight field elements there is an accepted table with the same lookups into the Keccak, logic and memory tables in which the CPU sees these elements as the digest; the padding constraints are transition constraints, so the last row of the table may hold an unpadded block (with Keccak itself, an accepted table claims another digest for the empty string); inputs and outputs of the permutation are looked up separately and joined by the timestamp only, which all blocks of a message share, so outputs of one message's blocks can be exchanged.", "quantifier": "for every accepted table and target digest; for every permutation; for all blocks", "why_tests_cant": "no test builds a dishonest table", "anchors": ["evm_arithmetization/src/keccak_sponge/keccak_sponge_stark.rs: eval_packed_generic, lookups, ctl_looking_keccak_inputs, ctl_looking_keccak_outputs", "evm_arithmetization/src/all_stark.rs: ctl_keccak_inputs, ctl_keccak_outputs"]}
{"id": "C85", "title": "The Keccak table proves the Keccak permutation", "statement": "In an accepted Keccak permutation table whose cells that stand for bits are bits, every looked-up output (fifty 32-bit words and a timestamp) is the FIPS 202 permutation Keccak-f[1600] of the input looked up 23 rows above, with the same timestamp; the outputs, in order, belong to the inputs in order, except at most one permutation cut off by the end of the table. Together with accepted sponge and logic tables the CPU therefore sees the Keccak-256 digest of the message. Completeness: for every list of states of 64-bit lanes and timestamps the generated table is accepted, its bit cells are bits, and its lookups show exactly the states and their permutations in order.", "quantifier": "all accepted tables of every length, all rows; all lists of states and timestamps, every minimal number of rows", "why_tests_cant": "tests compare one honest permutation with a reference implementation", "anchors": ["evm_arithmetization/src/keccak/keccak_stark.rs: eval_packed_generic, generate_trace_rows, generate_trace_rows_for_perm, generate_trace_row_for_round, copy_output_to_input, ctl_data_inputs, ctl_data_outputs", "evm_arithmetization/src/keccak/columns.rs", "evm_arithmetization/src/keccak/constants.rs", "evm_arithmetization/src/keccak/logic.rs", "evm_arithmetization/src/keccak/round_flags.rs: eval_round_flags"]}
{"id": "C86", "title": "The Keccak table admits only the right output", "statement": "The constraints of the Keccak permutation table determine the output. Refuted: the 64 cells for the bits of A''[0,0] have no booleanity constraint, so for every state, timestamp and any two field elements there is an accepted table that looks up the state as its only input and shows, as the first output lane, these two elements; all other output words stay right.", "quantifier": "for every accepted table, every last-round row and all pairs of field elements", "why_tests_cant": "no test builds a dishonest table", "anchors": ["evm_arithmetization/src/keccak/keccak_stark.rs: eval_packed_generic", "evm_arithmetization/src/keccak/columns.rs: reg_a_prime_prime_0_0_bit"]}
{"id": "C87", "title": "Tries loaded into kernel memory are read back unchanged", "statement": "When the loader writes a partial trie into the TrieData memory of the kernel, the cells already there keep their contents, and extracting a trie from the returned pointer, from this memory or from any later one that keeps the written cells, yields the same trie with the same keys and the same values (transactions included).", "quantifier": "for every trie whose nodes have the shapes the library builds, every value encoding that can be read back, every initial memory and every later memory agreeing on the written cells", "why_tests_cant": "The tests of the extractor load one or two small tries; an offset that is wrong for one node kind, an absent child or a nested trie shows only on other shapes.", "anchors": ["evm_arithmetization/src/generation/mpt.rs: load_mpt", "evm_arithmetization/src/generation/trie_extractor.rs: get_trie, read_txn_rlp_value"]}
{"id": "C88", "title": "Receipts and addresses read from kernel memory are those that were written", "statement": "Reading a receipt from the cells that the loader lays out for it returns the same type and the same receipt, for every transaction type; converting a 256-bit word to an address accepts exactly the words that are addresses.", "quantifier": "for every receipt with well-formed status, gas, bloom and logs, every transaction type 0-3, every number and size of topics and data, and every 256-bit word", "why_tests_cant": "A test extracts a fixed receipt with fixed logs; it does not try all types and the boundary of an address.", "anchors": ["evm_arithmetization/src/generation/mpt.rs: parse_receipts", "evm_arithmetization/src/generation/trie_extractor.rs: read_receipt_trie_value, read_logs", "evm_arithmetization/src/util.rs: u256_to_h160"]}
{"id": "C89", "title": "The prover inputs of a list of signed transactions determine the transactions", "statement": "The words handed to the kernel for RLP prover inputs, popped in order, can be decoded back into the byte strings of the transactions, in order; two different lists of transactions give different inputs.", "quantifier": "for every list of byte strings of any length below 2^256", "why_tests_cant": "Round trips of sample transactions cannot show that padding of the last chunk never makes two inputs coincide.", "anchors": ["evm_arithmetization/src/generation/rlp.rs: all_rlp_prover_inputs_reversed, all_rlp_prover_inputs, prover_inputs"]}
{"id": "C90", "title": "The linked lists of accounts and slots hold exactly the leaves of the tries, sorted and closed", "statement": "Whenever the initial linked lists are built, following next pointers from the head meets one node per account (and per storage slot of each account), in the order of the keys, and returns to the head; each node carries the key and the fields of its leaf, each recorded pointer is the address of the node with that key, keys increase strictly, and storage tries match the accounts' roots. Building succeeds for every well-formed input.", "quantifier": "for every state trie and map of storage tries, every hash function and decoders, every previous memory; the order for keys of 64 nibbles", "why_tests_cant": "The kernel proves insertions and reads by neighbours in these lists: a single wrong next pointer or an order broken for one trie shape makes blocks unprovable or unsound. Tests use a handful of accounts.", "anchors": ["evm_arithmetization/src/generation/mpt.rs: get_state_and_storage_leaves, get_storage_leaves, load_linked_lists_and_txn_and_receipt_mpts", "evm_arithmetization/src/generation/linked_list.rs: empty_list_mem, LinkedListsPtrs"]}
{"id": "C91", "title": "The segments of a batch are one execution cut into consecutive pieces, and the iterator ends", "statement": "The iterator over segments numbers them from 0; each segment starts with the registers, memory and extra data with which the run of the previous one ended; the first starts from the initial registers; no segment follows one that stopped at the halt label, and the iterator ends exactly there and stays ended. After an error it yields nothing more.", "quantifier": "for every machine (run function), every initial state and every number of calls", "why_tests_cant": "A test sees two or three segments of one payload; a register or prover input lost at a boundary, or a loop after an error, depends on where the cut falls and on the failure.", "anchors": ["evm_arithmetization/src/generation/segments.rs: SegmentDataIterator, generate_next_segment, build_segment_data", "evm_arithmetization/src/cpu/kernel/interpreter.rs: set_registers_and_run", "evm_arithmetization/src/generation/state.rs: set_segment_data", "zero/src/prover.rs: segment_generation_task"]}
{"id": "C92", "title": "Base fields of the pairing curves", "statement": "BN254 and BLS381 add, subtract, negate and multiply canonical elements exactly modulo the prime without panicking, for all elements (although BLS381 multiplies 381-bit numbers in 512-bit words); inv is the power p-2; sqrt answers a root whenever there is one and None otherwise; lexicographically_largest holds exactly of the larger of an element and its negation; a compressed G1 point is only accepted with a canonical abscissa.", "quantifier": "for all elements of the two prime fields, and all encodings of a G1 point", "why_tests_cant": "The fields have about 2^254 and 2^381 elements; the off-by-one boundary cases have vanishing probability in random tests.", "anchors": ["evm_arithmetization/src/extension_tower.rs: BN_BASE, BLS_BASE, BN254, BLS381, BLS381::sqrt, BLS381::lexicographically_largest", "evm_arithmetization/src/curve_pairings.rs: g1_from_bytes"]}
{"id": "C93", "title": "Effect of traces and withdrawals on balances and nonces", "statement": "Decoding a block's withdrawals raises the balance of every address by exactly the sum of its withdrawals and changes no nonce, transaction or receipt. A trace of a transaction sets the balance and nonce of its account to the values it gives, leaves those of all other accounts alone, and writes nothing to an account that did not exist before when the transaction failed.", "quantifier": "for all worlds with a lawful reading of balances and nonces, all lists of withdrawals, all traces and receipts", "why_tests_cant": "Tests replay a few blocks; failed transactions that touch new accounts and repeated withdrawals to one address are combinations no finite set covers.", "anchors": ["trace_decoder/src/core.rs: middle, do_withdrawals", "evm_arithmetization/src/world.rs: World"]}
{"id": "C94", "title": "Extension towers of the pairing curves", "statement": "For both curves, Fp2, Fp6 and Fp12 as computed by the code are commutative rings in which i^2 = -1, t^3 = xi (9+i for BN254, 1+i for BLS12-381) and z^2 = t; the sparse products mul_by_1, mul_by_01 and mul_by_014 equal the full products; the tabulated Frobenius maps are ring homomorphisms that compose by adding their indices, the 0th being the identity; inv is a two-sided inverse of every non-zero element.", "quantifier": "for all elements of the towers and all Frobenius indices", "why_tests_cant": "The rings have up to p^12 elements; tests compare a few random products with the kernel assembly, which is written from the same formulas and constants.", "anchors": ["evm_arithmetization/src/extension_tower.rs: FieldExt, Fp2, Adj, Fp6, Fp12, Fp6::mul_by_1, Fp6::mul_by_01, Fp12::mul_by_014, Fp6::frob, Fp12::frob"]}
