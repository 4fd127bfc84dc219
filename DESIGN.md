# Formal model of zk_evm in Rocq

Source: `/repo` (0xPolygonZero/zk_evm, pinned commit), read as text only.
Prover: Rocq / Coq 8.16.1, standard library only.

## Approach

* Every Rust function of interest is transcribed as a total, computable Gallina function.
  Each definition carries a comment with the file and lines it models and the simplifications made.
* Machine integers that can wrap, panics and `Result`s are explicit. A panic is an error value of
  its own, never a default value.
* Cryptographic functions (keccak, poseidon) are parameters. Theorems quantify over them. Where
  collision freedom is needed it is a hypothesis of the theorem, visible in its statement.
* Field elements of the STARK tables are integers modulo the Goldilocks prime 2^64 - 2^32 + 1.
  A constraint `e = 0` is modelled as `e mod p = 0`.
* For each area there are: `*Model.v` (transcription, no proofs), `*Spec.v` or a spec section
  (independent specification), `*Proofs.v`, and `*Props.v` (the numbered theorems, non-vacuity
  examples and `Print Assumptions`).

## Properties: what is modelled and how it is proved

| id | model | proof idea |
|----|-------|-----------|
| C01 | `Node`, `insert_into_trie_rec`, `trie_get_intern` over nibble lists | structural induction; refinement to a function key -> option value, for prefix-free key sets |
| C02 | `delete_intern`, collapse functions | same invariant (canonical trie), induction on the trie |
| C03 | as C01/C02 | canonical tries with equal contents are equal (induction); operations keep canonicity |
| C04 | `PartialTrieIter` as an explicit stack machine with fuel | simulation: the stack/key pair denotes the list of entries still to be output |
| C05 | partial-order "P is T with subtrees hashed out" | operations preserve the relation; relation implies equal hash |
| C06 | `TrackedNode`, marking, extraction | extraction yields a hashed-out version (C05 relation); marking keeps the path of each key |
| C07 | `create_trie_subsets` with state reset | expected false for the root node flag: witness, plus the part that holds |
| C08 | heap of hash cells shared by `clone` | expected false for clone-then-mutate and failed `extend`: witnesses; invariant proof for the rest |
| C09 | packed `Nibbles` (count, integer mod 2^320) | refinement to lists, div/mod arithmetic |
| C10 | hex-prefix functions on packed nibbles | list induction |
| C11 | `path_for_query`, path steps | induction; tied to `get` |
| C12 | `delete_node_and_report_...` | uses C02 characterisation |
| C13 | `find_diff_points` | induction on both tries (collision-free hash); false for branch values: witness |
| C14-C17 | `Key::split/join`, `Smt` over a log of hashed nodes | refinement to an abstract binary trie (`SmtProofs.tree`, zipper contexts), canonical trie determined by contents; witnesses for the panics |
| C18 | `poseidon_pad_byte_vec`, sponge | decoder for the padding; backward induction over the sponge |
| C19-C23 | constraint polynomials over Z mod p | lift to Z by bounds, then arithmetic on limb lists |
| C24 | `generate*` functions | compute carries and show the constraints hold |
| C25 | logic table | bit decomposition |
| C26, C27 | two-row memory constraints over a whole trace | induction over the trace; C27 expected false, witness |
| C28 | byte packing row | arithmetic |
| C29, C30 | optimizer passes on an AST (macros, jump tables and byte blobs are opaque items), small-step machine with an arbitrary rest of the world; label addresses are symbolic and the same before and after | window rewriting simulation; length measure |
| C31, C32 | stack manipulation and permutations | path soundness, permutation algebra |
| C33, C52 | the assembler: macro table, expansion (fuel for the nesting), constants, layout and encoding; the parser and the debug label list are not modelled | positions as sums of emitted chunks; freshness of generated names; rank and depth measure |
| C34, C35, C53-C55 | `entrypoint`, `batch`, `middle`, `do_trace` and the pre-execution hooks over an arbitrary world (the `World` trait as a record) and arbitrary index tries | list induction; simulation by one sequential pass |
| C36, C37, C56, C57 | `wire.rs` parser on bytes (the CBOR decoder is a parameter with two laws; an RFC 8949 decoder is given and meets them), witness stack machine, `type1.rs` frontend on the tries of C01-C13 | serialization as an inductive relation; induction over the tree; rebuilding a canonical trie from its entries |
| C58, C59 | `type2.rs` frontend, `Type2World` (BTreeMaps as sorted association lists) over the SMT of C14-C18 | serialization as an inductive relation; tree of the witness; totality and uniqueness of the tree built from hash nodes and leaves |
| C38, C39, C68, C69 | `block_interval.rs`, `rpc/retry.rs`, `parsing.rs`, `pre_checks.rs` (IntervalModel.v); streams are lists, time is not modelled | induction |
| C70 | `prover_state/{circuit,persistence,mod}.rs` (CircuitModel.v): digest, file names, the cache on disk as a map; circuits are abstract, serialization exact | unique decoding of the digest; invariant of the directory |
| C71 | previous block hashes of `rpc/mod.rs` (HashesModel.v); the node is a function | induction over the numbers counted down |
| C72, C73 | `prover.rs` and `ops.rs` (PipelineModel.v): one block as a relation over orders of arrival and splits of folds, an interval as a transition system with permits; proofs are abstract and the writing of files succeeds | sorting restores the order; invariant, measure and progress over all schedules |
| C74, C75 | the aggregation circuits of `fixed_recursive_verifier.rs` and the public-value targets of `proof.rs` (AggregateModel.v): layout of the public inputs, selections, connections, conditional equalities, and which key each inner proof is verified against; the prover functions that fill them (ProverModel.v). Plonky2 is not in the repository: the inner verifier is ideal (a proof for a key is a tree that satisfies the circuit of that key), the limbs of a key are one value, and `conditionally_verify_cyclic_proof` connects the key of the cyclic candidate only, as documented there. The root circuit (a segment) and Poseidon are parameters, so are circuits of others | proof trees as an inductive type; induction over the tree against a specification that only mentions segments; layout lemmas for the prover |
| C83-C84 | the Keccak sponge table (`keccak_sponge/{columns,keccak_sponge_stark}.rs`; SpongeModel.v): constraints, range-check lookup, the columns and filters of all its cross-table lookups, generation of rows and padding. `eval_ext_circuit` is not modelled. The permutation is a parameter; KeccakSpec.v writes Keccak-f and Keccak-256 from FIPS 202 and checks the published digest of the empty string | the constraints are read as facts about rows (`meaning`), operations by induction over blocks; completeness by induction over `generate_blocks`; refutations change one row of an arbitrary accepted table or build a table through the same `finish` as generation |
| C85-C86 | the Keccak permutation table (`keccak/{columns,constants,logic,round_flags,keccak_stark}.rs`; KeccakModel.v): columns, constraints, lookup columns and filters, generation of rows. `eval_ext_circuit` and the conversion to polynomials are not modelled | flags by induction over rows; one round as an identity on bits; completeness from one lemma on a generated row; the refutation solves two linear equations for unconstrained cells of an arbitrary accepted table |
| C87-C90 | loading of tries into kernel memory and extraction (`generation/{mpt,trie_extractor,rlp}.rs`, conversions of `util.rs`; Generation/LoadModel.v): `load_mpt`, `parse_receipts` after RLP decoding, `get_trie`, readers of transactions and receipts, RLP prover inputs; Generation/ListModel.v: the linked lists of accounts and slots. Not modelled: RLP decoding of receipts, `load_state_trie`, the readers of state and storage leaves | induction over the trie, with memory described by agreement on the cells written; receipts by the lengths of their parts; prover inputs by a decoder written for the proof; lists by a closed form of their memory (`layout`), order by the first nibble where two keys differ |
| C91 | the iterator over segments (`generation/segments.rs`, `set_registers_and_run`, `set_segment_data`; Generation/SegmentsModel.v). Memory, extra data and `Interpreter::run` are parameters | invariant on the data kept for the next segment, by induction over calls |
| C92 | base fields of the pairing curves (`extension_tower.rs:24-349`, `g1_from_bytes` of `curve_pairings.rs`; Tower/FieldModel.v). U256/U512 overflow is a panic. Primality of the moduli is not proved; the pairing algorithms and curve group operations are not modelled | range analysis of the checked operations; square-and-multiply by induction over the bits |
| C93 | `middle` and `do_withdrawals` of `trace_decoder/src/core.rs` (Trace/BatchModel.v) over any world with a lawful reading of balances and nonces (`account_laws`) | case analysis of `do_trace`, induction over withdrawals |
| C94 | towers Fp2, Fp6, Fp12 of both curves with their constants (`extension_tower.rs:351-1881`; Tower/TowerModel.v), over the integers modulo p (tied to the code by C94_base_fields). Sampling, stack layout and FROB as p-th powers are not covered | `ring` over generic towers from laws of the constants; the laws are checked by computation on the tables |
| C76-C82 | the constraints of the CPU table (`cpu/*.rs` without `kernel`; CpuModel.v): all modules called by `eval_packed_generic`, the columns with their shared unions, the memory views looked up by the memory table and the filter of the PUSH lookup. A row is a function from column numbers to canonical field elements, a table is accepted if each constraint vanishes modulo p where it applies. Feature `eth_mainnet` (no POSEIDON rows). Labels of the kernel are parameters. Lookups into other tables are not composed here | decoding of each flag by case analysis over mode and opcode bits, then per-instruction lemmas against a small instruction table (CpuSpec.v); refutations are tables of one to three rows checked by a boolean checker proved sound |
| C40, C60, C61 | `Type1World` and the state and storage tries (Type1WorldModel.v; storage map as an association list, RLP decoding of accounts), and the block loop of C34 run on them (Type1BlockModel.v) | invariant kept by every call; laws of partial tries with values at one depth; the invariant and the shape of the masks carried through the loop |
| C41, C42 | `witness/memory.rs` (MemoryModel.v): addresses, segments, contexts, preinitialised segments, `apply_ops`; debug assertions and allocation limits are not modelled | arithmetic, map lemmas over nested lists |
| C62-C67 | the CPU witness generator: `witness/{operation,util,transition,gas,traces}.rs`, `generation/state.rs` (`Transition`, `run_cpu`), MachineModel.v: registers, memory, operation logs, exceptions and rollback. CPU rows are only counted, the inputs of keccak-f are not kept, prover inputs and the observations of `jump_to` are parameters that may change the oracle (and the memory; ObserveModel.v gives the observations of a release build, the offsets of the two labels being parameters), Poseidon and the interpreter are not modelled, the registers are unbounded integers where the program has usize | one lemma for each instruction on its log; invariant kept by each cycle; sorting by timestamp; EvmSpec.v: the EVM's stack instructions, opcode table and user run, written without the model; each instruction and each run refines it; refutations by computation |
| C43 | conversions of packed nibbles | from C09 |
| C44 | RLP of nodes, root hash | RLP decoder gives injectivity; induction over the pair of tries |
| C46 | `set_hash`, `set`, `get` on trees with hash nodes | relation `hides` between partial and full trie, kept by every `set` |
| C47 | packed `Bits` | refinement to lists |
| C48 | `keys.rs` | injectivity of limb packing |
| C51 | circuit evaluators of each table next to the packed constraints | both emit the same list of constraints, by computation over symbolic rows |
| C49, C50 | cross-table view of the arithmetic rows | concrete rows completed to an accepted table; C50 from C19-C23 |
| C45 | as C44 | Yellow Paper TRIE written independently; induction over the canonical trie |

## Trusted base

* The Coq kernel (and `coqchk`).
* Axioms: every numbered theorem is followed by `Print Assumptions`; all print "Closed under the
  global context" (no axiom, of the standard library or otherwise).
* The faithfulness of the transcription, as cited definition by definition.
* Cryptography as hypotheses: where a theorem needs collision freedom of keccak or poseidon, it is a
  hypothesis of the theorem.
* STARK tables are modelled at the level of "every constraint polynomial vanishes modulo p on every
  row it applies to, and every lookup is a multiset equality with field multiplicities". That a proof
  accepted by plonky2/starky implies this (FRI, logUp and cross-table-lookup soundness) is assumed, as
  is that field elements are canonical integers below p.
* Recursive-circuit evaluators (`eval_ext_circuit`, C51) are evaluated over integers modulo p and not
  over the quadratic extension; the identities proved are polynomial identities, which hold in
  any commutative ring.
* Word sizes: `usize` is 64 bit. Allocation failure and stack overflow are not modelled.

## Modelled and not modelled, by crate

| crate | modelled | not modelled |
|-------|----------|--------------|
| mpt_trie | nibbles, partial trie, operations, subsets, hashing, path queries, diff tool | debug_tools query/stats printing, serde, `Arc` sharing except in C08 |
| smt_trie | keys, bits, SMT operations, bytecode hash, serialization | Poseidon itself, db back ends other than the in-memory map |
| evm_arithmetization | CPU table constraints, Keccak sponge and permutation, arithmetic, logic, memory, byte packing, memory continuation tables (constraints, circuits, generation), `Type1World`, `Type2World`, `tries.rs` | see the table above for what has a theorem; the kernel assembly text, plonky2 circuits, prover |
| trace_decoder | `core.rs` (entrypoint, middle, batch, hooks), `wire.rs`, `type1.rs`, `type2.rs` | serde of the inputs, observer, ciborium internals |
| zero | block interval, retry, range parsing, checks, circuit cache, previous hashes, proving pipeline | RPC encoding, tokio and paladin internals, CLI, workers, trie diff tool |
