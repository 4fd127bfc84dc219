(** Model of the CPU table (evm_arithmetization/src/cpu): its columns and the
    constraints of [CpuStark::eval_packed_generic], module by module.

    Conventions as in Stark/ArithModel.v: a row is a function from column
    numbers to field elements, a constraint is the value of its polynomial on
    two consecutive rows together with the kind of consumer method, and the
    constraint holds when the value is zero modulo P.

    Simplifications:
    - the feature [cdk_erigon] is off (no POSEIDON flag);
    - the circuit versions ([eval_ext_circuit]) are not modelled;
    - the label addresses of the assembled kernel are parameters. *)
From Coq Require Import ZArith List Bool Arith.
From Verif Require Import Stark.Field Stark.ArithModel.
Import ListNotations.
Local Open Scope Z_scope.

(** * cpu/columns *)

(** columns/mod.rs:50-87, in the order of the [repr(C)] struct. *)
Definition CONTEXT : nat := 0.
Definition CODE_CONTEXT : nat := 1.
Definition PROGRAM_COUNTER : nat := 2.
Definition STACK_LEN : nat := 3.
Definition IS_KERNEL_MODE : nat := 4.
Definition GAS : nat := 5.

(** columns/ops.rs:9-53 *)
Definition BINARY_OP : nat := 6.
Definition TERNARY_OP : nat := 7.
Definition FP254_OP : nat := 8.
Definition EQ_ISZERO : nat := 9.
Definition LOGIC_OP : nat := 10.
Definition NOT_POP : nat := 11.
Definition SHIFT : nat := 12.
Definition JUMPDEST_KECCAK_GENERAL : nat := 13.
Definition JUMPS : nat := 14.
Definition PUSH_PROVER_INPUT : nat := 15.
Definition DUP_SWAP : nat := 16.
Definition CONTEXT_OP : nat := 17.
Definition M_OP_32BYTES : nat := 18.
Definition EXIT_KERNEL : nat := 19.
Definition M_OP_GENERAL : nat := 20.
Definition PC_PUSH0 : nat := 21.
Definition SYSCALL : nat := 22.
Definition EXCEPTION : nat := 23.
(** [COL_MAP.op.iter()] *)
Definition OP_FLAGS : list nat :=
  [BINARY_OP; TERNARY_OP; FP254_OP; EQ_ISZERO; LOGIC_OP; NOT_POP; SHIFT; JUMPDEST_KECCAK_GENERAL; JUMPS;
   PUSH_PROVER_INPUT; DUP_SWAP; CONTEXT_OP; M_OP_32BYTES; EXIT_KERNEL; M_OP_GENERAL; PC_PUSH0; SYSCALL; EXCEPTION].

Definition OPCODE_BITS : nat := 24.                    (* 8 columns *)
Definition bit (r : row) (i : nat) : Z := r (OPCODE_BITS + i)%nat.

(** columns/general.rs: the eight shared columns and their views. *)
Definition GENERAL : nat := 32.
Definition EXC_CODE_BITS : nat := GENERAL.             (* general.rs:150-156, 3 columns *)
Definition DIFF_PINV : nat := GENERAL.                 (* general.rs:160-165, 8 columns *)
Definition SHOULD_JUMP : nat := GENERAL.               (* general.rs:169-177 *)
Definition COND_SUM_PINV : nat := S GENERAL.
Definition HIGH_LIMB_SUM_INV : nat := GENERAL.         (* general.rs:181-188 *)
Definition STACK_INV : nat := 36.                      (* general.rs:192-209 *)
Definition STACK_INV_AUX : nat := 37.
Definition STACK_INV_AUX_2 : nat := 38.
Definition STACK_LEN_BOUNDS_AUX : nat := 39.
Definition IS_NOT_KERNEL : nat := GENERAL.             (* general.rs:213-219 *)
Definition PRUNING_FLAG : nat := GENERAL.              (* general.rs:223-230 *)

Definition CLOCK : nat := 40.

(** membus.rs:11; columns/mod.rs:20-40: three channels of 13 columns. *)
Definition NUM_GP_CHANNELS : nat := 3.
Definition channel (i : nat) : nat := (41 + 13 * i)%nat.
(** columns/mod.rs:42-50: the partial channel has the first five columns. *)
Definition partial_channel : nat := 80.
Definition used (r : row) (c : nat) : Z := r c.
Definition is_read (r : row) (c : nat) : Z := r (c + 1)%nat.
Definition addr_context (r : row) (c : nat) : Z := r (c + 2)%nat.
Definition addr_segment (r : row) (c : nat) : Z := r (c + 3)%nat.
Definition addr_virtual (r : row) (c : nat) : Z := r (c + 4)%nat.
Definition limb (r : row) (c i : nat) : Z := r (c + 5 + i)%nat.
Definition NUM_CPU_COLUMNS : nat := 85.

(** The eight limbs of a channel. *)
Definition value (r : row) (c : nat) : list Z := map (limb r c) (seq 0 8).

(** memory/segments.rs, unscaled. *)
Definition SEGMENT_CODE : Z := 0.
Definition SEGMENT_STACK : Z := 1.
Definition SEGMENT_CONTEXT_METADATA : Z := 6.
Definition SEGMENT_SHIFT_TABLE : Z := 13.
Definition SEGMENT_JUMPDEST_BITS : Z := 14.
(** constants/context_metadata.rs:11-38 *)
Definition CTX_STACK_SIZE : Z := 11.

(** cpu/kernel/aggregator.rs [KERNEL.global_labels] at the labels used here. *)
Record labels : Type := {
  halt_final : Z; init : Z; syscall_jumptable : Z; exception_jumptable : Z }.

Definition all (e : Z) : constr := (All, e).
Definition trans (e : Z) : constr := (Transition, e).

(** Sum of bits times powers of two, from index [i] on. *)
Fixpoint le_bits (i : Z) (bits : list Z) : Z :=
  match bits with [] => 0 | b :: r => b * 2 ^ i + le_bits (i + 1) r end.
Definition bits8 (r : row) : list Z := map (bit r) (seq 0 8).
Definition opcode_of (r : row) : Z := le_bits 0 (bits8 r).

(** The sum of the flags: [is_cpu_cycle]. *)
Definition cpu_cycle (r : row) : Z := sum (map r OP_FLAGS).

(** * byte_unpacking.rs:11-47 *)
Definition eval_byte_unpacking (lv nv : row) : list constr :=
  let filter := lv M_OP_32BYTES * (bit lv 5 - 1) in
  let new_addr := limb nv (channel 0) in
  let written_addr := limb lv (channel 0) in
  let len := le_bits 0 (map (bit lv) (seq 0 5)) + 1 in
  [all (filter * (new_addr 0%nat - written_addr 0%nat - len));
   all (filter * (new_addr 1%nat - written_addr 1%nat));
   all (filter * (new_addr 2%nat - written_addr 2%nat))] ++
  map (fun i => all (filter * new_addr i)) (seq 3 5).

(** * clock.rs:14-23 *)
Definition eval_clock (lv nv : row) : list constr :=
  [(First, lv CLOCK - 1); trans (nv CLOCK - lv CLOCK - 1)].

(** * cpu_stark.rs:549-558 *)
Definition disable_unused_channels (lv : row) (filter : Z) (channels : list nat) : list constr :=
  map (fun i => all (filter * used lv (channel i))) channels.

(** * contextops.rs *)

(** contextops.rs:16-37: every operation except [context_op]. *)
Definition KEEPS_CONTEXT : list nat :=
  [BINARY_OP; TERNARY_OP; FP254_OP; EQ_ISZERO; LOGIC_OP; NOT_POP; SHIFT; JUMPDEST_KECCAK_GENERAL; JUMPS;
   PUSH_PROVER_INPUT; DUP_SWAP; M_OP_32BYTES; EXIT_KERNEL; M_OP_GENERAL; PC_PUSH0; SYSCALL; EXCEPTION].
(** contextops.rs:39-53 *)
Definition eval_context_keep (lv nv : row) : list constr :=
  map (fun op => trans (lv op * (nv CONTEXT - lv CONTEXT))) KEEPS_CONTEXT ++
  [trans (lv CONTEXT_OP * (bit lv 0 - 1) * (nv CONTEXT - lv CONTEXT))].
(** contextops.rs:79-105 *)
Definition eval_get_context (lv nv : row) : list constr :=
  let filter := lv CONTEXT_OP * (1 - bit lv 0) in
  let new_stack_top := limb nv (channel 0) in
  [all (filter * (new_stack_top 2%nat - lv CONTEXT))] ++
  map (fun i => all (filter * new_stack_top i)) [0; 1; 3; 4; 5; 6; 7]%nat ++
  [all (filter * lv PRUNING_FLAG);
   all (filter * (nv STACK_LEN - (lv STACK_LEN + 1)))] ++
  disable_unused_channels lv filter [1%nat] ++
  [all (filter * used nv (channel 0))].
(** contextops.rs:152-204 *)
Definition eval_set_context (lv nv : row) : list constr :=
  let filter := lv CONTEXT_OP * bit lv 0 in
  let stack_top := limb lv (channel 0) in
  [all (filter * (stack_top 2%nat - nv CONTEXT))] ++
  map (fun i => all (filter * stack_top i)) [1; 3; 4; 5; 6; 7]%nat ++
  [all (lv CONTEXT_OP * lv PRUNING_FLAG * (lv PRUNING_FLAG - 1));
   all (filter * (lv PRUNING_FLAG - stack_top 0%nat));
   all (lv CONTEXT_OP * (lv STACK_INV_AUX * bit lv 0 - lv STACK_INV_AUX_2))] ++
  map (fun i => all (lv CONTEXT_OP * lv STACK_INV_AUX_2 * (limb nv (channel 0) i - limb lv (channel 2) i))) (seq 0 8) ++
  disable_unused_channels lv filter [1%nat] ++
  [all (filter * used nv (channel 0))].
(** contextops.rs:277-315 *)
Definition eval_contextops (lv nv : row) : list constr :=
  let filter := lv CONTEXT_OP in
  let c := channel 2 in
  let stack_len := nv STACK_LEN - (1 - bit lv 0) in
  let new_filter := filter * lv STACK_INV_AUX in
  eval_context_keep lv nv ++ eval_get_context lv nv ++ eval_set_context lv nv ++
  [all (filter * (stack_len * lv STACK_INV - lv STACK_INV_AUX));
   all (filter * (lv STACK_INV_AUX - used lv c));
   all (new_filter * (is_read lv c - bit lv 0));
   all (new_filter * (addr_context lv c - nv CONTEXT));
   all (new_filter * (addr_segment lv c - SEGMENT_STACK));
   all (new_filter * (addr_virtual lv c - (stack_len - 1)))].

(** * control_flow.rs *)

(** control_flow.rs:13-34 *)
Definition NATIVE_INSTRUCTIONS : list nat :=
  [BINARY_OP; TERNARY_OP; FP254_OP; EQ_ISZERO; LOGIC_OP; NOT_POP; SHIFT; JUMPDEST_KECCAK_GENERAL;
   PC_PUSH0; DUP_SWAP; CONTEXT_OP; M_OP_GENERAL].
(** control_flow.rs:50-102 *)
Definition eval_control_flow (k : labels) (lv nv : row) : list constr :=
  let is_cpu_cycle := cpu_cycle lv in
  let is_cpu_cycle_next := cpu_cycle nv in
  let next_halt_state := 1 - is_cpu_cycle_next in
  let is_native_instruction := sum (map lv NATIVE_INSTRUCTIONS) in
  let is_prover_input := lv PUSH_PROVER_INPUT * bit lv 7 in
  let is_last_noncpu_cycle := (is_cpu_cycle - 1) * is_cpu_cycle_next in
  [trans (is_cpu_cycle * (is_cpu_cycle_next + next_halt_state - 1));
   trans (is_native_instruction * (lv PROGRAM_COUNTER - nv PROGRAM_COUNTER + 1));
   trans (is_native_instruction * (lv IS_KERNEL_MODE - nv IS_KERNEL_MODE));
   trans (is_prover_input * (lv PROGRAM_COUNTER - nv PROGRAM_COUNTER + 1));
   trans (is_prover_input * (lv IS_KERNEL_MODE - nv IS_KERNEL_MODE));
   all (lv PUSH_PROVER_INPUT * ((lv IS_KERNEL_MODE + lv IS_NOT_KERNEL) - 1));
   trans (is_last_noncpu_cycle * (nv PROGRAM_COUNTER - init k));
   trans (is_last_noncpu_cycle * (nv IS_KERNEL_MODE - 1));
   trans (is_last_noncpu_cycle * nv STACK_LEN)].

(** * decode.rs *)

(** decode.rs:34-53: start of the block, log2 of its length, kernel-only, flag. *)
Definition OPCODES : list (Z * nat * bool * nat) :=
  [(0x14, 1%nat, false, EQ_ISZERO); (0x56, 1%nat, false, JUMPS); (0x80, 5%nat, false, DUP_SWAP);
   (0xf6, 1%nat, true, CONTEXT_OP); (0xf9, 0%nat, true, EXIT_KERNEL)].
(** decode.rs:58-70 *)
Definition COMBINED_OPCODES : list nat :=
  [LOGIC_OP; FP254_OP; BINARY_OP; TERNARY_OP; SHIFT; M_OP_GENERAL; JUMPDEST_KECCAK_GENERAL; NOT_POP;
   PC_PUSH0; M_OP_32BYTES; PUSH_PROVER_INPUT].
Definition opcodes_flag (e : Z * nat * bool * nat) : nat := snd e.

(** decode.rs:142-156: the top [8 - block_length] bits are compared. *)
Definition opcode_mismatch (lv : row) (oc : Z) (block_length : nat) : Z :=
  sum (map (fun i => if Z.testbit oc (Z.of_nat i) then 1 - bit lv i else bit lv i) (seq block_length (8 - block_length))).
(** decode.rs:163-171 *)
Definition opcode_high_bits (lv : row) (n : nat) : Z :=
  sum (map (fun i => bit lv i * 2 ^ Z.of_nat i) (seq (8 - n) n)).

Definition boolean (e : Z) : constr := all (e * (e - 1)).

(** decode.rs:86-221 *)
Definition eval_decode (lv : row) : list constr :=
  let kernel_mode := lv IS_KERNEL_MODE in
  let flag_sum := sum (map (fun e => lv (opcodes_flag e)) OPCODES) + sum (map lv COMBINED_OPCODES) in
  let opcode := opcode_high_bits lv 8 in
  let opcode_high_three := opcode_high_bits lv 3 in
  [boolean kernel_mode] ++
  map (fun i => boolean (bit lv i)) (seq 0 8) ++
  map (fun e => boolean (lv (opcodes_flag e))) OPCODES ++
  map (fun c => boolean (lv c)) COMBINED_OPCODES ++
  [boolean flag_sum] ++
  map (fun e => match e with (oc, block_length, kernel_only, col) =>
         let unavailable := if kernel_only : bool then 1 - kernel_mode else 0 in
         all (lv col * (unavailable + opcode_mismatch lv oc block_length)) end) OPCODES ++
  [all ((kernel_mode - 1) * lv FP254_OP);
   all (lv TERNARY_OP * bit lv 1 * (kernel_mode - 1));
   all ((kernel_mode - 1) * lv M_OP_GENERAL);
   all ((opcode - 0xfb) * (opcode - 0xfc) * lv M_OP_GENERAL);
   all ((kernel_mode - 1) * lv JUMPDEST_KECCAK_GENERAL * (1 - bit lv 1));
   all ((opcode - 0x21) * (opcode - 0x5b) * lv JUMPDEST_KECCAK_GENERAL);
   all ((opcode - 0x58) * (opcode - 0x5f) * lv PC_PUSH0);
   all ((opcode - 0x19) * (opcode - 0x50) * lv NOT_POP);
   all ((kernel_mode - 1) * lv M_OP_32BYTES);
   all ((opcode_high_three - 0xc0) * (opcode - 0xf8) * lv M_OP_32BYTES);
   all ((opcode - 0xee) * (opcode_high_three - 0x60) * lv PUSH_PROVER_INPUT);
   all (lv PUSH_PROVER_INPUT * bit lv 7 * (kernel_mode - 1))].

(** * dup_swap.rs *)

(** dup_swap.rs:14-23 *)
Definition channels_equal (filter : Z) (ra : row) (ca : nat) (rb : row) (cb : nat) : list constr :=
  map (fun i => all (filter * (limb ra ca i - limb rb cb i))) (seq 0 8).
(** dup_swap.rs:44-61 *)
Definition constrain_channel (read : bool) (filter offset : Z) (c : nat) (lv : row) : list constr :=
  [all (filter * (used lv c - 1));
   all (filter * (is_read lv c - (if read then 1 else 0)));
   all (filter * (addr_context lv c - lv CONTEXT));
   all (filter * (addr_segment lv c - SEGMENT_STACK));
   all (filter * (addr_virtual lv c - (lv STACK_LEN - 1 - offset)))].
(** dup_swap.rs:111-139 *)
Definition eval_dup (n : Z) (lv nv : row) : list constr :=
  let filter := lv DUP_SWAP * (1 - bit lv 4) in
  channels_equal filter lv (channel 1) lv (channel 0) ++
  constrain_channel false filter 0 (channel 1) lv ++
  channels_equal filter lv (channel 2) nv (channel 0) ++
  constrain_channel true filter n (channel 2) lv ++
  [trans (filter * (nv STACK_LEN - lv STACK_LEN - 1));
   all (filter * used nv (channel 0))].
(** dup_swap.rs:205-239 *)
Definition eval_swap (n : Z) (lv nv : row) : list constr :=
  let filter := lv DUP_SWAP * bit lv 4 in
  channels_equal filter lv (channel 0) lv (channel 2) ++
  constrain_channel false filter (n + 1) (channel 2) lv ++
  channels_equal filter lv (channel 1) nv (channel 0) ++
  constrain_channel true filter (n + 1) (channel 1) lv ++
  [all (filter * (nv STACK_LEN - lv STACK_LEN));
   all (filter * used nv (channel 0))].
(** dup_swap.rs:306-322 *)
Definition eval_dup_swap (lv nv : row) : list constr :=
  let n := bit lv 0 + bit lv 1 * 2 + bit lv 2 * 4 + bit lv 3 * 8 in
  eval_dup n lv nv ++ eval_swap n lv nv ++ [all (lv DUP_SWAP * used lv partial_channel)].

(** * gas.rs *)

(** gas.rs:13-44 *)
Definition SIMPLE_OPCODES : list (nat * Z) :=
  [(FP254_OP, 0); (EQ_ISZERO, 3); (LOGIC_OP, 3); (SHIFT, 3); (PC_PUSH0, 2); (DUP_SWAP, 3);
   (CONTEXT_OP, 0); (M_OP_32BYTES, 0); (M_OP_GENERAL, 0)].
(** gas.rs:46-128 *)
Definition eval_gas_accumulate (lv nv : row) : list constr :=
  let filter := sum (map (fun e => lv (fst e)) SIMPLE_OPCODES) in
  let gas_used := sum (map (fun e => snd e * lv (fst e)) SIMPLE_OPCODES) in
  let gas_diff := nv GAS - lv GAS in
  let cost_filter := bit lv 0 + bit lv 4 - bit lv 0 * bit lv 4 in
  [trans (filter * (nv GAS - (lv GAS + gas_used)))] ++
  map (fun e => trans (lv (fst e) * (gas_diff - snd e))) SIMPLE_OPCODES ++
  [trans (lv JUMPS * (gas_diff - (8 + bit lv 0 * (10 - 8))));
   trans (lv BINARY_OP * (gas_diff - (5 + cost_filter * (3 - 5))));
   trans (lv TERNARY_OP * (gas_diff - (8 - bit lv 1 * 8)));
   trans (lv NOT_POP * (gas_diff - ((1 - bit lv 0) * 2 + bit lv 0 * 3)));
   trans (lv JUMPDEST_KECCAK_GENERAL * (gas_diff - (bit lv 1 * 1 + (1 - bit lv 1) * 0)));
   trans (lv PUSH_PROVER_INPUT * (gas_diff - ((1 - bit lv 7) * 3 + bit lv 7 * 0)))].
(** gas.rs:130-141 *)
Definition eval_gas_init (lv nv : row) : list constr :=
  [trans ((cpu_cycle lv - 1) * cpu_cycle nv * nv GAS)].
(** gas.rs:144-151 *)
Definition eval_gas (lv nv : row) : list constr := eval_gas_accumulate lv nv ++ eval_gas_init lv nv.

(** * halt.rs:16-51 *)
Definition eval_halt (k : labels) (lv nv : row) : list constr :=
  let halt_state := 1 - cpu_cycle lv in
  let next_halt_state := 1 - cpu_cycle nv in
  [boolean halt_state;
   trans (halt_state * (next_halt_state - 1));
   all (halt_state * (lv IS_KERNEL_MODE - 1))] ++
  map (fun i => all (halt_state * used lv (channel i))) (seq 0 NUM_GP_CHANNELS) ++
  [(Last, halt_state - 1);
   all (halt_state * (lv PROGRAM_COUNTER - halt_final k))].

(** * jumps.rs *)

(** jumps.rs:13-31 *)
Definition eval_exit_kernel (lv nv : row) : list constr :=
  let input := limb lv (channel 0) in
  let filter := lv EXIT_KERNEL in
  [trans (filter * (input 0%nat - nv PROGRAM_COUNTER));
   trans (filter * (input 1%nat - nv IS_KERNEL_MODE));
   trans (filter * (input 6%nat - nv GAS));
   all (filter * input 7%nat)].

(** The five constraints saying that a row reads the new top of its stack
    (stack.rs:245-254, jumps.rs:86-95, memio.rs:190-202). *)
Definition read_new_top (filter : Z) (nv : row) : list constr :=
  let c := channel 0 in
  [trans (filter * (used nv c - 1));
   trans (filter * (is_read nv c - 1));
   trans (filter * (addr_context nv c - nv CONTEXT));
   trans (filter * (addr_segment nv c - SEGMENT_STACK));
   trans (filter * (addr_virtual nv c - (nv STACK_LEN - 1)))].

(** jumps.rs:68-176 *)
Definition eval_jump_jumpi (lv nv : row) : list constr :=
  let dst := limb lv (channel 0) in
  let cond := limb lv (channel 1) in
  let filter := lv JUMPS in
  let is_jump := filter * (1 - bit lv 0) in
  let is_jumpi := filter * bit lv 0 in
  let len_diff := lv STACK_LEN - 1 - bit lv 0 in
  let new_filter := len_diff * filter in
  let empty_stack_filter := filter * (lv STACK_INV_AUX - 1) in
  let should_jump := lv SHOULD_JUMP in
  let cond_sum := sum (map cond (seq 0 8)) in
  let dst_hi_sum := sum (map dst (seq 1 7)) in
  let flag_channel := channel (NUM_GP_CHANNELS - 1) in
  read_new_top new_filter nv ++
  [all (filter * (len_diff * lv STACK_INV - lv STACK_INV_AUX));
   trans (empty_stack_filter * used nv (channel 0));
   all (is_jump * (cond 0%nat - 1))] ++
  map (fun i => all (is_jump * cond i)) (seq 1 7) ++
  [all (filter * should_jump * (should_jump - 1));
   all (filter * (should_jump - 1) * cond_sum);
   all (filter * (lv COND_SUM_PINV * cond_sum - should_jump));
   all (filter * should_jump * dst_hi_sum);
   all (filter * (limb lv flag_channel 0 - 1));
   all (filter * (used lv flag_channel - should_jump * (1 - lv IS_KERNEL_MODE)));
   all (filter * (is_read lv flag_channel - 1));
   all (filter * (addr_context lv flag_channel - lv CONTEXT));
   all (filter * (addr_segment lv flag_channel - SEGMENT_JUMPDEST_BITS));
   all (filter * (addr_virtual lv flag_channel - dst 0%nat))] ++
  map (fun i => all (filter * used lv (channel i))) (seq 2 (NUM_GP_CHANNELS - 1 - 2)) ++
  [all (filter * used lv partial_channel);
   all (is_jump * used lv (channel 1));
   trans (is_jump * (nv STACK_LEN - lv STACK_LEN + 1));
   trans (is_jumpi * (nv STACK_LEN - lv STACK_LEN + 2));
   trans (filter * (should_jump - 1) * (nv PROGRAM_COUNTER - (lv PROGRAM_COUNTER + 1)));
   trans (filter * should_jump * (nv PROGRAM_COUNTER - dst 0%nat))].
(** jumps.rs:389-396 *)
Definition eval_jumps (lv nv : row) : list constr := eval_exit_kernel lv nv ++ eval_jump_jumpi lv nv.

(** * membus.rs:42-58 *)
Definition eval_membus (lv : row) : list constr :=
  [all (lv CODE_CONTEXT - (1 - lv IS_KERNEL_MODE) * lv CONTEXT)] ++
  map (fun i => boolean (used lv (channel i))) (seq 0 NUM_GP_CHANNELS) ++
  [boolean (used lv partial_channel)].

(** * stack.rs *)

Definition MAX_USER_STACK_SIZE : Z := 1024.

(** stack.rs:48-53 *)
Record stack_behavior : Type := { num_pops : nat; pushes : bool; disable_other_channels : bool }.
Definition sb (n : nat) (p d : bool) : stack_behavior := {| num_pops := n; pushes := p; disable_other_channels := d |}.

(** A pop: channel i reads the stack at [stack_len - (i + 1)] (stack.rs:204-219). *)
Definition pop_channel (filter : Z) (lv : row) (i : nat) : list constr :=
  let c := channel i in
  [all (filter * (used lv c - 1));
   all (filter * (is_read lv c - 1));
   all (filter * (addr_context lv c - lv CONTEXT));
   all (filter * (addr_segment lv c - SEGMENT_STACK));
   all (filter * (addr_virtual lv c - (lv STACK_LEN - Z.of_nat (i + 1))))].

(** stack.rs:193-315 *)
Definition eval_stack_one (lv nv : row) (filter : Z) (b : stack_behavior) : list constr :=
  (if (0 <? num_pops b)%nat then
     flat_map (pop_channel filter lv) (seq 1 (num_pops b - 1)) ++
     [all (filter * used lv partial_channel)] ++
     (if pushes b then [] else
        let len_diff := lv STACK_LEN - Z.of_nat (num_pops b) in
        let empty_stack_filter := filter * (lv STACK_INV_AUX - 1) in
        read_new_top (len_diff * filter) nv ++
        [all (filter * (len_diff * lv STACK_INV - lv STACK_INV_AUX));
         trans (empty_stack_filter * used nv (channel 0))])
   else if pushes b then
     let new_filter := lv STACK_LEN * filter in
     let c := partial_channel in
     let empty_stack_filter := filter * (lv STACK_INV_AUX - 1) in
     [all (new_filter * (used lv c - 1));
      all (new_filter * is_read lv c);
      all (new_filter * (addr_context lv c - lv CONTEXT));
      all (new_filter * (addr_segment lv c - SEGMENT_STACK));
      all (new_filter * (addr_virtual lv c - (lv STACK_LEN - 1)));
      all (filter * (lv STACK_LEN * lv STACK_INV - lv STACK_INV_AUX));
      all (empty_stack_filter * used lv c)]
   else
     [all (filter * used nv (channel 0))] ++
     map (fun i => all (filter * (limb lv (channel 0) i - limb nv (channel 0) i))) (seq 0 8) ++
     [all (filter * used lv partial_channel)]) ++
  (if disable_other_channels b then
     let first := Nat.max 1 (num_pops b) in
     let past := (NUM_GP_CHANNELS - (if pushes b then 1 else 0))%nat in
     map (fun i => all (filter * used lv (channel i))) (seq first (past - first))
   else []) ++
  [trans (filter * (nv STACK_LEN - (lv STACK_LEN - Z.of_nat (num_pops b) + (if pushes b then 1 else 0))))].

(** stack.rs:20-45 and 116-173: the flags with [Some] behaviour or that might
    overflow, in the order of the struct. *)
Definition STACK_BEHAVIORS : list (nat * option stack_behavior * bool) :=
  [(BINARY_OP, Some (sb 2 true true), false);
   (TERNARY_OP, Some (sb 3 true true), false);
   (FP254_OP, Some (sb 2 true true), false);
   (EQ_ISZERO, None, false);
   (LOGIC_OP, Some (sb 2 true true), false);
   (NOT_POP, None, false);
   (SHIFT, Some (sb 2 true false), false);
   (JUMPDEST_KECCAK_GENERAL, None, false);
   (JUMPS, None, false);
   (PUSH_PROVER_INPUT, Some (sb 0 true true), true);
   (DUP_SWAP, None, true);
   (CONTEXT_OP, None, false);
   (M_OP_32BYTES, Some (sb 2 true false), false);
   (EXIT_KERNEL, Some (sb 1 false true), true);
   (M_OP_GENERAL, None, false);
   (PC_PUSH0, Some (sb 0 true true), true);
   (SYSCALL, Some (sb 0 true false), false);
   (EXCEPTION, Some (sb 0 true false), false)].
(** stack.rs:53-110 and 175-188 *)
Definition BASIC_UNARY_OP : stack_behavior := sb 1 true true.
Definition EQ_STACK_BEHAVIOR : stack_behavior := sb 2 true true.
Definition IS_ZERO_STACK_BEHAVIOR : stack_behavior := sb 1 true true.
Definition MLOAD_GENERAL_OP : stack_behavior := sb 1 true false.
Definition KECCAK_GENERAL_OP : stack_behavior := sb 2 true true.
Definition JUMPDEST_OP : stack_behavior := sb 0 false true.

(** stack.rs:368-413: the constraints of POP. *)
Definition eval_pop (lv nv : row) : list constr :=
  let len_diff := lv STACK_LEN - 1 in
  let is_top_read := lv STACK_INV_AUX * (1 - bit lv 0) in
  let new_filter := lv NOT_POP * lv STACK_INV_AUX_2 in
  [all (lv NOT_POP * (len_diff * lv STACK_INV - lv STACK_INV_AUX));
   all (lv NOT_POP * (lv STACK_INV_AUX_2 - is_top_read))] ++
  read_new_top new_filter nv ++
  [all (lv NOT_POP * (lv STACK_INV_AUX_2 - 1) * used nv (channel 0))] ++
  map (fun i => all (lv NOT_POP * (bit lv 0 - 1) * used lv (channel i))) (seq 1 (NUM_GP_CHANNELS - 1)) ++
  [all (lv NOT_POP * (bit lv 0 - 1) * used lv partial_channel);
   trans (lv NOT_POP * (bit lv 0 - 1) * (nv STACK_LEN - lv STACK_LEN + 1))].

(** stack.rs:318-414 *)
Definition eval_stack (lv nv : row) : list constr :=
  flat_map (fun e => match e with (op, behavior, might_overflow) =>
      (match behavior with Some b => eval_stack_one lv nv (lv op) b | None => [] end) ++
      (if might_overflow : bool then
         [trans (lv op * ((nv STACK_LEN - (MAX_USER_STACK_SIZE + 1)) * lv STACK_LEN_BOUNDS_AUX - (1 - nv IS_KERNEL_MODE)))]
       else []) end) STACK_BEHAVIORS ++
  eval_stack_one lv nv (lv JUMPDEST_KECCAK_GENERAL * bit lv 1) JUMPDEST_OP ++
  eval_stack_one lv nv (lv JUMPDEST_KECCAK_GENERAL * (1 - bit lv 1)) KECCAK_GENERAL_OP ++
  eval_pop lv nv.

(** * memio.rs *)

(** memio.rs:22-61 with cpu_stark.rs:319-324 ([get_addr]). *)
Definition eval_load (lv nv : row) : list constr :=
  let filter := lv M_OP_GENERAL * bit lv 0 in
  let c := channel 1 in
  [all (filter * (used lv c - 1));
   all (filter * (is_read lv c - 1));
   all (filter * (addr_context lv c - limb lv (channel 0) 2));
   all (filter * (addr_segment lv c - limb lv (channel 0) 1));
   all (filter * (addr_virtual lv c - limb lv (channel 0) 0))] ++
  map (fun i => all (filter * (limb lv c i - limb nv (channel 0) i))) (seq 0 8) ++
  map (fun i => all (filter * used lv (channel i))) (seq 2 (NUM_GP_CHANNELS - 2)) ++
  [all (filter * used lv partial_channel)] ++
  eval_stack_one lv nv filter MLOAD_GENERAL_OP.
(** memio.rs:134-208.  There is no constraint on the length of the stack here:
    the stack length after MSTORE_GENERAL is constrained nowhere in this file
    (see the theorems). *)
Definition eval_store (lv nv : row) : list constr :=
  let filter := lv M_OP_GENERAL * (bit lv 0 - 1) in
  let c := partial_channel in
  let len_diff := lv STACK_LEN - 2 in
  let is_top_read := lv STACK_INV_AUX * (1 - bit lv 0) in
  let new_filter := lv M_OP_GENERAL * lv STACK_INV_AUX_2 in
  [all (filter * (used lv c - 1));
   all (filter * is_read lv c);
   all (filter * (addr_context lv c - limb lv (channel 1) 2));
   all (filter * (addr_segment lv c - limb lv (channel 1) 1));
   all (filter * (addr_virtual lv c - limb lv (channel 1) 0))] ++
  map (fun i => all (filter * used lv (channel i))) (seq 2 (NUM_GP_CHANNELS - 2)) ++
  pop_channel filter lv 1 ++
  [all (lv M_OP_GENERAL * (len_diff * lv STACK_INV - lv STACK_INV_AUX));
   all (lv M_OP_GENERAL * (lv STACK_INV_AUX_2 - is_top_read))] ++
  read_new_top new_filter nv ++
  [all (lv M_OP_GENERAL * (lv STACK_INV_AUX - 1) * used nv (channel 0));
   all (lv M_OP_GENERAL * bit lv 0 * used nv (channel 0))].
(** memio.rs:357-364 *)
Definition eval_memio (lv nv : row) : list constr := eval_load lv nv ++ eval_store lv nv.

(** * modfp254.rs:14-36 *)
Definition P_LIMBS : list Z :=
  [0xd87cfd47; 0x3c208c16; 0x6871ca8d; 0x97816a91; 0x8181585d; 0xb85045b6; 0xe131a029; 0x30644e72].
Definition eval_modfp254 (lv : row) : list constr :=
  map (fun i => all (lv FP254_OP * (limb lv (channel 2) i - nth i P_LIMBS 0))) (seq 0 8).

(** * pc.rs:10-23 *)
Definition eval_pc (lv nv : row) : list constr :=
  let filter := lv PC_PUSH0 * (1 - bit lv 0) in
  [all (filter * (limb nv (channel 0) 0 - lv PROGRAM_COUNTER))] ++
  map (fun i => all (filter * limb nv (channel 0) i)) (seq 1 7).

(** * push0.rs:10-20 *)
Definition eval_push0 (lv nv : row) : list constr :=
  let filter := lv PC_PUSH0 * bit lv 0 in
  map (fun i => all (filter * limb nv (channel 0) i)) (seq 0 8).

(** * shift.rs:14-64 *)
Definition eval_shift (lv : row) : list constr :=
  let is_shift := lv SHIFT in
  let c := channel 2 in
  let high_limbs_are_zero := used lv c in
  let high_limbs_sum := sum (map (limb lv (channel 0)) (seq 1 7)) in
  let t := high_limbs_sum * lv HIGH_LIMB_SUM_INV - (1 - high_limbs_are_zero) in
  [all (is_shift * high_limbs_are_zero * (is_read lv c - 1));
   all (is_shift * t);
   all (is_shift * high_limbs_sum * high_limbs_are_zero);
   all (is_shift * addr_context lv c);
   all (is_shift * (addr_segment lv c - SEGMENT_SHIFT_TABLE));
   all (is_shift * (addr_virtual lv c - limb lv (channel 0) 0))] ++
  map (fun i => all (is_shift * used lv (channel i))) (seq 3 (NUM_GP_CHANNELS - 3)).

(** * simple_logic *)

(** simple_logic/not.rs:15-34 *)
Definition eval_not (lv nv : row) : list constr :=
  let filter := lv NOT_POP * bit lv 0 in
  map (fun i => all (filter * (limb nv (channel 0) i + limb lv (channel 0) i - (2^32 - 1)))) (seq 0 8) ++
  eval_stack_one lv nv filter BASIC_UNARY_OP.
(** simple_logic/eq_iszero.rs:46-101 *)
Definition eval_eq_iszero (lv nv : row) : list constr :=
  let input0 := limb lv (channel 0) in
  let input1 := limb lv (channel 1) in
  let output := limb nv (channel 0) in
  let eq_filter := lv EQ_ISZERO * (1 - bit lv 0) in
  let iszero_filter := lv EQ_ISZERO * bit lv 0 in
  let eq_or_iszero_filter := lv EQ_ISZERO in
  let equal := output 0%nat in
  let unequal := 1 - equal in
  let dot := sum (map (fun i => (input0 i - input1 i) * lv (DIFF_PINV + i)%nat) (seq 0 8)) in
  [all (eq_or_iszero_filter * equal * unequal)] ++
  map (fun i => all (eq_or_iszero_filter * output i)) (seq 1 7) ++
  map (fun i => all (iszero_filter * input1 i)) (seq 0 8) ++
  map (fun i => all (eq_or_iszero_filter * equal * (input0 i - input1 i))) (seq 0 8) ++
  [all (eq_or_iszero_filter * (dot - unequal))] ++
  eval_stack_one lv nv eq_filter EQ_STACK_BEHAVIOR ++
  eval_stack_one lv nv iszero_filter IS_ZERO_STACK_BEHAVIOR.
(** simple_logic/mod.rs:13-20 *)
Definition eval_simple_logic (lv nv : row) : list constr := eval_not lv nv ++ eval_eq_iszero lv nv.

(** * syscalls_exceptions.rs:19-126 *)
Definition BYTES_PER_OFFSET : Z := 3.       (* kernel/assembler.rs *)
Definition EXC_STOP_CODE : Z := 6.          (* witness/transition.rs:25 *)
Definition exc_code_of (lv : row) : Z := le_bits 0 (map (fun i => lv (EXC_CODE_BITS + i)%nat) (seq 0 3)).
Definition eval_syscalls_exceptions (k : labels) (lv nv : row) : list constr :=
  let filter_syscall := lv SYSCALL in
  let filter_exception := lv EXCEPTION in
  let total_filter := filter_syscall + filter_exception in
  let exc_code := exc_code_of lv in
  let opcode_handler_addr_start := syscall_jumptable k + opcode_of lv * BYTES_PER_OFFSET in
  let exc_handler_addr_start := exception_jumptable k + exc_code * BYTES_PER_OFFSET in
  let c := channel 1 in
  let output := limb nv (channel 0) in
  [boolean filter_syscall; boolean filter_exception;
   all (filter_exception * (exc_code - EXC_STOP_CODE) * lv IS_KERNEL_MODE)] ++
  map (fun i => all (filter_exception * lv (EXC_CODE_BITS + i)%nat * (lv (EXC_CODE_BITS + i)%nat - 1))) (seq 0 3) ++
  [all (total_filter * used lv c);
   all (total_filter * (is_read lv c - 1));
   all (total_filter * addr_context lv c);
   all (total_filter * (addr_segment lv c - SEGMENT_CODE));
   all (filter_syscall * (addr_virtual lv c - opcode_handler_addr_start));
   all (filter_exception * (addr_virtual lv c - exc_handler_addr_start))] ++
  map (fun i => all (total_filter * limb lv c i)) (seq 1 7) ++
  map (fun i => all (total_filter * used lv (channel i))) (seq 2 (NUM_GP_CHANNELS - 2)) ++
  [trans (total_filter * (nv PROGRAM_COUNTER - limb lv c 0));
   trans (total_filter * (nv IS_KERNEL_MODE - 1));
   trans (total_filter * nv GAS);
   all (filter_syscall * (output 0%nat - (lv PROGRAM_COUNTER + 1)));
   all (filter_exception * (output 0%nat - lv PROGRAM_COUNTER));
   all (filter_syscall * (output 1%nat - lv IS_KERNEL_MODE));
   all (total_filter * (output 6%nat - lv GAS));
   all (total_filter * output 7%nat);
   all (filter_exception * (exc_code - EXC_STOP_CODE) * output 1%nat)] ++
  map (fun i => all (total_filter * output i)) (seq 2 4).

(** * cpu_stark.rs:594-625 *)
Definition eval_cpu (k : labels) (lv nv : row) : list constr :=
  eval_byte_unpacking lv nv ++ eval_clock lv nv ++ eval_contextops lv nv ++ eval_control_flow k lv nv ++
  eval_decode lv ++ eval_dup_swap lv nv ++ eval_gas lv nv ++ eval_halt k lv nv ++ eval_jumps lv nv ++
  eval_membus lv ++ eval_memio lv nv ++ eval_modfp254 lv ++ eval_pc lv nv ++ eval_push0 lv nv ++ eval_shift lv ++
  eval_simple_logic lv nv ++ eval_stack lv nv ++ eval_syscalls_exceptions k lv nv.

(** * An accepted table

    starky: [constraint] is for every row with the first row after the last,
    [constraint_transition] for every row but the last. *)
Definition crow_at (t : list row) (i : nat) : row := nth i t zero_row.
Definition cnext (t : list row) (i : nat) : row := crow_at t (S i mod length t).
Definition applies (k : kind) (i n : nat) : bool :=
  match k with
  | All => true
  | Transition => negb (S i =? n)%nat
  | First => (i =? 0)%nat
  | Last => (S i =? n)%nat
  end.
Definition cpu_constraints_hold (k : labels) (t : list row) : Prop :=
  forall i, (i < length t)%nat ->
    Forall (fun c => applies (fst c) i (length t) = true -> snd c mod P = 0) (eval_cpu k (crow_at t i) (cnext t i)).
Definition cpu_table_ok (k : labels) (t : list row) : Prop :=
  cpu_constraints_hold k t /\ Forall (fun r => forall c, canonical (r c)) t.

(** * The memory operations of a row: cross-table lookups into Memory *)

(** (is_read, (context, segment, virtual), value, timestamp) *)
Definition mem_look : Type := (Z * (Z * Z * Z) * list Z * Z)%type.

(** membus.rs:37 *)
Definition NUM_CHANNELS : Z := 5.
(** cpu_stark.rs:326-331 *)
Definition mem_time_and_channel (lv : row) (c : Z) : Z := (lv CLOCK * NUM_CHANNELS + (c - NUM_CHANNELS + 1)) mod P.

(** cpu_stark.rs:335-352 and 449-451 *)
Definition code_look (lv : row) : mem_look :=
  (1, (lv CODE_CONTEXT, SEGMENT_CODE, lv PROGRAM_COUNTER), opcode_of lv mod P :: repeat 0 7, mem_time_and_channel lv 0).
(** cpu_stark.rs:356-372 and 454-456 *)
Definition gp_look (lv : row) (i : nat) : mem_look :=
  let c := channel i in
  (is_read lv c, (addr_context lv c, addr_segment lv c, addr_virtual lv c), value lv c, mem_time_and_channel lv (1 + Z.of_nat i)).
(** cpu_stark.rs:374-393 and 458-460: the value is the one of channel 0. *)
Definition partial_look (lv : row) : mem_look :=
  let c := partial_channel in
  (is_read lv c, (addr_context lv c, addr_segment lv c, addr_virtual lv c), value lv (channel 0), mem_time_and_channel lv 4).
(** cpu_stark.rs:396-420 *)
Definition old_sp_look (lv : row) : mem_look :=
  (0, (lv CONTEXT, SEGMENT_CONTEXT_METADATA, CTX_STACK_SIZE), (lv STACK_LEN - 1) mod P :: repeat 0 7, mem_time_and_channel lv 2).
(** cpu_stark.rs:423-446 *)
Definition new_sp_look (lv nv : row) : mem_look :=
  (1, (limb lv (channel 0) 2, SEGMENT_CONTEXT_METADATA, CTX_STACK_SIZE), nv STACK_LEN :: repeat 0 7, mem_time_and_channel lv 3).

(** all_stark.rs:290-370: what a row looks up in the memory table (the
    operations performed for it by the byte-packing and Keccak tables are
    looked up by those tables). *)
Definition mem_looks (lv nv : row) : list mem_look :=
  (if cpu_cycle lv mod P =? 1 then [code_look lv] else []) ++
  flat_map (fun i => if used lv (channel i) =? 1 then [gp_look lv i] else []) (seq 0 NUM_GP_CHANNELS) ++
  (if used lv partial_channel =? 1 then [partial_look lv] else []) ++
  (if (lv CONTEXT_OP * bit lv 0) mod P =? 1 then [old_sp_look lv; new_sp_look lv nv] else []).

(** cpu_stark.rs:265-304 ctl_data_byte_packing_push and
    ctl_filter_byte_packing_push: whether the immediate of a PUSH is looked up
    (the looked-up bytes themselves are in the byte packing model). *)
Definition packing_push_filter (lv : row) : Z := lv IS_NOT_KERNEL * lv PUSH_PROVER_INPUT.
