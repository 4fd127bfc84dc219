(** Model of the witness generator for the CPU: the instructions of
    evm_arithmetization/src/witness/{operation,transition,util,gas,state}.rs
    and the loop of generation/state.rs, for [GenerationState].

    U256 values are integers in [0, 2^256); usize and u64 registers are
    non-negative integers without an upper bound.  The CPU rows are not
    modelled, only their number (the clock).  The keccak-f permutation inputs,
    which repeat what the sponge operations say, are not modelled either.
    Features: [eth_mainnet] and the code size limit are parameters;
    [cdk_erigon] (Poseidon, unchecked jumps) is off. *)
From Coq Require Import ZArith List Bool.
From Verif Require Import Stark.ArithModel Stark.LogicModel Witness.MemoryModel.
Import ListNotations.
Local Open Scope Z_scope.

(** witness/errors.rs; the variants that are not told apart here are [OtherError]. *)
Inductive perror : Type :=
| OutOfGas | InvalidOpcode | StackUnderflow | InvalidJumpDestination | InvalidJumpiDestination | StackOverflow
| KernelPanic | SegmentTooLarge | VirtTooLarge | GasLimitError | IntegerTooLarge | OtherError.

(** witness/operation.rs:34-64 *)
Inductive minstr : Type :=
| Iszero | Not
| Syscall (opcode stack_values_read : Z) (stack_len_increased : bool)
| Eq
| BinaryLogic (op : logic_op)
| BinaryArithmetic (op : binary_operator)
| TernaryArithmetic (op : ternary_operator)
| KeccakGeneral | ProverInput | Pop | Jump | Jumpi | Pc | Jumpdest
| Push (n : Z) | Dup (n : Z) | Swap (n : Z)
| GetContext | SetContext | Mload32Bytes | Mstore32Bytes (n : Z) | ExitKernel | MloadGeneral | MstoreGeneral.

(** witness/state.rs:8-21 *)
Record registers : Type := mk_regs {
  program_counter : Z; is_kernel : bool; stack_len : Z; stack_top : Z;
  is_stack_top_read : bool; check_overflow : bool; context : Z; gas_used : Z }.

(** witness/state.rs:26-32 *)
Definition code_context (r : registers) : Z := if is_kernel r then 0 else context r.

(** byte_packing_stark.rs: BytePackingOp; keccak_sponge_stark.rs: KeccakSpongeOp. *)
Record pack_op : Type := mk_pack { pk_is_read : bool; pk_base : maddr; pk_timestamp : Z; pk_bytes : list Z }.
Record sponge_op : Type := mk_sponge { sp_base : maddr; sp_timestamp : Z; sp_input : list Z }.

(** witness/traces.rs:36-46, the number of CPU rows for the rows. *)
Record traces : Type := mk_traces {
  t_arithmetic : list operation; t_byte_packing : list pack_op; t_clock : nat;
  t_logic : list logic_operation; t_memory : list mop; t_sponge : list sponge_op }.

(** memory/segments.rs and constants/context_metadata.rs (unscaled). *)
Definition SEG_CODE : Z := 0.
Definition SEG_STACK : Z := 1.
Definition SEG_CONTEXT_METADATA : Z := 6.
Definition SEG_SHIFT_TABLE : Z := 13.
Definition SEG_JUMPDEST_BITS : Z := 14.
Definition CTX_STACK_SIZE : Z := 11.
Definition CTX_GAS_LIMIT : Z := 12.
(** cpu/stack.rs:16 *)
Definition MAX_USER_STACK_SIZE : Z := 1024.

(** cpu/membus.rs:39 and witness/memory.rs:25-37 *)
Definition NUM_CHANNELS : Z := 5.
Inductive channel : Type := ChCode | ChGP (n : Z) | ChPartial.
Definition channel_index (c : channel) : Z :=
  match c with ChCode => 0 | ChGP n => n + 1 | ChPartial => 4 end.

Section Machine.
  (** The parts of [GenerationState] that only the prover inputs use. *)
  Variable Oracle : Type.

  (** generation/state.rs:345-400 *)
  Record gstate : Type := mk_g {
    g_regs : registers; g_mem : mem_state; g_traces : traces; g_stale : list Z; g_oracle : Oracle }.

  (** A fallible computation on the state.  As in Rust, an error leaves the
      changes made so far; [Panic] is a failed assertion or index. *)
  Inductive outcome (A : Type) : Type := Ok (a : A) (g : gstate) | Err (e : perror) (g : gstate) | Panic.
  Arguments Ok {A}. Arguments Err {A}. Arguments Panic {A}.
  Definition M (A : Type) : Type := gstate -> outcome A.
  Definition ret {A} (a : A) : M A := fun g => Ok a g.
  Definition fail {A} (e : perror) : M A := fun g => Err e g.
  Definition panic {A} : M A := fun _ => Panic.
  Definition bind {A B} (m : M A) (k : A -> M B) : M B :=
    fun g => match m g with Ok a g => k a g | Err e g => Err e g | Panic => Panic end.
  Notation "x <- m ;; k" := (bind m (fun x => k)) (at level 61, m at next level, right associativity).
  Notation "m ;;; k" := (bind m (fun _ => k)) (at level 61, right associativity).
  Definition gets {A} (f : gstate -> A) : M A := fun g => Ok (f g) g.
  Definition guard (b : bool) (e : perror) : M unit := if b then ret tt else fail e.
  Definition assert (b : bool) : M unit := if b then ret tt else panic.

  Definition get_regs : M registers := gets g_regs.
  Definition set_regs (r : registers) : M unit :=
    fun g => Ok tt (mk_g r (g_mem g) (g_traces g) (g_stale g) (g_oracle g)).
  Definition set_pc (pc : Z) : M unit := r <- get_regs ;;
    set_regs (mk_regs pc (is_kernel r) (stack_len r) (stack_top r) (is_stack_top_read r) (check_overflow r) (context r) (gas_used r)).
  Definition set_stack (len top : Z) : M unit := r <- get_regs ;;
    set_regs (mk_regs (program_counter r) (is_kernel r) len top (is_stack_top_read r) (check_overflow r) (context r) (gas_used r)).
  Definition set_top_read (b : bool) : M unit := r <- get_regs ;;
    set_regs (mk_regs (program_counter r) (is_kernel r) (stack_len r) (stack_top r) b (check_overflow r) (context r) (gas_used r)).
  Definition set_check_overflow (b : bool) : M unit := r <- get_regs ;;
    set_regs (mk_regs (program_counter r) (is_kernel r) (stack_len r) (stack_top r) (is_stack_top_read r) b (context r) (gas_used r)).
  Definition set_context (c : Z) : M unit := r <- get_regs ;;
    set_regs (mk_regs (program_counter r) (is_kernel r) (stack_len r) (stack_top r) (is_stack_top_read r) (check_overflow r) c (gas_used r)).
  Definition set_mode (pc : Z) (k : bool) (gas : Z) : M unit := r <- get_regs ;;
    set_regs (mk_regs pc k (stack_len r) (stack_top r) (is_stack_top_read r) (check_overflow r) (context r) gas).

  (** generation/state.rs:107-155: pushing to the traces. *)
  Definition on_traces (f : traces -> traces) : M unit :=
    fun g => Ok tt (mk_g (g_regs g) (g_mem g) (f (g_traces g)) (g_stale g) (g_oracle g)).
  Definition push_cpu : M unit := on_traces (fun t =>
    mk_traces (t_arithmetic t) (t_byte_packing t) (S (t_clock t)) (t_logic t) (t_memory t) (t_sponge t)).
  Definition push_logic (o : logic_operation) : M unit := on_traces (fun t =>
    mk_traces (t_arithmetic t) (t_byte_packing t) (t_clock t) (t_logic t ++ [o]) (t_memory t) (t_sponge t)).
  Definition push_arithmetic (o : operation) : M unit := on_traces (fun t =>
    mk_traces (t_arithmetic t ++ [o]) (t_byte_packing t) (t_clock t) (t_logic t) (t_memory t) (t_sponge t)).
  Definition push_memory (o : mop) : M unit := on_traces (fun t =>
    mk_traces (t_arithmetic t) (t_byte_packing t) (t_clock t) (t_logic t) (t_memory t ++ [o]) (t_sponge t)).
  Definition push_memories (l : list mop) : M unit := on_traces (fun t =>
    mk_traces (t_arithmetic t) (t_byte_packing t) (t_clock t) (t_logic t) (t_memory t ++ l) (t_sponge t)).
  Definition push_byte_packing (o : pack_op) : M unit := on_traces (fun t =>
    mk_traces (t_arithmetic t) (t_byte_packing t ++ [o]) (t_clock t) (t_logic t) (t_memory t) (t_sponge t)).
  Definition push_sponge (o : sponge_op) : M unit := on_traces (fun t =>
    mk_traces (t_arithmetic t) (t_byte_packing t) (t_clock t) (t_logic t) (t_memory t) (t_sponge t ++ [o])).

  (** [get_with_init]; every address read by the machine has a segment below
      39, for which it does not panic. *)
  Definition mread (m : mem_state) (a : maddr) : Z :=
    match mem_get_with_init m a with Some v => v | None => 0 end.

  (** util.rs:63-65 *)
  Definition u256_to_usize (x : Z) : M Z := guard (x <? 2^64) IntegerTooLarge ;;; ret x.
  Definition bundle (x : Z) : M maddr := match new_bundle x with Some a => ret a | None => fail SegmentTooLarge end.
  (** [low_u32() as u8] *)
  Definition as_byte (x : Z) : Z := x mod 2^8.
  (** U256::from_big_endian *)
  Definition from_big_endian (bytes : list Z) : Z := fold_left (fun acc b => acc * 2^8 + b) bytes 0.

  (** witness/memory.rs:111-128 *)
  Definition stamp (ch : channel) (clock : nat) : Z := Z.of_nat clock * NUM_CHANNELS + 1 + channel_index ch.
  Definition new_op (ch : channel) (a : maddr) (k : mkind) (v : Z) : M mop :=
    gets (fun g => mk_mop (stamp ch (t_clock (g_traces g))) a k v).

  (** witness/util.rs:125-139 and 170-192 *)
  Definition mem_read_with_log (ch : channel) (a : maddr) : M (Z * mop) :=
    v <- gets (fun g => mread (g_mem g) a) ;; o <- new_op ch a MRead v ;; ret (v, o).
  (** witness/util.rs:141-155, 194-236 *)
  Definition mem_write_log (ch : channel) (a : maddr) (v : Z) : M mop := new_op ch a MWrite v.

  (** witness/util.rs:36-52; the peeked cell is below the top. *)
  Definition stack_addr (r : registers) (i : Z) : maddr := mk_maddr (context r) SEG_STACK (stack_len r - 1 - i).
  Definition stack_peek (i : Z) : M Z := r <- get_regs ;;
    guard (i <? stack_len r) StackUnderflow ;;;
    if i =? 0 then ret (stack_top r) else gets (fun g => mread (g_mem g) (stack_addr r i)).

  (** witness/util.rs:82-85 *)
  Definition push_no_write (v : Z) : M unit := r <- get_regs ;; set_stack (stack_len r + 1) v.
  (** witness/util.rs:89-123 *)
  Definition push_with_write (v : Z) : M unit := r <- get_regs ;;
    guard (is_kernel r || (stack_len r <? MAX_USER_STACK_SIZE)) StackOverflow ;;;
    if stack_len r =? 0 then push_no_write v
    else o <- mem_write_log ChPartial (stack_addr r 0) (stack_top r) ;; push_no_write v ;;; push_memory o.

  (** witness/util.rs:241-276, for one, two and three pops.  The first
      element comes from the register; the others are read, element i on the
      general purpose channel i. *)
  Definition pop_prologue (n : Z) : M unit := r <- get_regs ;; guard (n <=? stack_len r) StackUnderflow.
  Definition pop_epilogue (n : Z) (r : registers) : M unit :=
    if stack_len r =? n then set_stack 0 (stack_top r)
    else top <- gets (fun g => mread (g_mem g) (stack_addr r n)) ;; set_stack (stack_len r - n) top.
  Definition stack_pop1 : M Z := pop_prologue 1 ;;; r <- get_regs ;; pop_epilogue 1 r ;;; ret (stack_top r).
  Definition stack_pop2 : M (Z * (Z * mop)) := pop_prologue 2 ;;; r <- get_regs ;;
    p1 <- mem_read_with_log (ChGP 1) (stack_addr r 1) ;; pop_epilogue 2 r ;;; ret (stack_top r, p1).
  Definition stack_pop3 : M (Z * (Z * mop) * (Z * mop)) := pop_prologue 3 ;;; r <- get_regs ;;
    p1 <- mem_read_with_log (ChGP 1) (stack_addr r 1) ;; p2 <- mem_read_with_log (ChGP 2) (stack_addr r 2) ;;
    pop_epilogue 3 r ;;; ret (stack_top r, p1, p2).

  (** The cells [base, base + n), addresses saturating as in
      [MemoryAddress::increment]. *)
  Fixpoint cells (base : maddr) (n : nat) : list maddr :=
    match n with O => [] | S n => base :: cells (increment base) n end.
  Definition byte_ops (k : mkind) (clock : nat) (base : maddr) (bytes : list Z) : list mop :=
    map (fun p : maddr * Z => mk_mop (stamp ChCode clock) (fst p) k (snd p)) (combine (cells base (length bytes)) bytes).

  (** witness/util.rs:294-348, without the keccak-f inputs.  [xor_into_sponge]
      logs one XOR for each 32-byte group of each absorbed block (136 bytes,
      the last group of 8 bytes); [keccakf] is the permutation of the 200
      bytes of the state. *)
  Variable keccakf : list Z -> list Z.
  Definition KECCAK_RATE_BYTES : nat := 136.
  Definition KECCAK_WIDTH_BYTES : nat := 200.
  Definition from_little_endian (bytes : list Z) : Z := fold_right (fun b acc => b + 2^8 * acc) 0 bytes.
  Fixpoint xor_bytes (a b : list Z) : list Z :=
    match a, b with x :: a, y :: b => Z.lxor x y :: xor_bytes a b | _, _ => a end.
  Definition xor_ops (sponge block : list Z) : list logic_operation :=
    map (fun i => {| l_operator := LXor;
                     l_input0 := from_little_endian (firstn (Nat.min 32 (KECCAK_RATE_BYTES - i)) (skipn i sponge));
                     l_input1 := from_little_endian (firstn 32 (skipn i block)) |})
        (map (fun j => (32 * j)%nat) (seq 0 5)).
  Definition push_logics (l : list logic_operation) : M unit := on_traces (fun t =>
    mk_traces (t_arithmetic t) (t_byte_packing t) (t_clock t) (t_logic t ++ l) (t_memory t) (t_sponge t)).
  Definition final_block (rest : list Z) : list Z :=
    if (length rest =? KECCAK_RATE_BYTES - 1)%nat then rest ++ [129]
    else rest ++ [1] ++ repeat 0 (KECCAK_RATE_BYTES - 2 - length rest) ++ [128].
  (** [fuel] is the length of the input plus one. *)
  Fixpoint absorb (fuel : nat) (sponge input : list Z) : list logic_operation :=
    match fuel with
    | O => []
    | S f =>
        if (KECCAK_RATE_BYTES <=? length input)%nat
        then xor_ops sponge (firstn KECCAK_RATE_BYTES input) ++
             absorb f (keccakf (xor_bytes sponge (firstn KECCAK_RATE_BYTES input))) (skipn KECCAK_RATE_BYTES input)
        else xor_ops sponge (final_block input)
    end.
  Definition keccak_sponge_log (base : maddr) (input : list Z) : M unit :=
    clock <- gets (fun g => t_clock (g_traces g)) ;;
    push_memories (byte_ops MRead clock base input) ;;;
    push_logics (absorb (S (length input)) (repeat 0 KECCAK_WIDTH_BYTES) input) ;;;
    push_sponge (mk_sponge base (stamp ChCode clock) input).

  (** witness/util.rs:350-380 *)
  Definition byte_packing_log (base : maddr) (bytes : list Z) : M unit :=
    match bytes with
    | [] => ret tt
    | _ => clock <- gets (fun g => t_clock (g_traces g)) ;;
           push_memories (byte_ops MRead clock base bytes) ;;;
           push_byte_packing (mk_pack true base (stamp ChCode clock) bytes)
    end.
  (** The [n] low bytes of [v], most significant first. *)
  Definition be_bytes (v : Z) (n : nat) : list Z := rev (map (fun i => (v / 2 ^ (8 * Z.of_nat i)) mod 2^8) (seq 0 n)).
  (** witness/util.rs:382-413 *)
  Definition byte_unpacking_log (base : maddr) (v : Z) (len : nat) : M unit :=
    clock <- gets (fun g => t_clock (g_traces g)) ;;
    push_memories (byte_ops MWrite clock base (be_bytes v len)) ;;;
    push_byte_packing (mk_pack false base (stamp ChCode clock) (be_bytes v len)).

  (** The bytes of the cells [base, base + n). *)
  Definition read_bytes (base : maddr) (n : nat) : M (list Z) :=
    gets (fun g => map (fun a => as_byte (mread (g_mem g) a)) (cells base n)).

  (** * Parameters: the kernel's labels, the prover inputs, keccak *)
  Variable syscall_jumptable : Z.
  Variable exception_jumptable : Z.
  Variable max_code_size : Z.
  Variable eth_mainnet : bool.
  Variable keccak : list Z -> Z.
  (** [GenerationState::prover_input] for the kernel's prover input at the
      program counter: it may change the memory and the rest of the state. *)
  Variable prover_input : registers -> mem_state -> Oracle -> option (perror + Z * mem_state * Oracle).
  (** The observations of [jump_to] (generation/state.rs:485-505). *)
  Variable observe : Z -> registers -> mem_state -> Oracle -> option (perror + Oracle).

  (** generation/state.rs:485-505 *)
  Definition jump_to (dst : Z) : M unit :=
    set_pc dst ;;; r <- get_regs ;;
    if stack_len r =? 0 then ret tt
    else fun g => match observe dst (g_regs g) (g_mem g) (g_oracle g) with
                  | None => Panic
                  | Some (inl e) => Err e g
                  | Some (inr o) => Ok tt (mk_g (g_regs g) (g_mem g) (g_traces g) (g_stale g) o)
                  end.

  (** * The instructions (witness/operation.rs) *)

  (** 74-90 *)
  Definition generate_binary_logic_op (op : logic_op) : M unit :=
    p <- stack_pop2 ;; let '(in0, (in1, log_in1)) := p in
    push_no_write (logic_result op in0 in1) ;;;
    push_logic {| l_operator := op; l_input0 := in0; l_input1 := in1 |} ;;; push_memory log_in1 ;;; push_cpu.
  (** 92-121 *)
  Definition generate_binary_arithmetic_op (op : binary_operator) : M unit :=
    p <- stack_pop2 ;; let '(in0, (in1, log_in1)) := p in
    push_no_write (binary_result op in0 in1) ;;;
    push_arithmetic (BinaryOperation op in0 in1) ;;; push_memory log_in1 ;;; push_cpu.
  (** 123-140 *)
  Definition generate_ternary_arithmetic_op (op : ternary_operator) : M unit :=
    p <- stack_pop3 ;; let '(in0, (in1, log_in1), (in2, log_in2)) := p in
    push_no_write (ternary_result op in0 in1 in2) ;;;
    push_arithmetic (TernaryOperation op in0 in1 in2) ;;; push_memory log_in1 ;;; push_memory log_in2 ;;; push_cpu.
  (** 142-172 *)
  Definition generate_keccak_general : M unit :=
    p <- stack_pop2 ;; let '(addr, (len, log_in1)) := p in
    len <- u256_to_usize len ;; base <- bundle addr ;;
    input <- read_bytes base (Z.to_nat len) ;;
    push_no_write (keccak input) ;;; keccak_sponge_log base input ;;; push_memory log_in1 ;;; push_cpu.
  (** 263-289; 0xee is the opcode. *)
  Definition generate_prover_input : M unit :=
    input <- (fun g => match prover_input (g_regs g) (g_mem g) (g_oracle g) with
                       | None => Panic
                       | Some (inl e) => Err e g
                       | Some (inr (v, m, o)) => Ok v (mk_g (g_regs g) m (g_traces g) (g_stale g) o)
                       end) ;;
    r <- get_regs ;;
    push_with_write input ;;; push_arithmetic (RangeCheckOperation (stack_top r) 0 0 238 input) ;;; push_cpu.
  (** 291-312.  The stack length is far below the field's order, so that its
      difference with 1 is invertible when it is not 0. *)
  Definition generate_pop : M unit :=
    r <- get_regs ;; stack_pop1 ;;;
    (if stack_len r =? 1 then ret tt else set_top_read true) ;;; push_cpu.
  (** 314-333 *)
  Definition generate_pc : M unit := r <- get_regs ;; push_with_write (program_counter r) ;;; push_cpu.
  Definition generate_jumpdest : M unit := push_cpu.
  (** 335-369 *)
  Definition generate_get_context : M unit := r <- get_regs ;;
    let value := context r * 2 ^ CONTEXT_SCALING_FACTOR in
    (if stack_len r =? 0 then push_no_write value
     else o <- mem_write_log (ChGP 2) (stack_addr r 0) (stack_top r) ;; push_no_write value ;;; push_memory o) ;;;
    push_cpu.
  (** 371-454 *)
  Definition generate_set_context : M unit :=
    ctx <- stack_pop1 ;; r <- get_regs ;;
    let sp_to_save := stack_len r in
    let old_ctx := context r in
    new_ctx <- u256_to_usize (Z.shiftr ctx CONTEXT_SCALING_FACTOR) ;;
    let new_sp_addr := mk_maddr new_ctx SEG_CONTEXT_METADATA CTX_STACK_SIZE in
    log_write_old_sp <- mem_write_log (ChGP 1) (mk_maddr old_ctx SEG_CONTEXT_METADATA CTX_STACK_SIZE) sp_to_save ;;
    p <- (if old_ctx =? new_ctx then o <- new_op (ChGP 2) new_sp_addr MRead sp_to_save ;; ret (sp_to_save, o)
          else mem_read_with_log (ChGP 2) new_sp_addr) ;;
    let '(new_sp, log_read_new_sp) := p in
    new_sp <- u256_to_usize new_sp ;;
    log_read_new_top <-
      (if 0 <? new_sp
       then q <- mem_read_with_log (ChGP 2) (mk_maddr new_ctx SEG_STACK (new_sp - 1)) ;;
            set_stack sp_to_save (fst q) ;;; ret [snd q]
       else ret []) ;;
    (if Z.odd ctx then fun g => Ok tt (mk_g (g_regs g) (g_mem g) (g_traces g) (g_stale g ++ [old_ctx]) (g_oracle g)) else ret tt) ;;;
    set_context new_ctx ;;; r <- get_regs ;; set_stack new_sp (stack_top r) ;;;
    push_memories log_read_new_top ;;; push_memory log_write_old_sp ;;; push_memory log_read_new_sp ;;; push_cpu.
  (** 456-499 *)
  Definition generate_push (n : Z) : M unit := r <- get_regs ;;
    guard (n <=? 32) IntegerTooLarge ;;;
    let base := mk_maddr (code_context r) SEG_CODE (program_counter r + 1) in
    bytes <- read_bytes base (Z.to_nat n) ;;
    push_with_write (from_big_endian bytes) ;;;
    (if code_context r =? 0 then ret tt else byte_packing_log base bytes) ;;; push_cpu.
  (** 507-570 *)
  Definition generate_dup (n : Z) : M unit := r <- get_regs ;;
    guard (is_kernel r || (stack_len r <? MAX_USER_STACK_SIZE)) StackOverflow ;;;
    guard (n <? stack_len r) StackUnderflow ;;;
    log_push <- mem_write_log (ChGP 1) (stack_addr r 0) (stack_top r) ;;
    p <- (if n =? 0 then o <- new_op (ChGP 2) (stack_addr r n) MRead (stack_top r) ;; ret (stack_top r, o)
          else mem_read_with_log (ChGP 2) (stack_addr r n)) ;;
    push_no_write (fst p) ;;; push_memory log_push ;;; push_memory (snd p) ;;; push_cpu.
  (** 572-599 *)
  Definition generate_swap (n : Z) : M unit := r <- get_regs ;;
    guard (n + 2 <=? stack_len r) StackUnderflow ;;;
    let other := mk_maddr (context r) SEG_STACK (stack_len r - (2 + n)) in
    in0 <- stack_pop1 ;;
    p <- mem_read_with_log (ChGP 1) other ;;
    log_out0 <- mem_write_log (ChGP 2) other in0 ;;
    push_no_write (fst p) ;;; push_memory (snd p) ;;; push_memory log_out0 ;;; push_cpu.
  (** 601-642 *)
  Definition generate_not : M unit := x <- stack_pop1 ;; push_no_write (2^256 - 1 - x) ;;; push_cpu.
  Definition generate_iszero : M unit := x <- stack_pop1 ;; push_no_write (b2z (x =? 0)) ;;; push_cpu.
  (** 644-720 *)
  Definition append_shift (is_shl : bool) (input0 input1 : Z) (log_in1 : mop) (result : Z) : M unit :=
    let lookup_addr := mk_maddr 0 SEG_SHIFT_TABLE (low_u32 input0) in
    reads <- (if input0 <? 2^32 then p <- mem_read_with_log (ChGP 2) lookup_addr ;; ret [snd p] else ret []) ;;
    push_no_write result ;;; push_memories reads ;;;
    push_arithmetic (BinaryOperation (if is_shl then Shl else Shr) input0 input1) ;;; push_memory log_in1 ;;; push_cpu.
  Definition generate_shl : M unit :=
    p <- stack_pop2 ;; let '(in0, (in1, log_in1)) := p in
    append_shift true in0 in1 log_in1 (if 255 <? in0 then 0 else Z.shiftl in1 in0 mod 2^256).
  Definition generate_shr : M unit :=
    p <- stack_pop2 ;; let '(in0, (in1, log_in1)) := p in
    append_shift false in0 in1 log_in1 (if 255 <? in0 then 0 else Z.shiftr in1 in0).
  (** 722-811 and 983-1083: the entry of the kernel's jump table. *)
  Definition enter_kernel (table code pc_info opcode : Z) : M unit := r <- get_regs ;;
    let base := mk_maddr 0 SEG_CODE (table + code * 3) in
    bytes <- read_bytes base 3 ;;
    let packed := from_big_endian bytes in
    let info := pc_info + b2z (is_kernel r) * 2^32 + gas_used r * 2^192 in
    set_mode packed true 0 ;;; push_with_write info ;;; byte_packing_log base bytes ;;;
    push_arithmetic (RangeCheckOperation (stack_top r) packed 0 opcode info) ;;; push_cpu.
  Definition generate_syscall (opcode stack_values_read : Z) (stack_len_increased : bool) : M unit := r <- get_regs ;;
    guard (gas_used r <? 2^32) GasLimitError ;;;
    guard (stack_values_read <=? stack_len r) StackUnderflow ;;;
    guard (negb (stack_len_increased && negb (is_kernel r) && (MAX_USER_STACK_SIZE <=? stack_len r))) StackOverflow ;;;
    enter_kernel syscall_jumptable opcode (program_counter r + 1) opcode.
  (** 813-829 *)
  Definition generate_eq : M unit :=
    p <- stack_pop2 ;; let '(in0, (in1, log_in1)) := p in
    push_no_write (b2z (in0 =? in1)) ;;; push_memory log_in1 ;;; push_cpu.
  (** 831-858 *)
  Definition generate_exit_kernel : M unit :=
    info <- stack_pop1 ;;
    let k := (info / 2^32) mod 2^32 in
    assert ((k =? 0) || (k =? 1)) ;;;
    let gas := info / 2^192 in
    guard (gas <? 2^32) GasLimitError ;;;
    set_mode (info mod 2^32) (negb (k =? 0)) gas ;;; push_cpu.
  (** 860-891 *)
  Definition generate_mload_general : M unit :=
    addr <- stack_pop1 ;; a <- bundle addr ;; p <- mem_read_with_log (ChGP 1) a ;;
    push_no_write (fst p) ;;; push_memory (snd p) ;;; push_cpu.
  (** 893-931 *)
  Definition generate_mload_32bytes : M unit :=
    p <- stack_pop2 ;; let '(addr, (len, log_in1)) := p in
    len <- u256_to_usize len ;; guard (len <=? 32) IntegerTooLarge ;;;
    base <- bundle addr ;; guard (len <=? 2^64 - 1 - a_virt base) VirtTooLarge ;;;
    bytes <- read_bytes base (Z.to_nat len) ;;
    push_no_write (from_big_endian bytes) ;;; byte_packing_log base bytes ;;; push_memory log_in1 ;;; push_cpu.
  (** 933-961 *)
  Definition generate_mstore_general : M unit :=
    r <- get_regs ;;
    p <- stack_pop2 ;; let '(val, (addr, log_in1)) := p in
    a <- bundle addr ;; log_write <- mem_write_log ChPartial a val ;;
    (if stack_len r =? 2 then ret tt else set_top_read true) ;;;
    push_memory log_in1 ;;; push_memory log_write ;;; push_cpu.
  (** 963-981; the addition of U256 panics on overflow. *)
  Definition generate_mstore_32bytes (n : Z) : M unit :=
    p <- stack_pop2 ;; let '(addr, (val, log_in1)) := p in
    base <- bundle addr ;; assert (addr + n <? 2^256) ;;;
    push_no_write (addr + n) ;;; byte_unpacking_log base val (Z.to_nat n) ;;; push_memory log_in1 ;;; push_cpu.

  (** witness/transition.rs:379-447 *)
  Definition generate_jump : M unit :=
    dst <- stack_pop1 ;; guard (dst <? 2^32) InvalidJumpDestination ;;;
    r <- get_regs ;; guard (is_kernel r || (dst <=? max_code_size)) InvalidJumpDestination ;;;
    p <- mem_read_with_log (ChGP 2) (mk_maddr (context r) SEG_JUMPDEST_BITS dst) ;;
    (if is_kernel r then ret tt
     else guard (fst p =? 1) InvalidJumpDestination ;;; push_memory (snd p)) ;;;
    push_cpu ;;; jump_to dst.
  (** witness/transition.rs:449-531 *)
  Definition generate_jumpi : M unit :=
    q <- stack_pop2 ;; let '(dst, (cond, log_cond)) := q in
    let should_jump := negb (cond =? 0) in
    (if should_jump
     then guard (dst <? 2^32) InvalidJumpiDestination ;;;
          r <- get_regs ;; guard (is_kernel r || (dst <=? max_code_size)) InvalidJumpiDestination ;;;
          jump_to dst
     else r <- get_regs ;; set_pc (program_counter r + 1)) ;;;
    r <- get_regs ;;
    p <- mem_read_with_log (ChGP 2) (mk_maddr (context r) SEG_JUMPDEST_BITS (low_u32 dst)) ;;
    (if negb should_jump || is_kernel r then ret tt
     else guard (fst p =? 1) InvalidJumpiDestination ;;; push_memory (snd p)) ;;;
    push_memory log_cond ;;; push_cpu.

  (** witness/transition.rs:47-180.  Every syscall is (opcode, values read,
      increases the stack). *)
  Definition decode (kernel : bool) (opcode : Z) : perror + minstr :=
    let sys n b := inr (Syscall opcode n b) in
    let in_kernel i := if kernel then inr i else inl InvalidOpcode in
    let mainnet i := if eth_mainnet then i else inl InvalidOpcode in
    if (95 <=? opcode) && (opcode <=? 127) then inr (Push (opcode - 95))
    else if (128 <=? opcode) && (opcode <=? 143) then inr (Dup (Z.land opcode 15))
    else if (144 <=? opcode) && (opcode <=? 159) then inr (Swap (Z.land opcode 15))
    else if (192 <=? opcode) && (opcode <=? 223) then in_kernel (Mstore32Bytes (opcode - 192 + 1))
    else match opcode with
    | 0 => sys 0 false
    | 1 => inr (BinaryArithmetic Add) | 2 => inr (BinaryArithmetic Mul) | 3 => inr (BinaryArithmetic Sub)
    | 4 => inr (BinaryArithmetic Div) | 5 => sys 2 false | 6 => inr (BinaryArithmetic Mod) | 7 => sys 2 false
    | 8 => inr (TernaryArithmetic AddMod) | 9 => inr (TernaryArithmetic MulMod) | 10 => sys 2 false | 11 => sys 2 false
    | 12 => in_kernel (BinaryArithmetic AddFp254) | 13 => in_kernel (BinaryArithmetic MulFp254)
    | 14 => in_kernel (BinaryArithmetic SubFp254) | 15 => in_kernel (TernaryArithmetic SubMod)
    | 16 => inr (BinaryArithmetic Lt) | 17 => inr (BinaryArithmetic Gt) | 18 => sys 2 false | 19 => sys 2 false
    | 20 => inr Eq | 21 => inr Iszero | 22 => inr (BinaryLogic LAnd) | 23 => inr (BinaryLogic LOr) | 24 => inr (BinaryLogic LXor)
    | 25 => inr Not | 26 => inr (BinaryArithmetic Byte) | 27 => inr (BinaryArithmetic Shl) | 28 => inr (BinaryArithmetic Shr)
    | 29 => sys 2 false | 32 => sys 2 false | 33 => in_kernel KeccakGeneral
    | 48 => sys 0 true | 49 => sys 1 false | 50 => sys 0 true | 51 => sys 0 true | 52 => sys 0 true | 53 => sys 1 false
    | 54 => sys 0 true | 55 => sys 3 false | 56 => sys 0 true | 57 => sys 3 false | 58 => sys 0 true | 59 => sys 1 false
    | 60 => sys 4 false | 61 => sys 0 true | 62 => sys 3 false | 63 => sys 1 false | 64 => sys 1 false | 65 => sys 0 true
    | 66 => sys 0 true | 67 => sys 0 true | 68 => sys 0 true | 69 => sys 0 true | 70 => sys 0 true | 71 => sys 0 true
    | 72 => sys 0 true | 73 => mainnet (sys 1 false) | 74 => mainnet (sys 0 true)
    | 80 => inr Pop | 81 => sys 1 false | 82 => sys 2 false | 83 => sys 2 false | 84 => sys 1 false | 85 => sys 2 false
    | 86 => inr Jump | 87 => inr Jumpi | 88 => inr Pc | 89 => sys 0 true | 90 => sys 0 true | 91 => inr Jumpdest
    | 92 => sys 1 false | 93 => sys 2 false | 94 => sys 3 false
    | 160 => sys 2 false | 161 => sys 3 false | 162 => sys 4 false | 163 => sys 5 false | 164 => sys 6 false
    | 165 => if kernel then inl KernelPanic else inl InvalidOpcode
    | 238 => in_kernel ProverInput
    | 240 => sys 3 false | 241 => sys 7 false | 242 => sys 7 false | 243 => sys 2 false | 244 => sys 6 false | 245 => sys 4 false
    | 246 => in_kernel GetContext | 247 => in_kernel SetContext | 248 => in_kernel Mload32Bytes | 249 => in_kernel ExitKernel
    | 250 => sys 6 false | 251 => in_kernel MloadGeneral | 252 => in_kernel MstoreGeneral
    | 253 => sys 2 false | 255 => sys 1 false
    | _ => inl InvalidOpcode
    end.

  (** witness/transition.rs:212-250, evaluated with cpu/stack.rs:128-190. *)
  Definition special_length (op : minstr) : option Z :=
    match op with Jump => Some 1 | Jumpi => Some 2 | ExitKernel => Some 1 | _ => None end.
  (** witness/transition.rs:255-282, evaluated with cpu/stack.rs:23-44. *)
  Definition might_overflow (op : minstr) : bool :=
    match op with Push _ | ProverInput | Dup _ | Swap _ | Pc | ExitKernel => true | _ => false end.
  (** witness/gas.rs:11-60 *)
  Definition gas_to_charge (op : minstr) : Z :=
    match op with
    | Iszero | Not | Eq | BinaryLogic _ | Dup _ | Swap _ => 3
    | BinaryArithmetic (Add | Sub | Lt | Gt | Byte | Shl | Shr) => 3
    | BinaryArithmetic (Mul | Div | Mod) => 5
    | BinaryArithmetic (AddFp254 | MulFp254 | SubFp254) => 0
    | TernaryArithmetic (AddMod | MulMod) => 8
    | TernaryArithmetic SubMod => 0
    | Pop | Pc => 2
    | Jump => 8
    | Jumpi => 10
    | Jumpdest => 1
    | Push n => if n =? 0 then 2 else 3
    | Syscall _ _ _ | KeccakGeneral | ProverInput | GetContext | SetContext | Mload32Bytes | Mstore32Bytes _ | ExitKernel
    | MloadGeneral | MstoreGeneral => 0
    end.

  (** witness/transition.rs:536-578 *)
  Definition perform_op (op : minstr) : M unit :=
    match op with
    | Push n => generate_push n
    | Dup n => generate_dup n
    | Swap n => generate_swap n
    | Iszero => generate_iszero
    | Not => generate_not
    | BinaryArithmetic Shl => generate_shl
    | BinaryArithmetic Shr => generate_shr
    | Syscall opcode n b => generate_syscall opcode n b
    | Eq => generate_eq
    | BinaryLogic op => generate_binary_logic_op op
    | BinaryArithmetic op => generate_binary_arithmetic_op op
    | TernaryArithmetic op => generate_ternary_arithmetic_op op
    | KeccakGeneral => generate_keccak_general
    | ProverInput => generate_prover_input
    | Pop => generate_pop
    | Jump => generate_jump
    | Jumpi => generate_jumpi
    | Pc => generate_pc
    | Jumpdest => generate_jumpdest
    | GetContext => generate_get_context
    | SetContext => generate_set_context
    | Mload32Bytes => generate_mload_32bytes
    | Mstore32Bytes n => generate_mstore_32bytes n
    | ExitKernel => generate_exit_kernel
    | MloadGeneral => generate_mload_general
    | MstoreGeneral => generate_mstore_general
    end.

  Definition pc_increment (op : minstr) : Z :=
    match op with Syscall _ _ _ | ExitKernel | Jump | Jumpi => 0 | Push n => n + 1 | _ => 1 end.

  (** witness/transition.rs:340-377 *)
  Definition perform_state_op (op : minstr) : M minstr :=
    perform_op op ;;;
    r <- get_regs ;; set_mode (program_counter r + pc_increment op) (is_kernel r) (gas_used r + gas_to_charge op) ;;;
    r <- get_regs ;;
    (if is_kernel r then ret tt
     else limit <- gets (fun g => mread (g_mem g) (mk_maddr (context r) SEG_CONTEXT_METADATA CTX_GAS_LIMIT)) ;;
          guard (limit <? 2^64) IntegerTooLarge ;;; guard (gas_used r <=? limit) OutOfGas) ;;;
    ret op.

  (** witness/transition.rs:27-45 and generation/state.rs:327-340; the code
      cell must hold a byte. *)
  Definition base_row : M Z := r <- get_regs ;;
    p <- mem_read_with_log ChCode (mk_maddr (code_context r) SEG_CODE (program_counter r)) ;;
    assert (fst p <? 2^8) ;;; push_memory (snd p) ;;; ret (fst p).

  (** generation/state.rs:728-770, without the CPU row. *)
  Definition fill_stack_fields : M unit := r <- get_regs ;;
    (if is_stack_top_read r
     then assert (0 <? stack_len r) ;;; o <- new_op (ChGP 0) (stack_addr r 0) MRead (stack_top r) ;; push_memory o
     else ret tt) ;;;
    set_top_read false ;;; set_check_overflow false.

  (** generation/state.rs:681-716; see [generate_pop] about the inverse. *)
  Definition try_perform_instruction : M minstr := r <- get_regs ;;
    opcode <- base_row ;;
    match decode (is_kernel r) opcode with
    | inl e => fail e
    | inr op =>
        fill_stack_fields ;;;
        (match special_length op with
         | Some n => if stack_len r =? n then ret tt else set_top_read true
         | None => ret tt
         end) ;;;
        perform_state_op op
    end.

  (** operation.rs:983-1083 *)
  Definition generate_exception (exc_code : Z) : M unit :=
    fill_stack_fields ;;; r <- get_regs ;;
    guard (gas_used r <? 2^32) GasLimitError ;;;
    opcode <- gets (fun g => mread (g_mem g) (mk_maddr (code_context r) SEG_CODE (program_counter r))) ;;
    enter_kernel exception_jumptable exc_code (program_counter r) opcode.

  (** traces.rs:102-132 and generation/state.rs:540-545, 610-616, 672-675 *)
  Definition rollback (old : gstate) : M unit := fun g =>
    let t := g_traces g in let t0 := g_traces old in
    Ok tt (mk_g (g_regs old) (g_mem g)
      (mk_traces (firstn (length (t_arithmetic t0)) (t_arithmetic t)) (firstn (length (t_byte_packing t0)) (t_byte_packing t))
                 (Nat.min (t_clock t0) (t_clock t)) (firstn (length (t_logic t0)) (t_logic t))
                 (firstn (length (t_memory t0)) (t_memory t)) (firstn (length (t_sponge t0)) (t_sponge t)))
      (g_stale g) (g_oracle g)).
  Definition apply_since (old : gstate) : M unit := fun g =>
    match apply_ops (g_mem g) (skipn (length (t_memory (g_traces old))) (t_memory (g_traces g))) with
    | Some m => Ok tt (mk_g (g_regs g) m (g_traces g) (g_stale g) (g_oracle g))
    | None => Panic
    end.

  (** generation/state.rs:251-275; [None] is the call to [bail!]. *)
  Definition exc_code (e : perror) : option Z :=
    match e with
    | OutOfGas => Some 0 | InvalidOpcode => Some 1 | StackUnderflow => Some 2 | InvalidJumpDestination => Some 3
    | InvalidJumpiDestination => Some 4 | StackOverflow => Some 5 | _ => None
    end.

  (** An error of [handle_error] or of a kernel instruction stops the
      generation: the last component of the result is [Err]. *)
  Definition exception (code : Z) : M unit := fun g =>
    (base_row ;;; generate_exception code ;;; apply_since g) g.
  Definition handle_error (e : perror) : M unit :=
    match exc_code e with Some c => exception c | None => fail e end.

  (** generation/state.rs:277-312 *)
  Definition transition : M unit := fun g =>
    match try_perform_instruction g with
    | Ok op g' => (apply_since g ;;; if might_overflow op then set_check_overflow true else ret tt) g'
    | Err e g' => if is_kernel (g_regs g') then Err e g' else (rollback g ;;; handle_error e) g'
    | Panic => Panic
    end.

  (** generation/state.rs:182-249, the run of a [GenerationState].
      [cycle_limit] stops the run; [halt] and [halt_final] are kernel labels.
      [final] is [None] while running.  The result holds the final registers,
      [None] for the default ones; [fuel] bounds the number of rounds of the
      loop and the outer [None] means that it ran out. *)
  Variable halt halt_final : Z.
  Definition EXC_STOP_CODE : Z := 6.
  Definition at_stop (cycle_limit : option nat) (g : gstate) : bool :=
    (is_kernel (g_regs g) && (program_counter (g_regs g) =? halt)) ||
    match cycle_limit with Some n => (t_clock (g_traces g) =? n)%nat | None => false end.
  Definition final_registers (r : registers) : registers :=
    if stack_len r =? 0
    then mk_regs (program_counter r) (is_kernel r) 0 0 (is_stack_top_read r) (check_overflow r) (context r) (gas_used r)
    else r.
  Fixpoint run_cpu (fuel : nat) (cycle_limit : option nat) (final : option registers) : M (option (option registers)) := fun g =>
    match fuel with
    | O => Ok None g
    | S fuel =>
        let r := g_regs g in
        let halting := match final with None => at_stop cycle_limit g | Some _ => false end in
        (final <- (if halting then exception EXC_STOP_CODE ;;; ret (Some (final_registers r)) else ret final) ;;
         if is_kernel r && (program_counter r =? halt_final) then ret (Some final)
         else transition ;;; run_cpu fuel cycle_limit final) g
    end.
End Machine.
