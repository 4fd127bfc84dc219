(** Theorems about accepted CPU tables: C76 (decoding), C77 (shape), C78
    (control), C79 (stack), C80 (memory channels), C81 (gas), C82 (results).

    A table is a list of rows accepted by all constraints of
    [CpuStark::eval_packed_generic], with canonical cells.  The lookups into
    other tables are not hypotheses: the theorems say what the CPU constraints
    guarantee by themselves, the refutations what they leave open. *)
From Coq Require Import ZArith Znumtheory List Bool Arith Lia.
From Verif Require Import Stark.Field Stark.ArithModel Cpu.CpuModel Cpu.CpuSpec Cpu.CpuFacts Cpu.CpuDecode Cpu.CpuStep Cpu.CpuResults.
Import ListNotations.
Local Open Scope Z_scope.

(** * Concrete tables *)

Definition crow (l : list Z) : row := fun c => nth c l 0.
Definition check_row (k : labels) (n i : nat) (lv nv : row) : bool :=
  forallb (fun c => negb (applies (fst c) i n) || (snd c mod P =? 0)) (eval_cpu k lv nv).
Definition check_table (k : labels) (t : list (list Z)) : bool :=
  forallb (fun i => check_row k (length t) i (crow (nth i t [])) (crow (nth (S i mod length t) t []))) (seq 0 (length t)) &&
  forallb (forallb (fun z => (0 <=? z) && (z <? P))) t.

Lemma check_ok : forall k t, check_table k t = true -> cpu_table_ok k (map crow t).
Proof.
  intros k t H. apply andb_true_iff in H. destruct H as [H1 H2]. split.
  - intros i I. rewrite map_length in *. rewrite forallb_forall in H1. specialize (H1 i ltac:(apply in_seq; lia)).
    assert (E : forall j, (j < length t)%nat -> crow_at (map crow t) j = crow (nth j t [])).
    { intros j J. unfold crow_at. rewrite (nth_indep _ zero_row (crow [])) by (rewrite map_length; exact J). apply map_nth. }
    unfold cnext. rewrite map_length. rewrite !E by (try exact I; apply Nat.mod_upper_bound; lia).
    unfold check_row in H1. rewrite forallb_forall in H1. apply Forall_forall. intros c Hc A. specialize (H1 c Hc). rewrite A in H1.
    cbn [negb orb] in H1. apply Z.eqb_eq. exact H1.
  - apply Forall_forall. intros r Hr c. apply in_map_iff in Hr. destruct Hr as (l & <- & Hl). rewrite forallb_forall in H2. specialize (H2 l Hl).
    unfold crow, canonical. destruct (Nat.lt_ge_cases c (length l)) as [L|L].
    + rewrite forallb_forall in H2. specialize (H2 _ (nth_In l 0 L)). lia.
    + rewrite nth_overflow by exact L. unfold P. lia.
Qed.

(** A row, written by its parts. *)
Definition mk (ctx pc len ker gas : Z) (flag : nat) (op : Z) (gen : list Z) (clk : Z) (c0 c1 c2 p : list Z) : list Z :=
  [ctx; (if ker =? 1 then 0 else ctx); pc; len; ker; gas] ++ map (fun f => if Nat.eqb f flag then 1 else 0) (seq 6 18) ++
  map (fun i => Z.b2z (Z.testbit op (Z.of_nat i))) (seq 0 8) ++ gen ++ [clk] ++ c0 ++ c1 ++ c2 ++ p.
Definition off : list Z := repeat 0 13.
Definition poff : list Z := repeat 0 5.
Definition hold (v : Z) : list Z := repeat 0 5 ++ v :: repeat 0 7.          (* an unused channel holding a value *)
Definition acc (rd ctx seg virt v : Z) : list Z := [1; rd; ctx; seg; virt] ++ v :: repeat 0 7.
Definition no_gen : list Z := repeat 0 8.
Definition no_flag : nat := 0%nat.

Definition k0 : labels := {| halt_final := 100; init := 0; syscall_jumptable := 200; exception_jumptable := 300 |}.
(** Padding, with some value in channel 0. *)
Definition pad (ctx len gas clk top : Z) : list Z := mk ctx 100 len 1 gas no_flag 0 no_gen clk (hold top) off off poff.

(** * C76: every row is padding or runs exactly one instruction *)

Theorem C76_decode : forall k t i, cpu_table_ok k t -> (i < length t)%nat ->
  padding (crow_at t i) \/
  exists ins, runs (crow_at t i) ins /\ (privileged ins -> crow_at t i IS_KERNEL_MODE = 1) /\
    (forall ins', runs (crow_at t i) ins' -> ins' = ins).
Proof. intros k t i OK I. exact (decode k _ _ (row_at k t OK i I)). Qed.
Print Assumptions C76_decode.

(** In the kernel the only exception is exc_stop (code 6). *)
Theorem C76_kernel_exception : forall k t i c, cpu_table_ok k t -> (i < length t)%nat ->
  runs (crow_at t i) (Exception c) -> crow_at t i IS_KERNEL_MODE = 1 -> c = 6.
Proof.
  intros k t i c OK I (_ & F & _ & EX) K. rewrite <- (EX c eq_refl). apply (d_exception k _ _ (row_at k t OK i I) F). exact K.
Qed.
Print Assumptions C76_kernel_exception.

(** A kernel program: PC; PUSH0; EQ; then the final halt. *)
Definition honest : list (list Z) := Eval vm_compute in
  [mk 0 97 0 1 0 PC_PUSH0 0x58 no_gen 1 (hold 0) off off poff;
   mk 0 98 1 1 2 PC_PUSH0 0x5f [0; 0; 0; 0; 1; 1; 0; 0] 2 (hold 97) off off [1; 0; 0; 1; 0];
   mk 0 99 2 1 4 EQ_ISZERO 0x14 [3423107146901675441; 0; 0; 0; 0; 0; 0; 0] 3 (hold 0) (acc 1 0 1 0 97) off poff;
   pad 0 1 7 4 0].

Definition honest_t : list row := map crow honest.
Lemma honest_ok : cpu_table_ok k0 honest_t.
Proof. apply check_ok. vm_compute. reflexivity. Qed.

(** ** Tables used in the refutations *)

(** PUSH1 7 in user mode at pc 5, followed by the kernel's final halt. *)
Definition w_push : list (list Z) := Eval vm_compute in
  [mk 1 5 0 0 0 PUSH_PROVER_INPUT 0x60 [1; 0; 0; 0; 0; 0; 0; 0] 1 (hold 0) off off poff; pad 1 1 3 2 7].
(** PUSH1 in kernel mode, of 7 and of 9. *)
Definition w_kpush (v : Z) : list (list Z) := [mk 0 98 0 1 0 PUSH_PROVER_INPUT 0x60 no_gen 1 (hold 0) off off poff; pad 0 1 3 2 v].
(** A user-mode PUSH1 at any address, to come back to the halt. *)
Definition back (ctx pc len gas clk top : Z) (c0 : list Z) : list Z :=
  mk ctx pc len 0 gas PUSH_PROVER_INPUT 0x60 [1; 0; 0; 0; (if len =? 1 then 1 else 0); (if len =? 1 then 1 else 0); 0; 0] clk c0 off off
     (if len =? 0 then poff else [1; 0; ctx; 1; len - 1]).
(** MLOAD_32BYTES in the kernel, then user mode at pc 777. *)
Definition w_mload32 : list (list Z) := Eval vm_compute in
  [mk 1 10 2 1 0 M_OP_32BYTES 0xf8 no_gen 1 (hold 0) (acc 1 1 1 0 32) off poff; back 1 777 1 0 2 5 (hold 5); pad 1 2 3 3 7].
(** JUMP in user mode, arriving in kernel mode. *)
Definition w_jump : list (list Z) := Eval vm_compute in
  [mk 1 5 1 0 0 JUMPS 0x56 [1; 1; 0; 0; 0; 0; 0; 0] 1 (hold 100) (hold 1) (acc 1 1 14 100 1) poff; pad 1 0 8 2 0].
(** JUMPI in the kernel without reading its condition. *)
Definition w_jumpi (c dst : Z) : list (list Z) :=
  [mk 0 10 2 1 0 JUMPS 0x57 [c; c; 0; 0; 0; 0; 0; 0] 1 (hold 20) (hold c) ([0; 1; 0; 14; 20] ++ 1 :: repeat 0 7) poff;
   mk 0 dst 0 1 10 PUSH_PROVER_INPUT 0x60 no_gen 2 (hold 0) off off poff; pad 0 1 13 3 7].
(** ADD with a write through channel 2, and another through channel 0 of the next row. *)
Definition w_add : list (list Z) := Eval vm_compute in
  [mk 1 5 2 0 0 BINARY_OP 0x01 no_gen 1 (hold 2) (acc 1 1 1 0 3) (acc 0 0 42 7 99) poff;
   back 1 6 1 3 2 5 (acc 0 0 43 8 5); pad 1 2 6 3 7].
(** A padding row that writes. *)
Definition w_pad : list (list Z) := Eval vm_compute in
  [mk 0 100 0 1 0 no_flag 0 no_gen 1 (hold 11) off off [1; 0; 3; 4; 5]].
(** MSTORE_GENERAL leaving a stack of length 1000. *)
Definition w_mstore : list (list Z) := Eval vm_compute in
  [mk 0 99 2 1 0 M_OP_GENERAL 0xfc no_gen 1 (hold 8) (acc 1 0 1 0 6) off [1; 0; 0; 0; 6]; pad 0 1000 0 2 0].
(** exc_stop pushing a frame with an arbitrary mode. *)
Definition w_stop : list (list Z) := Eval vm_compute in
  [mk 1 5 0 0 9 EXCEPTION 0 [0; 1; 1; 0; 0; 0; 0; 0] 1 (hold 0) ([0; 1; 0; 0; 318] ++ 100 :: repeat 0 7) off poff;
   mk 1 100 1 1 0 no_flag 0 no_gen 2 (repeat 0 5 ++ [5; 12345; 0; 0; 0; 0; 9; 0]) off off poff].
(** A shift by 2^32 with 1 as its power of two. *)
Definition w_shift : list (list Z) := Eval vm_compute in
  [mk 0 99 2 1 0 SHIFT 0x1b [1; 0; 0; 0; 0; 0; 0; 0] 1 (repeat 0 5 ++ [0; 1; 0; 0; 0; 0; 0; 0]) (acc 1 0 1 0 3)
      ([0; 0; 0; 13; 0] ++ 1 :: repeat 0 7) poff; pad 0 1 3 2 3].
(** NOT with an empty stack. *)
Definition w_not : list (list Z) := Eval vm_compute in
  [mk 0 99 0 1 0 NOT_POP 0x19 no_gen 1 (repeat 0 13) off off poff;
   mk 0 100 0 1 3 no_flag 0 no_gen 2 (repeat 0 5 ++ repeat (2^32 - 1) 8) off off poff].
(** POP of one of five elements, with an arbitrary new top. *)
Definition w_pop : list (list Z) := Eval vm_compute in
  [mk 0 99 5 1 0 NOT_POP 0x50 no_gen 1 (hold 8) off off poff; pad 0 4 2 2 4242].
(** GET_CONTEXT with three elements on the stack, losing the top. *)
Definition w_getctx : list (list Z) := Eval vm_compute in
  [mk 0 99 3 1 0 CONTEXT_OP 0xf6 no_gen 1 (hold 8) off off poff; pad 0 4 0 2 0].
(** ADDMOD run as a binary operation. *)
Definition w_addmod : list (list Z) := Eval vm_compute in
  [mk 0 99 3 1 0 BINARY_OP 0x08 no_gen 1 (hold 5) (acc 1 0 1 1 6) (hold 7) poff; pad 0 2 5 2 4].

Lemma w_push_ok : cpu_table_ok k0 (map crow w_push).       Proof. apply check_ok. vm_compute. reflexivity. Qed.
Lemma w_kpush_ok7 : cpu_table_ok k0 (map crow (w_kpush 7)). Proof. apply check_ok. vm_compute. reflexivity. Qed.
Lemma w_kpush_ok9 : cpu_table_ok k0 (map crow (w_kpush 9)). Proof. apply check_ok. vm_compute. reflexivity. Qed.
Lemma w_mload32_ok : cpu_table_ok k0 (map crow w_mload32). Proof. apply check_ok. vm_compute. reflexivity. Qed.
Lemma w_jump_ok : cpu_table_ok k0 (map crow w_jump).       Proof. apply check_ok. vm_compute. reflexivity. Qed.
Lemma w_jumpi_ok1 : cpu_table_ok k0 (map crow (w_jumpi 1 20)). Proof. apply check_ok. vm_compute. reflexivity. Qed.
Lemma w_jumpi_ok0 : cpu_table_ok k0 (map crow (w_jumpi 0 11)). Proof. apply check_ok. vm_compute. reflexivity. Qed.
Lemma w_add_ok : cpu_table_ok k0 (map crow w_add).         Proof. apply check_ok. vm_compute. reflexivity. Qed.
Lemma w_pad_ok : cpu_table_ok k0 (map crow w_pad).         Proof. apply check_ok. vm_compute. reflexivity. Qed.
Lemma w_mstore_ok : cpu_table_ok k0 (map crow w_mstore).   Proof. apply check_ok. vm_compute. reflexivity. Qed.
Lemma w_stop_ok : cpu_table_ok k0 (map crow w_stop).       Proof. apply check_ok. vm_compute. reflexivity. Qed.
Lemma w_shift_ok : cpu_table_ok k0 (map crow w_shift).     Proof. apply check_ok. vm_compute. reflexivity. Qed.
Lemma w_not_ok : cpu_table_ok k0 (map crow w_not).         Proof. apply check_ok. vm_compute. reflexivity. Qed.
Lemma w_pop_ok : cpu_table_ok k0 (map crow w_pop).         Proof. apply check_ok. vm_compute. reflexivity. Qed.
Lemma w_getctx_ok : cpu_table_ok k0 (map crow w_getctx).   Proof. apply check_ok. vm_compute. reflexivity. Qed.
Lemma w_addmod_ok : cpu_table_ok k0 (map crow w_addmod).   Proof. apply check_ok. vm_compute. reflexivity. Qed.

(** [runs] on a concrete row. *)
Definition runsb (r : row) (i : instr) : bool :=
  (match i with
   | Push n | Mstore32 n => (1 <=? n) && (n <=? 32)
   | Dup n | Swap n => (1 <=? n) && (n <=? 16)
   | Syscall o => (0 <=? o) && (o <? 256)
   | Exception c => (0 <=? c) && (c <? 8) && (exc_code_of r =? c)
   | _ => true
   end) && (r (flag_of i) =? 1) && (match opcode i with Some o => opcode_of r =? o | None => true end).
Lemma runsb_ok : forall r i, runsb r i = true -> runs r i.
Proof.
  intros r i B. unfold runsb in B. rewrite !andb_true_iff in B. destruct B as ((B1 & B2) & B3).
  split; [destruct i; cbn [valid]; try exact I; lia|]. split; [lia|]. split.
  - intros o E. rewrite E in B3. lia.
  - intros c ->. lia.
Qed.
Ltac runs_now := apply runsb_ok; vm_compute; reflexivity.

Theorem C76_used : runs (crow_at honest_t 0) Pc /\ runs (crow_at honest_t 1) Push0 /\ runs (crow_at honest_t 2) Eq /\ padding (crow_at honest_t 3).
Proof.
  split; [runs_now|]. split; [runs_now|]. split; [runs_now|].
  intros f I. cbn [OP_FLAGS In] in I. repeat (destruct I as [<-|I]; [reflexivity|]). contradiction.
Qed.

(** The flag and the opcode need not agree for the operations of the
    arithmetic table: ADDMOD (three operands, 8 gas) is accepted as a binary
    operation, taking two operands for 5 gas, its modulus being read nowhere. *)
Theorem C76_arithmetic_refuted : exists k t, cpu_table_ok k t /\ (1 < length t)%nat /\
  let lv := crow_at t 0 in let nv := crow_at t 1 in
  opcode_of lv = 0x08 /\ runs lv Binary /\ lv STACK_LEN = 3 /\ nv STACK_LEN = 2 /\ nv GAS = lv GAS + 5 /\
  used lv (channel 2) = 0 /\ value lv (channel 2) = 7 :: repeat 0 7.
Proof. exists k0, (map crow w_addmod). split; [exact w_addmod_ok|]. split; [cbn; lia|]. vm_compute. repeat split; intros; try discriminate; try congruence. Qed.
Print Assumptions C76_arithmetic_refuted.

(** * C77: the table is a run of instructions followed by padding *)

Theorem C77_shape : forall k t, cpu_table_ok k t -> (0 < length t)%nat ->
  exists n, (n < length t)%nat /\
    (forall i, (i < n)%nat -> exists ins, runs (crow_at t i) ins) /\
    (forall i, (n <= i < length t)%nat -> padding (crow_at t i) /\ crow_at t i IS_KERNEL_MODE = 1 /\
       crow_at t i PROGRAM_COUNTER = halt_final k mod P /\ forall c, (c < 3)%nat -> used (crow_at t i) (channel c) = 0).
Proof.
  intros k t OK N. destruct (shape k t OK N) as (n & L & A & B). exists n. split; [exact L|]. split; [exact A|].
  intros i Hi. specialize (B i Hi). split; [exact B|]. apply (padding_row k t OK i ltac:(lia) B).
Qed.
Print Assumptions C77_shape.

Theorem C77_clock : forall k t i, cpu_table_ok k t -> (i < length t)%nat -> crow_at t i CLOCK = (Z.of_nat i + 1) mod P.
Proof. intros k t i OK I. exact (clock_at k t OK i I). Qed.
Print Assumptions C77_clock.

(** Code is fetched from context 0 in the kernel, from the current context otherwise. *)
Theorem C77_code_context : forall k t i, cpu_table_ok k t -> (S i < length t)%nat ->
  (crow_at t i IS_KERNEL_MODE = 0 \/ crow_at t i IS_KERNEL_MODE = 1) /\
  crow_at t i CODE_CONTEXT = (if Z.eq_dec (crow_at t i IS_KERNEL_MODE) 1 then 0 else crow_at t i CONTEXT).
Proof.
  intros k t i OK I. split; [exact (kernel_bool k _ _ (row_at k t OK i ltac:(lia)))|]. exact (s_code_context k _ _ (table_pair k t i OK I)).
Qed.
Print Assumptions C77_code_context.

(** The program counter, mode, context and stack length of the first row are
    free: execution may start in user mode anywhere. *)
Theorem C77_start_refuted : exists k t, cpu_table_ok k t /\ (1 < length t)%nat /\
  runs (crow_at t 0) (Push 1) /\ crow_at t 0 IS_KERNEL_MODE = 0 /\ crow_at t 0 PROGRAM_COUNTER <> init k /\ crow_at t 0 CONTEXT = 1.
Proof.
  exists k0, (map crow w_push). split; [exact w_push_ok|]. split; [cbn; lia|]. split; [runs_now|]. vm_compute. repeat split; discriminate.
Qed.
Print Assumptions C77_start_refuted.

Theorem C77_used : exists t, cpu_table_ok k0 t /\ length t = 4%nat /\ runs (crow_at t 2) Eq.
Proof. exists honest_t. split; [exact honest_ok|]. split; [reflexivity|runs_now]. Qed.

(** * C78: control

    Missing for the full property: the next program counter and mode after
    PUSH, MLOAD_32BYTES, MSTORE_32BYTES, the mode after JUMP and JUMPI, and the
    condition of JUMPI; they are not constrained (refutations below). *)

Theorem C78_control_partial : forall k t i ins, cpu_table_ok k t -> (S i < length t)%nat ->
  let lv := crow_at t i in let nv := crow_at t (S i) in
  runs lv ins ->
  (straight ins -> nv PROGRAM_COUNTER = (lv PROGRAM_COUNTER + size ins) mod P /\ nv IS_KERNEL_MODE = lv IS_KERNEL_MODE) /\
  (ins <> SetContext -> nv CONTEXT = lv CONTEXT) /\
  (ins = SetContext -> nv CONTEXT = limb lv (channel 0) 2) /\
  (ins = ExitKernel -> nv PROGRAM_COUNTER = limb lv (channel 0) 0 /\ nv IS_KERNEL_MODE = limb lv (channel 0) 1 /\ nv GAS = limb lv (channel 0) 6) /\
  (trap ins -> nv IS_KERNEL_MODE = 1 /\ nv GAS = 0 /\ nv PROGRAM_COUNTER = limb lv (channel 1) 0 /\
     (forall j, (1 <= j < 8)%nat -> limb lv (channel 1) j = 0) /\
     is_read lv (channel 1) = 1 /\ addr_context lv (channel 1) = 0 /\ addr_segment lv (channel 1) = SEGMENT_CODE /\
     addr_virtual lv (channel 1) = entry k ins mod P).
Proof.
  intros k t i ins OK I lv nv RN. pose proof (table_pair k t i OK I) as PO.
  split; [exact (s_straight k lv nv PO ins RN)|]. split; [exact (s_context k lv nv PO ins RN)|].
  split; [intros ->; apply (s_set_context k lv nv PO RN)|].
  split; [intros ->; destruct (s_exit k lv nv PO RN) as (A & B & C & _); auto|].
  exact (s_trap k lv nv PO ins RN).
Qed.
Print Assumptions C78_control_partial.

(** JUMP goes to the word on top of the stack; JUMPI does so when what channel
    1 holds is not zero; in user mode the target is looked up in the table of
    jump destinations. *)
Theorem C78_jumps : forall k t i ins, cpu_table_ok k t -> (S i < length t)%nat ->
  let lv := crow_at t i in let nv := crow_at t (S i) in
  runs lv ins -> ins = Jump \/ ins = Jumpi -> limbs32 lv (channel 0) -> limbs32 lv (channel 1) ->
  (ins = Jumpi -> value lv (channel 1) = repeat 0 8 -> nv PROGRAM_COUNTER = (lv PROGRAM_COUNTER + 1) mod P) /\
  (ins = Jump \/ value lv (channel 1) <> repeat 0 8 ->
     nv PROGRAM_COUNTER = word (value lv (channel 0)) /\
     (lv IS_KERNEL_MODE = 0 ->
        used lv (channel 2) = 1 /\ is_read lv (channel 2) = 1 /\ addr_context lv (channel 2) = lv CONTEXT /\
        addr_segment lv (channel 2) = SEGMENT_JUMPDEST_BITS /\ addr_virtual lv (channel 2) = nv PROGRAM_COUNTER /\
        limb lv (channel 2) 0 = 1)) /\
  (lv IS_KERNEL_MODE = 1 -> used lv (channel 2) = 0).
Proof. intros k t i ins OK I lv nv. exact (s_jumps k lv nv (table_pair k t i OK I) ins). Qed.
Print Assumptions C78_jumps.

Lemma small_limbs : forall r c, forallb (fun j => (0 <=? limb r c j) && (limb r c j <? 2^32)) (seq 0 8) = true -> limbs32 r c.
Proof. intros r c B j J. rewrite forallb_forall in B. specialize (B j ltac:(apply in_seq; lia)). lia. Qed.

(** A PUSH in user mode may be followed by kernel mode, anywhere. *)
Theorem C78_push_refuted : exists k t, cpu_table_ok k t /\ (1 < length t)%nat /\
  let lv := crow_at t 0 in let nv := crow_at t 1 in
  runs lv (Push 1) /\ lv IS_KERNEL_MODE = 0 /\ nv IS_KERNEL_MODE = 1 /\ nv PROGRAM_COUNTER <> lv PROGRAM_COUNTER + size (Push 1).
Proof. exists k0, (map crow w_push). split; [exact w_push_ok|]. split; [cbn; lia|]. split; [runs_now|]. vm_compute. repeat split; discriminate. Qed.
Print Assumptions C78_push_refuted.

(** MLOAD_32BYTES may be followed by user mode, anywhere. *)
Theorem C78_mload_32bytes_refuted : exists k t, cpu_table_ok k t /\ (1 < length t)%nat /\
  let lv := crow_at t 0 in let nv := crow_at t 1 in
  runs lv Mload32 /\ lv IS_KERNEL_MODE = 1 /\ nv IS_KERNEL_MODE = 0 /\ nv PROGRAM_COUNTER <> lv PROGRAM_COUNTER + size Mload32.
Proof. exists k0, (map crow w_mload32). split; [exact w_mload32_ok|]. split; [cbn; lia|]. split; [runs_now|]. vm_compute. repeat split; discriminate. Qed.
Print Assumptions C78_mload_32bytes_refuted.

(** A JUMP in user mode may arrive in kernel mode. *)
Theorem C78_jump_mode_refuted : exists k t, cpu_table_ok k t /\ (1 < length t)%nat /\
  let lv := crow_at t 0 in let nv := crow_at t 1 in
  runs lv Jump /\ lv IS_KERNEL_MODE = 0 /\ nv IS_KERNEL_MODE = 1 /\ limbs32 lv (channel 0) /\ limbs32 lv (channel 1).
Proof.
  exists k0, (map crow w_jump). split; [exact w_jump_ok|]. split; [cbn; lia|]. cbv zeta. split; [runs_now|].
  split; [vm_compute; reflexivity|]. split; [vm_compute; reflexivity|]. split; apply small_limbs; vm_compute; reflexivity.
Qed.
Print Assumptions C78_jump_mode_refuted.

(** The condition of a JUMPI is read nowhere: from the same state, with the
    same memory accesses, it may jump or not. *)
Theorem C78_jumpi_condition_refuted : exists k t t', cpu_table_ok k t /\ cpu_table_ok k t' /\ (1 < length t)%nat /\ (1 < length t')%nat /\
  let lv := crow_at t 0 in let lv' := crow_at t' 0 in
  runs lv Jumpi /\ runs lv' Jumpi /\
  (forall c, In c [CONTEXT; PROGRAM_COUNTER; STACK_LEN; IS_KERNEL_MODE; GAS] -> lv c = lv' c) /\ value lv (channel 0) = value lv' (channel 0) /\
  mem_looks lv (crow_at t 1) = mem_looks lv' (crow_at t' 1) /\
  crow_at t 1 PROGRAM_COUNTER = 20 /\ crow_at t' 1 PROGRAM_COUNTER = 11.
Proof.
  exists k0, (map crow (w_jumpi 1 20)), (map crow (w_jumpi 0 11)). split; [exact w_jumpi_ok1|]. split; [exact w_jumpi_ok0|].
  split; [cbn; lia|]. split; [cbn; lia|]. cbv zeta. split; [runs_now|]. split; [runs_now|]. split.
  { intros c I. cbn [In] in I. decompose [or] I; try contradiction; subst c; reflexivity. }
  vm_compute. repeat split.
Qed.
Print Assumptions C78_jumpi_condition_refuted.

Theorem C78_used : let lv := crow_at honest_t 1 in runs lv Push0 /\ straight Push0 /\ crow_at honest_t 2 PROGRAM_COUNTER = lv PROGRAM_COUNTER + 1.
Proof. cbv zeta. split; [runs_now|]. split; [exact I|]. reflexivity. Qed.
Theorem C78_trap_used : runs (crow_at (map crow w_stop) 0) (Exception 6) /\ trap (Exception 6) /\ entry k0 (Exception 6) = 318.
Proof. split; [runs_now|]. split; [exact I|reflexivity]. Qed.

(** * C79: the stack *)

Theorem C79_length : forall k t i ins, cpu_table_ok k t -> (S i < length t)%nat ->
  runs (crow_at t i) ins -> ins <> MstoreGeneral -> ins <> SetContext ->
  crow_at t (S i) STACK_LEN = (crow_at t i STACK_LEN - pops ins + pushes ins) mod P.
Proof. intros k t i ins OK I. exact (s_len k _ _ (table_pair k t i OK I) ins). Qed.
Print Assumptions C79_length.

(** In user mode the length never becomes 1025 through an instruction that pushes. *)
Theorem C79_overflow : forall k t i ins, cpu_table_ok k t -> (S i < length t)%nat ->
  runs (crow_at t i) ins ->
  match ins with Push _ | ProverInput | Pc | Push0 | Dup _ | Swap _ | ExitKernel => True | _ => False end ->
  crow_at t (S i) IS_KERNEL_MODE = 0 -> crow_at t (S i) STACK_LEN <> 1025.
Proof. intros k t i ins OK I. exact (s_overflow k _ _ (table_pair k t i OK I) ins). Qed.
Print Assumptions C79_overflow.

(** Operand j (from 1) is read at index [len - 1 - j]; JUMPI is missing. *)
Theorem C79_operands : forall k t i ins j, cpu_table_ok k t -> (S i < length t)%nat ->
  let lv := crow_at t i in
  runs lv ins -> match ins with Dup _ | Swap _ | Jumpi => False | _ => True end -> (1 <= j < Z.to_nat (pops ins))%nat ->
  stack_access lv (channel j) 1 (lv CONTEXT) (lv STACK_LEN - 1 - Z.of_nat j).
Proof. intros k t i ins j OK I lv. exact (s_operands k _ _ (table_pair k t i OK I) ins j). Qed.
Print Assumptions C79_operands.

Theorem C79_dup : forall k t i n, cpu_table_ok k t -> (S i < length t)%nat ->
  let lv := crow_at t i in let nv := crow_at t (S i) in
  runs lv (Dup n) ->
  stack_access lv (channel 1) 0 (lv CONTEXT) (lv STACK_LEN - 1) /\ value lv (channel 1) = value lv (channel 0) /\
  stack_access lv (channel 2) 1 (lv CONTEXT) (lv STACK_LEN - n) /\ value nv (channel 0) = value lv (channel 2) /\
  used nv (channel 0) = 0.
Proof. intros k t i n OK I lv nv. exact (s_dup k _ _ (table_pair k t i OK I) n). Qed.
Print Assumptions C79_dup.

Theorem C79_swap : forall k t i n, cpu_table_ok k t -> (S i < length t)%nat ->
  let lv := crow_at t i in let nv := crow_at t (S i) in
  runs lv (Swap n) ->
  stack_access lv (channel 1) 1 (lv CONTEXT) (lv STACK_LEN - 1 - n) /\ value nv (channel 0) = value lv (channel 1) /\
  stack_access lv (channel 2) 0 (lv CONTEXT) (lv STACK_LEN - 1 - n) /\ value lv (channel 2) = value lv (channel 0) /\
  used nv (channel 0) = 0.
Proof. intros k t i n OK I lv nv. exact (s_swap k _ _ (table_pair k t i OK I) n). Qed.
Print Assumptions C79_swap.

(** A push saves the old top, if there is one. *)
Theorem C79_old_top : forall k t i ins, cpu_table_ok k t -> (S i < length t)%nat ->
  let lv := crow_at t i in
  runs lv ins -> match ins with Push _ | ProverInput | Pc | Push0 | Syscall _ | Exception _ => True | _ => False end ->
  if Z.eq_dec (lv STACK_LEN) 0 then used lv partial_channel = 0
  else stack_access lv partial_channel 0 (lv CONTEXT) (lv STACK_LEN - 1).
Proof. intros k t i ins OK I lv. exact (s_oldtop k _ _ (table_pair k t i OK I) ins). Qed.
Print Assumptions C79_old_top.

(** After a jump or a return to user mode the new top is read, if there is one. *)
Theorem C79_new_top : forall k t i ins, cpu_table_ok k t -> (S i < length t)%nat ->
  let lv := crow_at t i in let nv := crow_at t (S i) in
  runs lv ins -> ins = Jump \/ ins = Jumpi \/ ins = ExitKernel ->
  if Z.eq_dec (lv STACK_LEN) (pops ins) then used nv (channel 0) = 0
  else stack_access nv (channel 0) 1 (nv CONTEXT) (nv STACK_LEN - 1).
Proof.
  intros k t i ins OK I lv nv RN Hi. pose proof (table_pair k t i OK I) as PO. destruct Hi as [-> |[-> | ->]].
  - exact (s_jump_top k lv nv PO Jump RN (or_introl eq_refl)).
  - exact (s_jump_top k lv nv PO Jumpi RN (or_intror eq_refl)).
  - exact (s_exit_top k lv nv PO RN).
Qed.
Print Assumptions C79_new_top.

(** After POP the new top may be anything: nothing is read. *)
Theorem C79_pop_refuted : exists k t, cpu_table_ok k t /\ (1 < length t)%nat /\
  let lv := crow_at t 0 in let nv := crow_at t 1 in
  runs lv Pop /\ lv STACK_LEN = 5 /\ value nv (channel 0) = 4242 :: repeat 0 7 /\
  mem_looks lv nv = [code_look lv] /\ mem_looks nv nv = [].
Proof. exists k0, (map crow w_pop). split; [exact w_pop_ok|]. split; [cbn; lia|]. cbv zeta. split; [runs_now|]. vm_compute. repeat split. Qed.
Print Assumptions C79_pop_refuted.

(** GET_CONTEXT may lose the old top: nothing is written. *)
Theorem C79_get_context_refuted : exists k t, cpu_table_ok k t /\ (1 < length t)%nat /\
  let lv := crow_at t 0 in let nv := crow_at t 1 in
  runs lv GetContext /\ lv STACK_LEN = 3 /\ value lv (channel 0) = 8 :: repeat 0 7 /\ mem_looks lv nv = [code_look lv].
Proof. exists k0, (map crow w_getctx). split; [exact w_getctx_ok|]. split; [cbn; lia|]. cbv zeta. split; [runs_now|]. vm_compute. repeat split. Qed.
Print Assumptions C79_get_context_refuted.

(** The length of the stack after MSTORE_GENERAL is free. *)
Theorem C79_mstore_length_refuted : exists k t, cpu_table_ok k t /\ (1 < length t)%nat /\
  runs (crow_at t 0) MstoreGeneral /\ crow_at t 0 STACK_LEN = 2 /\ crow_at t 1 STACK_LEN = 1000.
Proof. exists k0, (map crow w_mstore). split; [exact w_mstore_ok|]. split; [cbn; lia|]. split; [runs_now|]. vm_compute. repeat split. Qed.
Print Assumptions C79_mstore_length_refuted.

(** NOT is accepted on an empty stack. *)
Theorem C79_underflow_refuted : exists k t, cpu_table_ok k t /\ (1 < length t)%nat /\
  runs (crow_at t 0) Not /\ crow_at t 0 STACK_LEN < pops Not /\ crow_at t 1 STACK_LEN = crow_at t 0 STACK_LEN.
Proof. exists k0, (map crow w_not). split; [exact w_not_ok|]. split; [cbn; lia|]. split; [runs_now|]. vm_compute. repeat split. Qed.
Print Assumptions C79_underflow_refuted.

Theorem C79_used : runs (crow_at honest_t 2) Eq /\ crow_at honest_t 2 STACK_LEN = 2 /\ crow_at honest_t 3 STACK_LEN = 1 /\
  stack_access (crow_at honest_t 2) (channel 1) 1 0 0 /\ stack_access (crow_at honest_t 1) partial_channel 0 0 0.
Proof. split; [runs_now|]. vm_compute. repeat split. Qed.

(** * C80: memory channels

    Missing for the full property: channel 2 of most instructions, channel 0
    of the row after most instructions, the partial channel of padding rows
    and of the context operations. *)

Theorem C80_unused_partial : forall k t i ins c, cpu_table_ok k t -> (S i < length t)%nat ->
  runs (crow_at t i) ins -> In c (quiet ins) -> used (crow_at t i) c = 0.
Proof. intros k t i ins c OK I. exact (s_quiet k _ _ (table_pair k t i OK I) ins c). Qed.
Print Assumptions C80_unused_partial.

(** ADD may write any value at any address: through channel 2, which it does
    not use, and through channel 0 of the next row. *)
Theorem C80_stray_write_refuted : exists k t, cpu_table_ok k t /\ (2 < length t)%nat /\
  let lv := crow_at t 0 in let nv := crow_at t 1 in
  runs lv Binary /\ opcode_of lv = 0x01 /\ lv IS_KERNEL_MODE = 0 /\
  In (0, (0, 42, 7), 99 :: repeat 0 7, mem_time_and_channel lv 3) (mem_looks lv nv) /\
  In (0, (0, 43, 8), 5 :: repeat 0 7, mem_time_and_channel nv 1) (mem_looks nv (crow_at t 2)).
Proof.
  exists k0, (map crow w_add). split; [exact w_add_ok|]. split; [cbn; lia|]. cbv zeta. split; [runs_now|].
  split; [reflexivity|]. split; [reflexivity|]. vm_compute. split; auto 10.
Qed.
Print Assumptions C80_stray_write_refuted.

(** A padding row may write through the partial channel. *)
Theorem C80_padding_write_refuted : exists k t, cpu_table_ok k t /\ (0 < length t)%nat /\
  padding (crow_at t 0) /\ In (0, (3, 4, 5), 11 :: repeat 0 7, mem_time_and_channel (crow_at t 0) 4) (mem_looks (crow_at t 0) (crow_at t 0)).
Proof.
  exists k0, (map crow w_pad). split; [exact w_pad_ok|]. split; [cbn; lia|]. split.
  - intros f I. cbn [OP_FLAGS In] in I. repeat (destruct I as [<-|I]; [reflexivity|]). contradiction.
  - vm_compute. auto.
Qed.
Print Assumptions C80_padding_write_refuted.

Theorem C80_used : runs (crow_at honest_t 0) Pc /\ In (channel 1) (quiet Pc) /\ runs (crow_at (map crow w_pop) 0) Pop /\ length (quiet Pop) = 3%nat.
Proof. split; [runs_now|]. split; [cbn; auto|]. split; [runs_now|reflexivity]. Qed.

(** * C81: gas *)

(** Gas of the operations performed by the arithmetic table. *)
Definition arithmetic_cost (o : Z) : option Z :=
  if existsb (Z.eqb o) [0x01; 0x03; 0x10; 0x11; 0x1a] then Some 3          (* ADD SUB LT GT BYTE *)
  else if existsb (Z.eqb o) [0x02; 0x04; 0x06] then Some 5                  (* MUL DIV MOD *)
  else if existsb (Z.eqb o) [0x08; 0x09] then Some 8                        (* ADDMOD MULMOD *)
  else if o =? 0x0f then Some 0                                             (* SUBMOD *)
  else None.

Theorem C81_gas : forall k t i ins g, cpu_table_ok k t -> (S i < length t)%nat ->
  let lv := crow_at t i in let nv := crow_at t (S i) in
  runs lv ins ->
  (match ins with
   | Binary => In (opcode_of lv) [0x01; 0x02; 0x03; 0x04; 0x06; 0x10; 0x11; 0x1a] /\ arithmetic_cost (opcode_of lv) = Some g
   | Ternary => In (opcode_of lv) [0x08; 0x09; 0x0f] /\ arithmetic_cost (opcode_of lv) = Some g
   | _ => cost ins = Some g
   end) ->
  nv GAS = (lv GAS + g) mod P.
Proof.
  intros k t i ins g OK I lv nv RN HC. pose proof (table_pair k t i OK I) as PO.
  destruct ins; try exact (s_gas k lv nv PO _ g RN HC).
  - destruct HC as [IO AC]. rewrite (s_gas_binary k lv nv PO RN). f_equal. f_equal.
    cbn [In] in IO. decompose [or] IO; try contradiction; match goal with E : _ = opcode_of lv |- _ => rewrite <- E in AC |- * end;
      vm_compute in AC; injection AC as <-; reflexivity.
  - destruct HC as [IO AC]. rewrite (s_gas_ternary k lv nv PO RN). f_equal. f_equal.
    cbn [In] in IO. decompose [or] IO; try contradiction; match goal with E : _ = opcode_of lv |- _ => rewrite <- E in AC |- * end;
      vm_compute in AC; injection AC as <-; reflexivity.
Qed.
Print Assumptions C81_gas.

Theorem C81_used : runs (crow_at honest_t 2) Eq /\ cost Eq = Some 3 /\ crow_at honest_t 2 GAS = 4 /\ crow_at honest_t 3 GAS = 7 /\
  runs (crow_at (map crow w_add) 0) Binary /\ arithmetic_cost (opcode_of (crow_at (map crow w_add) 0)) = Some 3.
Proof. split; [runs_now|]. split; [reflexivity|]. split; [reflexivity|]. split; [reflexivity|]. split; [runs_now|reflexivity]. Qed.

(** * C82: results computed by the CPU table *)

Definition zeros : list Z := repeat 0 8.

Theorem C82_results : forall k t i ins, cpu_table_ok k t -> (S i < length t)%nat ->
  let lv := crow_at t i in let nv := crow_at t (S i) in
  let top := value lv (channel 0) in let result := value nv (channel 0) in
  runs lv ins ->
  match ins with
  | Eq => result = (if list_eq_dec Z.eq_dec top (value lv (channel 1)) then 1 else 0) :: repeat 0 7
  | IsZero => result = (if list_eq_dec Z.eq_dec top zeros then 1 else 0) :: repeat 0 7
  | Pc => result = lv PROGRAM_COUNTER :: repeat 0 7
  | Push0 => result = zeros
  | Jumpdest => result = top /\ used nv (channel 0) = 0
  | GetContext => result = [0; 0; lv CONTEXT; 0; 0; 0; 0; 0]
  | SetContext => top = [limb lv (channel 0) 0; 0; nv CONTEXT; 0; 0; 0; 0; 0] /\
      (lv PRUNING_FLAG = 0 \/ lv PRUNING_FLAG = 1) /\ lv PRUNING_FLAG = limb lv (channel 0) 0
  | Fp254 => value lv (channel 2) = word_limbs BN254_PRIME
  | MloadGeneral => used lv (channel 1) = 1 /\ is_read lv (channel 1) = 1 /\ addr_context lv (channel 1) = limb lv (channel 0) 2 /\
      addr_segment lv (channel 1) = limb lv (channel 0) 1 /\ addr_virtual lv (channel 1) = limb lv (channel 0) 0 /\ result = value lv (channel 1)
  | MstoreGeneral => used lv partial_channel = 1 /\ is_read lv partial_channel = 0 /\ addr_context lv partial_channel = limb lv (channel 1) 2 /\
      addr_segment lv partial_channel = limb lv (channel 1) 1 /\ addr_virtual lv partial_channel = limb lv (channel 1) 0
  | Mstore32 n => result = [(limb lv (channel 0) 0 + n) mod P; limb lv (channel 0) 1; limb lv (channel 0) 2; 0; 0; 0; 0; 0]
  | Syscall _ => result = [(lv PROGRAM_COUNTER + 1) mod P; lv IS_KERNEL_MODE; 0; 0; 0; 0; lv GAS; 0]
  | Exception c => c <> 6 -> result = [lv PROGRAM_COUNTER mod P; 0; 0; 0; 0; 0; lv GAS; 0]
  | _ => True
  end.
Proof.
  intros k t i ins OK I lv nv top result RN. pose proof (table_pair k t i OK I) as PO. destruct ins; try exact Logic.I.
  - rewrite (s_fp254 k lv nv PO RN). vm_compute. reflexivity.
  - exact (s_eq k lv nv PO RN).
  - exact (s_iszero k lv nv PO RN).
  - destruct (s_jumpdest k lv nv PO RN). auto.
  - exact (s_pc k lv nv PO RN).
  - exact (s_push0 k lv nv PO RN).
  - apply (s_get_context k lv nv PO RN).
  - destruct (s_set_context k lv nv PO RN) as (A & B & C & D & _). split.
    + unfold top, value. cbn [map seq]. rewrite A. rewrite (B 1%nat), (B 3%nat), (B 4%nat), (B 5%nat), (B 6%nat), (B 7%nat) by (cbn; tauto). reflexivity.
    + rewrite D. split; [exact C|reflexivity].
  - exact (s_mstore32 k lv nv PO n RN).
  - destruct (s_mload k lv nv PO RN) as (A & B & C & D & E & F & _). auto 10.
  - exact (s_mstore k lv nv PO RN).
  - exact (s_frame k lv nv PO _ RN Logic.I ltac:(discriminate)).
  - intros N. pose proof (s_frame k lv nv PO _ RN Logic.I ltac:(congruence)) as X. rewrite Z.add_0_r in X. exact X.
Qed.
Print Assumptions C82_results.

(** NOT complements the word, EQ and ISZERO compare words, for 32-bit limbs. *)
Lemma word_value : forall r c, word (value r c) =
  limb r c 0 + 2^32 * (limb r c 1 + 2^32 * (limb r c 2 + 2^32 * (limb r c 3 + 2^32 * (limb r c 4 + 2^32 * (limb r c 5 + 2^32 * (limb r c 6 + 2^32 * limb r c 7)))))).
Proof. intros r c. unfold value. cbn [map seq word]. rewrite Z.mul_0_r, Z.add_0_r. reflexivity. Qed.

Theorem C82_not : forall k t i, cpu_table_ok k t -> (S i < length t)%nat ->
  runs (crow_at t i) Not -> limbs32 (crow_at t i) (channel 0) ->
  word (value (crow_at t (S i)) (channel 0)) = 2^256 - 1 - word (value (crow_at t i) (channel 0)).
Proof.
  intros k t i OK I RN L. pose proof (s_not k _ _ (table_pair k t i OK I) RN) as N. rewrite !word_value.
  assert (M : forall j, (j < 8)%nat -> limb (crow_at t (S i)) (channel 0) j = 2^32 - 1 - limb (crow_at t i) (channel 0) j).
  { intros j J. rewrite (N j J). apply Z.mod_small. specialize (L j J). unfold P. lia. }
  rewrite (M 0%nat), (M 1%nat), (M 2%nat), (M 3%nat), (M 4%nat), (M 5%nat), (M 6%nat), (M 7%nat) by lia.
  change (2^256) with (2^32 * (2^32 * (2^32 * (2^32 * (2^32 * (2^32 * (2^32 * 2^32))))))). ring.
Qed.
Print Assumptions C82_not.

Lemma word_limbs : forall r c r' c', limbs32 r c -> limbs32 r' c' -> word (value r c) = word (value r' c') -> value r c = value r' c'.
Proof.
  intros r c r' c' L L' E.
  assert (G : forall l l', length l = length l' -> Forall (fun x => 0 <= x < 2^32) l -> Forall (fun x => 0 <= x < 2^32) l' -> word l = word l' -> l = l').
  { clear. induction l as [|x l IH]; intros [|y l'] EL F F' W; try discriminate EL; [reflexivity|].
    inversion F as [|? ? X FX]; inversion F' as [|? ? Y FY]; subst. cbn [word] in W.
    assert (x = y /\ word l = word l') by (clear - X Y W; lia). destruct H as [-> W']. f_equal. apply IH; try assumption. cbn in EL. lia. }
  apply G; [reflexivity| | |exact E]; unfold value; apply Forall_forall; intros x Hx; apply in_map_iff in Hx; destruct Hx as (j & <- & Hj);
    apply in_seq in Hj; [apply L|apply L']; lia.
Qed.

Theorem C82_eq_iszero : forall k t i ins, cpu_table_ok k t -> (S i < length t)%nat ->
  let lv := crow_at t i in
  runs lv ins -> limbs32 lv (channel 0) -> limbs32 lv (channel 1) ->
  let a := word (value lv (channel 0)) in let b := word (value lv (channel 1)) in
  let r := word (value (crow_at t (S i)) (channel 0)) in
  (ins = Eq -> r = if a =? b then 1 else 0) /\ (ins = IsZero -> r = if a =? 0 then 1 else 0).
Proof.
  intros k t i ins OK I lv RN L0 L1 a b r. pose proof (C82_results k t i ins OK I RN) as RS. cbv zeta in RS.
  assert (W : forall z, word (z :: repeat 0 7) = z) by (intros z; cbn [repeat word]; rewrite !Z.mul_0_r, !Z.add_0_r; reflexivity).
  split; intros ->; unfold r; rewrite RS, W.
  - destruct (list_eq_dec Z.eq_dec _ _) as [E|E]; destruct (Z.eqb_spec a b) as [Q|Q]; try reflexivity; exfalso.
    + apply Q. unfold a, b, lv. rewrite E. reflexivity.
    + apply E. apply word_limbs; assumption.
  - destruct (list_eq_dec Z.eq_dec _ _) as [E|E]; destruct (Z.eqb_spec a 0) as [Q|Q]; try reflexivity; exfalso.
    + apply Q. unfold a, lv. rewrite E. reflexivity.
    + apply E. unfold zeros. apply value_zero. intros j J. unfold a in Q. rewrite word_value in Q.
      pose proof (L0 0%nat ltac:(lia)). pose proof (L0 1%nat ltac:(lia)). pose proof (L0 2%nat ltac:(lia)). pose proof (L0 3%nat ltac:(lia)).
      pose proof (L0 4%nat ltac:(lia)). pose proof (L0 5%nat ltac:(lia)). pose proof (L0 6%nat ltac:(lia)). pose proof (L0 7%nat ltac:(lia)).
      unfold lv in *. revert j J. apply seq8_cases; lia.
Qed.
Print Assumptions C82_eq_iszero.

(** SHL and SHR read their power of two at the displacement, when it is below 2^32. *)
Theorem C82_shift : forall k t i, cpu_table_ok k t -> (S i < length t)%nat ->
  let lv := crow_at t i in
  runs lv Shift -> limbs32 lv (channel 0) ->
  (word (value lv (channel 0)) < 2^32 ->
     used lv (channel 2) = 1 /\ is_read lv (channel 2) = 1 /\ addr_context lv (channel 2) = 0 /\
     addr_segment lv (channel 2) = SEGMENT_SHIFT_TABLE /\ addr_virtual lv (channel 2) = word (value lv (channel 0))) /\
  (2^32 <= word (value lv (channel 0)) -> used lv (channel 2) = 0).
Proof.
  intros k t i OK I lv RN L. pose proof (table_pair k t i OK I) as PO.
  pose proof (L 0%nat ltac:(lia)). pose proof (L 1%nat ltac:(lia)). pose proof (L 2%nat ltac:(lia)). pose proof (L 3%nat ltac:(lia)).
  pose proof (L 4%nat ltac:(lia)). pose proof (L 5%nat ltac:(lia)). pose proof (L 6%nat ltac:(lia)). pose proof (L 7%nat ltac:(lia)).
  split; intros W.
  - assert (Z : forall j, (1 <= j < 8)%nat -> limb lv (channel 0) j = 0).
    { rewrite word_value in W. intros j [J1 J2]. revert J1. revert j J2.
      apply (seq8_cases (fun j => (1 <= j)%nat -> limb lv (channel 0) j = 0)); intros; lia. }
    destruct (s_shift k lv _ PO RN L Z) as (A & B & C & D & E). rewrite (value_word lv (channel 0)); [auto 10|].
    intros j Hj. apply in_seq in Hj. apply Z. lia.
  - apply (s_shift_large k lv _ PO RN L). rewrite word_value in W.
    assert (X : limb lv (channel 0) 1 <> 0 \/ limb lv (channel 0) 2 <> 0 \/ limb lv (channel 0) 3 <> 0 \/ limb lv (channel 0) 4 <> 0 \/
                limb lv (channel 0) 5 <> 0 \/ limb lv (channel 0) 6 <> 0 \/ limb lv (channel 0) 7 <> 0) by lia.
    decompose [or] X; [exists 1%nat|exists 2%nat|exists 3%nat|exists 4%nat|exists 5%nat|exists 6%nat|exists 7%nat]; (split; [lia|assumption]).
Qed.
Print Assumptions C82_shift.

(** For a larger displacement the power of two is free: here it is 1. *)
Theorem C82_shift_refuted : exists k t, cpu_table_ok k t /\ (1 < length t)%nat /\
  let lv := crow_at t 0 in
  runs lv Shift /\ opcode_of lv = 0x1b /\ word (value lv (channel 0)) = 2^32 /\ value lv (channel 2) = 1 :: repeat 0 7.
Proof. exists k0, (map crow w_shift). split; [exact w_shift_ok|]. split; [cbn; lia|]. cbv zeta. split; [runs_now|]. vm_compute. repeat split. Qed.
Print Assumptions C82_shift_refuted.

(** The value pushed by a kernel PUSH is free: the two rows below look up the
    same memory cells, and the lookup of the bytes of the immediate is off. *)
Theorem C82_kernel_push_refuted : exists k t t', cpu_table_ok k t /\ cpu_table_ok k t' /\ (1 < length t)%nat /\ (1 < length t')%nat /\
  let lv := crow_at t 0 in
  (forall c, crow_at t' 0 c = lv c) /\ runs lv (Push 1) /\ packing_push_filter lv = 0 /\
  mem_looks lv (crow_at t 1) = mem_looks (crow_at t' 0) (crow_at t' 1) /\
  value (crow_at t 1) (channel 0) = 7 :: repeat 0 7 /\ value (crow_at t' 1) (channel 0) = 9 :: repeat 0 7.
Proof.
  exists k0, (map crow (w_kpush 7)), (map crow (w_kpush 9)). split; [exact w_kpush_ok7|]. split; [exact w_kpush_ok9|]. split; [cbn; lia|]. split; [cbn; lia|].
  cbv zeta. split; [intros c; reflexivity|]. split; [runs_now|]. vm_compute. repeat split.
Qed.
Print Assumptions C82_kernel_push_refuted.

(** The mode saved by exc_stop is free. *)
Theorem C82_stop_frame_refuted : exists k t, cpu_table_ok k t /\ (1 < length t)%nat /\
  runs (crow_at t 0) (Exception 6) /\ limb (crow_at t 1) (channel 0) 1 = 12345.
Proof. exists k0, (map crow w_stop). split; [exact w_stop_ok|]. split; [cbn; lia|]. split; [runs_now|]. reflexivity. Qed.
Print Assumptions C82_stop_frame_refuted.

Theorem C82_used : runs (crow_at honest_t 2) Eq /\ value (crow_at honest_t 3) (channel 0) = 0 :: repeat 0 7 /\
  runs (crow_at (map crow w_not) 0) Not /\ limbs32 (crow_at (map crow w_not) 0) (channel 0) /\
  runs (crow_at (map crow w_shift) 0) Shift /\ limbs32 (crow_at (map crow w_shift) 0) (channel 0).
Proof.
  split; [runs_now|]. split; [reflexivity|]. split; [runs_now|]. split; [apply small_limbs; vm_compute; reflexivity|].
  split; [runs_now|]. apply small_limbs; vm_compute; reflexivity.
Qed.
