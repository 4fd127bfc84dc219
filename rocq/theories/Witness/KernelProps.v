(** Exceptions, syscalls, jumps, and the instructions reserved for the kernel:
    what a transition of the witness generator does to the view of EvmSpec.v. *)
From Coq Require Import ZArith List Bool Lia ZifyBool.
From Verif Require Import Stark.ArithModel Stark.LogicModel Witness.MemoryModel Witness.MachineModel Witness.MemoryProps Witness.MachineSpec
  Witness.MachineLemmas Witness.MachineLog Witness.MachineStep Witness.MachineRun Witness.EvmSpec Witness.MachineSem Witness.MachineView Witness.MachineControl
  Witness.EvmProps.
Import ListNotations.
Local Open Scope Z_scope.

Section Kernel.
  Context {O : Type}.
  Notation gstate := (gstate O).
  Variable keccakf : list Z -> list Z.
  Variables syscall_jumptable exception_jumptable max_code_size : Z.
  Variable eth_mainnet : bool.
  Variable keccak : list Z -> Z.
  Variable prover_input : registers -> mem_state -> O -> option (perror + Z * mem_state * O).
  Variable observe : Z -> registers -> mem_state -> O -> option (perror + O).
  Hypothesis keccak_word : forall l, word (keccak l).
  Hypothesis syscall_jumptable_pos : 0 <= syscall_jumptable.
  Hypothesis exception_jumptable_pos : 0 <= exception_jumptable.
  Hypothesis syscall_table_fits : syscall_jumptable + 256 * 3 < 2^64.
  Hypothesis exception_table_fits : exception_jumptable + 7 * 3 < 2^64.

  Notation perform_op := (perform_op O keccakf syscall_jumptable max_code_size keccak prover_input observe).
  Notation transition := (transition O keccakf syscall_jumptable exception_jumptable max_code_size eth_mainnet keccak prover_input observe).
  Notation exception := (exception O exception_jumptable).
  Notation log := (@log O). Notation clock := (@clock O). Notation opcode := (@opcode O).
  Notation rejected := (rejected keccakf syscall_jumptable exception_jumptable max_code_size eth_mainnet keccak prover_input observe).
  Notation settled := (settled keccakf syscall_jumptable exception_jumptable max_code_size eth_mainnet keccak prover_input observe).
  Notation stops := (stops keccakf syscall_jumptable exception_jumptable max_code_size eth_mainnet keccak prover_input observe).
  Notation dest_ok := (dest_ok max_code_size).

  (** The states for which the claims are made. *)
  Record sound (g : gstate) : Prop := {
    so_wf : wf g;
    so_bounded : bounded g;
    so_gas : gas_used (g_regs g) < 2^32 }.

  Lemma sound_rejected : forall (g : gstate) op e, sound g -> decode eth_mainnet (is_kernel (g_regs g)) (opcode g) = inr op ->
    fails (prepared g op) (perform_op op (prepared g op)) e -> rejected g e.
  Proof. intros g op e [W B G] D F. eapply fails_rejected; eassumption. Qed.
  Lemma sound_settled : forall (g : gstate) op v X, sound g -> decode eth_mainnet (is_kernel (g_regs g)) (opcode g) = inr op ->
    ends (prepared g op) (perform_op op (prepared g op)) v X -> settled g (charge v (pc_increment op) (gas_to_charge op)) X.
  Proof. intros g op v X [W B G] D F. eapply ends_settled; eassumption. Qed.
  Lemma sound_ready : forall (g : gstate) op, sound g -> ready (prepared g op) op.
  Proof. intros g op [W B G]. apply ready_prepared; assumption. Qed.
  Lemma kernel_rejected : forall (g : gstate) e, is_kernel (g_regs g) = true -> rejected g e -> stops g e.
  Proof. intros g e K R. unfold EvmProps.rejected in R. rewrite K in R. exact R. Qed.
  Lemma kernel_settled : forall (g : gstate) v X, v_kernel v = true -> settled g v X -> reaches (transition g) (S (clock g)) v X.
  Proof. intros g v X K R. unfold EvmProps.settled in R. rewrite K in R. exact R. Qed.

  (** * C64: entering and leaving the kernel *)
  (** An exception raised by the run loop itself (the end of a segment). *)
  Theorem C64_exception : forall (g : gstate) code, sound g -> 0 <= code <= 6 ->
    reaches (exception code g) (S (clock g)) (kernel_entry g exception_jumptable code (program_counter (g_regs g))) (stack_cell (context (g_regs g))).
  Proof. intros g code [W B G] C. eapply exception_exact; try eassumption; lia. Qed.

  (** A syscall, of either mode: [n] items are needed, [b] tells whether the
      stack will grow. *)
  Theorem C64_syscall : forall (g : gstate) c n b, sound g -> decode eth_mainnet (is_kernel (g_regs g)) (opcode g) = inr (Syscall c n b) ->
    if Z.of_nat (length (stack g)) <? n then rejected g StackUnderflow
    else if b && negb (is_kernel (g_regs g)) && (1024 <=? Z.of_nat (length (stack g))) then rejected g StackOverflow
    else reaches (transition g) (S (clock g)) (kernel_entry g syscall_jumptable (opcode g) (program_counter (g_regs g) + 1)) (stack_cell (context (g_regs g))).
  Proof.
    intros g c n b SO D. pose proof (so_wf _ SO) as W. pose proof (so_bounded _ SO) as B. assert (OB : 0 <= opcode g < 256) by (eapply opcode_byte; eassumption).
    pose proof (decode_inv _ _ _ _ OB D) as DI. cbn [decoded_ok] in DI. apply Z.eqb_eq in DI. subst c.
    assert (BY : bytes_at (g_mem g) (mk_maddr 0 SEG_CODE (syscall_jumptable + opcode g * 3)) 3) by (eapply bytes_code; (eassumption || lia)).
    assert (SE := syscall_ends keccakf syscall_jumptable max_code_size keccak prover_input observe keccak_word syscall_jumptable_pos _ (opcode g) n b (sound_ready g _ SO)
        ltac:(lia) ltac:(lia) (so_gas _ SO) BY).
    change (stack (prepared g (Syscall (opcode g) n b))) with (stack g) in SE. change (is_kernel (g_regs (prepared g (Syscall (opcode g) n b)))) with (is_kernel (g_regs g)) in SE.
    destruct (_ <? n); [eapply sound_rejected; eassumption|]. destruct (b && _ && _); [eapply sound_rejected; eassumption|].
    apply kernel_settled; [reflexivity|]. eapply sound_settled in SE; try eassumption. cbn [pc_increment gas_to_charge] in SE. rewrite charge_zero in SE. exact SE.
  Qed.

  (** EXIT_KERNEL takes program counter, mode and gas from the top of the stack. *)
  Theorem C64_exit_kernel : forall g : gstate, sound g -> is_kernel (g_regs g) = true -> opcode g = 249 ->
    match stack g with
    | [] => stops g StackUnderflow
    | w :: s =>
        let k := (w / 2^32) mod 2^32 in
        if (k =? 0) || (k =? 1)
        then if w / 2^192 <? 2^32
             then settled g (mk_view (w mod 2^32) (k =? 1) (context (g_regs g)) (w / 2^192) s (contents (g_mem g))) (stack_cell (context (g_regs g)))
             else rejected g GasLimitError
        else transition g = Panic
    end.
  Proof.
    intros g SO K E. assert (D : decode eth_mainnet (is_kernel (g_regs g)) (opcode g) = inr ExitKernel) by (rewrite K, E; reflexivity).
    assert (X := exit_ends keccakf syscall_jumptable max_code_size keccak prover_input observe keccak_word _ (sound_ready g ExitKernel SO)). change (stack (prepared g ExitKernel)) with (stack g) in X.
    destruct (stack g) as [|w s].
    - apply kernel_rejected; [exact K|]. eapply sound_rejected; eassumption.
    - cbv zeta in *. destruct (((w / 2^32) mod 2^32 =? 0) || _).
      + destruct (w / 2^192 <? 2^32); [|eapply sound_rejected; eassumption].
        eapply sound_settled in X; try eassumption. cbn [pc_increment gas_to_charge] in X. rewrite charge_zero in X. exact X.
      + unfold MachineModel.transition. rewrite try_equation. rewrite E. change (249 <? 2^8) with true. rewrite K. change (decode eth_mainnet true 249) with (@inr perror minstr ExitKernel). cbv iota.
        assert (TR : is_stack_top_read (g_regs g) && negb (0 <? stack_len (g_regs g)) = false) by (pose proof (so_wf _ SO); eapply top_read_ok; eassumption). rewrite TR.
        unfold MachineModel.perform_state_op, bind at 1. rewrite X. reflexivity.
  Qed.

  (** The word pushed on entry brings the program back where it was. *)
  Theorem C64_round_trip : forall (g : gstate) pc k gas s, sound g -> is_kernel (g_regs g) = true -> opcode g = 249 ->
    0 <= pc < 2^32 -> 0 <= gas < 2^32 -> stack g = info pc k gas :: s ->
    settled g (mk_view pc k (context (g_regs g)) gas s (contents (g_mem g))) (stack_cell (context (g_regs g))).
  Proof.
    intros g pc k gas s SO K E PC GA ST. pose proof (C64_exit_kernel g SO K E) as X. rewrite ST in X. cbv zeta in X.
    assert (I1 : info pc k gas / 2^192 = gas).
    { unfold info. rewrite Z.div_add by lia. rewrite (Z.div_small (pc + _)); [lia|]. destruct k; lia. }
    assert (I2 : info pc k gas mod 2^32 = pc).
    { unfold info. replace (pc + (if k then 2^32 else 0) + gas * 2^192) with (pc + ((if k then 1 else 0) + gas * 2^160) * 2^32) by (destruct k; ring). rewrite Z.mod_add by lia. apply Z.mod_small. lia. }
    assert (I3 : (info pc k gas / 2^32) mod 2^32 = if k then 1 else 0).
    { unfold info. replace (pc + (if k then 2^32 else 0) + gas * 2^192) with (pc + ((if k then 1 else 0) + gas * 2^160) * 2^32) by (destruct k; ring). rewrite Z.div_add by lia. rewrite (Z.div_small pc) by lia.
      replace (0 + ((if k then 1 else 0) + gas * 2^160)) with ((if k then 1 else 0) + gas * 2^128 * 2^32) by ring. rewrite Z.mod_add by lia. apply Z.mod_small. destruct k; lia. }
    rewrite I1, I2, I3 in X. replace (gas <? 2^32) with true in X by lia. destruct k; exact X.
  Qed.

  (** * C65: jumps *)
  Theorem C65_jump : forall g : gstate, sound g -> opcode g = 86 ->
    match stack g with
    | [] => rejected g StackUnderflow
    | dst :: s =>
        if dest_ok g dst
        then quiet observe dst ->
          settled g (mk_view dst (is_kernel (g_regs g)) (context (g_regs g)) (gas_used (g_regs g) + 8) s (contents (g_mem g))) (stack_cell (context (g_regs g)))
        else rejected g InvalidJumpDestination
    end.
  Proof.
    intros g SO E. assert (D : decode eth_mainnet (is_kernel (g_regs g)) (opcode g) = inr Jump) by (rewrite E; reflexivity).
    assert (JE := jump_ends keccakf syscall_jumptable max_code_size keccak prover_input observe keccak_word _ (sound_ready g Jump SO)). change (stack (prepared g Jump)) with (stack g) in JE.
    destruct (stack g) as [|x s]; [eapply sound_rejected; eassumption|]. change (dest_ok (prepared g Jump) x) with (dest_ok g x) in JE.
    destruct (dest_ok g x); [|eapply sound_rejected; eassumption]. intros Q. specialize (JE (or_introl Q)). eapply sound_settled in JE; try eassumption.
    cbn [pc_increment gas_to_charge] in JE. unfold charge, same_but in JE. cbn [v_pc v_kernel v_context v_gas v_stack v_memory prepared g_regs g_mem is_kernel context gas_used] in JE.
    rewrite Z.add_0_r in JE. exact JE.
  Qed.
  Theorem C65_jumpi : forall g : gstate, sound g -> opcode g = 87 ->
    match stack g with
    | dst :: cond :: s =>
        let go pc := settled g (mk_view pc (is_kernel (g_regs g)) (context (g_regs g)) (gas_used (g_regs g) + 10) s (contents (g_mem g))) (stack_cell (context (g_regs g))) in
        if cond =? 0 then go (program_counter (g_regs g) + 1)
        else quiet observe dst -> if dest_ok g dst then go dst else rejected g InvalidJumpiDestination
    | _ => rejected g StackUnderflow
    end.
  Proof.
    intros g SO E. assert (D : decode eth_mainnet (is_kernel (g_regs g)) (opcode g) = inr Jumpi) by (rewrite E; reflexivity).
    assert (JE := jumpi_ends keccakf syscall_jumptable max_code_size keccak prover_input observe keccak_word _ (sound_ready g Jumpi SO)). change (stack (prepared g Jumpi)) with (stack g) in JE.
    destruct (stack g) as [|x [|y s]]; [eapply sound_rejected; eassumption..|]. change (dest_ok (prepared g Jumpi) x) with (dest_ok g x) in JE. cbv zeta.
    assert (FIN : forall pc, ends (prepared g Jumpi) (perform_op Jumpi (prepared g Jumpi)) (same_but (prepared g Jumpi) pc s) (stack_cell (context (g_regs g))) ->
        settled g (mk_view pc (is_kernel (g_regs g)) (context (g_regs g)) (gas_used (g_regs g) + 10) s (contents (g_mem g))) (stack_cell (context (g_regs g)))).
      { intros pc F. eapply sound_settled in F; try eassumption. cbn [pc_increment gas_to_charge] in F. unfold charge, same_but in F.
        cbn [v_pc v_kernel v_context v_gas v_stack v_memory prepared g_regs g_mem is_kernel context gas_used] in F. rewrite Z.add_0_r in F. exact F. }
    destruct (y =? 0); [apply FIN, JE|]. intros Q. destruct (dest_ok g x); [apply FIN, JE; left; exact Q|]. eapply sound_rejected; try eassumption. apply JE, Q.
  Qed.

  (** * C66: the memory instructions of the kernel *)
  Definition shown (g : gstate) (ctx : Z) (s : list Z) (f : maddr -> Z) : Prop :=
    reaches (transition g) (S (clock g)) (mk_view (program_counter (g_regs g) + 1) true ctx (gas_used (g_regs g)) s f) (fun _ => False).
  Lemma sound_shown : forall (g : gstate) op ctx s f, sound g -> is_kernel (g_regs g) = true -> decode eth_mainnet (is_kernel (g_regs g)) (opcode g) = inr op -> pc_increment op = 1 -> gas_to_charge op = 0 ->
    ends (prepared g op) (perform_op op (prepared g op)) (mk_view (program_counter (g_regs g)) (is_kernel (g_regs g)) ctx (gas_used (g_regs g)) s f) (fun _ => False) -> shown g ctx s f.
  Proof.
    intros g op ctx s f SO K D P G E. eapply sound_settled in E; try eassumption. rewrite P, G in E. unfold charge in E. cbn [v_pc v_kernel v_context v_gas v_stack v_memory] in E. rewrite Z.add_0_r, K in E. exact E.
  Qed.
  Ltac kern op L :=
    intros g SO K E; assert (D : decode eth_mainnet (is_kernel (g_regs g)) (opcode g) = inr op) by (rewrite K, E; reflexivity);
    assert (X := L _ (sound_ready g op SO)); change (stack (prepared g op)) with (stack g) in X;
    change (context (g_regs (prepared g op))) with (context (g_regs g)) in X; change (g_mem (prepared g op)) with (g_mem g) in X.
  Ltac rej K := apply kernel_rejected; [exact K|]; eapply sound_rejected; eassumption.

  Theorem C66_mload_general : forall g : gstate, sound g -> is_kernel (g_regs g) = true -> opcode g = 251 ->
    match stack g with
    | w :: s => match points w with
                | Some a => shown g (context (g_regs g)) (contents (g_mem g) a :: s) (contents (g_mem g))
                | None => stops g SegmentTooLarge
                end
    | [] => stops g StackUnderflow
    end.
  Proof.
    kern MloadGeneral (mload_ends keccakf syscall_jumptable max_code_size keccak prover_input observe keccak_word).
    destruct (stack g) as [|w s]; [rej K|]. destruct (points w) as [a|]; [|rej K]. eapply sound_shown; try eassumption; reflexivity.
  Qed.
  (** A store into the cells of the current stack is out of the claim: see
      [C62_store_over_operand_refuted]. *)
  Theorem C66_mstore_general : forall g : gstate, sound g -> is_kernel (g_regs g) = true -> opcode g = 252 ->
    match stack g with
    | v :: w :: s => match points w with
                     | Some a => ~ stack_cell (context (g_regs g)) a -> shown g (context (g_regs g)) s (upd (contents (g_mem g)) a v)
                     | None => stops g SegmentTooLarge
                     end
    | _ => stops g StackUnderflow
    end.
  Proof.
    kern MstoreGeneral (mstore_ends keccakf syscall_jumptable max_code_size keccak prover_input observe keccak_word).
    destruct (stack g) as [|v [|w s]]; [rej K..|]. destruct (points w) as [a|]; [|rej K]. intros N. specialize (X N). eapply sound_shown; try eassumption; reflexivity.
  Qed.
  Theorem C66_mload_32bytes : forall g : gstate, sound g -> is_kernel (g_regs g) = true -> opcode g = 248 ->
    match stack g with
    | w :: n :: s =>
        if n <=? 32
        then match points w with
             | Some a => bytes_at (g_mem g) a (Z.to_nat n) ->
                 shown g (context (g_regs g)) (number (fun i => contents (g_mem g) (mk_maddr (a_context a) (a_segment a) i)) (a_virt a) (Z.to_nat n) :: s) (contents (g_mem g))
             | None => stops g SegmentTooLarge
             end
        else stops g IntegerTooLarge
    | _ => stops g StackUnderflow
    end.
  Proof.
    kern Mload32Bytes (mload32_ends keccakf syscall_jumptable max_code_size keccak prover_input observe keccak_word).
    destruct (stack g) as [|w [|n s]]; [rej K..|]. destruct (n <=? 32); [|rej K]. destruct (points w) as [a|]; [|rej K]. intros N. specialize (X N). eapply sound_shown; try eassumption; reflexivity.
  Qed.
  Theorem C66_mstore_32bytes : forall (g : gstate) n, sound g -> is_kernel (g_regs g) = true -> 1 <= n <= 32 -> opcode g = 191 + n ->
    match stack g with
    | w :: v :: s =>
        match points w with
        | Some a =>
            if w + n <? 2^256
            then ~ stack_cell (context (g_regs g)) a -> shown g (context (g_regs g)) (w + n :: s) (store_bytes (contents (g_mem g)) a n v)
            else transition g = Panic
        | None => stops g SegmentTooLarge
        end
    | _ => stops g StackUnderflow
    end.
  Proof.
    intros g n SO K N E.
    assert (D : decode eth_mainnet (is_kernel (g_regs g)) (opcode g) = inr (Mstore32Bytes n)).
    { rewrite K, E. unfold decode. replace ((95 <=? 191 + n) && (191 + n <=? 127)) with false by lia. replace ((128 <=? 191 + n) && (191 + n <=? 143)) with false by lia.
      replace ((144 <=? 191 + n) && (191 + n <=? 159)) with false by lia. replace ((192 <=? 191 + n) && (191 + n <=? 223)) with true by lia. do 2 f_equal. lia. }
    assert (X := mstore32_ends keccakf syscall_jumptable max_code_size keccak prover_input observe keccak_word _ n (sound_ready g (Mstore32Bytes n) SO) N).
    change (stack (prepared g (Mstore32Bytes n))) with (stack g) in X. change (context (g_regs (prepared g (Mstore32Bytes n)))) with (context (g_regs g)) in X. change (g_mem (prepared g (Mstore32Bytes n))) with (g_mem g) in X.
    destruct (stack g) as [|w [|v s]]; [rej K..|]. destruct (points w) as [a|]; [|rej K]. destruct (w + n <? 2^256).
    - intros NS. specialize (X NS). eapply sound_shown; try eassumption; reflexivity.
    - unfold MachineModel.transition. rewrite try_equation. rewrite D. replace (opcode g <? 2^8) with true by lia.
      assert (TR : is_stack_top_read (g_regs g) && negb (0 <? stack_len (g_regs g)) = false) by (pose proof (so_wf _ SO); eapply top_read_ok; eassumption). rewrite TR.
      unfold MachineModel.perform_state_op, bind at 1. rewrite X. reflexivity.
  Qed.
  Theorem C66_keccak_general : forall g : gstate, sound g -> is_kernel (g_regs g) = true -> opcode g = 33 ->
    match stack g with
    | w :: n :: s =>
        if n <? 2^64
        then match points w with
             | Some a => bytes_at (g_mem g) a (Z.to_nat n) -> a_virt a + n < 2^64 ->
                 shown g (context (g_regs g)) (keccak (map (fun k => contents (g_mem g) (cell a (Z.of_nat k))) (seq 0 (Z.to_nat n))) :: s) (contents (g_mem g))
             | None => stops g SegmentTooLarge
             end
        else stops g IntegerTooLarge
    | _ => stops g StackUnderflow
    end.
  Proof.
    kern KeccakGeneral (keccak_ends keccakf syscall_jumptable max_code_size keccak prover_input observe keccak_word).
    destruct (stack g) as [|w [|n s]]; [rej K..|]. destruct (n <? 2^64); [|rej K]. destruct (points w) as [a|]; [|rej K]. intros N1 N2. specialize (X N1 N2). eapply sound_shown; try eassumption; reflexivity.
  Qed.

  (** SET_CONTEXT: the height of the old stack is saved, the stack of the new
      context appears. *)
  Theorem C66_set_context : forall g : gstate, sound g -> is_kernel (g_regs g) = true -> opcode g = 247 ->
    match stack g with
    | w :: s =>
        let c' := w / 2^64 in
        let h := if c' =? context (g_regs g) then Z.of_nat (length s) else contents (g_mem g) (saved_height c') in
        if c' <? 2^64
        then if h <? 2^64
             then shown g c' (slots (contents (g_mem g)) c' (Z.to_nat h)) (upd (contents (g_mem g)) (saved_height (context (g_regs g))) (Z.of_nat (length s)))
             else stops g IntegerTooLarge
        else stops g IntegerTooLarge
    | [] => stops g StackUnderflow
    end.
  Proof.
    kern SetContext (set_context_ends keccakf syscall_jumptable max_code_size keccak prover_input observe keccak_word).
    destruct (stack g) as [|w s]; [rej K|]. cbv zeta in *. destruct (w / 2^64 <? 2^64); [|rej K]. destruct (_ <? 2^64); [|rej K].
    eapply sound_shown; try eassumption; reflexivity.
  Qed.
  (** Away and back: the stack of a context survives the work done in another
      one, provided that work leaves its cells alone. *)
  Theorem C66_context_round_trip : forall (g g2 : gstate) w s w2 s2, sound g -> sound g2 -> is_kernel (g_regs g2) = true -> opcode g2 = 247 ->
    stack g = w :: s -> stack g2 = w2 :: s2 -> w2 = context (g_regs g) * 2^64 -> context (g_regs g2) <> context (g_regs g) ->
    (forall a, valid_addr a -> stack_cell (context (g_regs g)) a -> contents (g_mem g2) a = contents (g_mem g) a) ->
    contents (g_mem g2) (saved_height (context (g_regs g))) = Z.of_nat (length s) ->
    shown g2 (context (g_regs g)) s (upd (contents (g_mem g2)) (saved_height (context (g_regs g2))) (Z.of_nat (length s2))).
  Proof.
    intros g g2 w s w2 s2 SO SO2 K E ST ST2 -> NC SAME SH. pose proof (C66_set_context g2 SO2 K E) as X. rewrite ST2 in X. cbv zeta in X.
    rewrite Z.div_mul in X by lia. pose proof (so_wf _ SO) as W. pose proof (so_bounded _ SO) as B.
    replace (context (g_regs g) =? context (g_regs g2)) with false in X by lia.
    pose proof (bd_ctx _ B). replace (context (g_regs g) <? 2^64) with true in X by lia. rewrite SH in X.
    assert (LEN := stack_list_length (contents (g_mem g)) (context (g_regs g)) (stack_len (g_regs g)) (stack_top (g_regs g)) (wf_len _ W)).
    change (stack_list _ _ _ _) with (stack g) in LEN. rewrite ST in LEN. cbn [length] in LEN. pose proof (bd_len _ B).
    replace (Z.of_nat (length s) <? 2^64) with true in X by lia. rewrite Nat2Z.id in X.
    assert (SL : slots (contents (g_mem g2)) (context (g_regs g)) (length s) = s).
    { unfold stack, stack_list in ST. replace (stack_len (g_regs g) =? 0) with false in ST by lia.
      assert (SS : slots (contents (g_mem g)) (context (g_regs g)) (Z.to_nat (stack_len (g_regs g) - 1)) = s) by congruence.
      replace (Z.to_nat (stack_len (g_regs g) - 1)) with (length s) in SS by lia. rewrite <- SS at 2. apply slots_ext. intros.
      apply SAME; [|split; reflexivity]. pose proof (wf_ctx _ W). unfold valid_addr; cbn [a_context a_segment a_virt]; lia. }
    rewrite SL in X. exact X.
  Qed.
End Kernel.
Print Assumptions C64_exception.
Print Assumptions C64_syscall.
Print Assumptions C64_exit_kernel.
Print Assumptions C64_round_trip.
Print Assumptions C65_jump.
Print Assumptions C65_jumpi.
Print Assumptions C66_mload_general.
Print Assumptions C66_mstore_general.
Print Assumptions C66_mload_32bytes.
Print Assumptions C66_mstore_32bytes.
Print Assumptions C66_keccak_general.
Print Assumptions C66_set_context.
Print Assumptions C66_context_round_trip.
