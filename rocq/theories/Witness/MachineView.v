(** What a transition of MachineModel.v does to the state the program sees. *)
From Coq Require Import ZArith List Bool Lia ZifyBool.
From Verif Require Import Stark.ArithModel Stark.LogicModel Witness.MemoryModel Witness.MachineModel Witness.MemoryProps Witness.MachineSpec
  Witness.MachineLemmas Witness.MachineLog Witness.MachineStep Witness.MachineRun Witness.EvmSpec Witness.MachineSem.
Import ListNotations.
Local Open Scope Z_scope.

Section View.
  Context {O : Type}.
  Notation gstate := (gstate O).
  Variable keccakf : list Z -> list Z.
  Variables syscall_jumptable exception_jumptable max_code_size : Z.
  Variable eth_mainnet : bool.
  Variable keccak : list Z -> Z.
  Variable prover_input : registers -> mem_state -> O -> option (perror + Z * mem_state * O).
  Variable observe : Z -> registers -> mem_state -> O -> option (perror + O).
  Hypothesis keccak_word : forall l, word (keccak l).
  Hypothesis syscall_jumptable_pos : 0 <= syscall_jumptable.
  Hypothesis exception_jumptable_pos : 0 <= exception_jumptable.

  Notation perform_op := (perform_op O keccakf syscall_jumptable max_code_size keccak prover_input observe).
  Notation perform_state_op := (perform_state_op O keccakf syscall_jumptable max_code_size keccak prover_input observe).
  Notation try_perform_instruction := (try_perform_instruction O keccakf syscall_jumptable max_code_size eth_mainnet keccak prover_input observe).
  Notation transition := (transition O keccakf syscall_jumptable exception_jumptable max_code_size eth_mainnet keccak prover_input observe).
  Notation log := (@log O). Notation clock := (@clock O). Notation opcode := (@opcode O).

  Ltac mcbv := cbv beta iota zeta delta [
    bind ret fail panic gets guard assert get_regs set_regs set_pc set_stack set_top_read set_check_overflow MachineModel.set_context set_mode
    on_traces push_cpu push_logic push_logics push_arithmetic push_memory push_memories push_byte_packing push_sponge
    u256_to_usize bundle new_op mem_read_with_log mem_write_log push_no_write push_with_write pop_prologue pop_epilogue
    stack_pop1 stack_pop2 stack_pop3 keccak_sponge_log byte_unpacking_log read_bytes
    base_row fill_stack_fields
    program_counter is_kernel stack_len stack_top is_stack_top_read check_overflow context gas_used
    g_regs g_mem g_traces g_stale g_oracle t_arithmetic t_byte_packing t_clock t_logic t_memory t_sponge
    fst snd
    stack_addr code_context MachineStep.clock MachineStep.log stack code_byte overflows code_log top_log add_log flagged prepared MachineStep.opcode code_addr].
  Tactic Notation "mcbv" "in" hyp(H) := cbv beta iota zeta delta [
    bind ret fail panic gets guard assert get_regs set_regs set_pc set_stack set_top_read set_check_overflow MachineModel.set_context set_mode
    on_traces push_cpu push_logic push_logics push_arithmetic push_memory push_memories push_byte_packing push_sponge
    u256_to_usize bundle new_op mem_read_with_log mem_write_log push_no_write push_with_write pop_prologue pop_epilogue
    stack_pop1 stack_pop2 stack_pop3 keccak_sponge_log byte_unpacking_log read_bytes
    base_row fill_stack_fields
    program_counter is_kernel stack_len stack_top is_stack_top_read check_overflow context gas_used
    g_regs g_mem g_traces g_stale g_oracle t_arithmetic t_byte_packing t_clock t_logic t_memory t_sponge
    fst snd
    stack_addr code_context MachineStep.clock MachineStep.log stack code_byte overflows code_log top_log add_log flagged prepared MachineStep.opcode code_addr] in H.


  Ltac addr := unfold valid_addr, stack_addr, SEG_STACK, SEG_CODE, SEG_CONTEXT_METADATA, SEG_SHIFT_TABLE, SEG_JUMPDEST_BITS, CTX_STACK_SIZE in *;
    cbn [mo_address a_context a_segment a_virt stack_len context] in *; lia.
  Ltac open p RD :=
      destruct p as [[pc k len top tr co ctx gas] m [ta tb tc tl tm ts] st o];
      destruct RD as [RPC RLEN RCTX RGAS RTOP RMEM RWORDS RREAD];
      mcbv in RPC; mcbv in RLEN; mcbv in RCTX; mcbv in RGAS; mcbv in RTOP; mcbv in RMEM; mcbv in RWORDS; mcbv in RREAD;
      cbn [special_length] in RREAD; subst tr.

  Ltac unf := cbv beta iota zeta delta [MachineModel.perform_op
      generate_binary_logic_op generate_binary_arithmetic_op generate_ternary_arithmetic_op generate_keccak_general generate_pop generate_pc
      generate_jumpdest generate_get_context generate_set_context generate_push generate_dup generate_swap generate_not generate_iszero
      generate_shl generate_shr append_shift generate_syscall enter_kernel generate_eq generate_exit_kernel generate_mload_general generate_mload_32bytes
      generate_mstore_general generate_mstore_32bytes generate_jump generate_jumpi jump_to]; mcbv.
  Ltac under := eexists; split; [reflexivity|reflexivity].
  Ltac fall := repeat (apply Forall_cons; [|]); try apply Forall_nil.
  Ltac ok ops := eexists _, ops; split; [reflexivity|]; split; [reflexivity|]; split; [mcbv; rewrite <- ?app_assoc, ?app_nil_r; reflexivity|];
    split; [reflexivity|]; split; [reflexivity|]; split; [reflexivity|];
    split; [fall; (split; [addr|cbn [mo_kind mo_address a_segment a_context]; intros; (discriminate || (split; reflexivity))])
           |split; [|split; [reflexivity|split; [reflexivity|split; reflexivity]]]].
  Ltac nogrow := erewrite no_growth; [|apply stack_list_length; lia|apply stack_list_length; lia|lia].


  (** * From the instruction to the transition *)
  (** The instruction ends in a state that shows [v], but for the cells [X]. *)
  Definition ends (p : gstate) (r : outcome O unit) (v : view) (X : maddr -> Prop) : Prop :=
    exists g2 ops, r = Ok tt g2 /\ g_mem g2 = g_mem p /\ log g2 = log p ++ ops /\ clock g2 = S (clock p) /\
      Forall (fun o => valid_addr (mo_address o)) ops /\ 0 <= stack_len (g_regs g2) /\ 0 <= context (g_regs g2) /\
      stack_list (after (contents (g_mem p)) ops) (v_context v) (stack_len (g_regs g2)) (stack_top (g_regs g2)) = v_stack v /\
      program_counter (g_regs g2) = v_pc v /\ is_kernel (g_regs g2) = v_kernel v /\
      context (g_regs g2) = v_context v /\ gas_used (g_regs g2) = v_gas v /\
      (forall a, valid_addr a -> X a \/ after (contents (g_mem p)) ops a = v_memory v a).
  Definition shows (g : gstate) (v : view) (X : maddr -> Prop) : Prop :=
    program_counter (g_regs g) = v_pc v /\ is_kernel (g_regs g) = v_kernel v /\ context (g_regs g) = v_context v /\ gas_used (g_regs g) = v_gas v /\
    stack g = v_stack v /\ forall a, valid_addr a -> X a \/ contents (g_mem g) a = v_memory v a.
  Definition reaches (r : outcome O unit) (c : nat) (v : view) (X : maddr -> Prop) : Prop := exists g', r = Ok tt g' /\ clock g' = c /\ shows g' v X.

  Lemma stack_list_ext : forall f g c len top, 0 <= c -> (forall a, valid_addr a -> f a = g a) -> stack_list f c len top = stack_list g c len top.
  Proof.
    intros f g c len top C H. unfold stack_list. destruct (len =? 0); [reflexivity|]. f_equal. apply slots_ext. intros. apply H. addr.
  Qed.
  Lemma done_ends : forall p s' r, 0 <= context (g_regs p) -> done p r s' -> 
    (forall g2, r = Ok tt g2 -> 0 <= stack_len (g_regs g2)) ->
    ends p r (mk_view (program_counter (g_regs p)) (is_kernel (g_regs p)) (context (g_regs p)) (gas_used (g_regs p)) s' (contents (g_mem p))) (stack_cell (context (g_regs p))).
  Proof.
    intros p s' r C (g2 & ops & E & M & L & CL & _ & _ & F & S & PC & K & CT & G) LEN. exists g2, ops.
    cbn [v_pc v_kernel v_context v_gas v_stack v_memory].
    repeat (split; [assumption|]). split; [apply Forall_impl with (2 := F); intros ? [? _]; assumption|]. split; [apply LEN; assumption|]. split; [congruence|].
    repeat (split; [assumption|]). intros a V. unfold stack_cell.
    destruct (Z.eq_dec (a_segment a) 1) as [E1|N1]; [destruct (Z.eq_dec (a_context a) (context (g_regs p))) as [E2|N2]; [left; auto|]|]; right;
      apply after_no_write; intros x I KW EX; rewrite Forall_forall in F; destruct (F x I) as [_ FX]; destruct (FX KW) as [F1 F2]; subst a; contradiction.
  Qed.

  Lemma applied : forall (g g2 g3 : gstate) op ops, wf g -> (is_stack_top_read (g_regs g) = true -> 0 < stack_len (g_regs g)) ->
    log g2 = log (prepared g op) ++ ops -> g_mem g2 = g_mem g -> Forall (fun o => valid_addr (mo_address o)) ops ->
    log g3 = log g2 -> g_mem g3 = g_mem g2 ->
    exists m', apply_since O g g3 = Ok tt (mk_g (g_regs g3) m' (g_traces g3) (g_stale g3) (g_oracle g3)) /\ mem_wf m' /\
      forall a, valid_addr a -> contents m' a = after (contents (g_mem g)) ops a.
  Proof.
    intros g g2 g3 op ops W TR L EM F L3 M3.
    assert (LP : log (prepared g op) = log g ++ code_log g ++ top_log g) by reflexivity.
    assert (VC : Forall (fun o => valid_addr (mo_address o)) (code_log g ++ top_log g)).
    { apply Forall_app. split.
      - apply Forall_cons; [|apply Forall_nil]. cbn [mo_address]. destruct W. unfold code_addr, code_context. destruct (is_kernel (g_regs g)); addr.
      - unfold top_log. destruct (is_stack_top_read (g_regs g)); [|apply Forall_nil]. apply Forall_cons; [|apply Forall_nil]. cbn [mo_address]. destruct W. specialize (TR eq_refl). addr. }
    destruct (apply_ops_after ((code_log g ++ top_log g) ++ ops) (g_mem g) (wf_mem _ W)) as (m' & EA & MW' & _ & CT); [apply Forall_app; split; assumption|].
    exists m'. split; [|split; [exact MW'|]].
    - unfold apply_since. fold (log g) (log g3). rewrite L3, L, LP, <- !app_assoc. rewrite skipn_app, Nat.sub_diag, skipn_all. cbn [skipn app].
      rewrite M3, EM. rewrite <- !app_assoc in EA. rewrite EA. reflexivity.
    - intros a V. rewrite CT by exact V. rewrite after_app. apply after_ext. apply after_no_write. intros x I KW. exfalso.
      apply in_app_or in I. destruct I as [[<-|[]]|I]; [discriminate KW|]. unfold top_log in I. destruct (is_stack_top_read (g_regs g)); [|destruct I]. destruct I as [<-|[]]. discriminate KW.
  Qed.

  Definition charge (v : view) (dpc dgas : Z) : view := mk_view (v_pc v + dpc) (v_kernel v) (v_context v) (v_gas v + dgas) (v_stack v) (v_memory v).
  Definition limit_of (g : gstate) (ctx : Z) : Z := contents (g_mem g) (mk_maddr ctx SEG_CONTEXT_METADATA CTX_GAS_LIMIT).
  (** The view after an exception or a syscall. *)
  Definition kernel_entry (g : gstate) (table code pc : Z) : view :=
    mk_view (table_entry (fun i => contents (g_mem g) (mk_maddr 0 SEG_CODE i)) table code) true (context (g_regs g)) 0
      (info pc (is_kernel (g_regs g)) (gas_used (g_regs g)) :: stack g) (contents (g_mem g)).
  Notation exception := (exception O exception_jumptable).

  Lemma top_read_ok : forall (g : gstate), wf g -> is_stack_top_read (g_regs g) && negb (0 <? stack_len (g_regs g)) = false.
  Proof. intros g W. destruct (is_stack_top_read (g_regs g)) eqn:T; [|reflexivity]. destruct (wf_read _ W T) as [L _]. lia. Qed.

  Lemma enter_ends : forall p table code pc opc op, ready p op -> special_length op = None -> 0 <= table -> 0 <= code -> table + code * 3 + 3 < 2^64 ->
    bytes_at (g_mem p) (mk_maddr 0 SEG_CODE (table + code * 3)) 3 ->
    ends p (enter_kernel O table code pc opc p) (kernel_entry p table code pc) (stack_cell (context (g_regs p))).
  Proof.
    intros p table code pc0 opc op RD SP T N B BY. unfold kernel_entry.
    assert (RR : is_stack_top_read (g_regs p) = false). { rewrite (rd_read _ _ RD). unfold flagged. rewrite SP. reflexivity. }
    destruct RD as [RPC RLEN RCTX RGAS RTOP RMEM RWORDS _].
    assert (NU := number_cells (g_mem p) 0 3 (table + code * 3) ltac:(lia) ltac:(lia) BY ltac:(intros a V; apply (RWORDS a V)) ltac:(lia)).
    unfold table_entry. rewrite <- NU. clear NU.
    destruct p as [[pc k len top tr co ctx gas] m [ta tb tc tl tm ts] st o]. mcbv in RR. subst tr. mcbv in RPC; mcbv in RLEN; mcbv in RCTX; mcbv in RWORDS.
    unf. set (bytes := map (fun a => as_byte (mread m a)) (cells _ _)).
    assert (BO : Forall (fun o => valid_addr (mo_address o) /\ mo_kind o = MRead) (byte_ops MRead tc (mk_maddr 0 SEG_CODE (table + code * 3)) bytes)).
    { apply Forall_forall. intros x I. destruct (in_byte_ops _ _ _ _ _ I) as (_ & K & A & _). split; [|exact K]. apply cells_in in A; [apply A|addr]. }
    assert (BV : Forall (fun o => valid_addr (mo_address o)) (byte_ops MRead tc (mk_maddr 0 SEG_CODE (table + code * 3)) bytes)) by (apply Forall_impl with (2 := BO); tauto).
    assert (IE : forall x, info pc0 k gas :: x = (pc0 + b2z k * 2^32 + gas * 2^192) :: x) by (intros; f_equal; unfold info; destruct k; cbn [b2z]; lia).
    rewrite IE. cbn [orb]. unf. destruct (Z.eqb_spec len 0) as [->|NZ]; unf; rewrite packing_equation; unf.
    - eexists _, (byte_ops MRead tc (mk_maddr 0 SEG_CODE (table + code * 3)) bytes). mcbv. cbn [v_pc v_kernel v_context v_gas v_stack v_memory].
      split; [reflexivity|]. repeat (split; [reflexivity|]). split; [exact BV|]. split; [lia|]. split; [lia|]. rewrite after_bytes_read. repeat (split; [reflexivity|]). intros. right. reflexivity.
    - eexists _, ([mk_mop (stamp ChPartial tc) (mk_maddr ctx SEG_STACK (len - 1 - 0)) MWrite top] ++ byte_ops MRead tc (mk_maddr 0 SEG_CODE (table + code * 3)) bytes).
      mcbv. cbn [v_pc v_kernel v_context v_gas v_stack v_memory]. split; [reflexivity|]. split; [reflexivity|]. split; [rewrite <- app_assoc; reflexivity|]. split; [reflexivity|].
      split; [apply Forall_app; split; [apply Forall_cons; [addr|apply Forall_nil]|exact BV]|]. split; [lia|]. split; [lia|].
      cbn [app after mo_kind mo_address mo_value]. rewrite after_bytes_read. split; [symmetry; apply push_list; lia|]. repeat (split; [reflexivity|]).
      intros a V. unfold stack_cell. destruct (maddr_eqb_spec a (mk_maddr ctx SEG_STACK (len - 1 - 0))) as [->|NE]; [left; split; reflexivity|right; apply upd_other, NE].
  Qed.

  (** An exception enters the kernel, all else unchanged. *)
  Theorem exception_exact : forall (g : gstate) code, wf g -> bounded g -> gas_used (g_regs g) < 2^32 -> 0 <= code -> exception_jumptable + code * 3 + 3 < 2^64 ->
    reaches (exception code g) (S (clock g)) (kernel_entry g exception_jumptable code (program_counter (g_regs g))) (stack_cell (context (g_regs g))).
  Proof.
    intros g code W B G N J. rewrite (exception_equation). assert (OB : 0 <= opcode g < 256) by (eapply opcode_byte; eassumption). replace (opcode g <? 2^8) with true by lia.
    rewrite (top_read_ok g W). unfold bind at 1, guard. replace (gas_used (g_regs g) <? 2^32) with true by lia. unfold ret at 1, bind at 1.
    destruct (enter_ends (prepared g (Syscall 0 0 false)) exception_jumptable code (program_counter (g_regs g)) (opcode g) (Syscall 0 0 false)) as
      (g2 & ops & E & M & L & CL & F & LE & CE & S & PC & K & CT & GA & MEM); try assumption; try reflexivity.
    - apply ready_prepared; assumption.
    - eapply bytes_code with (g := g); try eassumption; try lia.
    - rewrite E. destruct (applied g g2 g2 (Syscall 0 0 false) ops W ltac:(intros T; apply (wf_read _ W T)) L M F eq_refl eq_refl) as (m' & EA & MW & CO).
      rewrite EA. eexists. split; [reflexivity|]. split; [unfold MachineStep.clock; cbn [g_traces]; exact CL|]. unfold shows, stack. cbn [g_regs g_mem].
      split; [exact PC|]. split; [exact K|]. split; [exact CT|]. split; [exact GA|]. split.
      + rewrite <- CT in S. etransitivity; [|exact S]. apply stack_list_ext; [exact CE|]. exact CO.
      + intros a V. rewrite CO by exact V. apply MEM, V.
  Qed.

  Lemma raises : forall (g g1 : gstate) e code, wf g -> bounded g -> gas_used (g_regs g) < 2^32 -> exception_jumptable + code * 3 + 3 < 2^64 ->
    try_perform_instruction g = Err e g1 -> is_kernel (g_regs g1) = false -> exc_code e = Some code ->
    reaches (transition g) (S (clock g)) (kernel_entry g exception_jumptable code (program_counter (g_regs g))) (stack_cell (context (g_regs g))).
  Proof.
    intros g g1 e code W B G J T K EC. unfold MachineModel.transition. rewrite T, K.
    assert (R : exists st o, rollback O g g1 = Ok tt (mk_g (g_regs g) (g_mem g) (g_traces g) st o)) by (eapply rollback_exact; eassumption).
    destruct R as (st & o & R). unfold bind. rewrite R. unfold handle_error. rewrite EC.
    assert (W' : wf (mk_g (g_regs g) (g_mem g) (g_traces g) st o)) by (eapply wf_same; [| |exact W]; reflexivity).
    assert (B' : bounded (mk_g (g_regs g) (g_mem g) (g_traces g) st o)) by (eapply bounded_same; [| |exact B]; reflexivity).
    assert (N : 0 <= code) by (destruct e; cbn in EC; try discriminate EC; injection EC as <-; lia).
    exact (exception_exact _ code W' B' G N J).
  Qed.

  (** The gas check at the end of an instruction. *)
  Definition within (g : gstate) (v : view) : Prop := v_kernel v = true \/ (v_gas v <= limit_of g (v_context v) < 2^64).
  Lemma state_op_equation : forall op (p g2 : gstate), perform_op op p = Ok tt g2 -> perform_state_op op p =
    (let g3 := mk_g (mk_regs (program_counter (g_regs g2) + pc_increment op) (is_kernel (g_regs g2)) (stack_len (g_regs g2)) (stack_top (g_regs g2)) (is_stack_top_read (g_regs g2))
       (check_overflow (g_regs g2)) (context (g_regs g2)) (gas_used (g_regs g2) + gas_to_charge op)) (g_mem g2) (g_traces g2) (g_stale g2) (g_oracle g2) in
     if is_kernel (g_regs g2) then Ok op g3
     else if limit_of g2 (context (g_regs g2)) <? 2^64 then if gas_used (g_regs g2) + gas_to_charge op <=? limit_of g2 (context (g_regs g2)) then Ok op g3 else Err OutOfGas g3
     else Err IntegerTooLarge g3).
  Proof.
    intros op p g2 H. unfold MachineModel.perform_state_op, bind at 1. rewrite H.
    destruct g2 as [[pc k len top tr co ctx gas] m [ta tb tc tl tm ts] st o]. unfold limit_of. mcbv. change (contents m) with (mread m).
    destruct k; [reflexivity|]. unf. destruct (mread m _ <? 2^64); unf; [|reflexivity]. destruct (gas + gas_to_charge op <=? _); reflexivity.
  Qed.
  Lemma try_ends : forall (g : gstate) op v X, wf g -> bounded g -> decode eth_mainnet (is_kernel (g_regs g)) (opcode g) = inr op ->
    ends (prepared g op) (perform_op op (prepared g op)) v X ->
    let v' := charge v (pc_increment op) (gas_to_charge op) in
    (within g v' -> reaches (transition g) (S (clock g)) v' X) /\
    (v_kernel v = false -> limit_of g (v_context v) < v_gas v' -> limit_of g (v_context v) < 2^64 ->
      exists g1, try_perform_instruction g = Err OutOfGas g1 /\ is_kernel (g_regs g1) = false) /\
    (v_kernel v = false -> 2^64 <= limit_of g (v_context v) -> exists g1, transition g = Err IntegerTooLarge g1).
  Proof.
    intros g op v X W B D (g2 & ops & E & M & L & CL & F & LE & CE & S & PC & K & CT & GA & MEM) v'.
    assert (OB : 0 <= opcode g < 256) by (eapply opcode_byte; eassumption).
    assert (T : try_perform_instruction g = perform_state_op op (prepared g op)).
    { rewrite try_equation. replace (opcode g <? 2^8) with true by lia. rewrite D, (top_read_ok g W). reflexivity. }
    rewrite (state_op_equation op _ _ E) in T. cbv zeta in T.
    set (g3 := mk_g _ _ _ _ _) in T.
    assert (LIM : limit_of g2 (context (g_regs g2)) = limit_of g (v_context v)) by (unfold limit_of; rewrite M, CT; reflexivity).
    rewrite LIM, K, GA in T. change (v_gas v + gas_to_charge op) with (v_gas v') in T. split; [|split].
    - intros WI. assert (T' : try_perform_instruction g = Ok op g3).
      { rewrite T. destruct WI as [KT|[W1 W2]]; [change (v_kernel v') with (v_kernel v) in KT; rewrite KT; reflexivity|]. change (v_context v') with (v_context v) in *.
        destruct (v_kernel v); [reflexivity|]. replace (limit_of g (v_context v) <? 2^64) with true by lia. replace (v_gas v' <=? limit_of g (v_context v)) with true by lia. reflexivity. }
      destruct (applied g g2 g3 op ops W ltac:(intros R; apply (wf_read _ W R)) L M F eq_refl eq_refl) as (m' & EA & MW & CO).
      assert (FIN : forall h : gstate, g_mem h = m' -> g_traces h = g_traces g3 -> program_counter (g_regs h) = program_counter (g_regs g3) -> is_kernel (g_regs h) = is_kernel (g_regs g3) ->
        context (g_regs h) = context (g_regs g3) -> gas_used (g_regs h) = gas_used (g_regs g3) -> stack_len (g_regs h) = stack_len (g_regs g3) -> stack_top (g_regs h) = stack_top (g_regs g3) ->
        clock h = Datatypes.S (clock g) /\ shows h v' X).
      { intros h HM HT H1 H2 H3 H4 H5 H6. split; [unfold MachineStep.clock; rewrite HT; exact CL|]. unfold shows, stack. rewrite H1, H2, H3, H4, H5, H6, HM. cbn [g3 g_regs program_counter is_kernel context gas_used stack_len stack_top].
        rewrite PC, K, GA. split; [reflexivity|]. split; [reflexivity|]. split; [exact CT|]. split; [reflexivity|]. split.
        - rewrite <- CT in S. etransitivity; [|exact S]. apply stack_list_ext; [exact CE|]. exact CO.
        - intros a V. rewrite CO by exact V. apply MEM, V. }
      unfold reaches, MachineModel.transition. rewrite T'. unfold bind at 1. rewrite EA. destruct (might_overflow op).
      + eexists. split; [reflexivity|]. apply FIN; reflexivity.
      + eexists. split; [reflexivity|]. apply FIN; reflexivity.
    - intros KF G LT. exists g3. rewrite KF in T. replace (limit_of g (v_context v) <? 2^64) with true in T by lia. replace (v_gas v' <=? limit_of g (v_context v)) with false in T by lia.
      split; [exact T|]. cbn [g3 g_regs is_kernel]. congruence.
    - intros KF G. rewrite KF in T. replace (limit_of g (v_context v) <? 2^64) with false in T by lia.
      assert (KG : is_kernel (g_regs g3) = false) by (cbn [g3 g_regs is_kernel]; congruence).
      assert (R : exists st o, rollback O g g3 = Ok tt (mk_g (g_regs g) (g_mem g) (g_traces g) st o)) by (eapply rollback_exact; eassumption).
      destruct R as (st & o & R). unfold MachineModel.transition. rewrite T, KG. unfold bind. rewrite R. cbn [handle_error exc_code]. eexists. reflexivity.
  Qed.
End View.
