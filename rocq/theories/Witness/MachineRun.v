(** From the instructions to the transitions and the whole run of the machine
    of MachineModel.v. *)
From Coq Require Import ZArith List Bool Lia ZifyBool.
From Verif Require Import Stark.ArithModel Stark.LogicModel Witness.MemoryModel Witness.MachineModel Witness.MemoryProps Witness.MachineSpec
  Witness.MachineLemmas Witness.MachineLog Witness.MachineStep.
Import ListNotations.
Local Open Scope Z_scope.

(** * Decoding *)
Definition decoded_ok (kernel : bool) (c : Z) (op : minstr) : bool :=
  match op with
  | KeccakGeneral => kernel && (c =? 33)
  | Mload32Bytes => kernel && (c =? 248)
  | MstoreGeneral => kernel && (c =? 252)
  | ProverInput => kernel && (c =? 238)
  | Mstore32Bytes n => kernel && (192 <=? c) && (c <=? 223) && (n =? c - 191)
  | Syscall o _ _ => o =? c
  | Push n => (n =? c - 95) && (0 <=? n)
  | Dup n | Swap n => 0 <=? n
  | _ => true
  end.
Lemma decode_all : forall (P : bool -> bool -> Z -> bool), (forallb (fun c => P true true c && P true false c && P false true c && P false false c) (map Z.of_nat (seq 0 256)) = true) ->
  forall e k c, 0 <= c < 256 -> P e k c = true.
Proof.
  intros P H e k c B. rewrite forallb_forall in H. specialize (H c).
  assert (I : In c (map Z.of_nat (seq 0 256))). { apply in_map_iff. exists (Z.to_nat c). split; [lia|]. apply in_seq. lia. }
  specialize (H I). rewrite !andb_true_iff in H. destruct H as (((A1 & A2) & A3) & A4). destruct e, k; assumption.
Qed.
Lemma decode_inv : forall e k c op, 0 <= c < 256 -> decode e k c = inr op -> decoded_ok k c op = true.
Proof.
  intros e k c op B H. pose proof (decode_all (fun e k c => match decode e k c with inr op => decoded_ok k c op | inl _ => true end)) as D.
  specialize (D ltac:(vm_compute; reflexivity) e k c B). cbv beta in D. rewrite H in D. exact D.
Qed.

(** * Logs *)
Lemma after_no_write : forall l f a, (forall o, In o l -> mo_kind o = MWrite -> mo_address o <> a) -> after f l a = f a.
Proof.
  induction l as [|o l IH]; intros f a H; [reflexivity|]. cbn [after]. destruct (mo_kind o) eqn:K.
  - apply IH. intros; apply H; [right|]; assumption.
  - rewrite IH by (intros; apply H; [right|]; assumption). apply upd_other. intros E. apply (H o (or_introl eq_refl) K). congruence.
Qed.
Lemma word_after : forall l f a, Forall (fun o => word (mo_value o)) l -> word (f a) -> word (after f l a).
Proof.
  induction l as [|o l IH]; intros f a F W; [exact W|]. inversion F; subst. cbn [after]. destruct (mo_kind o); apply IH; try assumption.
  unfold upd. destruct (maddr_eqb a (mo_address o)); assumption.
Qed.
Lemma touched_app : forall l m a, touched (l ++ m) a <-> touched l a \/ touched m a.
Proof.
  intros. unfold touched. split.
  - intros (o & I & E). apply in_app_or in I. destruct I; [left|right]; exists o; split; assumption.
  - intros [(o & I & E)|(o & I & E)]; exists o; (split; [apply in_or_app|exact E]); [left|right]; exact I.
Qed.
Lemma ch_sort_pre : forall c a v b w ops (tr : bool),
  let pre := mk_mop (stamp ChCode c) a MRead v :: (if tr then [mk_mop (stamp (ChGP 0) c) b MRead w] else []) in
  ch_sort c (pre ++ ops) = mk_mop (stamp ChCode c) a MRead v :: at_tick c 0 ops ++
    (if tr then [mk_mop (stamp (ChGP 0) c) b MRead w] else []) ++ at_tick c 1 ops ++ at_tick c 2 ops ++ at_tick c 3 ops ++ at_tick c 4 ops.
Proof.
  intros. subst pre. unfold ch_sort. rewrite !at_tick_app, !at_tick_cons. cbn [channel_index Z.eqb].
  destruct tr; rewrite ?at_tick_cons; cbn [channel_index Z.add Pos.add Pos.succ Z.eqb Pos.eqb at_tick filter app]; reflexivity.
Qed.
Lemma with_pre : forall c f a v b w ops (tr : bool),
  good_log c f ops -> valid_addr a -> valid_addr b -> word v -> word w -> f a = v -> (tr = true -> f b = w) ->
  (tr = true -> forall o, In o ops -> mo_timestamp o = tick c 0 -> mo_kind o = MWrite -> mo_address o <> b) ->
  let pre := mk_mop (stamp ChCode c) a MRead v :: (if tr then [mk_mop (stamp (ChGP 0) c) b MRead w] else []) in
  good_log c f (pre ++ ops) /\ after f (pre ++ ops) = after f ops.
Proof.
  intros c f a v b w ops tr G Va Vb Wv Ww Fa Fb N. cbv zeta. destruct G as [G1 G2 G3 G4 G5]. split.
  2:{ destruct tr; reflexivity. }
  constructor.
  - destruct tr; repeat (apply Forall_cons; [assumption|]); exact G1.
  - destruct tr; repeat (apply Forall_cons; [assumption|]); exact G2.
  - destruct tr; repeat (apply Forall_cons; [apply ticks_stamp; cbn [channel_index]; lia|]); exact G3.
  - rewrite (ch_sort_pre c a v b w ops tr). cbn [reads_ok mo_kind mo_value mo_address]. split; [symmetry; exact Fa|].
    unfold ch_sort in G4. rewrite reads_ok_app in *. destruct G4 as [G4 G6]. split; [exact G4|].
    destruct tr; [|exact G6]. cbn [app reads_ok mo_kind mo_value mo_address]. split; [|exact G6].
    rewrite after_no_write; [symmetry; auto|]. intros o I K. unfold at_tick in I. apply filter_In in I. destruct I as [I T]. apply N; try assumption; try reflexivity. lia.
  - rewrite (ch_sort_pre c a v b w ops tr). unfold ch_sort in G5. destruct tr; cbn [app filter is_write mo_kind]; rewrite <- G5, !filter_app; cbn [app filter is_write mo_kind]; rewrite ?filter_app; reflexivity.
Qed.

(** * A transition *)
Section Run.
  Context {O : Type}.
  Notation gstate := (gstate O).
  Variable keccakf : list Z -> list Z.
  Variables syscall_jumptable exception_jumptable max_code_size : Z.
  Variable eth_mainnet : bool.
  Variable keccak : list Z -> Z.
  Variable prover_input : registers -> mem_state -> O -> option (perror + Z * mem_state * O).
  Variable observe : Z -> registers -> mem_state -> O -> option (perror + O).
  Hypothesis keccak_word : forall l, word (keccak l).
  Hypothesis syscall_jumptable_pos : 0 <= syscall_jumptable.
  Hypothesis exception_jumptable_pos : 0 <= exception_jumptable.

  Notation perform_op := (perform_op O keccakf syscall_jumptable max_code_size keccak prover_input observe).
  Notation perform_state_op := (perform_state_op O keccakf syscall_jumptable max_code_size keccak prover_input observe).
  Notation try_perform_instruction := (try_perform_instruction O keccakf syscall_jumptable max_code_size eth_mainnet keccak prover_input observe).
  Notation transition := (transition O keccakf syscall_jumptable exception_jumptable max_code_size eth_mainnet keccak prover_input observe).
  Notation exception := (exception O exception_jumptable).
  Notation log := (@log O). Notation clock := (@clock O). Notation opcode := (@opcode O).

  Definition preinit_segment (a : maddr) : Prop := In (a_segment a) [0; 12; 34; 35].
  (** The unlogged changes a prover input may make to the memory. *)
  Definition unlogged (g : gstate) (m : mem_state) : Prop :=
    forall a, valid_addr a -> contents m a <> contents (g_mem g) a -> preinit_segment a /\ ~ touched (log g ++ code_log g ++ top_log g) a.

  (** The registers are 64-bit integers, as in the program, and the code cells
      hold bytes. *)
  Record bounded (g : gstate) : Prop := {
    bd_pc : program_counter (g_regs g) < 2^64;
    bd_len : stack_len (g_regs g) < 2^64;
    bd_ctx : context (g_regs g) < 2^64;
    bd_code : forall a, valid_addr a -> a_segment a = SEG_CODE -> contents (g_mem g) a < 256 }.
  (** The conditions under which the log of the next instruction is that of a
      memory. *)
  Record clean (g : gstate) : Prop := {
    cl_bounded : bounded g;
    (** KECCAK_GENERAL and MLOAD_32BYTES read bytes. *)
    cl_load : is_kernel (g_regs g) = true -> opcode g = 33 \/ opcode g = 248 ->
      forall a, new_bundle (stack_top (g_regs g)) = Some a -> bytes_at (g_mem g) a (Z.to_nat (contents (g_mem g) (stack_addr (g_regs g) 1)));
    (** MSTORE_GENERAL does not write to the cell of the new top of the stack. *)
    cl_store : is_kernel (g_regs g) = true -> opcode g = 252 ->
      forall a, new_bundle (contents (g_mem g) (stack_addr (g_regs g) 1)) = Some a -> 2 < stack_len (g_regs g) -> a <> stack_addr (g_regs g) 2;
    (** MSTORE_32BYTES does not write over its operands. *)
    cl_store32 : is_kernel (g_regs g) = true -> 192 <= opcode g <= 223 ->
      forall a, new_bundle (stack_top (g_regs g)) = Some a ->
       ~ In (stack_addr (g_regs g) 0) (cells a (Z.to_nat (opcode g - 191))) /\ ~ In (stack_addr (g_regs g) 1) (cells a (Z.to_nat (opcode g - 191)));
    (** A prover input is a word, and leaves alone the cells the log knows. *)
    cl_input : is_kernel (g_regs g) = true -> opcode g = 238 -> forall r v m' o', prover_input r (g_mem g) (g_oracle g) = Some (inr (v, m', o')) ->
      word v /\ mem_wf m' /\ (forall a, valid_addr a -> word (contents m' a)) /\ unlogged g m' }.

  (** What a transition does to the log and the memory. *)
  Definition stepped (g g' : gstate) : Prop :=
    exists m ops, unlogged g m /\ log g' = log g ++ ops /\ clock g' = S (clock g) /\ good_log (clock g) (contents m) ops /\
      (forall a, valid_addr a -> contents (g_mem g') a = after (contents m) ops a) /\ wf g'.

  Lemma unlogged_refl : forall (g : gstate), unlogged g (g_mem g).
  Proof. intros g a V N. contradiction. Qed.

  Lemma stack_addr_valid : forall r, 0 <= context r -> 0 < stack_len r -> valid_addr (stack_addr r 0).
  Proof. intros. unfold valid_addr, stack_addr, SEG_STACK. cbn [a_context a_segment a_virt]. lia. Qed.
  Lemma code_addr_valid : forall (g : gstate), wf g -> valid_addr (code_addr (g_regs g)).
  Proof.
    intros g W. destruct W. unfold valid_addr, code_addr, code_context, SEG_CODE. cbn [a_context a_segment a_virt]. destruct (is_kernel (g_regs g)); lia.
  Qed.
  Lemma opcode_word : forall (g : gstate), wf g -> word (opcode g).
  Proof. intros g W. apply (wf_words _ W), code_addr_valid, W. Qed.
  Lemma opcode_byte : forall (g : gstate), wf g -> bounded g -> 0 <= opcode g < 256.
  Proof.
    intros g W C. split; [apply (opcode_word _ W)|]. apply (bd_code _ C); [apply code_addr_valid, W|reflexivity].
  Qed.

  (** Finishing a transition: the log of the row is applied to the memory. *)
  Lemma finish_step : forall (g g2 g3 : gstate) m op, wf g -> unlogged g m -> mem_wf m -> (forall a, valid_addr a -> word (contents m a)) -> g_mem g2 = m ->
    performed (prepared g op) g2 ->
    (is_stack_top_read (g_regs g) = true -> 0 < stack_len (g_regs g)) ->
    log g3 = log g2 -> clock g3 = clock g2 -> g_mem g3 = g_mem g2 ->
    program_counter (g_regs g2) <= program_counter (g_regs g3) -> stack_len (g_regs g3) = stack_len (g_regs g2) -> stack_top (g_regs g3) = stack_top (g_regs g2) ->
    is_stack_top_read (g_regs g3) = is_stack_top_read (g_regs g2) -> context (g_regs g3) = context (g_regs g2) -> gas_used (g_regs g2) <= gas_used (g_regs g3) ->
    forall g', apply_since O g g3 = Ok tt g' -> stepped g g'.
  Proof.
    intros g g2 g3 m op W U MW MWD EM P TR L3 C3 M3 PC3 LEN3 TOP3 TR3 CTX3 GAS3 g' H.
    destruct P as (ops & PL & PCL & PG & P1 & P2 & P3 & P4 & P5 & P6 & P7). rewrite EM in *.
    assert (LP : log (prepared g op) = log g ++ code_log g ++ top_log g) by reflexivity.
    assert (CP : clock (prepared g op) = clock g) by reflexivity. rewrite LP in PL. rewrite CP in *.
    assert (AG : forall a, valid_addr a -> touched (code_log g ++ top_log g) a -> contents m a = contents (g_mem g) a).
    { intros a V T. destruct (Z.eq_dec (contents m a) (contents (g_mem g) a)) as [E|N]; [exact E|]. destruct (U a V N) as [_ X]. exfalso. apply X. apply touched_app. right. exact T. }
    assert (VC := code_addr_valid g W).
    destruct (with_pre (clock g) (contents m) (code_addr (g_regs g)) (opcode g) (if is_stack_top_read (g_regs g) then stack_addr (g_regs g) 0 else code_addr (g_regs g)) (stack_top (g_regs g)) ops
      (is_stack_top_read (g_regs g)) PG VC) as [GL AF].
    - destruct (is_stack_top_read (g_regs g)); [apply stack_addr_valid; [apply (wf_ctx _ W)|auto]|exact VC].
    - apply opcode_word, W.
    - apply (wf_top _ W).
    - unfold MachineStep.opcode. apply AG; [exact VC|]. apply touched_app. left. eexists. split; [left; reflexivity|reflexivity].
    - intros T. destruct (wf_read _ W T) as [L E]. rewrite T. rewrite <- E. apply AG.
      + apply stack_addr_valid; [apply (wf_ctx _ W)|exact L].
      + apply touched_app. right. unfold top_log. rewrite T. eexists. split; [left; reflexivity|reflexivity].
    - intros T. rewrite T. exact P7.
    - assert (EPRE : mk_mop (stamp ChCode (clock g)) (code_addr (g_regs g)) MRead (opcode g)
               :: (if is_stack_top_read (g_regs g) then [mk_mop (stamp (ChGP 0) (clock g)) (if is_stack_top_read (g_regs g) then stack_addr (g_regs g) 0 else code_addr (g_regs g)) MRead (stack_top (g_regs g))] else [])
               = code_log g ++ top_log g).
      { unfold code_log, top_log. destruct (is_stack_top_read (g_regs g)); reflexivity. }
      rewrite EPRE in GL, AF.
      unfold apply_since in H. fold (log g) (log g3) in H. rewrite L3, PL, <- app_assoc in H. rewrite M3 in H.
      replace (skipn (length (log g)) (log g ++ (code_log g ++ top_log g) ++ ops)) with ((code_log g ++ top_log g) ++ ops) in H
        by (rewrite skipn_app, Nat.sub_diag, skipn_all; reflexivity).
      destruct (apply_ops_after _ m MW (gl_valid _ _ _ GL)) as (m' & EA & MW' & _ & CT). rewrite EA in H. apply ok_inj in H. subst g'.
      exists m, ((code_log g ++ top_log g) ++ ops). split; [exact U|]. split; [unfold MachineStep.log at 1; cbn [g_traces]; fold (log g3); rewrite L3, PL, <- app_assoc; reflexivity|].
      split; [unfold MachineStep.clock at 1; cbn [g_traces]; fold (clock g3); congruence|]. split; [exact GL|]. split; [exact CT|].
      assert (SA : stack_addr (g_regs g3) 0 = stack_addr (g_regs g2) 0) by (unfold stack_addr; congruence).
      constructor; cbn [g_regs g_mem]; rewrite ?LEN3, ?TOP3, ?CTX3, ?TR3, ?SA; try assumption; try lia.
      + intros a V. rewrite CT by exact V. apply word_after; [apply (gl_word _ _ _ GL)|apply MWD, V].
      + intros T. destruct (P6 T) as [L E]. split; [exact L|]. rewrite CT by (apply stack_addr_valid; assumption). rewrite AF. exact E.
  Qed.

  Lemma ready_prepared : forall (g : gstate) op, wf g -> bounded g -> ready (prepared g op) op.
  Proof. intros g op W C. destruct W, C. constructor; cbn [prepared g_regs g_mem program_counter stack_len context gas_used stack_top is_stack_top_read]; try assumption; try (split; assumption); reflexivity. Qed.

  (** Every instruction of a clean state leaves a good log. *)
  Lemma bytes_code : forall (g : gstate) c i n, bounded g -> 0 <= c -> 0 <= i -> bytes_at (g_mem g) (mk_maddr c SEG_CODE i) n.
  Proof.
    intros g c i n C Hc Hi. unfold bytes_at. apply Forall_forall. intros a I.
    assert (V0 : valid_addr (mk_maddr c SEG_CODE i)) by (unfold valid_addr, SEG_CODE; cbn [a_context a_segment a_virt]; lia).
    destruct (cells_in _ _ _ V0 I) as (V & _ & E). apply (bd_code _ C); assumption.
  Qed.
  Lemma performed_op : forall (g : gstate) op g2, wf g -> clean g -> decode eth_mainnet (is_kernel (g_regs g)) (opcode g) = inr op ->
    perform_op op (prepared g op) = Ok tt g2 ->
    performed (prepared g op) g2 /\ unlogged g (g_mem g2) /\ mem_wf (g_mem g2) /\ (forall a, valid_addr a -> word (contents (g_mem g2) a)).
  Proof.
    intros g op g2 W C D H. pose proof (decode_inv _ _ _ _ (opcode_byte g W (cl_bounded _ C)) D) as DI. pose proof (ready_prepared g op W (cl_bounded _ C)) as RD.
    pose proof (opcode_byte g W (cl_bounded _ C)) as OB.
    assert (DEC : op = ProverInput \/ op <> ProverInput) by (destruct op; (left; reflexivity) || (right; discriminate)).
    destruct DEC as [->|N].
    - cbn [decoded_ok] in DI. apply andb_true_iff in DI. destruct DI as [K E]. apply Z.eqb_eq in E.
      pose proof (cl_input _ C K E) as CI.
      assert (X : performed (prepared g ProverInput) g2 /\ exists v o', prover_input (g_regs (prepared g ProverInput)) (g_mem (prepared g ProverInput)) (g_oracle (prepared g ProverInput)) = Some (inr (v, g_mem g2, o'))).
      { eapply step_prover_input; try eassumption. intros r v m' o' EQ. destruct (CI r v m' o' EQ) as (? & ? & ? & ?). auto. }
      destruct X as [P (v & o' & EQ)]. destruct (CI _ _ _ _ EQ) as (? & ? & ? & ?). auto.
    - assert (EM : g_mem g2 = g_mem g).
      { pose proof (frame_perform_op keccakf syscall_jumptable max_code_size keccak prover_input observe op N (prepared g op)) as F. rewrite H in F. exact (proj2 F). }
      split; [|rewrite EM; split; [apply unlogged_refl|split; [apply (wf_mem _ W)|apply (wf_words _ W)]]].
      destruct op as [| |o n b| |lop|aop|top| | | | | | | |n|n|n| | | |n| | |]; try congruence; cbn [decoded_ok] in DI;
        rewrite ?andb_true_iff in DI.
      + eapply step_iszero; eassumption.
      + eapply step_not; eassumption.
      + refine (step_syscall _ _ _ _ _ _ keccak_word syscall_jumptable_pos _ _ _ _ _ _ _ RD H); [lia|]. apply (bytes_code g); [exact (cl_bounded _ C)|lia|lia].
      + eapply step_eq; eassumption.
      + eapply step_logic; eassumption.
      + destruct aop; first [eapply step_shl; eassumption | eapply step_shr; eassumption | eapply step_binary; try eassumption; discriminate].
      + eapply step_ternary; eassumption.
      + (eapply step_keccak; [.. | exact H]); try eassumption. apply (cl_load _ C); [tauto|left; lia].
      + eapply step_pop; eassumption.
      + eapply step_jump; eassumption.
      + eapply step_jumpi; eassumption.
      + eapply step_pc; eassumption.
      + eapply step_jumpdest; eassumption.
      + (eapply step_push; [.. | exact H]); try eassumption; [lia|]. intros _. apply (bytes_code g); [exact (cl_bounded _ C)| |].
        * unfold code_context. destruct W. cbn. destruct (is_kernel (g_regs g)); lia.
        * destruct W. cbn. lia.
      + (eapply step_dup; [.. | exact H]); try eassumption. lia.
      + (eapply step_swap; [.. | exact H]); try eassumption. lia.
      + eapply step_get_context; eassumption.
      + eapply step_set_context; eassumption.
      + (eapply step_mload_32bytes; [.. | exact H]); try eassumption. apply (cl_load _ C); [tauto|right; lia].
      + (eapply step_mstore_32bytes; [.. | exact H]); try eassumption; [lia|]. replace n with (opcode g - 191) by lia. apply (cl_store32 _ C); [tauto|lia].
      + eapply step_exit_kernel; eassumption.
      + eapply step_mload_general; eassumption.
      + (eapply step_mstore_general; [.. | exact H]); try eassumption. apply (cl_store _ C); [tauto|lia].
  Qed.

  Lemma stepped_same : forall (g g' h : gstate), g_regs h = g_regs g -> g_mem h = g_mem g -> g_traces h = g_traces g -> stepped h g' -> stepped g g'.
  Proof.
    intros g g' h ER EM ET H. unfold stepped, unlogged, code_log, top_log, MachineStep.opcode, MachineStep.log, MachineStep.clock in *. rewrite ER, EM, ET in H. exact H.
  Qed.
  Lemma wf_same : forall (g h : gstate), g_regs h = g_regs g -> g_mem h = g_mem g -> wf g -> wf h.
  Proof. intros g h ER EM W. destruct W. constructor; rewrite ?ER, ?EM; assumption. Qed.
  Lemma bounded_same : forall (g h : gstate), g_regs h = g_regs g -> g_mem h = g_mem g -> bounded g -> bounded h.
  Proof. intros g h ER EM W. destruct W. constructor; rewrite ?ER, ?EM; assumption. Qed.

  Lemma exception_equation : forall code (g : gstate), exception code g =
    if opcode g <? 2^8
    then if is_stack_top_read (g_regs g) && negb (0 <? stack_len (g_regs g)) then Panic
         else bind (guard O (gas_used (g_regs g) <? 2^32) GasLimitError)
                (fun _ => bind (enter_kernel O exception_jumptable code (program_counter (g_regs g)) (opcode g)) (fun _ => apply_since O g))
                (prepared g (Syscall 0 0 false))
    else Panic.
  Proof.
    intros code g. destruct g as [[pc k len top tr co ctx gas] m [ta tb tc tl tm ts] st o].
    cbv beta iota zeta delta [MachineModel.exception generate_exception bind ret fail panic gets guard assert get_regs set_regs set_pc set_stack set_top_read set_check_overflow MachineModel.set_context set_mode
      on_traces push_memory new_op mem_read_with_log base_row fill_stack_fields
      program_counter is_kernel stack_len stack_top is_stack_top_read check_overflow context gas_used
      g_regs g_mem g_traces g_stale g_oracle t_arithmetic t_byte_packing t_clock t_logic t_memory t_sponge fst snd
      stack_addr code_context MachineStep.clock MachineStep.log code_log top_log add_log flagged prepared MachineStep.opcode code_addr special_length].
    change (contents m) with (mread m).
    destruct (mread m _ <? 2^8); [|reflexivity].
    destruct tr; cbn [andb].
    - destruct (0 <? len); cbn [negb]; [|reflexivity].
      destruct (gas <? 2^32); rewrite <- ?app_assoc; reflexivity.
    - destruct (gas <? 2^32); rewrite ?app_nil_r; reflexivity.
  Qed.
  Lemma exception_step : forall code (g g' : gstate), wf g -> bounded g -> 0 <= code -> exception code g = Ok tt g' -> stepped g g'.
  Proof.
    intros code g g' W B N H. rewrite exception_equation in H.
    destruct (opcode g <? 2^8); [|discriminate H]. destruct (is_stack_top_read (g_regs g) && negb (0 <? stack_len (g_regs g))) eqn:TR; [discriminate H|].
    unfold bind at 1, guard in H. destruct (gas_used (g_regs g) <? 2^32) eqn:G; [|discriminate H]. unfold ret at 1, bind at 1 in H.
    destruct (enter_kernel O exception_jumptable code (program_counter (g_regs g)) (opcode g) (prepared g (Syscall 0 0 false))) as [[] g2|e g2|] eqn:E; try discriminate H.
    pose proof (ready_prepared g (Syscall 0 0 false) W B) as RD.
    assert (P : performed (prepared g (Syscall 0 0 false)) g2).
    { destruct W, B. refine (step_enter keccakf max_code_size keccak prover_input observe keccak_word _ _ _ _ _ _ _ _ _ _ _ RD E); try assumption.
      - lia.
      - cbn [prepared g_regs gas_used]. lia.
      - apply (bytes_code g); [constructor; assumption|lia|lia]. }
    assert (EM : g_mem g2 = g_mem g).
    { pose proof (frame_enter_kernel exception_jumptable code (program_counter (g_regs g)) (opcode g) (prepared g (Syscall 0 0 false))) as F. rewrite E in F. exact (proj2 F). }
    eapply (finish_step g g2 g2 (g_mem g) (Syscall 0 0 false)); try eassumption; try reflexivity; try lia.
    - apply unlogged_refl.
    - apply (wf_mem _ W).
    - apply (wf_words _ W).
  Qed.

  (** An instruction that fails in user mode leaves no trace but in the oracle. *)
  Lemma rollback_exact : forall (g g' : gstate) e, wf g -> bounded g -> try_perform_instruction g = Err e g' -> is_kernel (g_regs g') = false ->
    exists st o, rollback O g g' = Ok tt (mk_g (g_regs g) (g_mem g) (g_traces g) st o).
  Proof.
    intros g g' e W B H K. exists (g_stale g'), (g_oracle g').
    assert (F : frame g g').
    { rewrite try_equation in H. destruct (opcode g <? 2^8); [|discriminate H].
      destruct (decode eth_mainnet (is_kernel (g_regs g)) (opcode g)) as [e1|op] eqn:D.
      - assert (g' = mk_g (g_regs g) (g_mem g) (add_log (g_traces g) (code_log g)) (g_stale g) (g_oracle g)) as -> by congruence.
        split; [|reflexivity]. unfold grows, add_log. cbn [g_traces t_arithmetic t_byte_packing t_clock t_logic t_memory t_sponge].
        repeat (split; [first [apply prefix_refl|apply prefix_app|lia]|]). apply prefix_refl.
      - destruct (is_stack_top_read (g_regs g) && negb (0 <? stack_len (g_regs g))); [discriminate H|].
        apply (frame_trans g (prepared g op)).
        { split; [|reflexivity]. unfold grows, prepared, add_log. cbn [g_traces t_arithmetic t_byte_packing t_clock t_logic t_memory t_sponge].
          repeat (split; [first [apply prefix_refl|apply prefix_app|lia]|]). apply prefix_refl. }
        assert (DEC : op = ProverInput \/ op <> ProverInput) by (destruct op; (left; reflexivity) || (right; discriminate)).
        destruct DEC as [->|N].
        + pose proof (decode_inv _ _ _ _ (opcode_byte g W B) D) as DI. cbn [decoded_ok] in DI. apply andb_true_iff in DI. destruct DI as [KT _]. exfalso.
          assert (is_kernel (g_regs g') = true); [|congruence].
          assert (KP : is_kernel (g_regs (prepared g ProverInput)) = true) by exact KT. revert H KP. clear. generalize (prepared g ProverInput). clear g. intros g H K.
          unfold MachineModel.perform_state_op, bind at 1 in H. cbn [MachineModel.perform_op] in H.
          destruct (generate_prover_input O prover_input g) as [[] g1|e1 g1|] eqn:E; [| |discriminate H].
          * exfalso. assert (K1 : is_kernel (g_regs g1) = true).
            { unfold generate_prover_input, bind at 1 in E. destruct (prover_input _ _ _) as [[?|[[v0 m0] o0]]|]; try discriminate E.
              destruct g as [[pc k len top tr co ctx gas] m [ta tb tc tl tm ts] st o].
              cbv beta iota zeta delta [bind push_with_write push_no_write  ret fail panic gets guard assert get_regs set_regs set_pc set_stack set_top_read set_check_overflow MachineModel.set_context set_mode
      on_traces push_memory new_op mem_read_with_log base_row fill_stack_fields
      program_counter is_kernel stack_len stack_top is_stack_top_read check_overflow context gas_used
      g_regs g_mem g_traces g_stale g_oracle t_arithmetic t_byte_packing t_clock t_logic t_memory t_sponge fst snd
      stack_addr code_context MachineStep.clock MachineStep.log code_log top_log add_log flagged prepared MachineStep.opcode code_addr special_length mem_write_log push_cpu] in E.
              cbn [g_regs is_kernel] in K; subst k; cbn [orb] in E. destruct (len =? 0); apply ok_inj in E; subst g1; reflexivity. }
            unfold bind, get_regs, gets, set_mode, set_regs, ret in H. cbn [g_regs is_kernel] in H. rewrite K1 in H. discriminate H.
          * assert (g' = g1) as -> by congruence. unfold generate_prover_input, bind at 1 in E. destruct (prover_input _ _ _) as [[e2|[[v0 m0] o0]]|]; try discriminate E.
            -- assert (g1 = g) as -> by congruence. exact K.
            -- exfalso. destruct g as [[pc k len top tr co ctx gas] m [ta tb tc tl tm ts] st o].
              cbv beta iota zeta delta [bind push_with_write push_no_write  ret fail panic gets guard assert get_regs set_regs set_pc set_stack set_top_read set_check_overflow MachineModel.set_context set_mode
      on_traces push_memory new_op mem_read_with_log base_row fill_stack_fields
      program_counter is_kernel stack_len stack_top is_stack_top_read check_overflow context gas_used
      g_regs g_mem g_traces g_stale g_oracle t_arithmetic t_byte_packing t_clock t_logic t_memory t_sponge fst snd
      stack_addr code_context MachineStep.clock MachineStep.log code_log top_log add_log flagged prepared MachineStep.opcode code_addr special_length mem_write_log push_cpu] in E.
              cbn [g_regs is_kernel] in K; subst k; cbn [orb] in E. destruct (len =? 0); discriminate E.
        + pose proof (frame_state_op keccakf syscall_jumptable max_code_size keccak prover_input observe op N (prepared g op)) as F. rewrite H in F. exact F. }
    destruct F as [(A1 & A2 & A3 & A4 & A5 & A6) EM]. unfold rollback. unfold same_mem in EM. rewrite EM. unfold prefix in *. rewrite A1, A2, A4, A5, A6, Nat.min_l by exact A3.
    destruct (g_traces g). reflexivity.
  Qed.
  Lemma transition_step : forall (g g' : gstate), wf g -> clean g -> transition g = Ok tt g' -> stepped g g'.
  Proof.
    intros g g' W C H. pose proof (cl_bounded _ C) as B. unfold MachineModel.transition in H.
    destruct (try_perform_instruction g) as [op g1|e g1|] eqn:E; [| |discriminate H].
    - rewrite try_equation in E. destruct (opcode g <? 2^8); [|discriminate E].
      destruct (decode eth_mainnet (is_kernel (g_regs g)) (opcode g)) as [e1|op1] eqn:D; [discriminate E|].
      destruct (is_stack_top_read (g_regs g) && negb (0 <? stack_len (g_regs g))) eqn:TR; [discriminate E|].
      unfold MachineModel.perform_state_op, bind at 1 in E. destruct (perform_op op1 (prepared g op1)) as [[] g2|e2 g2|] eqn:P; try discriminate E.
      destruct (performed_op g op1 g2 W C D P) as (PF & U & MW & MWD).
      set (g3 := mk_g (mk_regs (program_counter (g_regs g2) + pc_increment op1) (is_kernel (g_regs g2)) (stack_len (g_regs g2)) (stack_top (g_regs g2)) (is_stack_top_read (g_regs g2))
                         (check_overflow (g_regs g2)) (context (g_regs g2)) (gas_used (g_regs g2) + gas_to_charge op1)) (g_mem g2) (g_traces g2) (g_stale g2) (g_oracle g2)).
      assert (E1 : op = op1 /\ g1 = g3).
      { unfold g3. cbv beta iota zeta delta [get_regs gets bind set_mode set_regs ret guard fail] in E. cbn [g_regs g_mem g_traces g_stale g_oracle is_kernel context gas_used program_counter stack_len stack_top is_stack_top_read check_overflow] in E.
        destruct (is_kernel (g_regs g2)); cbn [g_regs g_mem g_traces g_stale g_oracle is_kernel context gas_used program_counter stack_len stack_top is_stack_top_read check_overflow] in E; [split; congruence|].
        destruct (mread _ _ <? 2^64); cbv beta iota in E; [|discriminate E]. destruct (_ <=? _); cbv beta iota in E; [split; congruence|discriminate E]. }
      destruct E1 as [-> ->]. unfold bind at 1 in H. destruct (apply_since O g g3) as [[] g4|e4 g4|] eqn:AS; try discriminate H.
      assert (DI := decode_inv _ _ _ _ (opcode_byte g W B) D).
      assert (ST : stepped g g4).
      { eapply (finish_step g g2 g3 (g_mem g2) op1); try eassumption; try reflexivity; cbn [g3 g_regs program_counter gas_used].
        - intros T. rewrite T in TR. cbn [andb] in TR. lia.
        - destruct op1; cbn [pc_increment decoded_ok] in *; lia.
        - destruct op1 as [| | | | |[]|[]| | | | | | | | | | | | | | | | |]; cbn [gas_to_charge decoded_ok] in *; try lia. destruct (n =? 0); lia. }
      destruct (might_overflow op1).
      + unfold set_check_overflow, bind, get_regs, gets, set_regs in H. apply ok_inj in H. subst g'.
        destruct ST as (m & ops & S1 & S2 & S3 & S4 & S5 & S6). exists m, ops. split; [exact S1|]. split; [exact S2|]. split; [exact S3|]. split; [exact S4|]. split; [exact S5|].
        destruct S6. constructor; assumption.
      + apply ok_inj in H. subst g'. exact ST.
    - destruct (is_kernel (g_regs g1)) eqn:K; [discriminate H|].
      destruct (rollback_exact g g1 e W B E K) as (st & o & R). unfold bind in H. rewrite R in H.
      unfold handle_error in H. destruct (exc_code e) as [code|] eqn:EC; [|discriminate H].
      eapply stepped_same; cycle -1.
      + eapply exception_step; [| | |exact H].
        * apply (wf_same g); [reflexivity|reflexivity|exact W].
        * apply (bounded_same g); [reflexivity|reflexivity|exact B].
        * destruct e; cbn in EC; try discriminate EC; injection EC as <-; lia.
      + reflexivity.
      + reflexivity.
      + reflexivity.
  Qed.
End Run.
