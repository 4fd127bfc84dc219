(** The instructions of the witness generator against EvmSpec.v: what a
    transition does to the stack, the program counter, the gas and the memory. *)
From Coq Require Import ZArith List Bool Lia ZifyBool.
From Verif Require Import Stark.ArithModel Stark.LogicModel Witness.MemoryModel Witness.MachineModel Witness.MemoryProps Witness.MachineSpec
  Witness.MachineLemmas Witness.MachineLog Witness.MachineStep Witness.MachineRun Witness.EvmSpec Witness.MachineSem Witness.MachineView Witness.MachineControl.
Import ListNotations.
Local Open Scope Z_scope.

(** * The opcodes of the user *)

(** What the machine makes of a byte in user mode: an instruction run natively,
    a syscall with the number of items it needs and whether it lengthens the
    stack, or nothing. *)
Theorem C63_user_opcodes : forall eth c, 0 <= c < 256 ->
  match arity eth c, decode eth false c with
  | None, inl InvalidOpcode => True
  | Some (d, a), inr (Syscall c' n b) => c' = c /\ n = d /\ b = (d <? a)
  | Some _, inr op => pure_byte false c = true \/ op = Jump /\ c = 86 \/ op = Jumpi /\ c = 87
  | _, _ => False
  end.
Proof.
  intros eth c B.
  pose (P := fun (eth _ : bool) c => match arity eth c, decode eth false c with
    | None, inl InvalidOpcode => true
    | Some (d, a), inr (Syscall c' n b) => (c' =? c) && (n =? d) && eqb b (d <? a)
    | Some _, inr Jump => c =? 86
    | Some _, inr Jumpi => c =? 87
    | Some _, inr _ => pure_byte false c
    | _, _ => false end).
  pose proof (decode_all P ltac:(vm_compute; reflexivity) eth false c B) as D. unfold P in D. clear P.
  destruct (arity eth c) as [[d a]|]; destruct (decode eth false c) as [e|op]; try (destruct e; discriminate D || exact I); try discriminate D.
  destruct op; try (left; exact D); try (right; left; split; [reflexivity|lia]); try (right; right; split; [reflexivity|lia]).
  rewrite !andb_true_iff in D. destruct D as ((D1 & D2) & D3). apply eqb_prop in D3. lia.
Qed.
Print Assumptions C63_user_opcodes.

(** [effect] removes and adds the number of items of the table. *)
Theorem C63_effect_arity : forall code ctx pc c s, 0 <= c < 256 -> pure_byte false c = true ->
  exists d a, a <= d + 1 /\ (forall eth, arity eth c = Some (d, a)) /\
    match effect code ctx pc c s with
    | None => Z.of_nat (length s) < d
    | Some s' => d <= Z.of_nat (length s) /\ Z.of_nat (length s') = Z.of_nat (length s) - d + a
    end.
Proof.
  intros code ctx pc c s B H.
  assert (PL : forall n x l, length (put n x l) = length l).
  { induction n; intros x [|y l]; cbn [put length]; auto. }
  assert (C : (95 <= c <= 127 \/ 128 <= c <= 143 \/ 144 <= c <= 159) \/ In c [1; 2; 3; 4; 6; 8; 9; 16; 17; 20; 21; 22; 23; 24; 25; 26; 27; 28; 80; 88; 91]).
  { unfold pure_byte in H. cbn [andb] in H. rewrite orb_false_r, orb_true_iff in H. destruct H as [H|H]; [left; lia|right]. apply existsb_exists in H. destruct H as (x & I & E). apply Z.eqb_eq in E. congruence. }
  assert (FP : forall c, 95 <= c <= 127 -> forall eth, arity eth c = Some (0, 1)).
  { intros x X eth. pose proof (decode_all (fun eth _ x => if (95 <=? x) && (x <=? 127) then match arity eth x with Some (d, a) => (d =? 0) && (a =? 1) | None => false end else true) ltac:(vm_compute; reflexivity) eth true x ltac:(lia)) as D.
    cbv beta in D. replace ((95 <=? x) && (x <=? 127)) with true in D by lia. destruct (arity eth x) as [[d a]|]; [|discriminate D]. rewrite andb_true_iff in D. do 2 f_equal; lia. }
  assert (FD : forall c, 128 <= c <= 143 -> forall eth, arity eth c = Some (c - 127, c - 126)).
  { intros x X eth. pose proof (decode_all (fun eth _ x => if (128 <=? x) && (x <=? 143) then match arity eth x with Some (d, a) => (d =? x - 127) && (a =? x - 126) | None => false end else true) ltac:(vm_compute; reflexivity) eth true x ltac:(lia)) as D.
    cbv beta in D. replace ((128 <=? x) && (x <=? 143)) with true in D by lia. destruct (arity eth x) as [[d a]|]; [|discriminate D]. rewrite andb_true_iff in D. do 2 f_equal; lia. }
  assert (FS : forall c, 144 <= c <= 159 -> forall eth, arity eth c = Some (c - 142, c - 142)).
  { intros x X eth. pose proof (decode_all (fun eth _ x => if (144 <=? x) && (x <=? 159) then match arity eth x with Some (d, a) => (d =? x - 142) && (a =? x - 142) | None => false end else true) ltac:(vm_compute; reflexivity) eth true x ltac:(lia)) as D.
    cbv beta in D. replace ((144 <=? x) && (x <=? 159)) with true in D by lia. destruct (arity eth x) as [[d a]|]; [|discriminate D]. rewrite andb_true_iff in D. do 2 f_equal; lia. }
  destruct C as [[C|[C|C]]|C].
  - exists 0, 1. split; [lia|]. split; [intros eth; apply FP, C|]. unfold effect. replace ((95 <=? c) && (c <=? 127)) with true by lia. cbn [length]. lia.
  - exists (c - 127), (c - 126). split; [lia|]. split; [intros eth; apply FD, C|]. unfold effect. replace ((95 <=? c) && (c <=? 127)) with false by lia. replace ((128 <=? c) && (c <=? 143)) with true by lia.
    destruct (nth_error s (Z.to_nat (c - 128))) eqn:E; cbn [length].
    + assert (Z.to_nat (c - 128) < length s)%nat by (apply nth_error_Some; congruence). lia.
    + apply nth_error_None in E. lia.
  - exists (c - 142), (c - 142). split; [lia|]. split; [intros eth; apply FS, C|]. unfold effect. replace ((95 <=? c) && (c <=? 127)) with false by lia. replace ((128 <=? c) && (c <=? 143)) with false by lia.
    replace ((144 <=? c) && (c <=? 159)) with true by lia. destruct s as [|x s]; [cbn [length]; lia|].
    destruct (nth_error s (Z.to_nat (c - 144))) eqn:E; cbn [length].
    + assert (Z.to_nat (c - 144) < length s)%nat by (apply nth_error_Some; congruence). rewrite PL. lia.
    + apply nth_error_None in E. lia.
  - cbn [In] in C. repeat (destruct C as [<-|C]; [do 2 eexists; split; [|split; [intros []; reflexivity|]]; [lia|]; destruct s as [|? [|? [|? ?]]]; cbn [effect andb Z.leb Z.compare Pos.compare Pos.compare_cont pop1 pop2 pop3 length]; lia|]). destruct C.
Qed.
Print Assumptions C63_effect_arity.

Section Evm.
  Context {O : Type}.
  Notation gstate := (gstate O).
  Variable keccakf : list Z -> list Z.
  Variables syscall_jumptable exception_jumptable max_code_size : Z.
  Variable eth_mainnet : bool.
  Variable keccak : list Z -> Z.
  Variable prover_input : registers -> mem_state -> O -> option (perror + Z * mem_state * O).
  Variable observe : Z -> registers -> mem_state -> O -> option (perror + O).
  Hypothesis keccak_word : forall l, word (keccak l).
  Hypothesis syscall_jumptable_pos : 0 <= syscall_jumptable.
  Hypothesis exception_jumptable_pos : 0 <= exception_jumptable.
  (** The tables are inside the address space. *)
  Hypothesis syscall_table_fits : syscall_jumptable + 256 * 3 < 2^64.
  Hypothesis exception_table_fits : exception_jumptable + 7 * 3 < 2^64.

  Notation perform_op := (perform_op O keccakf syscall_jumptable max_code_size keccak prover_input observe).
  Notation perform_state_op := (perform_state_op O keccakf syscall_jumptable max_code_size keccak prover_input observe).
  Notation try_perform_instruction := (try_perform_instruction O keccakf syscall_jumptable max_code_size eth_mainnet keccak prover_input observe).
  Notation transition := (transition O keccakf syscall_jumptable exception_jumptable max_code_size eth_mainnet keccak prover_input observe).
  Notation log := (@log O). Notation clock := (@clock O). Notation opcode := (@opcode O).
  Notation clean := (clean prover_input).

  (** The state reached by the exception [code]: the kernel, at the entry of
      the table, with the old program counter, mode and gas on the stack and all
      else as before the instruction. *)
  Definition raised (g : gstate) (code : Z) : Prop :=
    reaches (transition g) (S (clock g)) (kernel_entry g exception_jumptable code (program_counter (g_regs g))) (stack_cell (context (g_regs g))).
  Definition stops (g : gstate) (e : perror) : Prop := exists g1, transition g = Err e g1.

  Lemma try_fails : forall (g : gstate) op e, wf g -> bounded g -> decode eth_mainnet (is_kernel (g_regs g)) (opcode g) = inr op ->
    fails (prepared g op) (perform_op op (prepared g op)) e -> exists g1, try_perform_instruction g = Err e g1 /\ is_kernel (g_regs g1) = is_kernel (g_regs g).
  Proof.
    intros g op e W B D (g1 & E & K). exists g1. split; [|exact K]. rewrite try_equation.
    assert (OB : 0 <= opcode g < 256) by (eapply opcode_byte; eassumption). replace (opcode g <? 2^8) with true by lia.
    assert (TR : is_stack_top_read (g_regs g) && negb (0 <? stack_len (g_regs g)) = false) by (eapply top_read_ok; eassumption).
    rewrite D, TR. unfold MachineModel.perform_state_op, bind at 1. rewrite E. reflexivity.
  Qed.
  Lemma kernel_stops : forall (g g1 : gstate) e, try_perform_instruction g = Err e g1 -> is_kernel (g_regs g1) = true -> stops g e.
  Proof. intros g g1 e T K. exists g1. unfold MachineModel.transition. rewrite T, K. reflexivity. Qed.
  Lemma user_stops : forall (g g1 : gstate) e, wf g -> bounded g -> try_perform_instruction g = Err e g1 -> is_kernel (g_regs g1) = false -> exc_code e = None -> stops g e.
  Proof.
    intros g g1 e W B T K E.
    assert (R : exists st o, rollback O g g1 = Ok tt (mk_g (g_regs g) (g_mem g) (g_traces g) st o)) by (eapply rollback_exact; eassumption).
    destruct R as (st & o & R). unfold stops, MachineModel.transition. rewrite T, K. unfold bind. rewrite R. unfold handle_error. rewrite E. eexists. reflexivity.
  Qed.
  (** What happens to an error of an instruction. *)
  Definition rejected (g : gstate) (e : perror) : Prop :=
    if is_kernel (g_regs g) then stops g e
    else match exc_code e with Some code => raised g code | None => stops g e end.
  Lemma fails_rejected : forall (g : gstate) op e, wf g -> bounded g -> gas_used (g_regs g) < 2^32 -> decode eth_mainnet (is_kernel (g_regs g)) (opcode g) = inr op ->
    fails (prepared g op) (perform_op op (prepared g op)) e -> rejected g e.
  Proof.
    intros g op e W B G D F. destruct (try_fails g op e W B D F) as (g1 & T & K). unfold rejected.
    destruct (is_kernel (g_regs g)) eqn:KG; [apply (kernel_stops _ _ _ T), K|].
    destruct (exc_code e) as [code|] eqn:E.
    - (eapply raises; [.. | exact T | exact K | exact E]); try assumption. destruct e; cbn in E; try discriminate E; injection E as <-; lia.
    - eapply user_stops; eassumption.
  Qed.
  Lemma user_clean : forall g : gstate, bounded g -> is_kernel (g_regs g) = false -> clean g.
  Proof. intros g B K. constructor; try exact B; intros; congruence. Qed.

  (** The end of an instruction: the gas check. *)
  Definition settled (g : gstate) (v : view) (X : maddr -> Prop) : Prop :=
    if v_kernel v then reaches (transition g) (S (clock g)) v X
    else let limit := limit_of g (v_context v) in
      if limit <? 2^64 then if v_gas v <=? limit then reaches (transition g) (S (clock g)) v X else raised g 0
      else stops g IntegerTooLarge.
  Lemma ends_settled : forall (g : gstate) op v X, wf g -> bounded g -> gas_used (g_regs g) < 2^32 -> decode eth_mainnet (is_kernel (g_regs g)) (opcode g) = inr op ->
    ends (prepared g op) (perform_op op (prepared g op)) v X -> settled g (charge v (pc_increment op) (gas_to_charge op)) X.
  Proof.
    intros g op v X W B G D E. assert (T := E).
    eapply try_ends in T; try eassumption. cbv zeta in T. destruct T as (T1 & T2 & T3). unfold settled, within in *. cbn [charge v_kernel v_context] in *.
    destruct (v_kernel v); [apply T1; left; reflexivity|].
    destruct (Z.ltb_spec (limit_of g (v_context v)) (2^64)) as [L|L]; [|apply T3; [reflexivity|lia]].
    destruct (Z.leb_spec (v_gas (charge v (pc_increment op) (gas_to_charge op))) (limit_of g (v_context v))) as [G1|G1]; [apply T1; right; lia|].
    destruct T2 as (g1 & T & K); [reflexivity|lia|lia|]. unfold raised. (eapply raises; [.. | exact T | exact K | reflexivity]); try assumption. lia.
  Qed.

  Lemma pure_clean : forall g : gstate, bounded g -> pure_byte (is_kernel (g_regs g)) (opcode g) = true -> clean g.
  Proof.
    intros g B P.
    assert (N : forall c, pure_byte true c = true -> ~ (c = 33 \/ c = 248 \/ c = 252 \/ c = 238 \/ 192 <= c <= 223)).
    { intros c H I. unfold pure_byte in H. cbn [existsb andb] in H. lia. }
    constructor; try exact B; intros K; rewrite K in P; specialize (N _ P); intros; exfalso; apply N; lia.
  Qed.

  (** C63: an instruction that only works on the stack. *)
  Theorem C63_stack_instruction : forall g : gstate, wf g -> bounded g -> program_counter (g_regs g) + 33 < 2^64 -> gas_used (g_regs g) < 2^32 ->
    pure_byte (is_kernel (g_regs g)) (opcode g) = true ->
    match effect (code_byte g) (context (g_regs g)) (program_counter (g_regs g)) (opcode g) (stack g) with
    | None => rejected g StackUnderflow
    | Some s' =>
        if overflows g s' then rejected g StackOverflow
        else settled g (mk_view (program_counter (g_regs g) + width (opcode g)) (is_kernel (g_regs g)) (context (g_regs g)) (gas_used (g_regs g) + cost (opcode g)) s' (contents (g_mem g)))
               (stack_cell (context (g_regs g)))
    end.
  Proof.
    intros g W B PB G P. assert (OB : 0 <= opcode g < 256) by (eapply opcode_byte; eassumption).
    destruct (pure_decode eth_mainnet _ _ OB P) as (op & D & PO & IR & GC & PI).
    assert (CF : conforms (prepared g op) (opcode g) (perform_op op (prepared g op))).
    { eapply sem_op; try eassumption. intros K ->. rewrite K in P. cbn [pure_op] in PO. assert (X : opcode g = 246) by congruence. rewrite X in P. vm_compute in P. discriminate P. }
    unfold conforms in CF. change (code_byte (prepared g op)) with (code_byte g) in CF. change (stack (prepared g op)) with (stack g) in CF.
    change (context (g_regs (prepared g op))) with (context (g_regs g)) in CF. change (program_counter (g_regs (prepared g op))) with (program_counter (g_regs g)) in CF.
    destruct (effect _ _ _ _ _) as [s'|]; [|eapply fails_rejected; eassumption].
    change (overflows (prepared g op) s') with (overflows g s') in CF. destruct (overflows g s'); [eapply fails_rejected; eassumption|].
    apply done_ends in CF.
    - eapply ends_settled in CF; try eassumption. cbn [charge] in CF. unfold charge in CF. cbn [v_pc v_kernel v_context v_gas v_stack v_memory] in CF. rewrite GC, PI in CF. exact CF.
    - apply (wf_ctx _ W).
    - intros g2 E. assert (PF : performed (prepared g op) g2).
      { (eapply performed_op; [.. | exact D | exact E]); try eassumption. apply pure_clean; assumption. }
      destruct PF as (ops & _ & _ & _ & _ & L & _). exact L.
  Qed.

  (** * The user *)
  Definition code_of (g : gstate) (i : Z) : Z := if i <? 0 then 0 else contents (g_mem g) (mk_maddr (context (g_regs g)) SEG_CODE i).
  (** The marked JUMPDESTs of a code no longer than the limit. *)
  Definition dest_of (g : gstate) (d : Z) : bool :=
    (0 <=? d) && (d <? 2^32) && (d <=? max_code_size) && (contents (g_mem g) (mk_maddr (context (g_regs g)) SEG_JUMPDEST_BITS d) =? 1).

  Lemma charge_zero : forall v, charge v 0 0 = v.
  Proof. intros [x1 x2 x3 x4 x5 x6]. unfold charge. cbn [v_pc v_kernel v_context v_gas v_stack v_memory]. rewrite !Z.add_0_r. reflexivity. Qed.
  Lemma number_ext : forall f g n i, (forall k, i <= k -> f k = g k) -> number f i n = number g i n.
  Proof. induction n as [|n IH]; intros i H; [reflexivity|]. cbn [number]. rewrite IH by exact H. rewrite H by lia. reflexivity. Qed.
  Lemma effect_ext : forall f g ctx pc c s, (forall k, pc < k -> f k = g k) -> effect f ctx pc c s = effect g ctx pc c s.
  Proof. intros f g ctx pc c s H. unfold effect. destruct ((95 <=? c) && (c <=? 127)); [|reflexivity]. rewrite (number_ext f g) by (intros; apply H; lia). reflexivity. Qed.

  (** The offsets at which [jump_to] does more than jump. *)
  Variable special : Z -> bool.
  Hypothesis special_quiet : forall d, special d = false -> quiet observe d.

  (** One transition in user mode is one step of [user_step]. *)
  Definition follows (g : gstate) (r : user_result) : Prop :=
    match r with
    | Continue pc gas s => reaches (transition g) (S (clock g)) (mk_view pc false (context (g_regs g)) gas s (contents (g_mem g))) (stack_cell (context (g_regs g)))
    | Enter b i pc => reaches (transition g) (S (clock g)) (kernel_entry g (if b then syscall_jumptable else exception_jumptable) i pc) (stack_cell (context (g_regs g)))
    end.
  Theorem C67_user_step : forall g : gstate, wf g -> bounded g -> is_kernel (g_regs g) = false -> program_counter (g_regs g) + 33 < 2^64 -> gas_used (g_regs g) < 2^32 ->
    limit_of g (context (g_regs g)) < 2^64 -> Z.of_nat (length (stack g)) <= 1024 ->
    (forall d, target (code_of g) (program_counter (g_regs g)) (stack g) = Some d -> special d = false) ->
    follows g (user_step eth_mainnet (code_of g) (dest_of g) (context (g_regs g)) (limit_of g (context (g_regs g))) (program_counter (g_regs g)) (gas_used (g_regs g)) (stack g)).
  Proof.
    intros g W B K PB G LIM LEN Q0. assert (OB : 0 <= opcode g < 256) by (eapply opcode_byte; eassumption).
    assert (Q : forall d, target (code_of g) (program_counter (g_regs g)) (stack g) = Some d -> quiet observe d) by auto. clear Q0.
    assert (CO : code_of g (program_counter (g_regs g)) = opcode g).
    { unfold code_of, MachineStep.opcode, code_addr, code_context. rewrite K. replace (program_counter (g_regs g) <? 0) with false by (pose proof (wf_pc _ W); lia). reflexivity. }
    unfold user_step. unfold target in Q. rewrite CO in *. pose proof (C63_user_opcodes eth_mainnet (opcode g) OB) as U.
    assert (EXC : forall e code, exc_code e = Some code -> rejected g e -> follows g (Enter false code (program_counter (g_regs g)))).
    { intros e code E R. unfold rejected in R. rewrite K, E in R. exact R. }
    assert (SET : forall pc gas s, settled g (mk_view pc false (context (g_regs g)) gas s (contents (g_mem g))) (stack_cell (context (g_regs g))) ->
      follows g (if gas <=? limit_of g (context (g_regs g)) then Continue pc gas s else Enter false 0 (program_counter (g_regs g)))).
    { intros pc gas s R. unfold settled in R. cbn [v_kernel v_context v_gas] in R. replace (limit_of g (context (g_regs g)) <? 2^64) with true in R by lia. destruct (gas <=? _); exact R. }
    destruct (decode eth_mainnet false (opcode g)) as [e|op] eqn:D.
    { destruct (arity eth_mainnet (opcode g)) as [[? ?]|]; [destruct U|]. destruct e; try destruct U. cbn [follows].
      assert (T : exists g1, try_perform_instruction g = Err InvalidOpcode g1 /\ is_kernel (g_regs g1) = false).
      { rewrite try_equation. replace (opcode g <? 2^8) with true by lia. rewrite K, D. eexists. split; [reflexivity|exact K]. }
      destruct T as (g1 & T & K1). (eapply raises; [.. | exact T | exact K1 | reflexivity]); try assumption. lia. }
    assert (D' : decode eth_mainnet (is_kernel (g_regs g)) (opcode g) = inr op) by (rewrite K; exact D).
    pose proof (ready_prepared g op W B) as RD.
    destruct (arity eth_mainnet (opcode g)) as [[d a]|] eqn:AR; [|destruct U].
    assert (PURE : pure_byte false (opcode g) = true -> follows g
      (if Z.of_nat (length (stack g)) <? d then Enter false 2 (program_counter (g_regs g))
       else if (d <? a) && (1024 <=? Z.of_nat (length (stack g))) then Enter false 5 (program_counter (g_regs g))
       else if pure_byte false (opcode g) then match effect (code_of g) (context (g_regs g)) (program_counter (g_regs g)) (opcode g) (stack g) with
         | Some s' => if gas_used (g_regs g) + cost (opcode g) <=? limit_of g (context (g_regs g)) then Continue (program_counter (g_regs g) + width (opcode g)) (gas_used (g_regs g) + cost (opcode g)) s' else Enter false 0 (program_counter (g_regs g))
         | None => Enter false 2 (program_counter (g_regs g)) end else Enter true (opcode g) (program_counter (g_regs g) + 1))).
    { intros P. rewrite P. assert (P' : pure_byte (is_kernel (g_regs g)) (opcode g) = true) by (rewrite K; exact P).
      pose proof (C63_stack_instruction g W B PB G P') as S. rewrite K in S.
      assert (EE : effect (code_of g) (context (g_regs g)) (program_counter (g_regs g)) (opcode g) (stack g) = effect (code_byte g) (context (g_regs g)) (program_counter (g_regs g)) (opcode g) (stack g)).
      { apply effect_ext. intros k X. unfold code_of, code_byte, code_context. rewrite K. replace (k <? 0) with false by (pose proof (wf_pc _ W); lia). reflexivity. }
      rewrite EE. destruct (C63_effect_arity (code_byte g) (context (g_regs g)) (program_counter (g_regs g)) (opcode g) (stack g) OB P) as (d' & a' & LE & A & E).
      rewrite A in AR. assert (d' = d /\ a' = a) as [-> ->] by (split; congruence).
      destruct (effect _ _ _ _ _) as [s'|].
      - destruct E as [E1 E2]. replace (Z.of_nat (length (stack g)) <? d) with false by lia.
        assert (OV : overflows g s' = (d <? a) && (1024 <=? Z.of_nat (length (stack g)))).
        { unfold overflows. rewrite K. cbn [negb andb]. lia. }
        rewrite OV in S. destruct ((d <? a) && _); [apply (EXC StackOverflow); [reflexivity|exact S]|]. apply SET, S.
      - replace (Z.of_nat (length (stack g)) <? d) with true by lia. apply (EXC StackUnderflow); [reflexivity|exact S]. }
    assert (PURE' : pure_byte false (opcode g) = true -> opcode g <> 86 /\ opcode g <> 87).
    { intros P. split; intros X; rewrite X in P; vm_compute in P; discriminate P. }
    assert (DK : forall p, p = prepared g op -> forall x s, stack g = x :: s -> dest_ok max_code_size p x = dest_of g x).
    { intros p -> x s E. unfold dest_ok, dest_of. cbn [prepared g_regs g_mem is_kernel context]. rewrite K. cbn [orb].
      assert (0 <= x). { assert (stack_top (g_regs g) = x) by (unfold stack, stack_list in E; destruct (_ =? 0); congruence). pose proof (proj1 (wf_top _ W)). lia. }
      replace (0 <=? x) with true by lia. cbn [andb]. rewrite andb_assoc. reflexivity. }
    destruct op as [| |c n b| | | | | | | | | | | | | | | | | | | | |];
      try (destruct U as [P|[[E _]|[E _]]]; try discriminate E; destruct (PURE' P) as [N1 N2]; apply Z.eqb_neq in N1, N2; rewrite N1, N2; apply PURE, P).
    - destruct U as (-> & -> & ->).
      assert (NP : pure_byte false (opcode g) = false /\ opcode g <> 86 /\ opcode g <> 87).
      { clear - D OB. pose proof (decode_all (fun e _ c => match decode e false c with inr (Syscall _ _ _) => negb (pure_byte false c) && negb (c =? 86) && negb (c =? 87) | _ => true end) ltac:(vm_compute; reflexivity) eth_mainnet false _ OB) as X.
        cbv beta in X. rewrite D in X. rewrite !andb_true_iff, !negb_true_iff in X. destruct X as ((X1 & X2) & X3). split; [exact X1|]. split; lia. }
      destruct NP as (NP & N1 & N2). apply Z.eqb_neq in N1, N2. rewrite N1, N2, NP.
      assert (BY : bytes_at (g_mem g) (mk_maddr 0 SEG_CODE (syscall_jumptable + opcode g * 3)) 3) by (eapply bytes_code; (eassumption || lia)).
      assert (SE := syscall_ends keccakf syscall_jumptable max_code_size keccak prover_input observe keccak_word syscall_jumptable_pos _ (opcode g) d (d <? a) RD
        ltac:(lia) ltac:(lia) G BY).
      change (stack (prepared g (Syscall (opcode g) d (d <? a)))) with (stack g) in SE. change (is_kernel (g_regs (prepared g (Syscall (opcode g) d (d <? a))))) with (is_kernel (g_regs g)) in SE.
      rewrite K in SE. cbn [negb] in SE. rewrite andb_true_r in SE.
      destruct (Z.of_nat (length (stack g)) <? d); [apply (EXC StackUnderflow); [reflexivity|]; eapply fails_rejected; eassumption|].
      destruct ((d <? a) && _); [apply (EXC StackOverflow); [reflexivity|]; eapply fails_rejected; eassumption|].
      eapply ends_settled in SE; try eassumption. cbn [pc_increment gas_to_charge] in SE. rewrite charge_zero in SE. exact SE.
    - assert (E : opcode g = 86).
      { clear - D OB. pose proof (decode_all (fun e _ c => match decode e false c with inr Jump => c =? 86 | _ => true end) ltac:(vm_compute; reflexivity) eth_mainnet false _ OB) as X. cbv beta in X. rewrite D in X. lia. }
      assert (A86 : arity eth_mainnet 86 = Some (1, 0)) by (destruct eth_mainnet; reflexivity). rewrite E in AR. rewrite A86 in AR. assert (d = 1 /\ a = 0) as [-> ->] by (split; congruence). clear AR A86.
      assert (JE := jump_ends keccakf syscall_jumptable max_code_size keccak prover_input observe keccak_word _ RD). change (stack (prepared g Jump)) with (stack g) in JE. rewrite E.
      destruct (stack g) as [|x s] eqn:ST; [apply (EXC StackUnderflow); [reflexivity|]; eapply fails_rejected; eassumption|].
      rewrite (DK _ eq_refl x s eq_refl) in JE. replace (Z.of_nat (length (x :: s)) <? 1) with false by (cbn [length]; lia). cbn [Z.ltb Z.eqb Z.compare Pos.eqb andb].
      destruct (dest_of g x); [|apply (EXC InvalidJumpDestination); [reflexivity|]; eapply fails_rejected; eassumption].
      rewrite E in Q. specialize (JE (or_introl (Q x eq_refl))). apply SET. eapply ends_settled in JE; try eassumption. cbn [pc_increment gas_to_charge] in JE. unfold charge, same_but in JE.
      cbn [v_pc v_kernel v_context v_gas v_stack v_memory prepared g_regs g_mem is_kernel context gas_used] in JE. rewrite Z.add_0_r, K in JE. exact JE.
    - assert (E : opcode g = 87).
      { clear - D OB. pose proof (decode_all (fun e _ c => match decode e false c with inr Jumpi => c =? 87 | _ => true end) ltac:(vm_compute; reflexivity) eth_mainnet false _ OB) as X. cbv beta in X. rewrite D in X. lia. }
      assert (A87 : arity eth_mainnet 87 = Some (2, 0)) by (destruct eth_mainnet; reflexivity). rewrite E in AR. rewrite A87 in AR. assert (d = 2 /\ a = 0) as [-> ->] by (split; congruence). clear AR A87.
      assert (JE := jumpi_ends keccakf syscall_jumptable max_code_size keccak prover_input observe keccak_word _ RD). change (stack (prepared g Jumpi)) with (stack g) in JE. rewrite E.
      destruct (stack g) as [|x [|y s]] eqn:ST; try (apply (EXC StackUnderflow); [reflexivity|]; eapply fails_rejected; eassumption).
      rewrite (DK _ eq_refl x (y :: s) eq_refl) in JE. replace (Z.of_nat (length (x :: y :: s)) <? 2) with false by (cbn [length]; lia). cbn [Z.ltb Z.eqb Z.compare Pos.eqb andb].
      assert (FIN : forall pc, ends (prepared g Jumpi) (perform_op Jumpi (prepared g Jumpi)) (same_but (prepared g Jumpi) pc s) (stack_cell (context (g_regs g))) ->
        settled g (mk_view pc false (context (g_regs g)) (gas_used (g_regs g) + 10) s (contents (g_mem g))) (stack_cell (context (g_regs g)))).
      { intros pc F. eapply ends_settled in F; try eassumption. cbn [pc_increment gas_to_charge] in F. unfold charge, same_but in F.
        cbn [v_pc v_kernel v_context v_gas v_stack v_memory prepared g_regs g_mem is_kernel context gas_used] in F. rewrite Z.add_0_r, K in F. exact F. }
      rewrite E in Q. cbn [Z.eqb Pos.eqb] in Q. destruct (y =? 0); [apply SET, FIN, JE|].
      destruct (dest_of g x); [apply SET, FIN, JE; left; apply Q; reflexivity|]. apply (EXC InvalidJumpiDestination); [reflexivity|]. eapply fails_rejected; try eassumption. apply JE, Q. reflexivity.
  Qed.

  (** * The user's run *)
  Lemma user_step_continue : forall e code (dest : Z -> bool) ctx limit pc gas s pc' gas' s', 0 <= code pc < 256 -> 0 <= pc -> (forall x, dest x = true -> 0 <= x < 2^32) ->
    Z.of_nat (length s) <= 1024 -> user_step e code dest ctx limit pc gas s = Continue pc' gas' s' ->
    gas < gas' <= limit /\ 0 <= pc' /\ (pc' <= pc + 33 \/ pc' < 2^32) /\ Z.of_nat (length s') <= 1024.
  Proof.
    intros e code dest ctx limit pc gas s pc' gas' s' CB P DB L H. unfold user_step in H.
    destruct (arity e (code pc)) as [[d a]|] eqn:A; [|discriminate H]. destruct (Z.ltb_spec (Z.of_nat (length s)) d) as [?|D]; [discriminate H|].
    destruct ((d <? a) && (1024 <=? Z.of_nat (length s))) eqn:OV; [discriminate H|].
    assert (PAY : forall p c t, (if gas + c <=? limit then Continue p (gas + c) t else Enter false 0 pc) = Continue pc' gas' s' -> gas + c <= limit /\ pc' = p /\ gas' = gas + c /\ s' = t).
    { intros p c t E. destruct (Z.leb_spec (gas + c) limit); [|discriminate E]. injection E as <- <- <-. auto. }
    assert (GEN : (if pure_byte false (code pc) then match effect code ctx pc (code pc) s with Some s' => if gas + cost (code pc) <=? limit then Continue (pc + width (code pc)) (gas + cost (code pc)) s' else Enter false 0 pc | None => Enter false 2 pc end
       else Enter true (code pc) (pc + 1)) = Continue pc' gas' s' -> gas < gas' <= limit /\ 0 <= pc' /\ (pc' <= pc + 33 \/ pc' < 2^32) /\ Z.of_nat (length s') <= 1024).
    { clear H. intros H. destruct (pure_byte false (code pc)) eqn:PB; [|discriminate H].
      destruct (C63_effect_arity code ctx pc (code pc) s CB PB) as (d' & a' & LE & A' & EF). rewrite A' in A. assert (d' = d /\ a' = a) as [-> ->] by (split; congruence).
      destruct (effect code ctx pc (code pc) s) as [t|]; [|discriminate H]. apply PAY in H. destruct H as (G & -> & -> & ->).
      assert (CW : 1 <= cost (code pc) /\ 1 <= width (code pc) <= 33).
      { pose proof (decode_all (fun _ _ c => if pure_byte false c then (1 <=? cost c) && (1 <=? width c) && (width c <=? 33) else true) ltac:(vm_compute; reflexivity) true true _ CB) as X. cbv beta in X. rewrite PB in X. lia. }
      lia. }
    destruct (Z.eq_dec (code pc) 86) as [E|N1].
    { rewrite E in A, H. assert (A86 : arity e 86 = Some (1, 0)) by (destruct e; reflexivity). rewrite A86 in A. assert (d = 1) as -> by congruence. destruct s as [|x s]; [cbn [length] in D; lia|].
      destruct (dest x) eqn:DX; [|discriminate H]. apply PAY in H. destruct H as (G & -> & -> & ->). apply DB in DX. cbn [length] in L. lia. }
    destruct (Z.eq_dec (code pc) 87) as [E|N2].
    { rewrite E in A, H. assert (A87 : arity e 87 = Some (2, 0)) by (destruct e; reflexivity). rewrite A87 in A. assert (d = 2) as -> by congruence. destruct s as [|x [|y s]]; [cbn [length] in D; lia..|]. cbn [length] in L.
      destruct (y =? 0); [apply PAY in H; destruct H as (G & -> & -> & ->); lia|]. destruct (dest x) eqn:DX; [|discriminate H]. apply PAY in H. destruct H as (G & -> & -> & ->). apply DB in DX. lia. }
    apply Z.eqb_neq in N1, N2. rewrite N1, N2 in H. apply GEN, H.
  Qed.
  Lemma user_step_enter : forall e code dest ctx limit pc gas s b i r, 0 <= code pc -> user_step e code dest ctx limit pc gas s = Enter b i r -> 0 <= i.
  Proof.
    intros e code dest ctx limit pc gas s b i r CB H. unfold user_step in H.
    assert (IN : forall b' i' r', 0 <= i' -> Enter b' i' r' = Enter b i r -> 0 <= i) by (intros; congruence).
    repeat match type of H with
    | Enter _ _ _ = _ => revert H; apply IN; lia
    | Continue _ _ _ = _ => discriminate H
    | (if ?x then _ else _) = _ => destruct x
    | match ?x with _ => _ end = _ => destruct x
    end.
  Qed.
  Lemma user_step_ext : forall e code code' dest dest' ctx limit pc gas s, (forall x, code x = code' x) -> (forall x, dest x = dest' x) ->
    user_step e code dest ctx limit pc gas s = user_step e code' dest' ctx limit pc gas s.
  Proof.
    intros e code code' dest dest' ctx limit pc gas s C D. unfold user_step. rewrite C. rewrite (effect_ext code code') by auto.
    destruct s as [|x [|y s]]; rewrite ?D; reflexivity.
  Qed.
  Lemma user_run_ext : forall e code code' dest dest' ctx limit, (forall x, code x = code' x) -> (forall x, dest x = dest' x) ->
    forall n pc gas s, user_run n e code dest ctx limit pc gas s = user_run n e code' dest' ctx limit pc gas s.
  Proof.
    intros e code code' dest dest' ctx limit C D. induction n as [|n IH]; intros pc gas s; [reflexivity|]. cbn [user_run].
    rewrite (user_step_ext e code code' dest dest') by assumption. destruct (user_step _ _ _ _ _ _ _ _); [rewrite IH|]; reflexivity.
  Qed.

  Lemma avoids_ext : forall e code code' dest dest' ctx limit, (forall x, code x = code' x) -> (forall x, dest x = dest' x) ->
    forall n pc gas s, avoids special n e code dest ctx limit pc gas s -> avoids special n e code' dest' ctx limit pc gas s.
  Proof.
    intros e code code' dest dest' ctx limit C D. induction n as [|n IH]; intros pc gas s; [trivial|]. cbn [avoids].
    rewrite (user_step_ext e code code' dest dest') by assumption. unfold target. rewrite C. intros [H1 H2]. split; [exact H1|]. destruct (user_step _ _ _ _ _ _ _ _); [apply IH, H2|exact I].
  Qed.

  Fixpoint steps (n : nat) (g : gstate) : outcome O unit :=
    match n with 0%nat => Ok tt g | S n => match transition g with Ok _ g' => steps n g' | r => r end end.

  (** The code and the jump destinations the user sees are those of the start,
      as no step of the user writes outside the stack. *)
  Definition run_of (fuel : nat) (g : gstate) : option (nat * (bool * Z * Z) * Z * list Z) :=
    user_run fuel eth_mainnet (code_of g) (dest_of g) (context (g_regs g)) (limit_of g (context (g_regs g))) (program_counter (g_regs g)) (gas_used (g_regs g)) (stack g).
  Definition avoiding (fuel : nat) (g : gstate) : Prop :=
    avoids special fuel eth_mainnet (code_of g) (dest_of g) (context (g_regs g)) (limit_of g (context (g_regs g))) (program_counter (g_regs g)) (gas_used (g_regs g)) (stack g).
  Definition arrival (g : gstate) (b : bool) (i r gas : Z) (s : list Z) : view :=
    mk_view (table_entry (fun k => contents (g_mem g) (mk_maddr 0 SEG_CODE k)) (if b then syscall_jumptable else exception_jumptable) i) true (context (g_regs g)) 0 (info r false gas :: s) (contents (g_mem g)).

  Lemma user_run_follows : forall fuel (g : gstate), wf g -> bounded g -> is_kernel (g_regs g) = false ->
    let limit := limit_of g (context (g_regs g)) in
    gas_used (g_regs g) <= limit < 2^32 -> Z.of_nat (length (stack g)) <= 1024 -> program_counter (g_regs g) + 33 * (limit - gas_used (g_regs g) + 1) < 2^64 ->
    (Z.to_nat (limit - gas_used (g_regs g)) < fuel)%nat -> avoiding fuel g ->
    exists n b i r gas s, run_of fuel g = Some (n, (b, i, r), gas, s) /\ (n <= fuel)%nat /\ 0 <= i /\
      reaches (steps n g) (n + clock g) (arrival g b i r gas s) (stack_cell (context (g_regs g))).
  Proof.
    induction fuel as [|fuel IH]; intros g W B K limit G L P F A; [lia|].
    assert (OB : 0 <= opcode g < 256) by (eapply opcode_byte; eassumption).
    assert (CO : code_of g (program_counter (g_regs g)) = opcode g).
    { unfold code_of, MachineStep.opcode, code_addr, code_context. rewrite K. replace (program_counter (g_regs g) <? 0) with false by (pose proof (wf_pc _ W); lia). reflexivity. }
    destruct A as [A1 A2]. fold limit in A2.
    assert (Q : forall d, target (code_of g) (program_counter (g_regs g)) (stack g) = Some d -> special d = false) by (intros d X; rewrite X in A1; exact A1).
    pose proof (C67_user_step g W B K ltac:(lia) ltac:(lia) ltac:(lia) L Q) as U. fold limit in U. unfold run_of. cbn [user_run]. fold limit.
    destruct (user_step _ _ _ _ _ _ _ _) as [pc' gas' s'|b i r] eqn:E.
    - assert (CB : 0 <= code_of g (program_counter (g_regs g)) < 256) by (rewrite CO; exact OB).
      assert (DB : forall x, dest_of g x = true -> 0 <= x < 2^32) by (intros x X; unfold dest_of in X; lia).
      destruct (user_step_continue _ _ _ _ _ _ _ _ _ _ _ CB (wf_pc _ W) DB L E) as (G' & P0 & P' & L').
      cbn [follows] in U. destruct U as (g' & T & CL & S1 & S2 & S3 & S4 & S5 & S6). cbn [v_pc v_kernel v_context v_gas v_stack v_memory] in *.
      assert (ST : stepped g g') by ((eapply transition_step; [.. | exact T]); try eassumption; apply user_clean; assumption).
      assert (W' : wf g') by (destruct ST as (m & ops & ? & ? & ? & ? & ? & W'); exact W').
      assert (MEM : forall sg v, sg <> 1 -> 0 <= sg < 39 -> 0 <= v -> forall c, 0 <= c -> contents (g_mem g') (mk_maddr c sg v) = contents (g_mem g) (mk_maddr c sg v)).
      { intros sg v N R V c C0. destruct (S6 (mk_maddr c sg v)) as [[X _]|X]; [unfold valid_addr; cbn [a_context a_segment a_virt]; lia|cbn [a_segment] in X; lia|exact X]. }
      assert (LIM : limit_of g' (context (g_regs g')) = limit).
      { unfold limit, limit_of. rewrite S3. apply MEM; unfold SEG_CONTEXT_METADATA, CTX_GAS_LIMIT; try lia. apply (wf_ctx _ W). }
      assert (CE : forall x, code_of g' x = code_of g x).
      { intros x. unfold code_of. rewrite S3. destruct (Z.ltb_spec x 0); [reflexivity|]. apply MEM; unfold SEG_CODE; try lia. apply (wf_ctx _ W). }
      assert (DE : forall x, dest_of g' x = dest_of g x).
      { intros x. unfold dest_of. rewrite S3. destruct (Z.leb_spec 0 x); [|reflexivity]. pose proof (wf_ctx _ W). rewrite MEM; unfold SEG_JUMPDEST_BITS; try lia. }
      assert (B' : bounded g').
      { constructor.
        - rewrite S1. lia.
        - assert (X := stack_list_length (contents (g_mem g')) (context (g_regs g')) (stack_len (g_regs g')) (stack_top (g_regs g')) (wf_len _ W')). change (stack_list _ _ _ _) with (stack g') in X. rewrite S5 in X. lia.
        - rewrite S3. apply (bd_ctx _ B).
        - intros a V SG. destruct (S6 a V) as [[X _]|X]; [unfold SEG_CODE in SG; lia|]. rewrite X. apply (bd_code _ B); assumption. }
      pose proof (wf_gas _ W) as G0. destruct (IH g' W' B' S2) as (n & b & i & r & gas & s & RUN & NF & I0 & RE); rewrite ?LIM, ?S4, ?S5, ?S1; try lia.
      { unfold avoiding. rewrite LIM, S1, S3, S4, S5. eapply avoids_ext; [| |exact A2]; intros; symmetry; auto. }
      unfold run_of in RUN. rewrite LIM, S1, S3, S4, S5 in RUN. rewrite (user_run_ext _ _ _ _ _ _ _ CE DE) in RUN. rewrite RUN.
      exists (S n), b, i, r, gas, s. split; [reflexivity|]. split; [lia|]. split; [exact I0|].
      destruct RE as (h & H1 & H2 & H3). exists h. split; [cbn [steps]; rewrite T; exact H1|]. split; [rewrite H2, CL; lia|].
      unfold shows in *. unfold arrival in *. cbn [v_pc v_kernel v_context v_gas v_stack v_memory] in *. destruct H3 as (J1 & J2 & J3 & J4 & J5 & J6).
      split; [rewrite J1; unfold table_entry; apply number_ext; intros k KX; apply MEM; unfold SEG_CODE; destruct b; lia|].
      split; [exact J2|]. split; [congruence|]. split; [exact J4|]. split; [exact J5|].
      intros a V. rewrite S3 in J6. destruct (J6 a V) as [X|X]; [left; exact X|]. destruct (S6 a V) as [Y|Y]; [left; exact Y|right; congruence].
    - exists 1%nat, b, i, r, (gas_used (g_regs g)), (stack g). split; [reflexivity|]. split; [lia|]. split; [apply user_step_enter in E; [exact E|rewrite CO; lia]|].
      cbn [follows] in U. destruct U as (g' & T & CL & S). exists g'. cbn [steps]. rewrite T. split; [reflexivity|]. split; [exact CL|].
      unfold arrival. unfold kernel_entry in S. rewrite K in S. exact S.
  Qed.

  (** C67: from any state in user mode the machine runs as [user_step] says
      until it enters the kernel, which it does after at most one transition
      for each unit of gas left, and one; by then no memory has changed except in
      the cells of the user's own stack. *)
  Theorem C67_user_run : forall g : gstate, wf g -> bounded g -> is_kernel (g_regs g) = false ->
    let limit := limit_of g (context (g_regs g)) in
    gas_used (g_regs g) <= limit < 2^32 -> Z.of_nat (length (stack g)) <= 1024 -> program_counter (g_regs g) < 2^32 ->
    avoiding (S (Z.to_nat (limit - gas_used (g_regs g)))) g ->
    exists n b i r gas s, run_of (S (Z.to_nat (limit - gas_used (g_regs g)))) g = Some (n, (b, i, r), gas, s) /\
      Z.of_nat n <= limit - gas_used (g_regs g) + 1 /\
      reaches (steps n g) (n + clock g) (arrival g b i r gas s) (stack_cell (context (g_regs g))).
  Proof.
    intros g W B K limit G L P A. pose proof (wf_gas _ W).
    destruct (user_run_follows (S (Z.to_nat (limit - gas_used (g_regs g)))) g W B K G L) as (n & b & i & r & gas & s & R & N & _ & RE); fold limit; try lia; try exact A.
    exists n, b, i, r, gas, s. split; [exact R|]. split; [lia|exact RE].
  Qed.
End Evm.
Print Assumptions C63_stack_instruction.
Print Assumptions C67_user_step.
Print Assumptions C67_user_run.
