(** The instructions of MachineModel.v that transfer control, switch contexts or
    access the memory, as functions of what the program sees. *)
From Coq Require Import ZArith List Bool Lia ZifyBool.
From Verif Require Import Stark.ArithModel Stark.LogicModel Witness.MemoryModel Witness.MachineModel Witness.MemoryProps Witness.MachineSpec
  Witness.MachineLemmas Witness.MachineLog Witness.MachineStep Witness.MachineRun Witness.EvmSpec Witness.MachineSem Witness.MachineView.
Import ListNotations.
Local Open Scope Z_scope.

(** * Runs of cells *)
Lemma cells_list : forall c sg n i, 0 <= i -> i + Z.of_nat n < 2^64 -> cells (mk_maddr c sg i) n = map (fun k => mk_maddr c sg (i + Z.of_nat k)) (seq 0 n).
Proof.
  induction n as [|n IH]; intros i I B; [reflexivity|]. cbn [cells seq map]. f_equal; [f_equal; lia|].
  unfold increment. cbn [a_context a_segment a_virt]. replace (Z.min (i + 1) (2^64 - 1)) with (i + 1) by lia. rewrite IH by lia.
  rewrite <- seq_shift, map_map. apply map_ext. intros k. f_equal. lia.
Qed.
Lemma read_cells : forall m c sg n i, 0 <= i -> i + Z.of_nat n < 2^64 -> bytes_at m (mk_maddr c sg i) n -> (forall k, 0 <= contents m (mk_maddr c sg (i + Z.of_nat k))) ->
  map (fun a => as_byte (mread m a)) (cells (mk_maddr c sg i) n) = map (fun k => contents m (mk_maddr c sg (i + Z.of_nat k))) (seq 0 n).
Proof.
  intros m c sg n i I B BY POS. unfold bytes_at in BY. rewrite cells_list in * by lia. rewrite map_map. apply map_ext_in. intros k K.
  rewrite mread_contents. apply as_byte_id. unfold byte. rewrite Forall_forall in BY. split; [apply POS|]. apply BY. apply in_map_iff. exists k. auto.
Qed.
Lemma number_list : forall f i n, from_big_endian (map (fun k => f (i + Z.of_nat k)) (seq 0 n)) = number f i n.
Proof.
  intros f i n. unfold from_big_endian. induction n as [|n IH]; [reflexivity|]. rewrite seq_S, map_app, fold_left_app, IH. cbn [map fold_left number plus]. reflexivity.
Qed.

Lemma after_bytes_written : forall t c sg l i f a, 0 <= i -> i + Z.of_nat (length l) < 2^64 ->
  after f (byte_ops MWrite t (mk_maddr c sg i) l) a =
  if (a_context a =? c) && (a_segment a =? sg) && (i <=? a_virt a) && (a_virt a <? i + Z.of_nat (length l)) then nth (Z.to_nat (a_virt a - i)) l 0 else f a.
Proof.
  intros t c sg l. induction l as [|x l IH]; intros i f a I B.
  - cbn [length]. destruct (_ && _) eqn:E; [lia|reflexivity].
  - unfold byte_ops. cbn [length cells combine map after mo_kind mo_address mo_value fst snd]. fold (byte_ops MWrite t (increment (mk_maddr c sg i)) l).
    cbn [length] in B. unfold increment. cbn [a_context a_segment a_virt]. replace (Z.min (i + 1) (2^64 - 1)) with (i + 1) by lia. rewrite IH by lia.
    unfold upd, maddr_eqb. cbn [a_context a_segment a_virt].
    destruct ((a_context a =? c) && (a_segment a =? sg)) eqn:E; cbn [andb].
    + destruct (Z.eqb_spec (a_virt a) i) as [->|N].
      * replace ((i + 1 <=? i) && _) with false by lia. replace ((i <=? i) && _) with true by lia. rewrite Z.sub_diag. reflexivity.
      * destruct (Z.leb_spec (i + 1) (a_virt a)) as [L|L]; cbn [andb].
        -- replace (i <=? a_virt a) with true by lia. cbn [andb]. replace (a_virt a <? i + 1 + Z.of_nat (length l)) with (a_virt a <? i + Z.of_nat (S (length l))) by lia.
           destruct (a_virt a <? i + Z.of_nat (S (length l))); [|reflexivity]. replace (Z.to_nat (a_virt a - i)) with (S (Z.to_nat (a_virt a - (i + 1)))) by lia. reflexivity.
        -- replace (i <=? a_virt a) with false by lia. reflexivity.
    + reflexivity.
Qed.
Lemma be_bytes_nth : forall v n j, (j < n)%nat -> nth j (be_bytes v n) 0 = (v / 256 ^ (Z.of_nat n - 1 - Z.of_nat j)) mod 256.
Proof.
  intros v n j H. unfold be_bytes. rewrite rev_nth by (rewrite map_length, seq_length; exact H). rewrite map_length, seq_length.
  rewrite nth_indep with (d' := (fun i => (v / 2 ^ (8 * Z.of_nat i)) mod 2^8) O) by (rewrite map_length, seq_length; lia).
  rewrite map_nth with (f := fun i => (v / 2 ^ (8 * Z.of_nat i)) mod 2^8). rewrite seq_nth by lia. change (2^8) with 256. rewrite Z.pow_mul_r by lia. change (2^8) with 256. do 3 f_equal. lia.
Qed.

Section Control.
  Context {O : Type}.
  Notation gstate := (gstate O).
  Variable keccakf : list Z -> list Z.
  Variables syscall_jumptable exception_jumptable max_code_size : Z.
  Variable eth_mainnet : bool.
  Variable keccak : list Z -> Z.
  Variable prover_input : registers -> mem_state -> O -> option (perror + Z * mem_state * O).
  Variable observe : Z -> registers -> mem_state -> O -> option (perror + O).
  Hypothesis keccak_word : forall l, word (keccak l).
  Hypothesis syscall_jumptable_pos : 0 <= syscall_jumptable.
  Hypothesis exception_jumptable_pos : 0 <= exception_jumptable.

  Notation perform_op := (perform_op O keccakf syscall_jumptable max_code_size keccak prover_input observe).
  Notation perform_state_op := (perform_state_op O keccakf syscall_jumptable max_code_size keccak prover_input observe).
  Notation try_perform_instruction := (try_perform_instruction O keccakf syscall_jumptable max_code_size eth_mainnet keccak prover_input observe).
  Notation transition := (transition O keccakf syscall_jumptable exception_jumptable max_code_size eth_mainnet keccak prover_input observe).
  Notation log := (@log O). Notation clock := (@clock O). Notation opcode := (@opcode O).

  Ltac mcbv := cbv beta iota zeta delta [
    bind ret fail panic gets guard assert get_regs set_regs set_pc set_stack set_top_read set_check_overflow MachineModel.set_context set_mode
    on_traces push_cpu push_logic push_logics push_arithmetic push_memory push_memories push_byte_packing push_sponge
    u256_to_usize bundle new_op mem_read_with_log mem_write_log push_no_write push_with_write pop_prologue pop_epilogue
    stack_pop1 stack_pop2 stack_pop3 keccak_sponge_log byte_unpacking_log read_bytes
    base_row fill_stack_fields
    program_counter is_kernel stack_len stack_top is_stack_top_read check_overflow context gas_used
    g_regs g_mem g_traces g_stale g_oracle t_arithmetic t_byte_packing t_clock t_logic t_memory t_sponge
    fst snd
    stack_addr code_context MachineStep.clock MachineStep.log stack code_byte overflows code_log top_log add_log flagged prepared MachineStep.opcode code_addr].
  Tactic Notation "mcbv" "in" hyp(H) := cbv beta iota zeta delta [
    bind ret fail panic gets guard assert get_regs set_regs set_pc set_stack set_top_read set_check_overflow MachineModel.set_context set_mode
    on_traces push_cpu push_logic push_logics push_arithmetic push_memory push_memories push_byte_packing push_sponge
    u256_to_usize bundle new_op mem_read_with_log mem_write_log push_no_write push_with_write pop_prologue pop_epilogue
    stack_pop1 stack_pop2 stack_pop3 keccak_sponge_log byte_unpacking_log read_bytes
    base_row fill_stack_fields
    program_counter is_kernel stack_len stack_top is_stack_top_read check_overflow context gas_used
    g_regs g_mem g_traces g_stale g_oracle t_arithmetic t_byte_packing t_clock t_logic t_memory t_sponge
    fst snd
    stack_addr code_context MachineStep.clock MachineStep.log stack code_byte overflows code_log top_log add_log flagged prepared MachineStep.opcode code_addr] in H.


  Ltac addr := unfold valid_addr, stack_addr, SEG_STACK, SEG_CODE, SEG_CONTEXT_METADATA, SEG_SHIFT_TABLE, SEG_JUMPDEST_BITS, CTX_STACK_SIZE in *;
    cbn [mo_address a_context a_segment a_virt stack_len context] in *; lia.
  Ltac open p RD :=
      destruct p as [[pc k len top tr co ctx gas] m [ta tb tc tl tm ts] st o];
      destruct RD as [RPC RLEN RCTX RGAS RTOP RMEM RWORDS RREAD];
      mcbv in RPC; mcbv in RLEN; mcbv in RCTX; mcbv in RGAS; mcbv in RTOP; mcbv in RMEM; mcbv in RWORDS; mcbv in RREAD;
      cbn [special_length] in RREAD; subst tr.

  Ltac unf := cbv beta iota zeta delta [MachineModel.perform_op
      generate_binary_logic_op generate_binary_arithmetic_op generate_ternary_arithmetic_op generate_keccak_general generate_pop generate_pc
      generate_jumpdest generate_get_context generate_set_context generate_push generate_dup generate_swap generate_not generate_iszero
      generate_shl generate_shr append_shift generate_syscall enter_kernel generate_eq generate_exit_kernel generate_mload_general generate_mload_32bytes
      generate_mstore_general generate_mstore_32bytes generate_jump generate_jumpi jump_to]; mcbv.
  Ltac under := eexists; split; [reflexivity|reflexivity].
  Ltac fall := repeat (apply Forall_cons; [|]); try apply Forall_nil.
  Ltac ok ops := eexists _, ops; split; [reflexivity|]; split; [reflexivity|]; split; [mcbv; rewrite <- ?app_assoc, ?app_nil_r; reflexivity|];
    split; [reflexivity|]; split; [reflexivity|]; split; [reflexivity|];
    split; [fall; (split; [addr|cbn [mo_kind mo_address a_segment a_context]; intros; (discriminate || (split; reflexivity))])
           |split; [|split; [reflexivity|split; [reflexivity|split; reflexivity]]]].
  Ltac nogrow := erewrite no_growth; [|apply stack_list_length; lia|apply stack_list_length; lia|lia].


  Ltac fin := cbn [v_pc v_kernel v_context v_gas v_stack v_memory].
  (** [ends] with the log [ops] of reads and of writes to the stack. *)
  Ltac ends_with ops :=
    eexists _, ops; fin; split; [reflexivity|]; split; [reflexivity|]; split; [mcbv; rewrite <- ?app_assoc, ?app_nil_r; reflexivity|]; split; [reflexivity|];
    split; [fall; cbn [mo_address]; try addr|]; split; [mcbv; try lia|]; split; [mcbv; try lia|]; split; [mcbv; cbn [after mo_kind mo_address mo_value]|];
    [|split; [try reflexivity|split; [try reflexivity|split; [try reflexivity|split; [try reflexivity|cbn [after mo_kind mo_address mo_value]; try (intros; right; reflexivity)]]]]].
  (** The stack without its first elements. *)
  Lemma tail1 : forall f c len top, 1 <= len ->
    stack_list f c len top = top :: stack_list f c (len - 1) (f (mk_maddr c 1 (len - 1 - 1))).
  Proof.
    intros. rewrite stack_list_pos by lia. f_equal. unfold stack_list. destruct (Z.eqb_spec (len - 1) 0) as [E|E]; [rewrite E; reflexivity|].
    rewrite slots_pos by lia. reflexivity.
  Qed.
  Lemma tail2 : forall f c len top, 2 <= len ->
    stack_list f c len top = top :: f (mk_maddr c 1 (len - 1 - 1)) :: stack_list f c (len - 2) (f (mk_maddr c 1 (len - 1 - 2))).
  Proof.
    intros. rewrite tail1, tail1 by lia. replace (len - 1 - 1) with (len - 2) by lia. replace (len - 2 - 1) with (len - 1 - 2) by lia. reflexivity.
  Qed.
  Lemma stack_list_zero : forall f c x y, stack_list f c 0 x = stack_list f c 0 y.
  Proof. reflexivity. Qed.

  (** The destinations of a jump: the kernel may go anywhere below 2^32, the
      user to a marked JUMPDEST of a code no longer than the limit. *)
  Definition dest_ok (g : gstate) (dst : Z) : bool :=
    (dst <? 2^32) && (is_kernel (g_regs g) || (dst <=? max_code_size) && (contents (g_mem g) (mk_maddr (context (g_regs g)) SEG_JUMPDEST_BITS dst) =? 1)).
  (** The special handling of [jump_to] raises no error at [dst]. *)
  Definition quiet (dst : Z) : Prop := forall r m o, exists o', observe dst r m o = Some (inr o').
  Definition same_but (g : gstate) (pc : Z) (s : list Z) : view :=
    mk_view pc (is_kernel (g_regs g)) (context (g_regs g)) (gas_used (g_regs g)) s (contents (g_mem g)).

  Ltac obs := match goal with |- context [observe ?a ?b ?c ?d] => destruct (observe a b c d) as [[?|?]|] eqn:EO;
      [intros [Q|[g2 Q]]; [destruct (Q b c d); congruence|discriminate Q]| |intros [Q|[g2 Q]]; [destruct (Q b c d); congruence|discriminate Q]] end.
  Lemma jump_ends : forall p, ready p Jump ->
    match stack p with
    | dst :: s => if dest_ok p dst then (quiet dst \/ exists g2, perform_op Jump p = Ok tt g2) -> ends p (perform_op Jump p) (same_but p dst s) (stack_cell (context (g_regs p))) else fails p (perform_op Jump p) InvalidJumpDestination
    | [] => fails p (perform_op Jump p) StackUnderflow
    end.
  Proof.
    intros p RD. unfold same_but, dest_ok. open p RD. mcbv. pose proof (proj1 RTOP) as T0. destruct (Z.leb_spec 1 len) as [L|L].
    - rewrite tail1 by lia. assert (LE : (1 <=? len) = true) by lia. unf. rewrite LE. unf.
      set (T := contents m (mk_maddr ctx 1 (len - 1 - 1))).
      assert (TE : mread m (mk_maddr ctx SEG_STACK (len - 1 - 1)) = T) by reflexivity.
      set (J := contents m (mk_maddr ctx SEG_JUMPDEST_BITS top)).
      assert (JE : mread m (mk_maddr ctx SEG_JUMPDEST_BITS top) = J) by reflexivity.
      destruct (len =? 1) eqn:L1; unf; rewrite ?TE; (destruct (top <? 2^32) eqn:D1; unf; cbn [andb]; [|under]);
        (destruct k; cbn [orb]; unf; [|destruct (top <=? max_code_size) eqn:D2; cbn [andb]; unf; [|under]; rewrite ?JE; destruct (J =? 1) eqn:D3; unf; [|under]]).
      + intros Q. ends_with (@nil mop). replace (len - 1) with 0 by lia. reflexivity.
      + intros Q. ends_with [mk_mop (stamp (ChGP 2) tc) (mk_maddr ctx SEG_JUMPDEST_BITS top) MRead J]. replace (len - 1) with 0 by lia. reflexivity.
      + destruct (len - 1 =? 0) eqn:L0; [lia|]. unf. obs. unf. intros Q.
        ends_with (@nil mop). reflexivity.
      + destruct (len - 1 =? 0) eqn:L0; [lia|]. unf. obs. unf. intros Q.
        ends_with [mk_mop (stamp (ChGP 2) tc) (mk_maddr ctx SEG_JUMPDEST_BITS top) MRead J]. reflexivity.
    - assert (len = 0) as -> by lia. unf. under.
  Qed.
  Lemma jumpi_ends : forall p, ready p Jumpi ->
    match stack p with
    | dst :: cond :: s =>
        if cond =? 0 then ends p (perform_op Jumpi p) (same_but p (program_counter (g_regs p) + 1) s) (stack_cell (context (g_regs p)))
        else if dest_ok p dst then (quiet dst \/ exists g2, perform_op Jumpi p = Ok tt g2) -> ends p (perform_op Jumpi p) (same_but p dst s) (stack_cell (context (g_regs p)))
        else (quiet dst -> fails p (perform_op Jumpi p) InvalidJumpiDestination) /\ forall g2, perform_op Jumpi p <> Ok tt g2
    | _ => fails p (perform_op Jumpi p) StackUnderflow
    end.
  Proof.
    intros p RD. unfold same_but, dest_ok. open p RD. mcbv. pose proof (proj1 RTOP) as T0. destruct (Z.leb_spec 2 len) as [L|L].
    - rewrite tail2 by lia. assert (LE : (2 <=? len) = true) by lia. unf. rewrite LE. unf.
      set (C := contents m (mk_maddr ctx 1 (len - 1 - 1))).
      assert (CE : mread m (mk_maddr ctx SEG_STACK (len - 1 - 1)) = C) by reflexivity.
      set (T := contents m (mk_maddr ctx 1 (len - 1 - 2))).
      assert (TE : mread m (mk_maddr ctx SEG_STACK (len - 1 - 2)) = T) by reflexivity.
      set (J := contents m (mk_maddr ctx SEG_JUMPDEST_BITS top)).
      assert (JE : top < 2^32 -> mread m (mk_maddr ctx SEG_JUMPDEST_BITS (low_u32 top)) = J).
      { intros B. unfold low_u32. rewrite Z.mod_small by (destruct RTOP; lia). reflexivity. }
      assert (JE2 : mread m (mk_maddr ctx SEG_JUMPDEST_BITS top) = J) by reflexivity.
      assert (AE : top < 2^32 -> low_u32 top = top) by (intros B; apply Z.mod_small; destruct RTOP; lia).
      destruct (len =? 2) eqn:L1; unf; rewrite ?TE, ?CE; (destruct (C =? 0) eqn:C0; cbn [negb]; unf; cbn [orb]; unf).
      + ends_with [mk_mop (stamp (ChGP 1) tc) (mk_maddr ctx SEG_STACK (len - 1 - 1)) MRead C]. replace (len - 2) with 0 by lia. reflexivity.
      + (destruct (top <? 2^32) eqn:D1; unf; cbn [andb]; [|split; [intros _; under|intros; discriminate]]). rewrite ?JE, ?AE, ?JE2 by lia.
        destruct k; cbn [orb]; unf.
        * intros Q. ends_with [mk_mop (stamp (ChGP 1) tc) (mk_maddr ctx SEG_STACK (len - 1 - 1)) MRead C]. replace (len - 2) with 0 by lia. reflexivity.
        * destruct (top <=? max_code_size) eqn:D2; cbn [andb]; unf; [|split; [intros _; under|intros; discriminate]]. change (0 =? 0) with true. unf. rewrite ?JE, ?AE, ?JE2 by lia. destruct (J =? 1) eqn:D3; unf; [|split; [intros _; under|intros; discriminate]]. intros Q.
          ends_with [mk_mop (stamp (ChGP 2) tc) (mk_maddr ctx SEG_JUMPDEST_BITS top) MRead J; mk_mop (stamp (ChGP 1) tc) (mk_maddr ctx SEG_STACK (len - 1 - 1)) MRead C].
          replace (len - 2) with 0 by lia. reflexivity.
      + ends_with [mk_mop (stamp (ChGP 1) tc) (mk_maddr ctx SEG_STACK (len - 1 - 1)) MRead C]. reflexivity.
      + (destruct (top <? 2^32) eqn:D1; unf; cbn [andb]; [|split; [intros _; under|intros; discriminate]]).
        destruct k; cbn [orb]; unf.
        * destruct (len - 2 =? 0) eqn:L0; [lia|]. unf. obs. unf. intros Q.
          ends_with [mk_mop (stamp (ChGP 1) tc) (mk_maddr ctx SEG_STACK (len - 1 - 1)) MRead C]. reflexivity.
        * destruct (top <=? max_code_size) eqn:D2; cbn [andb]; unf; [|split; [intros _; under|intros; discriminate]]. 
          destruct (len - 2 =? 0) eqn:L0; [lia|]. unf.
          destruct (J =? 1) eqn:D3; unf.
          2:{ match goal with |- context [observe ?a ?b ?c ?d] => destruct (observe a b c d) as [[?|?]|] eqn:EO;
              [split; [intros Q; destruct (Q b c d); congruence|intros; discriminate]| |split; [intros Q; destruct (Q b c d); congruence|intros; discriminate]] end.
              unf. rewrite ?JE, ?AE, ?JE2 by lia. rewrite D3. unf. split; [intros _; under|intros; discriminate]. }
          obs. unf. rewrite ?JE, ?AE, ?JE2 by lia. rewrite D3. unf. intros Q.
          ends_with [mk_mop (stamp (ChGP 2) tc) (mk_maddr ctx SEG_JUMPDEST_BITS top) MRead J; mk_mop (stamp (ChGP 1) tc) (mk_maddr ctx SEG_STACK (len - 1 - 1)) MRead C].
          reflexivity.
    - unfold stack_list. destruct (Z.eqb_spec len 0) as [->|]; [unf; under|]. assert (len = 1) as -> by lia. unf. under.
  Qed.

  (** * Entering and leaving the kernel *)
  Lemma syscall_ends : forall p c n (b : bool), ready p (Syscall c n b) -> 0 <= c -> syscall_jumptable + c * 3 + 3 < 2^64 -> gas_used (g_regs p) < 2^32 ->
    bytes_at (g_mem p) (mk_maddr 0 SEG_CODE (syscall_jumptable + c * 3)) 3 ->
    if Z.of_nat (length (stack p)) <? n then fails p (perform_op (Syscall c n b) p) StackUnderflow
    else if b && negb (is_kernel (g_regs p)) && (1024 <=? Z.of_nat (length (stack p))) then fails p (perform_op (Syscall c n b) p) StackOverflow
    else ends p (perform_op (Syscall c n b) p) (kernel_entry p syscall_jumptable c (program_counter (g_regs p) + 1)) (stack_cell (context (g_regs p))).
  Proof.
    intros p c n b RD C J G BY. unfold stack. rewrite stack_list_length by apply (rd_len _ _ RD).
    cbn [MachineModel.perform_op]. unfold generate_syscall, guard, MAX_USER_STACK_SIZE, bind, get_regs, gets. replace (gas_used (g_regs p) <? 2^32) with true by lia.
    assert (E1 : (n <=? stack_len (g_regs p)) = negb (stack_len (g_regs p) <? n)) by lia. rewrite E1. clear E1.
    destruct (stack_len (g_regs p) <? n); cbn [negb]; [unfold ret, fail; under|].
    destruct (b && negb (is_kernel (g_regs p)) && (1024 <=? stack_len (g_regs p))); cbn [negb]; unfold ret, fail; [under|].
    eapply enter_ends; try eassumption. reflexivity.
  Qed.
  Lemma exit_ends : forall p, ready p ExitKernel ->
    match stack p with
    | w :: s =>
        let k := (w / 2^32) mod 2^32 in
        if (k =? 0) || (k =? 1)
        then if w / 2^192 <? 2^32
             then ends p (perform_op ExitKernel p) (mk_view (w mod 2^32) (k =? 1) (context (g_regs p)) (w / 2^192) s (contents (g_mem p))) (stack_cell (context (g_regs p)))
             else fails p (perform_op ExitKernel p) GasLimitError
        else perform_op ExitKernel p = Panic
    | [] => fails p (perform_op ExitKernel p) StackUnderflow
    end.
  Proof.
    intros p RD. open p RD. mcbv. pose proof (proj1 RTOP) as T0. destruct (Z.leb_spec 1 len) as [L|L].
    - rewrite tail1 by lia. assert (LE : (1 <=? len) = true) by lia. unf. rewrite LE. unf.
      set (T := contents m (mk_maddr ctx 1 (len - 1 - 1))).
      assert (TE : mread m (mk_maddr ctx SEG_STACK (len - 1 - 1)) = T) by reflexivity.
      destruct (len =? 1) eqn:L1; unf; rewrite ?TE; (destruct (((top / 2^32) mod 2^32 =? 0) || ((top / 2^32) mod 2^32 =? 1)) eqn:K; unf; [|reflexivity]);
        (destruct (top / 2^192 <? 2^32) eqn:G; unf; [|under]); ends_with (@nil mop); try (mcbv; lia).
      + replace (len - 1) with 0 by lia. reflexivity.
      + reflexivity.
    - assert (len = 0) as -> by lia. unf. under.
  Qed.

  (** * Contexts *)
  (** SET_CONTEXT saves the height of the stack in the metadata of the old
      context and takes up the stack of the new one. *)
  Definition saved_height (ctx : Z) : maddr := mk_maddr ctx SEG_CONTEXT_METADATA CTX_STACK_SIZE.
  Lemma set_context_ends : forall p, ready p SetContext ->
    (** The cell of the new top, which the machine will read, is up to date. *)
    match stack p with
    | w :: s =>
        let c' := w / 2^64 in
        let f := contents (g_mem p) in
        let h := if c' =? context (g_regs p) then Z.of_nat (length s) else f (saved_height c') in
        if c' <? 2^64
        then if h <? 2^64
             then ends p (perform_op SetContext p)
                    (mk_view (program_counter (g_regs p)) (is_kernel (g_regs p)) c' (gas_used (g_regs p)) (slots f c' (Z.to_nat h))
                             (upd f (saved_height (context (g_regs p))) (Z.of_nat (length s)))) (fun _ => False)
             else fails p (perform_op SetContext p) IntegerTooLarge
        else fails p (perform_op SetContext p) IntegerTooLarge
    | [] => fails p (perform_op SetContext p) StackUnderflow
    end.
  Proof.
    intros p RD. unfold saved_height. open p RD. mcbv. pose proof (proj1 RTOP) as T0. destruct (Z.leb_spec 1 len) as [L|L].
    - rewrite tail1 by lia. cbv zeta. rewrite stack_list_length by lia.
      assert (LE : (1 <=? len) = true) by lia. unf. rewrite LE. unf.
      assert (SH : Z.shiftr top CONTEXT_SCALING_FACTOR = top / 2^64) by (apply Z.shiftr_div_pow2; discriminate).
      set (c' := top / 2^64) in *.
      assert (CN : 0 <= c') by (apply Z.div_pos; [exact T0|reflexivity]).
      assert (HV : forall c x, 0 <= c -> word (contents m (mk_maddr c SEG_CONTEXT_METADATA x)) \/ x < 0).
      { intros c x C. destruct (Z_lt_le_dec x 0); [right; assumption|left]. apply RWORDS. addr. }
      assert (SE : forall c n x v, slots (upd (contents m) (mk_maddr ctx SEG_CONTEXT_METADATA x) v) c n = slots (contents m) c n).
      { intros. apply slots_ext. intros. apply upd_other. intros E. assert (1 = SEG_CONTEXT_METADATA) by congruence. discriminate. }
      assert (FIN : forall h x, 0 <= h -> (h = 0 \/ x = contents m (mk_maddr c' 1 (h - 1))) ->
        stack_list (upd (contents m) (mk_maddr ctx SEG_CONTEXT_METADATA CTX_STACK_SIZE) (len - 1)) c' h x = slots (contents m) c' (Z.to_nat h)).
      { intros h x H E. unfold stack_list. destruct (Z.eqb_spec h 0) as [->|N]; [reflexivity|]. destruct E as [E|E]; [lia|]. rewrite SE, (slots_pos _ _ h) by lia. congruence. }
      assert (HN : 0 <= contents m (mk_maddr c' SEG_CONTEXT_METADATA CTX_STACK_SIZE)) by (apply RWORDS; addr).
      destruct (len =? 1) eqn:L1; unf; rewrite ?SH; (destruct (c' <? 2^64) eqn:C64; unf; [|under]); rewrite ?SH, (Z.eqb_sym ctx c'); (destruct (c' =? ctx) eqn:CC; unf);
        change (mread m) with (contents m); try set (H := contents m (mk_maddr c' SEG_CONTEXT_METADATA CTX_STACK_SIZE)) in *.
      + change (0 <? 2^64) with true. change (0 <? 0) with false. unf. replace (len - 1) with 0 in * by lia. change (0 <? 2^64) with true. unf. destruct (Z.odd top); unf;
        ends_with [mk_mop (stamp (ChGP 1) tc) (mk_maddr ctx SEG_CONTEXT_METADATA CTX_STACK_SIZE) MWrite 0; mk_mop (stamp (ChGP 2) tc) (mk_maddr c' SEG_CONTEXT_METADATA CTX_STACK_SIZE) MRead 0];
        (apply FIN; [lia|left; reflexivity]).
      + (destruct (H <? 2^64) eqn:H64; unf; [|under]). destruct (0 <? H) eqn:H0; unf; (destruct (Z.odd top); unf).
        1,2: ends_with [mk_mop (stamp (ChGP 2) tc) (mk_maddr c' SEG_STACK (H - 1)) MRead (contents m (mk_maddr c' SEG_STACK (H - 1)));
                   mk_mop (stamp (ChGP 1) tc) (mk_maddr ctx SEG_CONTEXT_METADATA CTX_STACK_SIZE) MWrite 0; mk_mop (stamp (ChGP 2) tc) (mk_maddr c' SEG_CONTEXT_METADATA CTX_STACK_SIZE) MRead H].
        5,6: ends_with [mk_mop (stamp (ChGP 1) tc) (mk_maddr ctx SEG_CONTEXT_METADATA CTX_STACK_SIZE) MWrite 0; mk_mop (stamp (ChGP 2) tc) (mk_maddr c' SEG_CONTEXT_METADATA CTX_STACK_SIZE) MRead H].
        all: replace (len - 1) with 0 in * by lia.
        all: try (intros a V; right; reflexivity).
        1,2: apply FIN; [lia|right; reflexivity].
        1,2: apply FIN; [lia|left; lia].
      + replace (len - 1 <? 2^64) with true by lia. replace (0 <? len - 1) with true by lia. unf. destruct (Z.odd top); unf;
        ends_with [mk_mop (stamp (ChGP 2) tc) (mk_maddr c' SEG_STACK (len - 1 - 1)) MRead (contents m (mk_maddr c' SEG_STACK (len - 1 - 1)));
           mk_mop (stamp (ChGP 1) tc) (mk_maddr ctx SEG_CONTEXT_METADATA CTX_STACK_SIZE) MWrite (len - 1); mk_mop (stamp (ChGP 2) tc) (mk_maddr c' SEG_CONTEXT_METADATA CTX_STACK_SIZE) MRead (len - 1)];
        (apply FIN; [lia|right; reflexivity]).
      + (destruct (H <? 2^64) eqn:H64; unf; [|under]). destruct (0 <? H) eqn:H0; unf; (destruct (Z.odd top); unf).
        1,2: ends_with [mk_mop (stamp (ChGP 2) tc) (mk_maddr c' SEG_STACK (H - 1)) MRead (contents m (mk_maddr c' SEG_STACK (H - 1)));
                   mk_mop (stamp (ChGP 1) tc) (mk_maddr ctx SEG_CONTEXT_METADATA CTX_STACK_SIZE) MWrite (len - 1); mk_mop (stamp (ChGP 2) tc) (mk_maddr c' SEG_CONTEXT_METADATA CTX_STACK_SIZE) MRead H].
        3,4: ends_with [mk_mop (stamp (ChGP 1) tc) (mk_maddr ctx SEG_CONTEXT_METADATA CTX_STACK_SIZE) MWrite (len - 1); mk_mop (stamp (ChGP 2) tc) (mk_maddr c' SEG_CONTEXT_METADATA CTX_STACK_SIZE) MRead H].
        1,2: apply FIN; [lia|right; reflexivity].
        1,2: apply FIN; [lia|left; lia].
    - assert (len = 0) as -> by lia. unf. under.
  Qed.

  (** * The memory *)
  (** An address on the stack: context, segment and offset are 32-bit fields;
      the code rejects segments above 38. *)
  Definition points (w : Z) : option maddr :=
    let a := mk_maddr ((w / 2^64) mod 2^32) ((w / 2^32) mod 2^32) (w mod 2^32) in if a_segment a <? 39 then Some a else None.
  Lemma points_bundle : forall w, 0 <= w -> new_bundle w = points w.
  Proof.
    intros w W. unfold new_bundle, points, low_u32, CONTEXT_SCALING_FACTOR, SEGMENT_SCALING_FACTOR. rewrite !Z.shiftr_div_pow2 by lia. cbn [a_segment]. unfold SEGMENT_COUNT. destruct (Z.ltb_spec ((w / 2^32) mod 2^32) 39), (Z.leb_spec 39 ((w / 2^32) mod 2^32)); (reflexivity || lia).
  Qed.
  Lemma points_valid : forall w a, points w = Some a -> valid_addr a /\ a_virt a < 2^32.
  Proof.
    intros w a. unfold points. cbv zeta. cbn [a_segment]. destruct (Z.ltb_spec ((w / 2^32) mod 2^32) 39) as [S|S]; intros E; [|discriminate E]. assert (a = mk_maddr ((w / 2^64) mod 2^32) ((w / 2^32) mod 2^32) (w mod 2^32)) as -> by congruence.
    pose proof (Z.mod_pos_bound (w / 2^64) (2^32) ltac:(reflexivity)). pose proof (Z.mod_pos_bound (w / 2^32) (2^32) ltac:(reflexivity)). pose proof (Z.mod_pos_bound w (2^32) ltac:(reflexivity)). addr.
  Qed.
  Definition cell (a : maddr) (k : Z) : maddr := mk_maddr (a_context a) (a_segment a) (a_virt a + k).

  Lemma mload_ends : forall p, ready p MloadGeneral ->
    match stack p with
    | w :: s => match points w with
                | Some a => ends p (perform_op MloadGeneral p) (same_but p (program_counter (g_regs p)) (contents (g_mem p) a :: s)) (fun _ => False)
                | None => fails p (perform_op MloadGeneral p) SegmentTooLarge
                end
    | [] => fails p (perform_op MloadGeneral p) StackUnderflow
    end.
  Proof.
    intros p RD. unfold same_but. open p RD. mcbv. pose proof (proj1 RTOP) as T0. destruct (Z.leb_spec 1 len) as [L|L].
    - rewrite tail1 by lia. assert (LE : (1 <=? len) = true) by lia. unf. rewrite LE. unf. pose proof (points_bundle _ T0) as PB.
      destruct (points top) as [a|] eqn:PT.
      + destruct (points_valid _ _ PT) as [VA _].
        destruct (len =? 1) eqn:L1; unf; rewrite ?PT in PB; rewrite PB; unf; ends_with [mk_mop (stamp (ChGP 1) tc) a MRead (contents m a)]; try exact VA; change (mread m) with (contents m).
        all: rewrite ?stack_list_pos by lia; f_equal.
        * replace (len - 1) with 0 by lia. reflexivity.
        * replace (len - 1 + 1 - 1) with (len - 1) by lia. rewrite slots_pos by lia. reflexivity.
      + destruct (len =? 1) eqn:L1; unf; rewrite ?PT in PB; rewrite PB; unf; under.
    - assert (len = 0) as -> by lia. unf. under.
  Qed.

  Lemma mstore_ends : forall p, ready p MstoreGeneral ->
    match stack p with
    | v :: w :: s => match points w with
                     | Some a => ~ stack_cell (context (g_regs p)) a ->
                         ends p (perform_op MstoreGeneral p)
                           (mk_view (program_counter (g_regs p)) (is_kernel (g_regs p)) (context (g_regs p)) (gas_used (g_regs p)) s (upd (contents (g_mem p)) a v)) (fun _ => False)
                     | None => fails p (perform_op MstoreGeneral p) SegmentTooLarge
                     end
    | _ => fails p (perform_op MstoreGeneral p) StackUnderflow
    end.
  Proof.
    intros p RD. open p RD. mcbv. pose proof (proj1 RTOP) as T0. destruct (Z.leb_spec 2 len) as [L|L].
    - rewrite tail2 by lia. assert (LE : (2 <=? len) = true) by lia. unf. rewrite LE. unf. change (mread m) with (contents m).
      set (w := contents m (mk_maddr ctx 1 (len - 1 - 1))). change (contents m (mk_maddr ctx SEG_STACK (len - 1 - 1))) with w.
      assert (W0 : 0 <= w) by (apply RWORDS; addr). pose proof (points_bundle _ W0) as PB.
      destruct (points w) as [a|] eqn:PT.
      + intros NS. destruct (points_valid _ _ PT) as [VA _].
        assert (SE : forall n, slots (upd (contents m) a top) ctx n = slots (contents m) ctx n).
        { intros. apply slots_ext. intros. apply upd_other. intros E. apply NS. subst a. split; reflexivity. }
        assert (SL : forall n x, stack_list (upd (contents m) a top) ctx n x = stack_list (contents m) ctx n x) by (intros; unfold stack_list; rewrite SE; reflexivity).
        destruct (len =? 2) eqn:L1; unf; rewrite ?PT in PB; rewrite PB; unf;
        ends_with [mk_mop (stamp (ChGP 1) tc) (mk_maddr ctx SEG_STACK (len - 1 - 1)) MRead w; mk_mop (stamp ChPartial tc) a MWrite top]; try exact VA.
        * replace (len - 2) with 0 by lia. reflexivity.
        * apply SL.
      + destruct (len =? 2) eqn:L1; unf; rewrite ?PT in PB; rewrite PB; unf; under.
    - unfold stack_list. destruct (Z.eqb_spec len 0) as [->|]; [unf; under|]. assert (len = 1) as -> by lia. unf. under.
  Qed.

  Lemma mload32_ends : forall p, ready p Mload32Bytes ->
    match stack p with
    | w :: n :: s =>
        if n <=? 32
        then match points w with
             | Some a => bytes_at (g_mem p) a (Z.to_nat n) ->
                 ends p (perform_op Mload32Bytes p) (same_but p (program_counter (g_regs p)) (number (fun i => contents (g_mem p) (mk_maddr (a_context a) (a_segment a) i)) (a_virt a) (Z.to_nat n) :: s)) (fun _ => False)
             | None => fails p (perform_op Mload32Bytes p) SegmentTooLarge
             end
        else fails p (perform_op Mload32Bytes p) IntegerTooLarge
    | _ => fails p (perform_op Mload32Bytes p) StackUnderflow
    end.
  Proof.
    intros p RD. unfold same_but. open p RD. mcbv. pose proof (proj1 RTOP) as T0. destruct (Z.leb_spec 2 len) as [L|L].
    - rewrite tail2 by lia. assert (LE : (2 <=? len) = true) by lia. unf. rewrite LE. unf. change (mread m) with (contents m).
      set (n := contents m (mk_maddr ctx 1 (len - 1 - 1))). change (contents m (mk_maddr ctx SEG_STACK (len - 1 - 1))) with n.
      assert (N0 : 0 <= n) by (apply RWORDS; addr). pose proof (points_bundle _ T0) as PB.
      destruct (n <=? 32) eqn:N32.
      2:{ destruct (len =? 2); unf; change (mread m) with (contents m); fold n; (destruct (n <? 2^64); unf; [|under]); rewrite ?N32; unf; under. }
      assert (N64 : (n <? 2^64) = true) by lia.
      destruct (points top) as [a|] eqn:PT.
      2:{ destruct (len =? 2); unf; change (mread m) with (contents m); fold n; rewrite N64; unf; rewrite ?N32; unf; rewrite ?PT in PB; rewrite PB; unf; under. }
      intros BY. destruct (points_valid _ _ PT) as [VA VV].
      assert (VB : (n <=? 2^64 - 1 - a_virt a) = true) by (clear - VV N32; lia).
      assert (NL : from_big_endian (map (fun a => as_byte (mread m a)) (cells a (Z.to_nat n))) = number (fun i => contents m (mk_maddr (a_context a) (a_segment a) i)) (a_virt a) (Z.to_nat n)).
      { destruct a as [ac asg av]. cbn [a_context a_segment a_virt] in *. rewrite read_cells; try assumption.
        - rewrite <- number_list. reflexivity.
        - destruct VA as (? & ? & ?). assumption.
        - lia.
        - intros j. apply RWORDS. addr. }
      change (mread m) with (contents m) in NL.
      set (bytes := map (fun a => as_byte (contents m a)) (cells a (Z.to_nat n))) in *. rewrite <- NL. clear NL.
      assert (BO : Forall (fun o => valid_addr (mo_address o)) (byte_ops MRead tc a bytes)).
      { apply Forall_forall. intros x I. destruct (in_byte_ops _ _ _ _ _ I) as (_ & K & A & _). apply cells_in in A; [apply A|exact VA]. }
      destruct (len =? 2) eqn:L1; unf; change (mread m) with (contents m); fold n; rewrite N64; unf; rewrite N32; unf; rewrite ?PT in PB; rewrite PB; unf; rewrite VB; unf; change (mread m) with (contents m); fold bytes; rewrite packing_equation; unf.
      all: eexists _, (byte_ops MRead tc a bytes ++ [mk_mop (stamp (ChGP 1) tc) (mk_maddr ctx SEG_STACK (len - 1 - 1)) MRead n]).
      all: fin; split; [reflexivity|]; split; [reflexivity|]; split; [mcbv; rewrite <- ?app_assoc; reflexivity|]; split; [reflexivity|].
      all: split; [apply Forall_app; split; [exact BO|fall; cbn [mo_address]; addr]|]; split; [mcbv; lia|]; split; [mcbv; lia|].
      all: rewrite after_app, after_bytes_read; cbn [after mo_kind]; mcbv.
      all: split; [|split; [reflexivity|split; [reflexivity|split; [reflexivity|split; [reflexivity|intros; right; reflexivity]]]]].
      + replace (len - 2) with 0 by lia. reflexivity.
      + rewrite (stack_list_pos _ _ (len - 2 + 1)) by lia. f_equal. replace (len - 2 + 1 - 1) with (len - 2) by lia. unfold stack_list. destruct (len - 2 =? 0) eqn:X; [lia|].
        rewrite (slots_pos _ _ (len - 2)) by lia. do 3 f_equal. lia.
    - unfold stack_list. destruct (Z.eqb_spec len 0) as [->|]; [unf; under|]. assert (len = 1) as -> by lia. unf. under.
  Qed.

  (** The cells from [a] on hold the [n] low bytes of [v], the most significant
      first. *)
  Definition store_bytes (f : maddr -> Z) (a : maddr) (n v : Z) : maddr -> Z := fun b =>
    if (a_context b =? a_context a) && (a_segment b =? a_segment a) && (a_virt a <=? a_virt b) && (a_virt b <? a_virt a + n)
    then (v / 256 ^ (n - 1 - (a_virt b - a_virt a))) mod 256 else f b.

  Lemma mstore32_ends : forall p n, ready p (Mstore32Bytes n) -> 1 <= n <= 32 ->
    match stack p with
    | w :: v :: s =>
        match points w with
        | Some a =>
            if w + n <? 2^256
            then ~ stack_cell (context (g_regs p)) a ->
              ends p (perform_op (Mstore32Bytes n) p)
                (mk_view (program_counter (g_regs p)) (is_kernel (g_regs p)) (context (g_regs p)) (gas_used (g_regs p)) (w + n :: s) (store_bytes (contents (g_mem p)) a n v)) (fun _ => False)
            else perform_op (Mstore32Bytes n) p = Panic
        | None => fails p (perform_op (Mstore32Bytes n) p) SegmentTooLarge
        end
    | _ => fails p (perform_op (Mstore32Bytes n) p) StackUnderflow
    end.
  Proof.
    intros p n RD NB. open p RD. mcbv. pose proof (proj1 RTOP) as T0. destruct (Z.leb_spec 2 len) as [L|L].
    - rewrite tail2 by lia. assert (LE : (2 <=? len) = true) by lia. unf. rewrite LE. unf. change (mread m) with (contents m).
      set (v := contents m (mk_maddr ctx 1 (len - 1 - 1))). change (contents m (mk_maddr ctx SEG_STACK (len - 1 - 1))) with v.
      pose proof (points_bundle _ T0) as PB.
      destruct (points top) as [a|] eqn:PT.
      2:{ destruct (len =? 2); unf; rewrite PB; unf; under. }
      destruct (top + n <? 2^256) eqn:TN.
      2:{ destruct (len =? 2); unf; rewrite PB; unf; rewrite TN; reflexivity. }
      intros NS. destruct (points_valid _ _ PT) as [VA VV].
      set (W := byte_ops MWrite tc a (be_bytes v (Z.to_nat n))).
      assert (BO : Forall (fun o => valid_addr (mo_address o)) W).
      { apply Forall_forall. intros x I. destruct (in_byte_ops _ _ _ _ _ I) as (_ & K & A & _). apply cells_in in A; [apply A|exact VA]. }
      assert (AF : forall b, after (contents m) W b = store_bytes (contents m) a n v b).
      { intros b. subst W. destruct a as [ac asg av]. cbn [a_context a_segment a_virt] in *. rewrite after_bytes_written; [|destruct VA as (? & ? & ?); assumption|rewrite be_bytes_length; lia].
        rewrite be_bytes_length. unfold store_bytes. cbn [a_context a_segment a_virt]. rewrite Z2Nat.id by lia.
        destruct (_ && _) eqn:E; [|reflexivity]. rewrite be_bytes_nth by lia. do 3 f_equal. lia. }
      assert (SL : forall n' x, stack_list (after (contents m) W) ctx n' x = stack_list (contents m) ctx n' x).
      { intros n' x. unfold stack_list. destruct (n' =? 0); [reflexivity|]. f_equal. apply slots_ext. intros i I. rewrite AF. unfold store_bytes. cbn [a_context a_segment a_virt].
        destruct (_ && _) eqn:E; [|reflexivity]. exfalso. apply NS. split; lia. }
      destruct (len =? 2) eqn:L1; unf; rewrite PB; unf; rewrite TN; unf; change (mread m) with (contents m); fold v.
      all: eexists _, (W ++ [mk_mop (stamp (ChGP 1) tc) (mk_maddr ctx SEG_STACK (len - 1 - 1)) MRead v]).
      all: fin; split; [reflexivity|]; split; [reflexivity|]; split; [mcbv; rewrite <- ?app_assoc; reflexivity|]; split; [reflexivity|].
      all: split; [apply Forall_app; split; [exact BO|fall; cbn [mo_address]; addr]|]; split; [mcbv; lia|]; split; [mcbv; lia|].
      all: rewrite after_app; cbn [after mo_kind]; mcbv; rewrite SL.
      all: split; [|split; [reflexivity|split; [reflexivity|split; [reflexivity|split; [reflexivity|intros; right; apply AF]]]]].
      + replace (len - 2) with 0 by lia. reflexivity.
      + rewrite (stack_list_pos _ _ (len - 2 + 1)) by lia. f_equal. replace (len - 2 + 1 - 1) with (len - 2) by lia. unfold stack_list. destruct (len - 2 =? 0) eqn:X; [lia|].
        rewrite (slots_pos _ _ (len - 2)) by lia. do 3 f_equal. lia.
    - unfold stack_list. destruct (Z.eqb_spec len 0) as [->|]; [unf; under|]. assert (len = 1) as -> by lia. unf. under.
  Qed.

  Lemma keccak_ends : forall p, ready p KeccakGeneral ->
    match stack p with
    | w :: n :: s =>
        if n <? 2^64
        then match points w with
             | Some a => bytes_at (g_mem p) a (Z.to_nat n) -> a_virt a + n < 2^64 ->
                 ends p (perform_op KeccakGeneral p) (same_but p (program_counter (g_regs p)) (keccak (map (fun k => contents (g_mem p) (cell a (Z.of_nat k))) (seq 0 (Z.to_nat n))) :: s)) (fun _ => False)
             | None => fails p (perform_op KeccakGeneral p) SegmentTooLarge
             end
        else fails p (perform_op KeccakGeneral p) IntegerTooLarge
    | _ => fails p (perform_op KeccakGeneral p) StackUnderflow
    end.
  Proof.
    intros p RD. unfold same_but. open p RD. mcbv. pose proof (proj1 RTOP) as T0. destruct (Z.leb_spec 2 len) as [L|L].
    - rewrite tail2 by lia. assert (LE : (2 <=? len) = true) by lia. unf. rewrite LE. unf. change (mread m) with (contents m).
      set (n := contents m (mk_maddr ctx 1 (len - 1 - 1))). change (contents m (mk_maddr ctx SEG_STACK (len - 1 - 1))) with n.
      assert (N0 : 0 <= n) by (apply RWORDS; addr). pose proof (points_bundle _ T0) as PB.
      destruct (n <? 2^64) eqn:N64.
      2:{ destruct (len =? 2); unf; change (mread m) with (contents m); fold n; rewrite N64; unf; under. }
      destruct (points top) as [a|] eqn:PT.
      2:{ destruct (len =? 2); unf; change (mread m) with (contents m); fold n; rewrite N64; unf; rewrite PB; unf; under. }
      intros BY VB. destruct (points_valid _ _ PT) as [VA VV].
      assert (NL : map (fun a => as_byte (mread m a)) (cells a (Z.to_nat n)) = map (fun k => contents m (cell a (Z.of_nat k))) (seq 0 (Z.to_nat n))).
      { destruct a as [ac asg av]. unfold cell. cbn [a_context a_segment a_virt] in *. rewrite read_cells; try assumption.
        - reflexivity.
        - destruct VA as (? & ? & ?). assumption.
        - lia.
        - intros j. apply RWORDS. addr. }
      change (mread m) with (contents m) in NL. rewrite <- NL. clear NL.
      set (bytes := map (fun a => as_byte (contents m a)) (cells a (Z.to_nat n))) in *.
      assert (BO : Forall (fun o => valid_addr (mo_address o)) (byte_ops MRead tc a bytes)).
      { apply Forall_forall. intros x I. destruct (in_byte_ops _ _ _ _ _ I) as (_ & K & A & _). apply cells_in in A; [apply A|exact VA]. }
      destruct (len =? 2) eqn:L1; unf; change (mread m) with (contents m); fold n; rewrite N64; unf; rewrite PB; unf; change (mread m) with (contents m); fold bytes.
      all: eexists _, (byte_ops MRead tc a bytes ++ [mk_mop (stamp (ChGP 1) tc) (mk_maddr ctx SEG_STACK (len - 1 - 1)) MRead n]).
      all: fin; split; [reflexivity|]; split; [reflexivity|]; split; [mcbv; rewrite <- ?app_assoc; reflexivity|]; split; [reflexivity|].
      all: split; [apply Forall_app; split; [exact BO|fall; cbn [mo_address]; addr]|]; split; [mcbv; lia|]; split; [mcbv; lia|].
      all: rewrite after_app, after_bytes_read; cbn [after mo_kind]; mcbv.
      all: split; [|split; [reflexivity|split; [reflexivity|split; [reflexivity|split; [reflexivity|intros; right; reflexivity]]]]].
      + replace (len - 2) with 0 by lia. reflexivity.
      + rewrite (stack_list_pos _ _ (len - 2 + 1)) by lia. f_equal. replace (len - 2 + 1 - 1) with (len - 2) by lia. unfold stack_list. destruct (len - 2 =? 0) eqn:X; [lia|].
        rewrite (slots_pos _ _ (len - 2)) by lia. do 3 f_equal. lia.
    - unfold stack_list. destruct (Z.eqb_spec len 0) as [->|]; [unf; under|]. assert (len = 1) as -> by lia. unf. under.
  Qed.
End Control.
