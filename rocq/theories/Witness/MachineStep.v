(** One transition of the machine: what it logs and what state it leaves. *)
From Coq Require Import ZArith List Bool Lia Permutation ZifyBool.
From Verif Require Import Stark.ArithModel Stark.LogicModel Witness.MemoryModel Witness.MachineModel Witness.MemoryProps Witness.MachineSpec Witness.MachineLemmas Witness.MachineLog.
Import ListNotations.
Local Open Scope Z_scope.

Lemma mread_contents : forall m a, mread m a = contents m a.
Proof. reflexivity. Qed.

(** * Words *)
Lemma word_mod : forall x, word (x mod 2^256).
Proof. intros. apply Z.mod_pos_bound. lia. Qed.
Lemma word_b2z : forall b, word (b2z b).
Proof. intros []; split; (discriminate || reflexivity). Qed.
Lemma word_small : forall x n, 0 <= x < n -> n <= 2^256 -> word x.
Proof. unfold word. intros. lia. Qed.
Lemma log2_word : forall x, 0 <= x -> Z.log2 x < 256 -> word x.
Proof.
  intros x X L. split; [exact X|]. destruct (Z.eq_dec x 0) as [->|]; [reflexivity|]. apply Z.log2_lt_pow2; lia.
Qed.
Lemma word_log2 : forall x, word x -> Z.log2 x < 256.
Proof. intros x [A B]. destruct (Z.eq_dec x 0) as [->|]; [reflexivity|]. apply Z.log2_lt_pow2; lia. Qed.
Lemma word_logic : forall op a b, word a -> word b -> word (logic_result op a b).
Proof.
  intros op a b A B. pose proof (word_log2 a A) as LA. pose proof (word_log2 b B) as LB. destruct A as [A _], B as [B _].
  destruct op; cbn [logic_result]; apply log2_word.
  - apply Z.land_nonneg. lia.
  - pose proof (Z.log2_land a b A B). lia.
  - apply Z.lor_nonneg. lia.
  - rewrite Z.log2_lor by assumption. lia.
  - apply Z.lxor_nonneg. lia.
  - pose proof (Z.log2_lxor a b A B). lia.
Qed.
Lemma word_mod_any : forall x m, 0 < m -> word m -> word (x mod m).
Proof. intros x m M [_ L]. pose proof (Z.mod_pos_bound x m M). unfold word. lia. Qed.
Lemma word_bn_base : word BN_BASE.
Proof. split; (discriminate || reflexivity). Qed.
Lemma word_0 : word 0.
Proof. split; (discriminate || reflexivity). Qed.
Lemma word_div : forall a b, word a -> 0 < b -> word (a / b).
Proof.
  intros a b [A B] P. split; [apply Z.div_pos; assumption|]. apply Z.le_lt_trans with a; [|exact B]. apply Z.div_le_upper_bound; [exact P|]. nia.
Qed.
Lemma word_ternary : forall op a b c, word a -> word b -> word c -> word (ternary_result op a b c).
Proof.
  intros op a b c A B C. assert (C0 : c <> 0 -> 0 < c) by (destruct C; lia).
  destruct op; cbn [ternary_result]; unfold addmod, mulmod, submod; destruct (Z.eqb_spec c 0); try exact C; cbv zeta; apply word_mod_any; auto.
Qed.
Lemma word_binary : forall op a b, word a -> word b -> word (binary_result op a b).
Proof.
  intros op a b A B. assert (B0 : b <> 0 -> 0 < b) by (destruct B; lia).
  destruct op; cbn [binary_result]; unfold W; try apply word_mod; try apply word_b2z.
  - destruct (Z.eqb_spec b 0); [apply word_0|apply word_div; auto].
  - destruct (Z.eqb_spec b 0); [apply word_0|apply word_mod_any; auto].
  - apply (word_ternary AddMod a b BN_BASE A B word_bn_base).
  - apply (word_ternary MulMod a b BN_BASE A B word_bn_base).
  - apply (word_ternary SubMod a b BN_BASE A B word_bn_base).
  - destruct (32 <=? a); [apply word_0|]. apply word_small with (2^8); [apply Z.mod_pos_bound; lia|lia].
  - destruct (a <? 256); [apply word_mod|apply word_0].
  - destruct (Z.ltb_spec a 256); [|apply word_0]. destruct A. rewrite Z.shiftr_div_pow2 by assumption. apply word_div; [exact B|]. apply Z.pow_pos_nonneg; lia.
Qed.
Definition byte (x : Z) : Prop := 0 <= x < 256.
Lemma as_byte_byte : forall x, byte (as_byte x).
Proof. intros. unfold as_byte, byte. change 256 with (2^8). apply Z.mod_pos_bound. lia. Qed.
Lemma as_byte_id : forall x, byte x -> as_byte x = x.
Proof. intros. unfold as_byte. apply Z.mod_small. exact H. Qed.
Lemma fold_big_endian : forall l acc, Forall byte l -> 0 <= acc ->
  0 <= fold_left (fun acc b => acc * 2^8 + b) l acc < (acc + 1) * 256 ^ Z.of_nat (length l).
Proof.
  induction l as [|b l IH]; intros acc F A; cbn [fold_left length]; [lia|]. inversion F; subst. unfold byte in H1.
  specialize (IH (acc * 2^8 + b) H2 ltac:(lia)). rewrite Nat2Z.inj_succ, Z.pow_succ_r by lia. split; [apply IH|].
  destruct IH as [_ IH]. apply Z.lt_le_trans with (1 := IH). rewrite Z.mul_assoc. apply Z.mul_le_mono_nonneg_r; [apply Z.pow_nonneg; lia|lia].
Qed.
Lemma from_big_endian_bound : forall l, Forall byte l -> 0 <= from_big_endian l < 256 ^ Z.of_nat (length l).
Proof. intros l F. pose proof (fold_big_endian l 0 F ltac:(lia)). unfold from_big_endian. lia. Qed.
Lemma word_big_endian : forall l, Forall byte l -> (length l <= 32)%nat -> word (from_big_endian l).
Proof.
  intros l F L. pose proof (from_big_endian_bound l F). apply word_small with (1 := H). change (2^256) with (256^32). apply Z.pow_le_mono_r; lia.
Qed.
Lemma bytes_read : forall m l, Forall byte (map (fun a => as_byte (mread m a)) l).
Proof. intros. apply Forall_forall. intros x H. apply in_map_iff in H. destruct H as (a & <- & _). apply as_byte_byte. Qed.
Lemma be_bytes_bytes : forall v n, Forall byte (be_bytes v n).
Proof.
  intros. unfold be_bytes. apply Forall_rev, Forall_forall. intros x H. apply in_map_iff in H. destruct H as (i & <- & _). unfold byte.
  change 256 with (2^8). apply Z.mod_pos_bound. lia.
Qed.
Lemma be_bytes_length : forall v n, length (be_bytes v n) = n.
Proof. intros. unfold be_bytes. rewrite rev_length, map_length, seq_length. reflexivity. Qed.
Lemma byte_word : forall x, byte x -> word x.
Proof. unfold byte, word. intros. lia. Qed.

(** * Cells *)
Lemma cells_in : forall n a x, valid_addr a -> In x (cells a n) -> valid_addr x /\ a_context x = a_context a /\ a_segment x = a_segment a.
Proof.
  induction n as [|n IH]; intros a x V H; [destruct H|]. cbn [cells] in H. destruct H as [<-|H]; [auto|].
  assert (valid_addr (increment a)) as V'. { destruct V as (A & B & C). unfold valid_addr, increment. cbn [a_context a_segment a_virt]. lia. }
  destruct (IH _ _ V' H) as (X & Y & Z). split; [exact X|]. split; [exact Y|exact Z].
Qed.

Lemma byte_ops_reads_ok : forall c f l a, Forall2 (fun x v => v = f x) (cells a (length l)) l -> reads_ok f (byte_ops MRead c a l).
Proof.
  intros c f l. induction l as [|v l IH]; intros a H; [exact I|]. cbn [length cells] in H. inversion H; subst.
  unfold byte_ops. cbn [length cells combine map reads_ok mo_kind mo_value mo_address fst snd]. split; [reflexivity|]. apply IH. assumption.
Qed.
Lemma read_back : forall m l, (forall x, In x l -> contents m x < 256 /\ 0 <= contents m x) -> Forall2 (fun x v => v = contents m x) l (map (fun a => as_byte (mread m a)) l).
Proof.
  intros m l. induction l as [|x l IH]; intros H; [constructor|]. cbn [map]. constructor; [|apply IH; intros; apply H; right; assumption].
  rewrite mread_contents. apply as_byte_id. unfold byte. specialize (H x (or_introl eq_refl)). lia.
Qed.

(** * The state before an instruction *)
Section Step.
  Context {O : Type}.
  Notation gstate := (gstate O).
  Variable keccakf : list Z -> list Z.
  Variables syscall_jumptable exception_jumptable max_code_size : Z.
  Variable eth_mainnet : bool.
  Variable keccak : list Z -> Z.
  Variable prover_input : registers -> mem_state -> O -> option (perror + Z * mem_state * O).
  Variable observe : Z -> registers -> mem_state -> O -> option (perror + O).
  Hypothesis keccak_word : forall l, word (keccak l).
  Hypothesis syscall_jumptable_pos : 0 <= syscall_jumptable.
  Hypothesis exception_jumptable_pos : 0 <= exception_jumptable.

  Notation perform_op := (perform_op O keccakf syscall_jumptable max_code_size keccak prover_input observe).
  Notation perform_state_op := (perform_state_op O keccakf syscall_jumptable max_code_size keccak prover_input observe).
  Notation try_perform_instruction := (try_perform_instruction O keccakf syscall_jumptable max_code_size eth_mainnet keccak prover_input observe).

  Definition code_addr (r : registers) : maddr := mk_maddr (code_context r) SEG_CODE (program_counter r).
  (** The code byte at the program counter. *)
  Definition opcode (g : gstate) : Z := contents (g_mem g) (code_addr (g_regs g)).
  Definition clock (g : gstate) : nat := t_clock (g_traces g).
  Definition log (g : gstate) : list mop := t_memory (g_traces g).

  Definition code_log (g : gstate) : list mop := [mk_mop (stamp ChCode (clock g)) (code_addr (g_regs g)) MRead (opcode g)].
  Definition top_log (g : gstate) : list mop :=
    if is_stack_top_read (g_regs g) then [mk_mop (stamp (ChGP 0) (clock g)) (stack_addr (g_regs g) 0) MRead (stack_top (g_regs g))] else [].
  Definition add_log (t : traces) (l : list mop) : traces :=
    mk_traces (t_arithmetic t) (t_byte_packing t) (t_clock t) (t_logic t) (t_memory t ++ l) (t_sponge t).
  Definition flagged (g : gstate) (op : minstr) : bool :=
    match special_length op with Some n => negb (stack_len (g_regs g) =? n) | None => false end.
  Definition prepared (g : gstate) (op : minstr) : gstate :=
    let r := g_regs g in
    mk_g (mk_regs (program_counter r) (is_kernel r) (stack_len r) (stack_top r) (flagged g op) false (context r) (gas_used r))
         (g_mem g) (add_log (g_traces g) (code_log g ++ top_log g)) (g_stale g) (g_oracle g).

  Ltac mcbv := cbv beta iota zeta delta [
    bind ret fail panic gets guard assert get_regs set_regs set_pc set_stack set_top_read set_check_overflow MachineModel.set_context set_mode
    on_traces push_cpu push_logic push_logics push_arithmetic push_memory push_memories push_byte_packing push_sponge
    u256_to_usize bundle new_op mem_read_with_log mem_write_log push_no_write push_with_write pop_prologue pop_epilogue
    stack_pop1 stack_pop2 stack_pop3 keccak_sponge_log byte_unpacking_log read_bytes
    base_row fill_stack_fields
    program_counter is_kernel stack_len stack_top is_stack_top_read check_overflow context gas_used
    g_regs g_mem g_traces g_stale g_oracle t_arithmetic t_byte_packing t_clock t_logic t_memory t_sponge
    fst snd
    stack_addr code_context clock log code_log top_log add_log flagged prepared opcode code_addr].
  Tactic Notation "mcbv" "in" hyp(H) := cbv beta iota zeta delta [
    bind ret fail panic gets guard assert get_regs set_regs set_pc set_stack set_top_read set_check_overflow MachineModel.set_context set_mode
    on_traces push_cpu push_logic push_logics push_arithmetic push_memory push_memories push_byte_packing push_sponge
    u256_to_usize bundle new_op mem_read_with_log mem_write_log push_no_write push_with_write pop_prologue pop_epilogue
    stack_pop1 stack_pop2 stack_pop3 keccak_sponge_log byte_unpacking_log read_bytes
    base_row fill_stack_fields
    program_counter is_kernel stack_len stack_top is_stack_top_read check_overflow context gas_used
    g_regs g_mem g_traces g_stale g_oracle t_arithmetic t_byte_packing t_clock t_logic t_memory t_sponge
    fst snd
    stack_addr code_context clock log code_log top_log add_log flagged prepared opcode code_addr] in H.

  Lemma try_equation : forall g,
    try_perform_instruction g =
    if opcode g <? 2^8
    then match decode eth_mainnet (is_kernel (g_regs g)) (opcode g) with
         | inl e => Err e (mk_g (g_regs g) (g_mem g) (add_log (g_traces g) (code_log g)) (g_stale g) (g_oracle g))
         | inr op => if is_stack_top_read (g_regs g) && negb (0 <? stack_len (g_regs g)) then Panic else perform_state_op op (prepared g op)
         end
    else Panic.
  Proof.
    intros g. destruct g as [[pc k len top tr co ctx gas] m [ta tb tc tl tm ts] st o].
    unfold try_perform_instruction. mcbv. change (contents m) with (mread m).
    destruct (mread m _ <? 2^8); [|reflexivity].
    destruct (decode _ _ _) as [e|op]; [reflexivity|].
    destruct tr; cbn [andb].
    - destruct (0 <? len); cbn [negb]; [|reflexivity].
      destruct (special_length op) as [n|]; [destruct (len =? n)|]; rewrite <- ?app_assoc; reflexivity.
    - destruct (special_length op) as [n|]; [destruct (len =? n)|]; rewrite ?app_nil_r; reflexivity.
  Qed.

  (** * Well-formed states *)
  Record wf (g : gstate) : Prop := {
    wf_pc : 0 <= program_counter (g_regs g);
    wf_len : 0 <= stack_len (g_regs g);
    wf_ctx : 0 <= context (g_regs g);
    wf_gas : 0 <= gas_used (g_regs g);
    wf_top : word (stack_top (g_regs g));
    wf_mem : mem_wf (g_mem g);
    wf_words : forall a, valid_addr a -> word (contents (g_mem g) a);
    (** A pending read of the top of the stack is right. *)
    wf_read : is_stack_top_read (g_regs g) = true ->
      0 < stack_len (g_regs g) /\ contents (g_mem g) (stack_addr (g_regs g) 0) = stack_top (g_regs g) }.

  (** What every instruction guarantees, [p] being the state in which it
      starts; the contents are those after an oracle call. *)
  Definition performed (p g2 : gstate) : Prop :=
    let r := g_regs g2 in
    exists ops, log g2 = log p ++ ops /\ clock g2 = S (clock p) /\ good_log (clock p) (contents (g_mem g2)) ops /\
      0 <= program_counter r /\ 0 <= stack_len r /\ 0 <= context r /\ 0 <= gas_used r /\ word (stack_top r) /\
      (is_stack_top_read r = true -> 0 < stack_len r /\ after (contents (g_mem g2)) ops (stack_addr r 0) = stack_top r) /\
      (forall o, In o ops -> mo_timestamp o = tick (clock p) 0 -> mo_kind o = MWrite -> mo_address o <> stack_addr (g_regs p) 0).

  Lemma ok_inj : forall A (a b : A) (g h : gstate), Ok a g = Ok b h -> g = h.
  Proof. intros. congruence. Qed.

  Lemma ticks_stamp : forall ch c a k v, 0 <= channel_index ch <= 4 -> ticks c (mk_mop (stamp ch c) a k v).
  Proof. intros. exists (channel_index ch). split; [assumption|reflexivity]. Qed.

  (** The parts of [wf] an instruction needs. *)
  Record ready (p : gstate) (op : minstr) : Prop := {
    rd_pc : 0 <= program_counter (g_regs p) < 2^64;
    rd_len : 0 <= stack_len (g_regs p) < 2^64;
    rd_ctx : 0 <= context (g_regs p) < 2^64;
    rd_gas : 0 <= gas_used (g_regs p);
    rd_top : word (stack_top (g_regs p));
    rd_mem : mem_wf (g_mem p);
    rd_words : forall a, valid_addr a -> word (contents (g_mem p) a);
    rd_read : is_stack_top_read (g_regs p) = flagged p op }.

  Definition packs (c : nat) (base : maddr) (l : list Z) : list pack_op :=
    match l with [] => [] | _ :: _ => [mk_pack true base (stamp ChCode c) l] end.
  Lemma packing_equation : forall base l (g : gstate), byte_packing_log O base l g =
    Ok tt (mk_g (g_regs g) (g_mem g)
      (mk_traces (t_arithmetic (g_traces g))
         (t_byte_packing (g_traces g) ++ packs (clock g) base l)
         (clock g) (t_logic (g_traces g)) (log g ++ byte_ops MRead (clock g) base l) (t_sponge (g_traces g)))
      (g_stale g) (g_oracle g)).
  Proof. intros base [|b l] [r m [ta tb tc tl tm ts] st o]; [cbn; rewrite !app_nil_r; reflexivity|reflexivity]. Qed.

  Ltac split_if H :=
    match type of H with
    | context [byte_packing_log _ _ _ _] => rewrite packing_equation in H
    | context [match new_bundle ?x with _ => _ end] => destruct (new_bundle x) eqn:?
    | context [match observe ?a ?b ?c ?d with _ => _ end] => destruct (observe a b c d) as [[?|?]|]
    | context [if ?b then _ else _] => destruct b eqn:?
    end; try discriminate H.
  (** Runs [H : m p = Ok tt g2] and opens the states. *)
  Ltac run H :=
    match type of H with _ ?p = Ok _ ?g2 =>
      let RD := fresh "RD" in
      match goal with R : ready p _ |- _ => rename R into RD end;
      destruct p as [[pc k len top tr co ctx gas] m [ta tb tc tl tm ts] st o];
      destruct RD as [RPC RLEN RCTX RGAS RTOP RMEM RWORDS RREAD];
      mcbv in RPC; mcbv in RLEN; mcbv in RCTX; mcbv in RGAS; mcbv in RTOP; mcbv in RMEM; mcbv in RWORDS; mcbv in RREAD;
      cbn [special_length] in RREAD; subst tr;
      mcbv in H; repeat (split_if H; mcbv in H);
      apply ok_inj in H; subst g2
    end.
  Ltac addr := unfold valid_addr, stack_addr, SEG_STACK, SEG_CODE, SEG_CONTEXT_METADATA, SEG_SHIFT_TABLE, SEG_JUMPDEST_BITS, CTX_STACK_SIZE in *;
    cbn [a_context a_segment a_virt stack_len context] in *; lia.
  Ltac norm := cbn [channel_index Z.add Pos.add Pos.succ Z.eqb Pos.eqb reads_ok app filter is_write mo_kind mo_value mo_address after].
  Ltac fall := repeat (apply Forall_cons; [|]); try apply Forall_nil.
  Ltac good :=
    constructor;
    [ fall; cbn [mo_address]; try addr
    | fall; cbn [mo_value]; try assumption; try (match goal with W : forall a, valid_addr a -> _ |- word (mread _ _) => apply W; addr end)
    | fall; apply ticks_stamp; cbn [channel_index]; lia
    | unfold ch_sort; rewrite ?at_tick_cons, ?at_tick_nil; norm; repeat split; try reflexivity
    | unfold ch_sort; rewrite ?at_tick_cons, ?at_tick_nil; norm; try reflexivity ].
  Ltac finish ops :=
    exists ops; split; [mcbv; rewrite <- ?app_assoc, ?app_nil_r; reflexivity|]; split; [reflexivity|];
    split; [|split; [|split; [|split; [|split; [|split; [|split]]]]]]; mcbv;
    [ mcbv; try solve [good] | try lia | try lia | try lia | try lia | try assumption
    | try discriminate
    | cbn [In]; let o := fresh "o" in let I := fresh "I" in let T := fresh "T" in intros o I T _; exfalso;
      repeat (destruct I as [<-|I]; [cbn [mo_timestamp] in T; apply Z.eqb_eq in T; rewrite stamp_tick in T; discriminate T|]); try destruct I ].

  Notation S_ := SEG_STACK (only parsing).
  Ltac wrd := match goal with W : forall a, valid_addr a -> _ |- word (mread _ _) => apply W; addr end.
  Ltac start H := cbn [MachineModel.perform_op] in H;
    unfold generate_binary_logic_op, generate_binary_arithmetic_op, generate_ternary_arithmetic_op, generate_keccak_general, generate_pop, generate_pc,
      generate_jumpdest, generate_get_context, generate_set_context, generate_push, generate_dup, generate_swap, generate_not, generate_iszero,
      generate_shl, generate_shr, append_shift, generate_syscall, enter_kernel, generate_eq, generate_exit_kernel, generate_mload_general, generate_mload_32bytes,
      generate_mstore_general, generate_mstore_32bytes, generate_jump, generate_jumpi, jump_to in H; run H.

  Lemma step_logic : forall p op g2, ready p (BinaryLogic op) -> perform_op (BinaryLogic op) p = Ok tt g2 -> performed p g2.
  Proof.
    intros p op g2 RD H. start H.
    all: finish [mk_mop (stamp (ChGP 1) tc) (mk_maddr ctx S_ (len - 1 - 1)) MRead (mread m (mk_maddr ctx S_ (len - 1 - 1)))].
    all: apply word_logic; [assumption|wrd].
  Qed.
  Lemma step_ternary : forall p op g2, ready p (TernaryArithmetic op) -> perform_op (TernaryArithmetic op) p = Ok tt g2 -> performed p g2.
  Proof.
    intros p op g2 RD H. start H.
    all: finish [mk_mop (stamp (ChGP 1) tc) (mk_maddr ctx S_ (len - 1 - 1)) MRead (mread m (mk_maddr ctx S_ (len - 1 - 1)));
                 mk_mop (stamp (ChGP 2) tc) (mk_maddr ctx S_ (len - 1 - 2)) MRead (mread m (mk_maddr ctx S_ (len - 1 - 2)))].
    all: apply word_ternary; [assumption|wrd|wrd].
  Qed.
  Lemma step_eq : forall p g2, ready p Eq -> perform_op Eq p = Ok tt g2 -> performed p g2.
  Proof.
    intros p g2 RD H. start H.
    all: finish [mk_mop (stamp (ChGP 1) tc) (mk_maddr ctx S_ (len - 1 - 1)) MRead (mread m (mk_maddr ctx S_ (len - 1 - 1)))].
    all: apply word_b2z.
  Qed.
  Lemma step_iszero : forall p g2, ready p Iszero -> perform_op Iszero p = Ok tt g2 -> performed p g2.
  Proof. intros p g2 RD H. start H. all: finish (@nil mop). all: apply word_b2z. Qed.
  Lemma step_not : forall p g2, ready p Not -> perform_op Not p = Ok tt g2 -> performed p g2.
  Proof. intros p g2 RD H. start H. all: finish (@nil mop). all: unfold word in *; lia. Qed.
  Lemma step_jumpdest : forall p g2, ready p Jumpdest -> perform_op Jumpdest p = Ok tt g2 -> performed p g2.
  Proof. intros p g2 RD H. start H. all: finish (@nil mop). Qed.
  Ltac topread := intros _; split; [lia|]; cbn [after mo_kind]; match goal with |- contents ?m _ = _ => change (contents m) with (mread m) end; f_equal; f_equal; lia.
  Lemma step_pop : forall p g2, ready p Pop -> perform_op Pop p = Ok tt g2 -> performed p g2.
  Proof. intros p g2 RD H. start H. all: finish (@nil mop). all: try wrd.
 all: topread. Qed.
  Lemma step_binary : forall p op g2, op <> Shl -> op <> Shr -> ready p (BinaryArithmetic op) -> perform_op (BinaryArithmetic op) p = Ok tt g2 -> performed p g2.
  Proof.
    intros p op g2 N1 N2 RD H. replace (perform_op (BinaryArithmetic op)) with (generate_binary_arithmetic_op O op) in H by (destruct op; congruence || reflexivity). start H.
    all: finish [mk_mop (stamp (ChGP 1) tc) (mk_maddr ctx S_ (len - 1 - 1)) MRead (mread m (mk_maddr ctx S_ (len - 1 - 1)))].
    all: apply word_binary; [assumption|wrd].
  Qed.
  Lemma low_u32_bound : forall x, 0 <= low_u32 x < 2^32.
  Proof. intros. apply Z.mod_pos_bound. lia. Qed.
  Lemma step_shl : forall p g2, ready p (BinaryArithmetic Shl) -> perform_op (BinaryArithmetic Shl) p = Ok tt g2 -> performed p g2.
  Proof.
    intros p g2 RD H. start H.
    all: pose proof (low_u32_bound top).
    all: match goal with
         | E : (_ <? 2^32) = true |- _ => finish [mk_mop (stamp (ChGP 2) tc) (mk_maddr 0 SEG_SHIFT_TABLE (low_u32 top)) MRead (mread m (mk_maddr 0 SEG_SHIFT_TABLE (low_u32 top)));
                                mk_mop (stamp (ChGP 1) tc) (mk_maddr ctx S_ (len - 1 - 1)) MRead (mread m (mk_maddr ctx S_ (len - 1 - 1)))]
         | _ => finish [mk_mop (stamp (ChGP 1) tc) (mk_maddr ctx S_ (len - 1 - 1)) MRead (mread m (mk_maddr ctx S_ (len - 1 - 1)))]
         end.
    all: try apply word_0; apply word_mod.
  Qed.
  Lemma step_shr : forall p g2, ready p (BinaryArithmetic Shr) -> perform_op (BinaryArithmetic Shr) p = Ok tt g2 -> performed p g2.
  Proof.
    intros p g2 RD H. start H.
    all: pose proof (low_u32_bound top).
    all: match goal with
         | E : (_ <? 2^32) = true |- _ => finish [mk_mop (stamp (ChGP 2) tc) (mk_maddr 0 SEG_SHIFT_TABLE (low_u32 top)) MRead (mread m (mk_maddr 0 SEG_SHIFT_TABLE (low_u32 top)));
                                mk_mop (stamp (ChGP 1) tc) (mk_maddr ctx S_ (len - 1 - 1)) MRead (mread m (mk_maddr ctx S_ (len - 1 - 1)))]
         | _ => finish [mk_mop (stamp (ChGP 1) tc) (mk_maddr ctx S_ (len - 1 - 1)) MRead (mread m (mk_maddr ctx S_ (len - 1 - 1)))]
         end.
    all: first [apply word_0 | rewrite Z.shiftr_div_pow2 by (unfold word in RTOP; lia); apply word_div; [wrd|apply Z.pow_pos_nonneg; unfold word in RTOP; lia]].
  Qed.
  Lemma step_pc : forall p g2, ready p Pc -> perform_op Pc p = Ok tt g2 -> performed p g2.
  Proof.
    intros p g2 RD H. start H.
    all: match goal with
         | E : (_ =? 0) = true |- _ => finish (@nil mop)
         | _ => finish [mk_mop (stamp ChPartial tc) (mk_maddr ctx S_ (len - 1 - 0)) MWrite top]
         end.
    all: unfold word; lia.
  Qed.
  Lemma step_get_context : forall p g2, ready p GetContext -> perform_op GetContext p = Ok tt g2 -> performed p g2.
  Proof.
    intros p g2 RD H. start H.
    all: match goal with
         | E : (_ =? 0) = true |- _ => finish (@nil mop)
         | _ => finish [mk_mop (stamp (ChGP 2) tc) (mk_maddr ctx S_ (len - 1 - 0)) MWrite top]
         end.
    all: unfold word, CONTEXT_SCALING_FACTOR; lia.
  Qed.

  Lemma step_dup : forall p n g2, 0 <= n -> ready p (Dup n) -> perform_op (Dup n) p = Ok tt g2 -> performed p g2.
  Proof.
    intros p n g2 N RD H. start H.
    - finish [mk_mop (stamp (ChGP 1) tc) (mk_maddr ctx S_ (len - 1 - 0)) MWrite top; mk_mop (stamp (ChGP 2) tc) (mk_maddr ctx S_ (len - 1 - n)) MRead top].
      assert (n = 0) as -> by lia. good. rewrite upd_same. reflexivity.
    - finish [mk_mop (stamp (ChGP 1) tc) (mk_maddr ctx S_ (len - 1 - 0)) MWrite top;
              mk_mop (stamp (ChGP 2) tc) (mk_maddr ctx S_ (len - 1 - n)) MRead (mread m (mk_maddr ctx S_ (len - 1 - n)))].
      + good. rewrite upd_other; [reflexivity|]. intros E. assert (len - 1 - n = len - 1 - 0) by congruence. lia.
      + wrd.
  Qed.
  Lemma step_swap : forall p n g2, 0 <= n -> ready p (Swap n) -> perform_op (Swap n) p = Ok tt g2 -> performed p g2.
  Proof.
    intros p n g2 N RD H. start H.
    all: finish [mk_mop (stamp (ChGP 1) tc) (mk_maddr ctx S_ (len - (2 + n))) MRead (mread m (mk_maddr ctx S_ (len - (2 + n))));
              mk_mop (stamp (ChGP 2) tc) (mk_maddr ctx S_ (len - (2 + n))) MWrite top].
    all: wrd.
  Qed.
  Lemma bundle_valid : forall x a, new_bundle x = Some a -> valid_addr a /\ a_virt a < 2^32.
  Proof.
    intros x a H. rewrite new_bundle_fields in H. destruct (Z.leb_spec 39 ((x / 2 ^ 32) mod 2 ^ 32)); [discriminate|].
    assert (a = mk_maddr ((x / 2 ^ 64) mod 2 ^ 32) ((x / 2 ^ 32) mod 2 ^ 32) (x mod 2 ^ 32)) by congruence. subst a. unfold valid_addr. cbn [a_context a_segment a_virt].
    pose proof (Z.mod_pos_bound (x / 2^64) (2^32) ltac:(lia)). pose proof (Z.mod_pos_bound (x / 2^32) (2^32) ltac:(lia)). pose proof (Z.mod_pos_bound x (2^32) ltac:(lia)). lia.
  Qed.
  Ltac bundled := match goal with E : new_bundle _ = Some ?a |- _ => destruct (bundle_valid _ _ E) end.
  Lemma step_mload_general : forall p g2, ready p MloadGeneral -> perform_op MloadGeneral p = Ok tt g2 -> performed p g2.
  Proof.
    intros p g2 RD H. start H.
    all: bundled; finish [mk_mop (stamp (ChGP 1) tc) m0 MRead (mread m m0)].
    all: try (apply RWORDS; assumption).
    all: good; try assumption; apply RWORDS; assumption.
  Qed.
  (** The store must not hit the new top of the stack. *)
  Lemma step_mstore_general : forall p g2,
    (forall a, new_bundle (contents (g_mem p) (stack_addr (g_regs p) 1)) = Some a -> 2 < stack_len (g_regs p) -> a <> stack_addr (g_regs p) 2) ->
    ready p MstoreGeneral -> perform_op MstoreGeneral p = Ok tt g2 -> performed p g2.
  Proof.
    intros p g2 C RD H. start H.
    all: bundled; finish [mk_mop (stamp (ChGP 1) tc) (mk_maddr ctx S_ (len - 1 - 1)) MRead (mread m (mk_maddr ctx S_ (len - 1 - 1)));
                          mk_mop (stamp ChPartial tc) m0 MWrite top].
    all: try wrd.
    all: try (good; assumption).
    intros _. split; [lia|]. norm. rewrite upd_other.
    - change (contents m) with (mread m). f_equal. f_equal. lia.
    - specialize (C m0). mcbv in C. intros E. apply C; [assumption|lia|]. rewrite <- E. f_equal. lia.
  Qed.
  Lemma step_exit_kernel : forall p g2, ready p ExitKernel -> perform_op ExitKernel p = Ok tt g2 -> performed p g2.
  Proof.
    intros p g2 RD H. start H.
    all: finish (@nil mop).
    all: try wrd.
    all: try (apply Z.mod_pos_bound; lia).
    all: try (apply Z.div_pos; unfold word in RTOP; lia).
    all: try topread.
  Qed.

  Lemma step_jump : forall p g2, ready p Jump -> perform_op Jump p = Ok tt g2 -> performed p g2.
  Proof.
    intros p g2 RD H. start H.
    all: assert (0 <= top) by (unfold word in RTOP; lia).
    all: try match goal with
         | E : (mread _ _ =? 1) = true |- _ => finish [mk_mop (stamp (ChGP 2) tc) (mk_maddr ctx SEG_JUMPDEST_BITS top) MRead (mread m (mk_maddr ctx SEG_JUMPDEST_BITS top))]
         | _ => finish (@nil mop)
         end.
    all: try wrd; try topread.
  Qed.
  Lemma step_jumpi : forall p g2, ready p Jumpi -> perform_op Jumpi p = Ok tt g2 -> performed p g2.
  Proof.
    intros p g2 RD H. start H.
    all: assert (0 <= top) by (unfold word in RTOP; lia).
    all: pose proof (low_u32_bound top).
    all: try match goal with
         | E : (mread _ _ =? 1) = true |- _ =>
           finish [mk_mop (stamp (ChGP 2) tc) (mk_maddr ctx SEG_JUMPDEST_BITS (low_u32 top)) MRead (mread m (mk_maddr ctx SEG_JUMPDEST_BITS (low_u32 top)));
                   mk_mop (stamp (ChGP 1) tc) (mk_maddr ctx S_ (len - 1 - 1)) MRead (mread m (mk_maddr ctx S_ (len - 1 - 1)))]
         | _ => finish [mk_mop (stamp (ChGP 1) tc) (mk_maddr ctx S_ (len - 1 - 1)) MRead (mread m (mk_maddr ctx S_ (len - 1 - 1)))]
         end.
    all: try wrd; try topread.
  Qed.
  Ltac logged l := match l with ?a ++ ?b => let x := logged a in let y := eval cbn [app] in (x ++ b) in y | _ => constr:(@nil mop) end.
  Ltac autofinish := match goal with |- performed _ {| g_traces := {| t_memory := ?l |} |} => let ops := logged l in finish ops end.
  Lemma diff_segment : forall c s v c' s' v', s <> s' -> mk_maddr c s v <> mk_maddr c' s' v'.
  Proof. congruence. Qed.
  Lemma diff_context : forall c s v c' s' v', c <> c' -> mk_maddr c s v <> mk_maddr c' s' v'.
  Proof. congruence. Qed.
  Lemma step_set_context : forall p g2, ready p SetContext -> perform_op SetContext p = Ok tt g2 -> performed p g2.
  Proof.
    intros p g2 RD H. start H.
    all: try (exfalso; clear -Heqb0 Heqb4 Heqb RLEN; lia).
    all: assert (0 <= Z.shiftr top CONTEXT_SCALING_FACTOR) by (apply Z.shiftr_nonneg; unfold word in RTOP; lia).
    all: set (n := Z.shiftr top CONTEXT_SCALING_FACTOR) in *.
    all: assert (SPW : word (mread m (mk_maddr n SEG_CONTEXT_METADATA CTX_STACK_SIZE))) by (apply RWORDS; addr).
    all: assert (word 0) by apply word_0.
    all: assert (word (len - 1)) by (unfold word; lia).
    all: autofinish.
    all: try (unfold word in *; lia).
    all: try wrd.
    all: good.
    all: try assumption.
    all: try (apply RWORDS; unfold word in SPW; addr).
    all: try (unfold word in SPW; addr).
    all: rewrite ?upd_other by (first [apply diff_segment; discriminate | apply diff_context; lia]).
    all: try reflexivity.
    all: apply Z.eqb_eq in Heqb2; rewrite Heqb2; rewrite upd_same; reflexivity.
  Qed.

  (** Byte reads before or after other operations. *)
  Lemma cells_valid : forall n a, valid_addr a -> Forall valid_addr (cells a n).
  Proof. intros. apply Forall_forall. intros x X. exact (proj1 (cells_in _ _ _ H X)). Qed.
  Lemma byte_ops_valid : forall k c a l, valid_addr a -> Forall (fun o => valid_addr (mo_address o)) (byte_ops k c a l).
  Proof.
    intros k c a l V. apply Forall_forall. intros o H. apply in_byte_ops in H. destruct H as (_ & _ & H & _). exact (proj1 (cells_in _ _ _ V H)).
  Qed.
  Lemma byte_ops_words : forall k c a l, Forall byte l -> Forall (fun o => word (mo_value o)) (byte_ops k c a l).
  Proof.
    intros k c a l V. apply Forall_forall. intros o H. apply in_byte_ops in H. destruct H as (_ & _ & _ & H). rewrite Forall_forall in V. apply byte_word, V, H.
  Qed.
  Lemma byte_ops_ticks : forall k c a l, Forall (ticks c) (byte_ops k c a l).
  Proof.
    intros k c a l. apply Forall_forall. intros o H. apply in_byte_ops in H. destruct H as (H & _). exists 0. split; [lia|]. rewrite H. reflexivity.
  Qed.
  Lemma ch_sort_bytes : forall k c a b l, ch_sort c (byte_ops k c a b ++ l) = byte_ops k c a b ++ ch_sort c l.
  Proof.
    intros. unfold ch_sort. rewrite !at_tick_app, !at_tick_bytes. cbn [Z.eqb app]. rewrite !app_assoc. reflexivity.
  Qed.
  Lemma good_bytes : forall c f a l r, good_log c f r -> valid_addr a -> Forall byte l ->
    Forall2 (fun x v => v = f x) (cells a (length l)) l -> good_log c f (byte_ops MRead c a l ++ r).
  Proof.
    intros c f a l r G V B F. constructor.
    - apply Forall_app. split; [apply byte_ops_valid, V|apply (gl_valid _ _ _ G)].
    - apply Forall_app. split; [apply byte_ops_words, B|apply (gl_word _ _ _ G)].
    - apply Forall_app. split; [apply byte_ops_ticks|apply (gl_ticks _ _ _ G)].
    - rewrite ch_sort_bytes. apply reads_ok_app. split; [apply byte_ops_reads_ok, F|]. rewrite after_bytes_read. apply (gl_reads _ _ _ G).
    - rewrite ch_sort_bytes, !filter_app, writes_bytes_read. apply (gl_writes _ _ _ G).
  Qed.
  (** After operations of the other channels. *)
  Lemma good_late_bytes : forall c f a l r, good_log c f r -> at_tick c 0 r = [] -> valid_addr a -> Forall byte l ->
    Forall2 (fun x v => v = f x) (cells a (length l)) l -> good_log c f (r ++ byte_ops MRead c a l).
  Proof.
    intros c f a l r G E V B F. assert (S : ch_sort c (r ++ byte_ops MRead c a l) = byte_ops MRead c a l ++ ch_sort c r).
    { unfold ch_sort. rewrite !at_tick_app, !at_tick_bytes, E. cbn [Z.eqb app]. rewrite !app_nil_r. reflexivity. }
    constructor.
    - apply Forall_app. split; [apply (gl_valid _ _ _ G)|apply byte_ops_valid, V].
    - apply Forall_app. split; [apply (gl_word _ _ _ G)|apply byte_ops_words, B].
    - apply Forall_app. split; [apply (gl_ticks _ _ _ G)|apply byte_ops_ticks].
    - rewrite S. apply reads_ok_app. split; [apply byte_ops_reads_ok, F|]. rewrite after_bytes_read. apply (gl_reads _ _ _ G).
    - rewrite S, !filter_app, writes_bytes_read, app_nil_r. apply (gl_writes _ _ _ G).
  Qed.
  Lemma good_nil : forall c f, good_log c f [].
  Proof. intros. constructor; try constructor. Qed.

  Definition bytes_at (m : mem_state) (a : maddr) (n : nat) : Prop := Forall (fun x => contents m x < 256) (cells a n).
  Lemma read_bytes_ok : forall m a n, (forall a, valid_addr a -> word (contents m a)) -> valid_addr a -> bytes_at m a n ->
    Forall2 (fun x v => v = contents m x) (cells a (length (map (fun a => as_byte (mread m a)) (cells a n)))) (map (fun a => as_byte (mread m a)) (cells a n)).
  Proof.
    intros m a n W V B. rewrite map_length, cells_length. apply read_back. intros x X. unfold bytes_at in B. rewrite Forall_forall in B.
    pose proof (W x (proj1 (cells_in _ _ _ V X))) as [P _]. specialize (B x X). lia.
  Qed.
  Lemma length_read : forall m a n, length (map (fun a => as_byte (mread m a)) (cells a n)) = n.
  Proof. intros. rewrite map_length. apply cells_length. Qed.

  Ltac notick := let o := fresh "o" in let I := fresh "I" in let T := fresh "T" in let K := fresh "K" in intros o I T K; exfalso;
    rewrite ?in_app_iff in I; cbn [In] in I;
    repeat match type of I with _ \/ _ => destruct I as [I|I] end;
    try contradiction;
    first [ apply in_byte_ops in I; destruct I as (_ & I & _); congruence
          | rewrite <- I in T; cbn [mo_timestamp] in T; apply Z.eqb_eq in T; rewrite stamp_tick in T; discriminate T ].
  (** As [finish], for operations that are not a plain list. *)
  Ltac finish_with ops :=
    exists ops; split; [mcbv; rewrite <- ?app_assoc, ?app_nil_r; reflexivity|]; split; [reflexivity|];
    split; [|split; [|split; [|split; [|split; [|split; [|split]]]]]]; mcbv;
    [ | try lia | try lia | try lia | try lia | try assumption | try discriminate | try solve [notick] ].

  Lemma step_keccak : forall p g2,
    (forall a, new_bundle (stack_top (g_regs p)) = Some a -> bytes_at (g_mem p) a (Z.to_nat (contents (g_mem p) (stack_addr (g_regs p) 1)))) ->
    ready p KeccakGeneral -> perform_op KeccakGeneral p = Ok tt g2 -> performed p g2.
  Proof.
    intros p g2 C RD H. start H.
    all: bundled; specialize (C m0 ltac:(assumption)); mcbv in C.
    all: finish_with (byte_ops MRead tc m0 (map (fun a => as_byte (mread m a)) (cells m0 (Z.to_nat (mread m (mk_maddr ctx S_ (len - 1 - 1)))))) ++
       [mk_mop (stamp (ChGP 1) tc) (mk_maddr ctx S_ (len - 1 - 1)) MRead (mread m (mk_maddr ctx S_ (len - 1 - 1)))]).
    all: try apply keccak_word.
    all: apply good_bytes; [good|assumption|apply bytes_read|apply read_bytes_ok; assumption].
  Qed.
  Lemma step_mload_32bytes : forall p g2,
    (forall a, new_bundle (stack_top (g_regs p)) = Some a -> bytes_at (g_mem p) a (Z.to_nat (contents (g_mem p) (stack_addr (g_regs p) 1)))) ->
    ready p Mload32Bytes -> perform_op Mload32Bytes p = Ok tt g2 -> performed p g2.
  Proof.
    intros p g2 C RD H. start H.
    all: bundled; specialize (C m0 ltac:(assumption)); mcbv in C.
    all: finish_with (byte_ops MRead tc m0 (map (fun a => as_byte (mread m a)) (cells m0 (Z.to_nat (mread m (mk_maddr ctx S_ (len - 1 - 1)))))) ++
       [mk_mop (stamp (ChGP 1) tc) (mk_maddr ctx S_ (len - 1 - 1)) MRead (mread m (mk_maddr ctx S_ (len - 1 - 1)))]).
    all: try (apply word_big_endian; [apply bytes_read|rewrite length_read; lia]).
    all: apply good_bytes; [good|assumption|apply bytes_read|apply read_bytes_ok; assumption].
  Qed.
  Lemma step_push : forall p n g2, 0 <= n ->
    (is_kernel (g_regs p) = false -> bytes_at (g_mem p) (mk_maddr (code_context (g_regs p)) SEG_CODE (program_counter (g_regs p) + 1)) (Z.to_nat n)) ->
    ready p (Push n) -> perform_op (Push n) p = Ok tt g2 -> performed p g2.
  Proof.
    intros p n g2 N C RD H. start H.
    all: try discriminate.
    all: try (specialize (C eq_refl)); mcbv in C.
    all: match goal with
         | |- performed _ {| g_traces := {| t_memory := (_ ++ [_]) ++ byte_ops _ _ ?a ?l |} |} =>
           finish_with ([mk_mop (stamp ChPartial tc) (mk_maddr ctx S_ (len - 1 - 0)) MWrite top] ++ byte_ops MRead tc a l)
         | |- performed _ {| g_traces := {| t_memory := _ ++ byte_ops _ _ ?a ?l |} |} => finish_with (byte_ops MRead tc a l ++ [])
         | |- performed _ {| g_traces := {| t_memory := _ ++ [_] |} |} => finish_with [mk_mop (stamp ChPartial tc) (mk_maddr ctx S_ (len - 1 - 0)) MWrite top]
         | _ => finish_with (@nil mop)
         end.
    all: try (apply word_big_endian; [apply bytes_read|rewrite length_read; lia]).
    all: try apply good_nil.
    all: try solve [good].
    all: first [apply good_bytes; [apply good_nil|..] | apply good_late_bytes; [good|rewrite at_tick_cons; reflexivity|..]].
    all: try apply bytes_read.
    all: try (apply read_bytes_ok; [assumption|addr|assumption]).
    all: addr.
  Qed.

  Lemma step_enter : forall p table code info opc g2, 0 <= table -> 0 <= code -> 0 <= info <= 2^64 -> gas_used (g_regs p) < 2^32 ->
    bytes_at (g_mem p) (mk_maddr 0 SEG_CODE (table + code * 3)) 3 ->
    ready p (Syscall 0 0 false) -> enter_kernel O table code info opc p = Ok tt g2 -> performed p g2.
  Proof.
    intros p table code info opc g2 T N I G C RD H. unfold enter_kernel in H. run H.
    all: mcbv in C; mcbv in G.
    all: match goal with
         | |- performed _ {| g_traces := {| t_memory := (_ ++ [_]) ++ byte_ops _ _ ?a ?l |} |} =>
           finish_with ([mk_mop (stamp ChPartial tc) (mk_maddr ctx S_ (len - 1 - 0)) MWrite top] ++ byte_ops MRead tc a l)
         | |- performed _ {| g_traces := {| t_memory := _ ++ byte_ops _ _ ?a ?l |} |} => finish_with (byte_ops MRead tc a l ++ [])
         end.
    all: try (apply from_big_endian_bound, bytes_read).
    all: try (unfold word; destruct k; cbn [b2z]; lia).
    all: first [apply good_bytes; [apply good_nil|..] | apply good_late_bytes; [good|rewrite at_tick_cons; reflexivity|..]].
    all: try apply bytes_read.
    all: try (apply read_bytes_ok; [assumption|addr|assumption]).
    all: addr.
  Qed.
  Lemma step_syscall : forall p opc n b g2, 0 <= opc -> bytes_at (g_mem p) (mk_maddr 0 SEG_CODE (syscall_jumptable + opc * 3)) 3 ->
    ready p (Syscall opc n b) -> perform_op (Syscall opc n b) p = Ok tt g2 -> performed p g2.
  Proof.
    intros p opc n b g2 N C RD H. cbn [MachineModel.perform_op] in H. unfold generate_syscall, bind at 1, get_regs at 1, gets at 1 in H.
    unfold bind at 1, guard at 1 in H. destruct (gas_used (g_regs p) <? 2^32) eqn:G; [|discriminate H].
    unfold ret at 1, bind at 1, guard at 1 in H. destruct (n <=? stack_len (g_regs p)); [|discriminate H].
    unfold ret at 1, bind at 1, guard at 1 in H. destruct (negb (b && _ && _)); [|discriminate H]. unfold ret at 1 in H.
    pose proof (rd_pc _ _ RD). apply step_enter in H; try assumption; try lia. destruct RD. constructor; assumption.
  Qed.
  (** The stored bytes must not hit the two operands on the stack. *)
  Lemma after_bytes_other : forall c l a f b, ~ In b (cells a (length l)) -> after f (byte_ops MWrite c a l) b = f b.
  Proof.
    intros c l a f b N. apply after_untouched. intros (o & I & E). apply in_byte_ops in I. destruct I as (_ & _ & I & _). rewrite E in I. contradiction.
  Qed.
  Lemma step_mstore_32bytes : forall p n g2, 0 <= n ->
    (forall a, new_bundle (stack_top (g_regs p)) = Some a ->
       ~ In (stack_addr (g_regs p) 0) (cells a (Z.to_nat n)) /\ ~ In (stack_addr (g_regs p) 1) (cells a (Z.to_nat n))) ->
    ready p (Mstore32Bytes n) -> perform_op (Mstore32Bytes n) p = Ok tt g2 -> performed p g2.
  Proof.
    intros p n g2 N C RD H. start H.
    all: bundled; specialize (C m0 ltac:(assumption)); mcbv in C; destruct C as [C0 C1].
    all: set (v := mread m (mk_maddr ctx S_ (len - 1 - 1))) in *.
    all: finish_with (byte_ops MWrite tc m0 (be_bytes v (Z.to_nat n)) ++ [mk_mop (stamp (ChGP 1) tc) (mk_maddr ctx S_ (len - 1 - 1)) MRead v]).
    all: try (unfold word in *; lia).
    all: try (intros o' I T K; apply in_app_or in I; destruct I as [I|[<-|[]]]; [|discriminate K]; apply in_byte_ops in I; destruct I as (_ & _ & I & _);
              rewrite be_bytes_length in I; intros E; apply C0; rewrite <- E; exact I).
    all: assert (GL : good_log tc (contents m) [mk_mop (stamp (ChGP 1) tc) (mk_maddr ctx S_ (len - 1 - 1)) MRead v]) by (subst v; good).
    all: constructor.
    all: try (apply Forall_app; split; [apply byte_ops_valid; assumption|apply (gl_valid _ _ _ GL)]).
    all: try (apply Forall_app; split; [apply byte_ops_words, be_bytes_bytes|apply (gl_word _ _ _ GL)]).
    all: try (apply Forall_app; split; [apply byte_ops_ticks|apply (gl_ticks _ _ _ GL)]).
    all: rewrite ch_sort_bytes.
    all: try (rewrite !filter_app, (gl_writes _ _ _ GL); reflexivity).
    all: apply reads_ok_app.
    all: split; [|unfold ch_sort; rewrite ?at_tick_cons, ?at_tick_nil; norm; split; [rewrite after_bytes_other by (rewrite be_bytes_length; exact C1); reflexivity|exact I]].
    all: generalize (contents m) as f, m0 as a; induction (be_bytes v (Z.to_nat n)) as [|x l IH]; intros f a; [exact I|].
    all: unfold byte_ops; cbn [length cells combine map reads_ok mo_kind fst snd mo_address mo_value]; apply IH.
  Qed.
  (** A prover input may come with a change of the memory. *)
  Lemma step_prover_input : forall p g2,
    (forall r v m' o', prover_input r (g_mem p) (g_oracle p) = Some (inr (v, m', o')) -> word v /\ mem_wf m' /\ (forall a, valid_addr a -> word (contents m' a))) ->
    ready p ProverInput -> perform_op ProverInput p = Ok tt g2 -> performed p g2 /\
    exists v o', prover_input (g_regs p) (g_mem p) (g_oracle p) = Some (inr (v, g_mem g2, o')).
  Proof.
    intros p g2 C RD H. cbn [MachineModel.perform_op] in H. unfold generate_prover_input, bind at 1 in H.
    specialize (C (g_regs p)). destruct (prover_input (g_regs p) (g_mem p) (g_oracle p)) as [[e|[[v m'] o']]|] eqn:E; try discriminate H.
    destruct (C _ _ _ eq_refl) as (WV & WM & WW).
    assert (RD' : ready (mk_g (g_regs p) m' (g_traces p) (g_stale p) o') ProverInput) by (destruct RD; constructor; assumption).
    split.
    - clear E C RD. destruct p as [r0 m0 t0 st0 o0]. cbn [g_regs g_traces g_stale] in *.
      match type of H with ?f ?p = _ => set (p' := p) in * end.
      enough (performed p' g2) as P by (unfold performed in *; exact P).
      clearbody p'. clear m0 o0 r0 t0 st0 m' WM WW o'. rename p' into p, RD' into RD. run H.
      all: match goal with
         | E : (_ =? 0) = true |- _ => finish (@nil mop)
         | _ => finish [mk_mop (stamp ChPartial tc) (mk_maddr ctx S_ (len - 1 - 0)) MWrite top]
         end.
    - exists v, o'. f_equal. f_equal. f_equal. f_equal. clear -H. match type of H with ?f ?p = _ => set (p' := p) in * end. change m' with (g_mem p'). clearbody p'.
      destruct p' as [[pc k len top tr co ctx gas] m [ta tb tc tl tm ts] st o]. mcbv in H; repeat (split_if H; mcbv in H). all: apply ok_inj in H; subst g2; reflexivity.
  Qed.
End Step.
