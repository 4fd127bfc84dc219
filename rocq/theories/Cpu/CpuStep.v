(** What two consecutive accepted rows say about one step of the machine. *)
From Coq Require Import ZArith Znumtheory List Bool Arith Lia.
From Verif Require Import Stark.Field Stark.ArithModel Cpu.CpuModel Cpu.CpuSpec Cpu.CpuFacts Cpu.CpuDecode.
Import ListNotations.
Local Open Scope Z_scope.

(** Channel [c] of row [r] is used for an access to the stack of the context
    of [ctx], at index [idx]. *)
Definition stack_access (r : row) (c : nat) (rd ctx idx : Z) : Prop :=
  used r c = 1 /\ is_read r c = rd /\ addr_context r c = ctx /\ addr_segment r c = SEGMENT_STACK /\ addr_virtual r c = idx mod P.

(** * One stack behaviour, active *)
Section Behavior.
  Variables (lv nv : row) (b : stack_behavior).
  Hypothesis A : Forall ok (eval_stack_one lv nv 1 b).
  Hypothesis CL : forall c, canonical (lv c).
  Hypothesis CN : forall c, canonical (nv c).

  Lemma sb_len : nv STACK_LEN = (lv STACK_LEN - Z.of_nat (num_pops b) + (if CpuModel.pushes b then 1 else 0)) mod P.
  Proof.
    unfold eval_stack_one in A. rewrite !Forall_app in A. destruct A as (_ & _ & X). opened X.
    apply eq_mod; [apply CN|]. find_eq.
  Qed.

  Lemma sb_pops : forall j, (1 <= j < num_pops b)%nat -> stack_access lv (channel j) 1 (lv CONTEXT) (lv STACK_LEN - 1 - Z.of_nat j).
  Proof.
    intros j J. unfold eval_stack_one in A. rewrite !Forall_app in A. destruct A as (X & _).
    destruct (Nat.ltb_spec 0 (num_pops b)); [|lia]. rewrite !Forall_app in X. destruct X as (X & _).
    rewrite Forall_flat_map in X. rewrite Forall_forall in X. specialize (X j ltac:(apply in_seq; lia)).
    unfold pop_channel in X. opened X.
    repeat split.
    - apply eq_const; [apply CL|unfold P; lia|find_eq].
    - apply eq_const; [apply CL|unfold P; lia|find_eq].
    - apply eq_cell; [apply CL|apply CL|find_eq].
    - apply eq_const; [apply CL|unfold SEGMENT_STACK, P; lia|find_eq].
    - apply eq_mod; [apply CL|]. rewrite Nat2Z.inj_add in *. change (Z.of_nat 1) with 1 in *. find_eq.
  Qed.

  Lemma sb_partial : (0 < num_pops b)%nat \/ CpuModel.pushes b = false -> used lv partial_channel = 0.
  Proof.
    intros J. unfold eval_stack_one in A. rewrite !Forall_app in A. destruct A as (X & _).
    destruct (Nat.ltb_spec 0 (num_pops b)).
    - rewrite !Forall_app in X. destruct X as (_ & X & _). opened X. apply eq_zero; [apply CL|]. find_eq.
    - destruct J as [J|J]; [lia|]. rewrite J in X. rewrite !Forall_app in X. destruct X as (_ & _ & X). opened X.
      apply eq_zero; [apply CL|]. find_eq.
  Qed.

  Lemma sb_others : disable_other_channels b = true ->
    forall c, (Nat.max 1 (num_pops b) <= c < 3 - (if CpuModel.pushes b then 1 else 0))%nat -> used lv (channel c) = 0.
  Proof.
    intros J c Hc. unfold eval_stack_one in A. rewrite !Forall_app in A. destruct A as (_ & X & _). rewrite J in X.
    rewrite Forall_forall in X. apply eq_zero; [apply CL|]. 
    assert (I : In c (seq (Nat.max 1 (num_pops b)) (NUM_GP_CHANNELS - (if CpuModel.pushes b then 1 else 0) - Nat.max 1 (num_pops b)))).
    { apply in_seq. unfold NUM_GP_CHANNELS. lia. }
    specialize (X _ (in_map _ _ _ I)). apply use_ok_all in X. rewrite Z.mul_1_l in X. exact X.
  Qed.

  (** The next row reads the new top, unless the stack has become empty. *)
  Lemma sb_newtop : (0 < num_pops b)%nat -> CpuModel.pushes b = false ->
    (Z.of_nat (num_pops b) < P) ->
    if Z.eq_dec (lv STACK_LEN) (Z.of_nat (num_pops b)) then used nv (channel 0) = 0
    else stack_access nv (channel 0) 1 (nv CONTEXT) (nv STACK_LEN - 1).
  Proof.
    intros J Pu B. unfold eval_stack_one in A. rewrite !Forall_app in A. destruct A as (X & _).
    destruct (Nat.ltb_spec 0 (num_pops b)); [|lia]. rewrite Pu in X. rewrite !Forall_app in X. destruct X as (_ & _ & X & Y).
    unfold read_new_top in X. opened X. opened Y.
    pose proof (CL STACK_LEN) as CS.
    destruct (Z.eq_dec (lv STACK_LEN) (Z.of_nat (num_pops b))) as [E|E].
    - rewrite E, Z.sub_diag in *.
      assert (Ax : lv STACK_INV_AUX = 0) by (apply eq_zero; [apply CL|]; find_eq). rewrite Ax in *.
      apply eq_zero; [apply CN|]. find_eq.
    - assert (NZ : (lv STACK_LEN - Z.of_nat (num_pops b)) mod P <> 0).
      { intros Q. apply E. apply eq_const; [exact CS|lia|exact Q]. }
      assert (G : forall e, ((lv STACK_LEN - Z.of_nat (num_pops b)) * 1 * e) mod P = 0 -> e mod P = 0).
      { intros e Q. apply (nonzero_factor _ _ Q). rewrite Z.mul_1_r. exact NZ. }
      repeat match goal with Q : (_ * 1 * _) mod P = 0 |- _ => apply G in Q end.
      repeat split.
      + apply eq_const; [apply CN|unfold P; lia|find_eq].
      + apply eq_const; [apply CN|unfold P; lia|find_eq].
      + apply eq_cell; [apply CN|apply CN|find_eq].
      + apply eq_const; [apply CN|unfold SEGMENT_STACK, P; lia|find_eq].
      + apply eq_mod; [apply CN|find_eq].
  Qed.

  (** The old top is written back, unless the stack was empty. *)
  Lemma sb_oldtop : num_pops b = 0%nat -> CpuModel.pushes b = true ->
    if Z.eq_dec (lv STACK_LEN) 0 then used lv partial_channel = 0
    else stack_access lv partial_channel 0 (lv CONTEXT) (lv STACK_LEN - 1).
  Proof.
    intros J Pu. unfold eval_stack_one in A. rewrite !Forall_app in A. destruct A as (X & _).
    rewrite J, Pu in X. cbn [Nat.ltb Nat.leb] in X. opened X.
    pose proof (CL STACK_LEN) as CS.
    destruct (Z.eq_dec (lv STACK_LEN) 0) as [E|E].
    - rewrite E in *. 
      assert (Ax : lv STACK_INV_AUX = 0) by (apply eq_zero; [apply CL|]; find_eq). rewrite Ax in *.
      apply eq_zero; [apply CL|]. find_eq.
    - assert (NZ : (lv STACK_LEN) mod P <> 0).
      { intros Q. apply E. apply eq_zero; [exact CS|exact Q]. }
      assert (G : forall e, (lv STACK_LEN * 1 * e) mod P = 0 -> e mod P = 0).
      { intros e Q. apply (nonzero_factor _ _ Q). rewrite Z.mul_1_r. exact NZ. }
      repeat match goal with Q : (lv STACK_LEN * 1 * _) mod P = 0 |- _ => apply G in Q end.
      repeat split.
      + apply eq_const; [apply CL|unfold P; lia|find_eq].
      + apply eq_zero; [apply CL|find_eq].
      + apply eq_cell; [apply CL|apply CL|find_eq].
      + apply eq_const; [apply CL|unfold SEGMENT_STACK, P; lia|find_eq].
      + apply eq_mod; [apply CL|find_eq].
  Qed.

  (** Neither pops nor pushes: the top stays. *)
  Lemma sb_same : num_pops b = 0%nat -> CpuModel.pushes b = false ->
    used nv (channel 0) = 0 /\ value nv (channel 0) = value lv (channel 0).
  Proof.
    intros J Pu. unfold eval_stack_one in A. rewrite !Forall_app in A. destruct A as (X & _).
    rewrite J, Pu in X. cbn [Nat.ltb Nat.leb] in X. rewrite !Forall_app in X. destruct X as (X & Y & _). opened X.
    split; [apply eq_zero; [apply CN|find_eq]|].
    unfold value. apply map_ext_in. intros i Hi. rewrite Forall_forall in Y. specialize (Y _ (in_map _ _ _ Hi)). apply use_ok_all in Y.
    symmetry. apply eq_cell; [apply CL|apply CN|]. rewrite Z.mul_1_l in Y. exact Y.
  Qed.
End Behavior.

(** * The behaviour of the instructions that have one *)

Definition behavior_of (i : instr) : option stack_behavior :=
  match i with
  | Binary | Fp254 | Logic | Eq | Keccak => Some (sb 2 true true)
  | Ternary => Some (sb 3 true true)
  | Shift | Mload32 | Mstore32 _ => Some (sb 2 true false)
  | IsZero | Not => Some (sb 1 true true)
  | Jumpdest => Some (sb 0 false true)
  | Push _ | ProverInput | Pc | Push0 => Some (sb 0 true true)
  | ExitKernel => Some (sb 1 false true)
  | MloadGeneral => Some (sb 1 true false)
  | Syscall _ | Exception _ => Some (sb 0 true false)
  | Pop | Jump | Jumpi | Dup _ | Swap _ | GetContext | SetContext | MstoreGeneral => None
  end.

Lemma flag_in : forall i, In (flag_of i) OP_FLAGS.
Proof. destruct i; cbn [flag_of OP_FLAGS In]; tauto. Qed.

Section Step.
  Variables (k : labels) (lv nv : row).
  Hypothesis OK : pair_ok k lv nv.
  Let H : Forall ok (eval_cpu k lv nv) := proj1 OK.
  Let CL : forall c, canonical (lv c) := proj1 (proj2 OK).
  Let CN : forall c, canonical (nv c) := proj2 (proj2 OK).
  Let R : row_ok k lv nv := pair_row k lv nv OK.

  (** The bits of a known opcode. *)
  Lemma bits_of : forall o, opcode_of lv = o ->
    bit lv 0 + 2 * bit lv 1 + 4 * bit lv 2 + 8 * bit lv 3 + 16 * bit lv 4 + 32 * bit lv 5 + 64 * bit lv 6 + 128 * bit lv 7 = o.
  Proof. intros o <-. symmetry. apply opcode_eq. Qed.

  Ltac bits E := let B := fresh "B" in pose proof (bits_of _ E) as B; use_bits R.
  Ltac the_flag RN F E := destruct RN as (V & F & E & EX); cbn [flag_of] in F; cbn [opcode] in E.
  Ltac the_op RN F E := destruct RN as (V & F & E & EX); cbn [flag_of] in F; cbn [opcode] in E; specialize (E _ eq_refl).

  Lemma behaves : forall i b, runs lv i -> behavior_of i = Some b -> Forall ok (eval_stack_one lv nv 1 b).
  Proof.
    intros i b RN B. destruct i; cbn [behavior_of] in B; try discriminate B; injection B as <-.
    - the_flag RN F E. rewrite <- F. eapply (m_stack_one k lv nv _ H). cbn [STACK_BEHAVIORS In]. eauto 20.
    - the_flag RN F E. rewrite <- F. eapply (m_stack_one k lv nv _ H). cbn [STACK_BEHAVIORS In]. eauto 20.
    - the_flag RN F E. rewrite <- F. eapply (m_stack_one k lv nv _ H). cbn [STACK_BEHAVIORS In]. eauto 20.
    - the_flag RN F E. rewrite <- F. eapply (m_stack_one k lv nv _ H). cbn [STACK_BEHAVIORS In]. eauto 20.
    - the_flag RN F E. rewrite <- F. eapply (m_stack_one k lv nv _ H). cbn [STACK_BEHAVIORS In]. eauto 20.
    - the_op RN F E. pose proof (m_eq_iszero k lv nv _ H) as M. unfold eval_eq_iszero in M. cbv zeta in M. rewrite !Forall_app in M.
      destruct M as (_ & _ & _ & _ & _ & M & _). bits E. replace (bit lv 0) with 0 in M by lia. rewrite F in M. exact M.
    - the_op RN F E. pose proof (m_eq_iszero k lv nv _ H) as M. unfold eval_eq_iszero in M. cbv zeta in M. rewrite !Forall_app in M.
      destruct M as (_ & _ & _ & _ & _ & _ & M). bits E. replace (bit lv 0) with 1 in M by lia. rewrite F in M. exact M.
    - the_op RN F E. pose proof (m_not k lv nv _ H) as M. unfold eval_not in M. cbv zeta in M. rewrite !Forall_app in M.
      destruct M as (_ & M). bits E. replace (bit lv 0) with 1 in M by lia. rewrite F in M. exact M.
    - the_op RN F E. pose proof (m_jumpdest k lv nv _ H) as M. bits E. replace (bit lv 1) with 1 in M by lia. rewrite F in M. exact M.
    - the_op RN F E. pose proof (m_keccak k lv nv _ H) as M. bits E. replace (bit lv 1) with 0 in M by lia. rewrite F in M. exact M.
    - the_flag RN F E. rewrite <- F. eapply (m_stack_one k lv nv _ H). cbn [STACK_BEHAVIORS In]. eauto 30.
    - the_flag RN F E. rewrite <- F. eapply (m_stack_one k lv nv _ H). cbn [STACK_BEHAVIORS In]. eauto 30.
    - the_flag RN F E. rewrite <- F. eapply (m_stack_one k lv nv _ H). cbn [STACK_BEHAVIORS In]. eauto 30.
    - the_flag RN F E. rewrite <- F. eapply (m_stack_one k lv nv _ H). cbn [STACK_BEHAVIORS In]. eauto 30.
    - the_flag RN F E. rewrite <- F. eapply (m_stack_one k lv nv _ H). cbn [STACK_BEHAVIORS In]. eauto 30.
    - the_flag RN F E. rewrite <- F. eapply (m_stack_one k lv nv _ H). cbn [STACK_BEHAVIORS In]. eauto 30.
    - the_op RN F E. pose proof (m_load k lv nv _ H) as M. unfold eval_load in M. cbv zeta in M. rewrite !Forall_app in M.
      destruct M as (_ & _ & _ & _ & M). bits E. replace (bit lv 0) with 1 in M by lia. rewrite F in M. exact M.
    - the_flag RN F E. rewrite <- F. eapply (m_stack_one k lv nv _ H). cbn [STACK_BEHAVIORS In]. eauto 30.
    - the_flag RN F E. rewrite <- F. eapply (m_stack_one k lv nv _ H). cbn [STACK_BEHAVIORS In]. eauto 30.
    - the_flag RN F E. rewrite <- F. eapply (m_stack_one k lv nv _ H). cbn [STACK_BEHAVIORS In]. eauto 30.
  Qed.

  Ltac cell := first [apply CL | apply CN].
  Ltac five := repeat split;
    first [apply eq_cell; [cell|cell|find_eq]
          |apply eq_const; [cell|unfold SEGMENT_STACK, SEGMENT_CODE, SEGMENT_JUMPDEST_BITS, SEGMENT_SHIFT_TABLE, P; lia|find_eq]
          |apply eq_zero; [cell|find_eq]
          |apply eq_mod; [cell|find_eq]].

  (** ** Length of the stack *)
  Lemma s_len : forall i, runs lv i -> i <> MstoreGeneral -> i <> SetContext ->
    nv STACK_LEN = (lv STACK_LEN - pops i + pushes i) mod P.
  Proof.
    intros i RN NE NE2. destruct (behavior_of i) as [b|] eqn:B.
    - pose proof (sb_len lv nv b (behaves i b RN B) CN) as L. rewrite L.
      destruct i; cbn [behavior_of] in B; try discriminate B; injection B as <-; reflexivity.
    - apply eq_mod; [apply CN|]. destruct i; try discriminate B; try contradiction; cbn [pops pushes].
      + the_op RN F E. bits E. pose proof (m_pop k lv nv _ H) as M. unfold eval_pop in M. cbv zeta in M. rewrite !Forall_app in M.
        destruct M as (_ & _ & _ & _ & M). replace (bit lv 0) with 0 in M by lia. rewrite F in M. opened M. find_eq.
      + the_op RN F E. bits E. pose proof (m_jump k lv nv _ H) as M. unfold eval_jump_jumpi in M. cbv zeta in M. rewrite !Forall_app in M.
        destruct M as (_ & _ & _ & _ & _ & M). replace (bit lv 0) with 0 in M by lia. rewrite F in M. opened M. find_eq.
      + the_op RN F E. bits E. pose proof (m_jump k lv nv _ H) as M. unfold eval_jump_jumpi in M. cbv zeta in M. rewrite !Forall_app in M.
        destruct M as (_ & _ & _ & _ & _ & M). replace (bit lv 0) with 1 in M by lia. rewrite F in M. opened M. find_eq.
      + the_op RN F E. bits E. cbn [valid] in V. pose proof (m_dup_swap k lv nv _ H) as M. unfold eval_dup_swap, eval_dup in M. cbv zeta in M. rewrite !Forall_app in M.
        destruct M as ((_ & _ & _ & _ & M) & _). replace (bit lv 4) with 0 in M by lia. rewrite F in M. opened M. find_eq.
      + the_op RN F E. bits E. cbn [valid] in V. pose proof (m_dup_swap k lv nv _ H) as M. unfold eval_dup_swap, eval_swap in M. cbv zeta in M. rewrite !Forall_app in M.
        destruct M as (_ & (_ & _ & _ & _ & M) & _). replace (bit lv 4) with 1 in M by lia. rewrite F in M. opened M. find_eq.
      + the_op RN F E. bits E. pose proof (m_contextops k lv nv _ H) as M. unfold eval_contextops, eval_get_context in M. cbv zeta in M. rewrite !Forall_app in M.
        destruct M as (_ & (_ & _ & M & _) & _). replace (bit lv 0) with 0 in M by lia. rewrite F in M. opened M. find_eq.
  Qed.

  (** No overflow in user mode. *)
  Lemma s_overflow : forall i, runs lv i ->
    match i with Push _ | ProverInput | Pc | Push0 | Dup _ | Swap _ | ExitKernel => True | _ => False end ->
    nv IS_KERNEL_MODE = 0 -> nv STACK_LEN <> 1025.
  Proof.
    intros i RN Hi K L.
    assert (G : exists b, In (flag_of i, b, true) STACK_BEHAVIORS).
    { destruct i; try contradiction; cbn [flag_of STACK_BEHAVIORS In]; eauto 30. }
    destruct G as [b G]. pose proof (m_overflow k lv nv _ H _ _ G) as X. apply use_ok_trans in X.
    destruct RN as (_ & F & _). rewrite F, K, L in X. unfold MAX_USER_STACK_SIZE in X.
    replace (1 * ((1025 - (1024 + 1)) * lv STACK_LEN_BOUNDS_AUX - (1 - 0))) with (-1) in X by ring. vm_compute in X. discriminate X.
  Qed.

  (** ** Operands *)
  Lemma s_operands : forall i j, runs lv i ->
    match i with Dup _ | Swap _ | Jumpi => False | _ => True end ->
    (1 <= j < Z.to_nat (pops i))%nat ->
    stack_access lv (channel j) 1 (lv CONTEXT) (lv STACK_LEN - 1 - Z.of_nat j).
  Proof.
    intros i j RN Hi J. destruct (behavior_of i) as [b|] eqn:B.
    - apply (sb_pops lv nv b (behaves i b RN B) CL). 
      destruct i; cbn [behavior_of] in B; try discriminate B; injection B as <-; cbn [pops num_pops sb] in *;
        try exact J; change (Z.to_nat 2) with 2%nat in J; change (Z.to_nat 3) with 3%nat in J; change (Z.to_nat 1) with 1%nat in J;
        change (Z.to_nat 0) with 0%nat in J; lia.
    - destruct i; try discriminate B; try contradiction; cbn [pops] in J; change (Z.to_nat 2) with 2%nat in J; change (Z.to_nat 1) with 1%nat in J;
        change (Z.to_nat 0) with 0%nat in J; try lia.
      assert (j = 1)%nat by lia. subst j.
      the_op RN F E. bits E. pose proof (m_store k lv nv _ H) as M. unfold eval_store in M. cbv zeta in M. rewrite !Forall_app in M.
      destruct M as (_ & _ & M & _). replace (bit lv 0) with 0 in M by lia. rewrite F in M. unfold pop_channel in M. opened M.
      change (Z.of_nat (1 + 1)) with 2 in *. change (Z.of_nat 1) with 1. five.
  Qed.

  Lemma low_bits : forall n b, bit lv 4 = b -> bit lv 5 = 0 -> bit lv 6 = 0 -> bit lv 7 = 1 -> opcode_of lv = n ->
    bit lv 0 + bit lv 1 * 2 + bit lv 2 * 4 + bit lv 3 * 8 = n - 128 - 16 * b.
  Proof. intros n b B4 B5 B6 B7 E. pose proof (bits_of _ E). lia. Qed.

  Lemma s_dup : forall n, runs lv (Dup n) ->
    stack_access lv (channel 1) 0 (lv CONTEXT) (lv STACK_LEN - 1) /\ value lv (channel 1) = value lv (channel 0) /\
    stack_access lv (channel 2) 1 (lv CONTEXT) (lv STACK_LEN - n) /\ value nv (channel 0) = value lv (channel 2) /\
    used nv (channel 0) = 0.
  Proof.
    intros n RN. the_op RN F E. cbn [valid] in V. bits E.
    assert (B4 : bit lv 4 = 0) by lia.
    pose proof (low_bits _ 0 B4 ltac:(lia) ltac:(lia) ltac:(lia) E) as N.
    pose proof (m_dup_swap k lv nv _ H) as M. unfold eval_dup_swap, eval_dup in M. cbv zeta in M. rewrite !Forall_app in M.
    destruct M as ((M1 & M2 & M3 & M4 & M5) & _). rewrite N, B4, F in *. clear - M1 M2 M3 M4 M5 CL CN H.
    assert (G : forall r1 c1 r2 c2, Forall ok (channels_equal (1 * (1 - 0)) r1 c1 r2 c2) ->
       (forall c, canonical (r1 c)) -> (forall c, canonical (r2 c)) -> value r1 c1 = value r2 c2).
    { intros r1 c1 r2 c2 X C1 C2. unfold value. apply map_ext_in. intros j Hj. rewrite Forall_forall in X.
      unfold channels_equal in X. specialize (X _ (in_map _ _ _ Hj)). apply use_ok_all in X. apply eq_cell; [apply C1|apply C2|]. find_eq. }
    pose proof (G _ _ _ _ M1 CL CL). pose proof (G _ _ _ _ M3 CL CN). clear M1 M3.
    unfold constrain_channel in M2, M4. opened M2. opened M4. opened M5.
    split; [five|]. split; [assumption|]. split; [five|]. split; [symmetry; assumption|]. five.
  Qed.

  Lemma s_swap : forall n, runs lv (Swap n) ->
    stack_access lv (channel 1) 1 (lv CONTEXT) (lv STACK_LEN - 1 - n) /\ value nv (channel 0) = value lv (channel 1) /\
    stack_access lv (channel 2) 0 (lv CONTEXT) (lv STACK_LEN - 1 - n) /\ value lv (channel 2) = value lv (channel 0) /\
    used nv (channel 0) = 0.
  Proof.
    intros n RN. the_op RN F E. cbn [valid] in V. bits E.
    assert (B4 : bit lv 4 = 1) by lia.
    pose proof (low_bits _ 1 B4 ltac:(lia) ltac:(lia) ltac:(lia) E) as N.
    pose proof (m_dup_swap k lv nv _ H) as M. unfold eval_dup_swap, eval_swap in M. cbv zeta in M. rewrite !Forall_app in M.
    destruct M as (_ & (M1 & M2 & M3 & M4 & M5) & _). rewrite N, B4, F in *. clear - M1 M2 M3 M4 M5 CL CN H.
    assert (G : forall r1 c1 r2 c2, Forall ok (channels_equal (1 * 1) r1 c1 r2 c2) ->
       (forall c, canonical (r1 c)) -> (forall c, canonical (r2 c)) -> value r1 c1 = value r2 c2).
    { intros r1 c1 r2 c2 X C1 C2. unfold value. apply map_ext_in. intros j Hj. rewrite Forall_forall in X.
      unfold channels_equal in X. specialize (X _ (in_map _ _ _ Hj)). apply use_ok_all in X. apply eq_cell; [apply C1|apply C2|]. find_eq. }
    pose proof (G _ _ _ _ M1 CL CL). pose proof (G _ _ _ _ M3 CL CN). clear M1 M3.
    unfold constrain_channel in M2, M4. opened M2. opened M4. opened M5.
    split; [five|]. split; [symmetry; assumption|]. split; [five|]. split; [symmetry; assumption|]. five.
  Qed.

  (** ** Saving the old top, loading the new one *)
  Lemma s_oldtop : forall i, runs lv i ->
    match i with Push _ | ProverInput | Pc | Push0 | Syscall _ | Exception _ => True | _ => False end ->
    if Z.eq_dec (lv STACK_LEN) 0 then used lv partial_channel = 0
    else stack_access lv partial_channel 0 (lv CONTEXT) (lv STACK_LEN - 1).
  Proof.
    intros i RN Hi. destruct (behavior_of i) as [b|] eqn:B; [|destruct i; try contradiction; discriminate B].
    apply (sb_oldtop lv nv b (behaves i b RN B) CL); destruct i; try contradiction; cbn [behavior_of] in B; injection B as <-; reflexivity.
  Qed.

  Lemma s_exit_top : runs lv ExitKernel ->
    if Z.eq_dec (lv STACK_LEN) 1 then used nv (channel 0) = 0 else stack_access nv (channel 0) 1 (nv CONTEXT) (nv STACK_LEN - 1).
  Proof.
    intros RN. exact (sb_newtop lv nv (sb 1 false true) (behaves ExitKernel _ RN eq_refl) CL CN ltac:(cbn; lia) eq_refl ltac:(reflexivity)).
  Qed.

  Lemma s_jump_top : forall i, runs lv i -> i = Jump \/ i = Jumpi ->
    if Z.eq_dec (lv STACK_LEN) (pops i) then used nv (channel 0) = 0 else stack_access nv (channel 0) 1 (nv CONTEXT) (nv STACK_LEN - 1).
  Proof.
    intros i RN Hi. 
    assert (B0 : lv JUMPS = 1 /\ bit lv 0 = pops i - 1 /\ 0 <= pops i < P).
    { destruct Hi as [-> | ->]; the_op RN F E; bits E; cbn [pops]; repeat split; try exact F; unfold P; lia. }
    destruct B0 as (F & B0 & PB). pose proof (m_jump k lv nv _ H) as M. unfold eval_jump_jumpi in M. cbv zeta in M. rewrite !Forall_app in M.
    destruct M as (X & Y & _). rewrite F, B0 in *. replace (lv STACK_LEN - 1 - (pops i - 1)) with (lv STACK_LEN - pops i) in * by ring.
    unfold read_new_top in X. opened X. opened Y.
    pose proof (CL STACK_LEN) as CS.
    destruct (Z.eq_dec (lv STACK_LEN) (pops i)) as [E|E].
    - rewrite E, Z.sub_diag in *.
      assert (Ax : lv STACK_INV_AUX = 0) by (apply eq_zero; [apply CL|]; find_eq). rewrite Ax in *.
      apply eq_zero; [apply CN|]. find_eq.
    - assert (NZ : (lv STACK_LEN - pops i) mod P <> 0).
      { intros Q. apply E. apply eq_const; [exact CS|exact PB|exact Q]. }
      assert (G : forall e, ((lv STACK_LEN - pops i) * 1 * e) mod P = 0 -> e mod P = 0).
      { intros e Q. apply (nonzero_factor _ _ Q). rewrite Z.mul_1_r. exact NZ. }
      repeat match goal with Q : (_ * 1 * _) mod P = 0 |- _ => apply G in Q end. five.
  Qed.

  (** ** Channels that are not used *)
  Definition quiet (i : instr) : list nat :=
    match i with
    | Binary | Ternary | Fp254 | Logic | Shift | Eq | Keccak | Jumpi | Dup _ | Swap _ | Mload32 | Mstore32 _ => [partial_channel]
    | IsZero | Not | Jump => [channel 1; partial_channel]
    | Pop | Jumpdest | ExitKernel => [channel 1; channel 2; partial_channel]
    | Push _ | ProverInput | Pc | Push0 | GetContext | SetContext => [channel 1]
    | MloadGeneral => [channel 2; partial_channel]
    | MstoreGeneral => [channel 2]
    | Syscall _ | Exception _ => [channel 1; channel 2]
    end.
  Lemma s_quiet : forall i c, runs lv i -> In c (quiet i) -> used lv c = 0.
  Proof.
    intros i c RN I. apply eq_zero; [apply CL|].
    assert (PART : forall b, behavior_of i = Some b -> (0 < num_pops b)%nat \/ CpuModel.pushes b = false -> used lv partial_channel mod P = 0).
    { intros b B Hb. rewrite (sb_partial lv nv b (behaves i b RN B) CL Hb). reflexivity. }
    assert (OTH : forall b j, behavior_of i = Some b -> disable_other_channels b = true ->
              (Nat.max 1 (num_pops b) <= j < 3 - (if CpuModel.pushes b then 1 else 0))%nat -> used lv (channel j) mod P = 0).
    { intros b j B D J. rewrite (sb_others lv nv b (behaves i b RN B) CL D j J). reflexivity. }
    destruct i; cbn [quiet In] in I; decompose [or] I; try contradiction; subst c;
      try (eapply PART; [reflexivity|cbn; lia || (right; reflexivity)]);
      try (eapply OTH; [reflexivity|reflexivity|cbn; lia]); clear PART OTH.
    - the_op RN F E. bits E. pose proof (m_pop k lv nv _ H) as M. unfold eval_pop in M. cbv zeta in M. rewrite !Forall_app in M.
      destruct M as (_ & _ & _ & M & _). replace (bit lv 0) with 0 in M by lia. rewrite F in M. cbn [map seq NUM_GP_CHANNELS Nat.sub] in M. opened M. find_eq.
    - the_op RN F E. bits E. pose proof (m_pop k lv nv _ H) as M. unfold eval_pop in M. cbv zeta in M. rewrite !Forall_app in M.
      destruct M as (_ & _ & _ & M & _). replace (bit lv 0) with 0 in M by lia. rewrite F in M. cbn [map seq NUM_GP_CHANNELS Nat.sub] in M. opened M. find_eq.
    - the_op RN F E. bits E. pose proof (m_pop k lv nv _ H) as M. unfold eval_pop in M. cbv zeta in M. rewrite !Forall_app in M.
      destruct M as (_ & _ & _ & _ & M). replace (bit lv 0) with 0 in M by lia. rewrite F in M. opened M. find_eq.
    - the_op RN F E. bits E. pose proof (m_jump k lv nv _ H) as M. unfold eval_jump_jumpi in M. cbv zeta in M. rewrite !Forall_app in M.
      destruct M as (_ & _ & _ & _ & _ & M). replace (bit lv 0) with 0 in M by lia. rewrite F in M. opened M. find_eq.
    - the_op RN F E. bits E. pose proof (m_jump k lv nv _ H) as M. unfold eval_jump_jumpi in M. cbv zeta in M. rewrite !Forall_app in M.
      destruct M as (_ & _ & _ & _ & _ & M). replace (bit lv 0) with 0 in M by lia. rewrite F in M. opened M. find_eq.
    - the_op RN F E. bits E. pose proof (m_jump k lv nv _ H) as M. unfold eval_jump_jumpi in M. cbv zeta in M. rewrite !Forall_app in M.
      destruct M as (_ & _ & _ & _ & _ & M). replace (bit lv 0) with 1 in M by lia. rewrite F in M. opened M. find_eq.
    - the_op RN F E. pose proof (m_dup_swap k lv nv _ H) as M. unfold eval_dup_swap in M. cbv zeta in M. rewrite !Forall_app in M.
      destruct M as (_ & _ & M). rewrite F in M. opened M. find_eq.
    - the_op RN F E. pose proof (m_dup_swap k lv nv _ H) as M. unfold eval_dup_swap in M. cbv zeta in M. rewrite !Forall_app in M.
      destruct M as (_ & _ & M). rewrite F in M. opened M. find_eq.
    - the_op RN F E. bits E. pose proof (m_contextops k lv nv _ H) as M. unfold eval_contextops, eval_get_context, disable_unused_channels in M. cbv zeta in M. rewrite !Forall_app in M.
      destruct M as (_ & (_ & _ & _ & M & _) & _). replace (bit lv 0) with 0 in M by lia. rewrite F in M. cbn [map] in M. opened M. find_eq.
    - the_op RN F E. bits E. pose proof (m_contextops k lv nv _ H) as M. unfold eval_contextops, eval_set_context, disable_unused_channels in M. cbv zeta in M. rewrite !Forall_app in M.
      destruct M as (_ & _ & (_ & _ & _ & _ & M & _) & _). replace (bit lv 0) with 1 in M by lia. rewrite F in M. cbn [map] in M. opened M. find_eq.
    - the_op RN F E. bits E. pose proof (m_load k lv nv _ H) as M. unfold eval_load in M. cbv zeta in M. rewrite !Forall_app in M.
      destruct M as (_ & _ & M & _). replace (bit lv 0) with 1 in M by lia. rewrite F in M. cbn [map seq NUM_GP_CHANNELS Nat.sub] in M. opened M. find_eq.
    - the_op RN F E. bits E. pose proof (m_store k lv nv _ H) as M. unfold eval_store in M. cbv zeta in M. rewrite !Forall_app in M.
      destruct M as (_ & M & _). replace (bit lv 0) with 0 in M by lia. rewrite F in M. cbn [map seq NUM_GP_CHANNELS Nat.sub] in M. opened M. find_eq.
    - the_flag RN F E. pose proof (only_flag _ _ _ R SYSCALL EXCEPTION ltac:(cbn; tauto) ltac:(cbn; tauto) F ltac:(discriminate)) as Z.
      pose proof (m_syscalls k lv nv _ H) as M. unfold eval_syscalls_exceptions in M. cbv zeta in M. rewrite !Forall_app in M.
      destruct M as (_ & _ & M & _). rewrite F, Z in M. opened M. find_eq.
    - the_flag RN F E. pose proof (only_flag _ _ _ R SYSCALL EXCEPTION ltac:(cbn; tauto) ltac:(cbn; tauto) F ltac:(discriminate)) as Z.
      pose proof (m_syscalls k lv nv _ H) as M. unfold eval_syscalls_exceptions in M. cbv zeta in M. rewrite !Forall_app in M.
      destruct M as (_ & _ & _ & _ & M & _). rewrite F, Z in M. cbn [map seq NUM_GP_CHANNELS Nat.sub] in M. opened M. find_eq.
    - the_flag RN F E. pose proof (only_flag _ _ _ R EXCEPTION SYSCALL ltac:(cbn; tauto) ltac:(cbn; tauto) F ltac:(discriminate)) as Z.
      pose proof (m_syscalls k lv nv _ H) as M. unfold eval_syscalls_exceptions in M. cbv zeta in M. rewrite !Forall_app in M.
      destruct M as (_ & _ & M & _). rewrite F, Z in M. opened M. find_eq.
    - the_flag RN F E. pose proof (only_flag _ _ _ R EXCEPTION SYSCALL ltac:(cbn; tauto) ltac:(cbn; tauto) F ltac:(discriminate)) as Z.
      pose proof (m_syscalls k lv nv _ H) as M. unfold eval_syscalls_exceptions in M. cbv zeta in M. rewrite !Forall_app in M.
      destruct M as (_ & _ & _ & _ & M & _). rewrite F, Z in M. cbn [map seq NUM_GP_CHANNELS Nat.sub] in M. opened M. find_eq.
  Qed.

  (** ** Control *)
  Ltac others F f :=
    repeat match goal with
    | |- context [lv ?g] => 
        lazymatch g with f => fail | _ => idtac end;
        rewrite (only_flag _ _ _ R f g ltac:(cbn; tauto) ltac:(cbn; tauto) F ltac:(discriminate))
    end.

  Lemma native_one : forall i, runs lv i -> straight i -> i <> ProverInput -> sum (map lv NATIVE_INSTRUCTIONS) = 1.
  Proof.
    intros i RN S NE. destruct RN as (_ & F & _).
    assert (Z : forall g, In g OP_FLAGS -> g <> flag_of i -> lv g = 0).
    { intros g Ig Ng. apply (only_flag _ _ _ R (flag_of i) g (flag_in i) Ig F). congruence. }
    unfold NATIVE_INSTRUCTIONS. cbn [map]. unfold sum. cbn [fold_right].
    destruct i; cbn [straight] in S; try contradiction; cbn [flag_of] in *; rewrite F;
      repeat match goal with |- context [lv ?g] => rewrite (Z g ltac:(cbn; tauto) ltac:(discriminate)) end; reflexivity.
  Qed.

  Lemma s_straight : forall i, runs lv i -> straight i ->
    nv PROGRAM_COUNTER = (lv PROGRAM_COUNTER + size i) mod P /\ nv IS_KERNEL_MODE = lv IS_KERNEL_MODE.
  Proof.
    intros i RN S. assert (SZ : size i = 1) by (destruct i; cbn in S |- *; (reflexivity || contradiction)). rewrite SZ.
    pose proof (m_control_flow k lv nv _ H) as M. unfold eval_control_flow in M. cbv zeta in M.
    assert (D : i = ProverInput \/ i <> ProverInput) by (destruct i; (left; reflexivity) || (right; discriminate)).
    destruct D as [-> | NE].
    - the_op RN F E. bits E. replace (bit lv 7) with 1 in M by lia. rewrite F in M. opened M.
      split; [apply eq_mod; [apply CN|find_eq]|apply eq_cell; [apply CN|apply CL|find_eq]].
    - rewrite (native_one i RN S NE) in M. opened M.
      split; [apply eq_mod; [apply CN|find_eq]|apply eq_cell; [apply CN|apply CL|find_eq]].
  Qed.

  Lemma s_context : forall i, runs lv i -> i <> SetContext -> nv CONTEXT = lv CONTEXT.
  Proof.
    intros i RN NE. pose proof (m_contextops k lv nv _ H) as M. unfold eval_contextops, eval_context_keep in M. rewrite !Forall_app in M.
    destruct M as ((M1 & M2) & _). apply eq_cell; [apply CN|apply CL|].
    assert (D : i = GetContext \/ In (flag_of i) KEEPS_CONTEXT).
    { destruct i; try (left; reflexivity); try contradiction; right; cbn; tauto. }
    destruct D as [-> | D].
    - the_op RN F E. bits E. replace (bit lv 0) with 0 in M2 by lia. rewrite F in M2. opened M2. find_eq.
    - rewrite Forall_forall in M1. specialize (M1 _ (in_map _ _ _ D)). apply use_ok_trans in M1.
      destruct RN as (_ & F & _). rewrite F, Z.mul_1_l in M1. exact M1.
  Qed.

  Lemma s_set_context : runs lv SetContext ->
    nv CONTEXT = limb lv (channel 0) 2 /\ (forall j, In j [1; 3; 4; 5; 6; 7]%nat -> limb lv (channel 0) j = 0) /\
    (limb lv (channel 0) 0 = 0 \/ limb lv (channel 0) 0 = 1) /\ lv PRUNING_FLAG = limb lv (channel 0) 0 /\
    used nv (channel 0) = 0.
  Proof.
    intros RN. the_op RN F E. bits E. pose proof (m_contextops k lv nv _ H) as M. unfold eval_contextops, eval_set_context in M. cbv zeta in M. rewrite !Forall_app in M.
    destruct M as (_ & _ & (M1 & M2 & M3 & _ & _ & M4) & _). replace (bit lv 0) with 1 in * by lia. rewrite F in *.
    opened M1. opened M3. opened M4.
    assert (PF : lv PRUNING_FLAG = limb lv (channel 0) 0) by (apply eq_cell; [apply CL|apply CL|find_eq]).
    split; [apply eq_cell; [apply CN|apply CL|find_eq]|].
    split.
    { intros j Hj. rewrite Forall_forall in M2. specialize (M2 _ (in_map _ _ _ Hj)). apply use_ok_all in M2. apply eq_zero; [apply CL|find_eq]. }
    split; [|split; [exact PF|apply eq_zero; [apply CN|find_eq]]].
    rewrite <- PF. apply bool_cell; [apply CL|]. find_eq.
  Qed.

  Lemma s_code_context : lv CODE_CONTEXT = (if Z.eq_dec (lv IS_KERNEL_MODE) 1 then 0 else lv CONTEXT).
  Proof.
    pose proof (m_membus k lv nv _ H) as M. unfold eval_membus in M. rewrite !Forall_app in M. destruct M as (M & _). opened M.
    destruct (kernel_bool _ _ _ R) as [K|K]; rewrite K in *.
    - destruct (Z.eq_dec 0 1); [lia|]. apply eq_cell; [apply CL|apply CL|find_eq].
    - destruct (Z.eq_dec 1 1); [|lia]. apply eq_zero; [apply CL|find_eq].
  Qed.

  Lemma sum_range : forall (f : nat -> Z) l, (forall j, In j l -> 0 <= f j < 2^32) -> 0 <= sum (map f l) <= Z.of_nat (length l) * 2^32.
  Proof.
    intros f. induction l as [|j l IH]; intros B; [cbn; lia|]. cbn [map length]. unfold sum in *. cbn [fold_right].
    specialize (IH (fun x Hx => B x (or_intror Hx))). specialize (B j (or_introl eq_refl)). rewrite Nat2Z.inj_succ. lia.
  Qed.
  Lemma sum_zero_all : forall (f : nat -> Z) l, (forall j, In j l -> 0 <= f j) -> sum (map f l) = 0 -> forall j, In j l -> f j = 0.
  Proof.
    intros f. induction l as [|x l IH]; intros B S j I; [contradiction|]. cbn [map] in S. unfold sum in *. cbn [fold_right] in S.
    assert (N : 0 <= fold_right Z.add 0 (map f l)).
    { clear - B. induction l as [|y l IH]; [cbn; lia|]. cbn [map fold_right]. 
      assert (0 <= f y) by (apply B; right; left; reflexivity).
      assert (0 <= fold_right Z.add 0 (map f l)); [|lia]. apply IH. intros z [<-|Hz]; apply B; [left; reflexivity|right; right; exact Hz]. }
    pose proof (B x (or_introl eq_refl)). destruct I as [<-|I]; [lia|]. apply IH; [intros z Hz; apply B; right; exact Hz|lia|exact I].
  Qed.

  Definition limbs32 (r : row) (c : nat) : Prop := forall j, (j < 8)%nat -> 0 <= limb r c j < 2^32.

  Lemma value_word : forall r c, (forall j, In j (seq 1 7) -> limb r c j = 0) -> word (value r c) = limb r c 0.
  Proof.
    intros r c Z. unfold value. cbn [seq map word].
    rewrite (Z 1%nat), (Z 2%nat), (Z 3%nat), (Z 4%nat), (Z 5%nat), (Z 6%nat), (Z 7%nat) by (apply in_seq; lia). ring.
  Qed.

  (** The jumps.  [dst] is the top of the stack, [cond] what channel 1 holds. *)
  Lemma s_jumps : forall i, runs lv i -> i = Jump \/ i = Jumpi -> limbs32 lv (channel 0) -> limbs32 lv (channel 1) ->
    (i = Jumpi -> value lv (channel 1) = repeat 0 8 -> nv PROGRAM_COUNTER = (lv PROGRAM_COUNTER + 1) mod P) /\
    (i = Jump \/ value lv (channel 1) <> repeat 0 8 ->
       nv PROGRAM_COUNTER = word (value lv (channel 0)) /\
       (lv IS_KERNEL_MODE = 0 ->
          used lv (channel 2) = 1 /\ is_read lv (channel 2) = 1 /\ addr_context lv (channel 2) = lv CONTEXT /\
          addr_segment lv (channel 2) = SEGMENT_JUMPDEST_BITS /\ addr_virtual lv (channel 2) = nv PROGRAM_COUNTER /\
          limb lv (channel 2) 0 = 1)) /\
    (lv IS_KERNEL_MODE = 1 -> used lv (channel 2) = 0).
  Proof.
    intros i RN Hi L0 L1.
    assert (F : lv JUMPS = 1) by (destruct Hi as [-> | ->]; destruct RN as (_ & F & _); exact F).
    pose proof (m_jump k lv nv _ H) as M. unfold eval_jump_jumpi in M. cbv zeta in M. rewrite !Forall_app in M.
    destruct M as (_ & M1 & M2 & M3 & _ & M5). 
    assert (ONE : i = Jump -> limb lv (channel 1) 0 = 1).
    { intros ->. the_op RN F' E. bits E. replace (bit lv 0) with 0 in M1 by lia. rewrite F in M1. opened M1.
      apply eq_const; [apply CL|unfold P; lia|find_eq]. }
    rewrite F in M3, M5. opened M3. opened M5. clear M1 M2. change (NUM_GP_CHANNELS - 1)%nat with 2%nat in *.
    assert (SB : lv SHOULD_JUMP = 0 \/ lv SHOULD_JUMP = 1) by (apply bool_cell; [apply CL|find_eq]).
    assert (L1' : forall j, In j (seq 0 8) -> 0 <= limb lv (channel 1) j < 2^32) by (intros j Hj; apply in_seq in Hj; apply L1; lia).
    assert (L0' : forall j, In j (seq 1 7) -> 0 <= limb lv (channel 0) j < 2^32) by (intros j Hj; apply in_seq in Hj; apply L0; lia).
    pose proof (sum_range (limb lv (channel 1)) (seq 0 8) L1') as CS.
    pose proof (sum_range (limb lv (channel 0)) (seq 1 7) L0') as DS.
    cbn [length seq] in CS, DS.
    assert (ZC : sum (map (limb lv (channel 1)) (seq 0 8)) = 0 <-> value lv (channel 1) = repeat 0 8).
    { split.
      - intros Z. unfold value. apply (map_ext_in (limb lv (channel 1)) (fun _ => 0) (seq 0 8)). intros j Hj.
        apply (sum_zero_all _ _ (fun j Hj => proj1 (L1' j Hj)) Z j Hj).
      - intros V0. unfold value in V0. rewrite V0. reflexivity. }
    assert (KQ : lv IS_KERNEL_MODE = 1 -> used lv (channel 2) = 0).
    { intros K. rewrite K in *. apply eq_zero; [apply CL|find_eq]. }
    destruct SB as [SB|SB]; rewrite SB in *.
    - (* not jumping *)
      assert (Z : sum (map (limb lv (channel 1)) (seq 0 8)) = 0).
      { apply small_zero; [find_eq|]. unfold P. cbn [seq] in *. change (Z.of_nat 8) with 8 in CS. lia. }
      split; [|split; [|exact KQ]].
      + intros _ _. apply eq_mod; [apply CN|find_eq].
      + intros [-> | N]; [|exfalso; apply N, ZC, Z]. exfalso. specialize (ONE eq_refl). apply ZC in Z.
        unfold value in Z. cbn [seq map repeat] in Z. injection Z. intros. lia.
    - assert (ZD : sum (map (limb lv (channel 0)) (seq 1 7)) = 0).
      { apply small_zero; [find_eq|]. unfold P. cbn [seq] in *. change (Z.of_nat 7) with 7 in DS. lia. }
      assert (W : word (value lv (channel 0)) = limb lv (channel 0) 0).
      { apply value_word. apply (sum_zero_all _ _ (fun j Hj => proj1 (L0' j Hj)) ZD). }
      assert (PCE : nv PROGRAM_COUNTER = limb lv (channel 0) 0) by (apply eq_cell; [apply CN|apply CL|find_eq]).
      split; [|split; [|exact KQ]].
      + intros _ V0. apply ZC in V0. rewrite V0 in *. exfalso.
        assert (X : (lv COND_SUM_PINV * 0 - 1) mod P = 0) by find_eq. rewrite Z.mul_0_r in X. vm_compute in X. discriminate X.
      + intros _. rewrite W. split; [exact PCE|]. intros K. rewrite K in *. rewrite PCE. five.
  Qed.

  Lemma s_exit : runs lv ExitKernel ->
    nv PROGRAM_COUNTER = limb lv (channel 0) 0 /\ nv IS_KERNEL_MODE = limb lv (channel 0) 1 /\ nv GAS = limb lv (channel 0) 6 /\
    limb lv (channel 0) 7 = 0.
  Proof.
    intros RN. the_op RN F E. pose proof (m_exit k lv nv _ H) as M. unfold eval_exit_kernel in M. cbv zeta in M. rewrite F in M. opened M. five.
  Qed.

  (** System calls and exceptions. *)
  Definition trap (i : instr) : Prop := match i with Syscall _ | Exception _ => True | _ => False end.
  (** Address of the entry of the jump table. *)
  Definition entry (i : instr) : Z :=
    match i with Syscall o => syscall_jumptable k + 3 * o | Exception c => exception_jumptable k + 3 * c | _ => 0 end.

  Lemma s_trap : forall i, runs lv i -> trap i ->
    nv IS_KERNEL_MODE = 1 /\ nv GAS = 0 /\ nv PROGRAM_COUNTER = limb lv (channel 1) 0 /\
    (forall j, (1 <= j < 8)%nat -> limb lv (channel 1) j = 0) /\
    is_read lv (channel 1) = 1 /\ addr_context lv (channel 1) = 0 /\ addr_segment lv (channel 1) = SEGMENT_CODE /\
    addr_virtual lv (channel 1) = entry i mod P.
  Proof.
    intros i RN T. pose proof (m_syscalls k lv nv _ H) as M. unfold eval_syscalls_exceptions in M. cbv zeta in M. rewrite !Forall_app in M.
    destruct M as (_ & _ & M1 & M2 & _ & M3 & _).
    assert (FF : lv SYSCALL + lv EXCEPTION = 1).
    { destruct i; try contradiction; destruct RN as (_ & F & _); cbn [flag_of] in F.
      - rewrite F, (only_flag _ _ _ R SYSCALL EXCEPTION ltac:(cbn; tauto) ltac:(cbn; tauto) F ltac:(discriminate)). reflexivity.
      - rewrite F, (only_flag _ _ _ R EXCEPTION SYSCALL ltac:(cbn; tauto) ltac:(cbn; tauto) F ltac:(discriminate)). reflexivity. }
    rewrite FF in *. opened M1. opened M3.
    assert (AD : addr_virtual lv (channel 1) = entry i mod P).
    { apply eq_mod; [apply CL|]. destruct i; try contradiction; destruct RN as (_ & F & E & EX); cbn [flag_of] in F; cbn [entry].
      - rewrite <- (E _ eq_refl). rewrite F in *. unfold BYTES_PER_OFFSET in *. find_eq.
      - rewrite <- (EX _ eq_refl). rewrite F in *. unfold BYTES_PER_OFFSET in *. find_eq. }
    assert (HI : forall j, (1 <= j < 8)%nat -> limb lv (channel 1) j = 0).
    { intros j J. rewrite Forall_forall in M2. specialize (M2 _ (in_map _ _ _ (proj2 (in_seq 7 1 j) ltac:(lia)))). apply use_ok_all in M2.
      apply eq_zero; [apply CL|find_eq]. }
    split; [five|]. split; [five|]. split; [five|]. split; [exact HI|]. split; [five|]. split; [five|]. split; [five|exact AD].
  Qed.

  (** The frame pushed: return address, mode, gas. *)
  Lemma s_frame : forall i, runs lv i -> trap i -> i <> Exception 6 ->
    value nv (channel 0) =
      [(lv PROGRAM_COUNTER + match i with Syscall _ => 1 | _ => 0 end) mod P;
       (match i with Syscall _ => lv IS_KERNEL_MODE | _ => 0 end); 0; 0; 0; 0; lv GAS; 0].
  Proof.
    intros i RN T NE. pose proof (m_syscalls k lv nv _ H) as M. unfold eval_syscalls_exceptions in M. cbv zeta in M. rewrite !Forall_app in M.
    destruct M as (_ & _ & _ & _ & _ & M & N). cbn [map seq] in N.
    unfold value. cbn [map seq]. destruct i; try contradiction; destruct RN as (V & F & E & EX); cbn [flag_of] in F.
    - rewrite F, (only_flag _ _ _ R SYSCALL EXCEPTION ltac:(cbn; tauto) ltac:(cbn; tauto) F ltac:(discriminate)) in M, N. opened M. opened N.
      repeat (f_equal; [five|]). f_equal. five.
    - rewrite F, (only_flag _ _ _ R EXCEPTION SYSCALL ltac:(cbn; tauto) ltac:(cbn; tauto) F ltac:(discriminate)) in M, N. opened M. opened N.
      assert (X : limb nv (channel 0) 1 = 0).
      { specialize (EX _ eq_refl). cbn [valid] in V.
        match goal with Q : (1 * (exc_code_of lv - EXC_STOP_CODE) * limb nv (channel 0) 1) mod P = 0 |- _ => rename Q into QQ end.
        rewrite EX in QQ. apply eq_zero; [apply CN|]. apply (nonzero_factor _ _ QQ). rewrite Z.mul_1_l. intros Z.
        apply small_zero in Z; unfold EXC_STOP_CODE, P in *; [|lia]. apply NE. f_equal. lia. }
      rewrite Z.add_0_r. repeat (f_equal; [first [exact X|five]|]). f_equal. five.
  Qed.

  (** ** Gas *)
  Lemma s_gas : forall i g, runs lv i -> cost i = Some g -> nv GAS = (lv GAS + g) mod P.
  Proof.
    intros i g RN C0. apply eq_mod; [apply CN|]. pose proof (m_gas k lv nv _ H) as M. unfold eval_gas, eval_gas_accumulate in M. cbv zeta in M.
    rewrite !Forall_app in M. destruct M as ((_ & M1 & M2) & _).
    assert (S : forall f, In (f, g) SIMPLE_OPCODES -> lv f = 1 -> (nv GAS - (lv GAS + g)) mod P = 0).
    { intros f I F. rewrite Forall_forall in M1. specialize (M1 _ (in_map _ _ _ I)). apply use_ok_trans in M1. cbn [fst snd] in M1.
      rewrite F in M1. find_eq. }
    destruct i; cbn [cost] in C0; try discriminate C0; injection C0 as <-; destruct RN as (V & F & E & EX); cbn [flag_of] in F; cbn [opcode] in E;
      try (eapply S; [|exact F]; cbn; tauto); specialize (E _ eq_refl); bits E; clear M1; rewrite F in M2.
    all: cbn [valid] in V.
    - replace (bit lv 0) with 1 in M2 by lia. opened M2. find_eq.
    - replace (bit lv 0) with 0 in M2 by lia. opened M2. find_eq.
    - replace (bit lv 1) with 1 in M2 by lia. opened M2. find_eq.
    - replace (bit lv 1) with 0 in M2 by lia. opened M2. find_eq.
    - replace (bit lv 0) with 0 in M2 by lia. opened M2. find_eq.
    - replace (bit lv 0) with 1 in M2 by lia. opened M2. find_eq.
    - replace (bit lv 7) with 0 in M2 by lia. opened M2. find_eq.
    - replace (bit lv 7) with 1 in M2 by lia. opened M2. find_eq.
  Qed.

  Lemma s_gas_binary : runs lv Binary ->
    nv GAS = (lv GAS + (if orb (Z.odd (opcode_of lv)) (Z.odd (opcode_of lv / 16)) then 3 else 5)) mod P.
  Proof.
    intros RN. apply eq_mod; [apply CN|]. pose proof (m_gas k lv nv _ H) as M. unfold eval_gas, eval_gas_accumulate in M. cbv zeta in M.
    rewrite !Forall_app in M. destruct M as ((_ & _ & M2) & _). the_flag RN F E. pose proof (opcode_eq lv) as OE. use_bits R.
    assert (O0 : Z.odd (opcode_of lv) = (bit lv 0 =? 1)).
    { rewrite OE. replace (bit lv 0 + 2 * bit lv 1 + 4 * bit lv 2 + 8 * bit lv 3 + 16 * bit lv 4 + 32 * bit lv 5 + 64 * bit lv 6 + 128 * bit lv 7)
        with (bit lv 0 + 2 * (bit lv 1 + 2 * bit lv 2 + 4 * bit lv 3 + 8 * bit lv 4 + 16 * bit lv 5 + 32 * bit lv 6 + 64 * bit lv 7)) by ring.
      rewrite Z.odd_add_mul_2. destruct (bit_bool _ _ _ R 0 ltac:(lia)) as [-> | ->]; reflexivity. }
    assert (O4 : Z.odd (opcode_of lv / 16) = (bit lv 4 =? 1)).
    { replace (opcode_of lv / 16) with (bit lv 4 + 2 * (bit lv 5 + 2 * bit lv 6 + 4 * bit lv 7)).
      - rewrite Z.odd_add_mul_2. destruct (bit_bool _ _ _ R 4 ltac:(lia)) as [-> | ->]; reflexivity.
      - apply Z.div_unique with (bit lv 0 + 2 * bit lv 1 + 4 * bit lv 2 + 8 * bit lv 3); lia. }
    rewrite O0, O4. rewrite F in M2.
    destruct (bit_bool _ _ _ R 0 ltac:(lia)) as [B0|B0], (bit_bool _ _ _ R 4 ltac:(lia)) as [B4|B4]; rewrite B0, B4 in *; cbn [Z.eqb Pos.eqb orb]; opened M2; find_eq.
  Qed.

  Lemma s_gas_ternary : runs lv Ternary -> nv GAS = (lv GAS + (if Z.odd (opcode_of lv / 2) then 0 else 8)) mod P.
  Proof.
    intros RN. apply eq_mod; [apply CN|]. pose proof (m_gas k lv nv _ H) as M. unfold eval_gas, eval_gas_accumulate in M. cbv zeta in M.
    rewrite !Forall_app in M. destruct M as ((_ & _ & M2) & _). the_flag RN F E. pose proof (opcode_eq lv) as OE. use_bits R.
    assert (O1 : Z.odd (opcode_of lv / 2) = (bit lv 1 =? 1)).
    { replace (opcode_of lv / 2) with (bit lv 1 + 2 * (bit lv 2 + 2 * bit lv 3 + 4 * bit lv 4 + 8 * bit lv 5 + 16 * bit lv 6 + 32 * bit lv 7)).
      - rewrite Z.odd_add_mul_2. destruct (bit_bool _ _ _ R 1 ltac:(lia)) as [-> | ->]; reflexivity.
      - apply Z.div_unique with (bit lv 0); lia. }
    rewrite O1. rewrite F in M2. destruct (bit_bool _ _ _ R 1 ltac:(lia)) as [B|B]; rewrite B in *; cbn [Z.eqb Pos.eqb]; opened M2; find_eq.
  Qed.
End Step.
