(** The values computed by the CPU table itself. *)
From Coq Require Import ZArith Znumtheory List Bool Arith Lia.
From Verif Require Import Stark.Field Stark.ArithModel Cpu.CpuModel Cpu.CpuSpec Cpu.CpuFacts Cpu.CpuDecode Cpu.CpuStep.
Import ListNotations.
Local Open Scope Z_scope.

Lemma seq8_cases : forall (Q : nat -> Prop), Q 0%nat -> Q 1%nat -> Q 2%nat -> Q 3%nat -> Q 4%nat -> Q 5%nat -> Q 6%nat -> Q 7%nat ->
  forall j, (j < 8)%nat -> Q j.
Proof. intros Q; intros. do 8 (destruct j as [|j]; [assumption|]). lia. Qed.

Lemma value_ext : forall r c r' c', (forall j, (j < 8)%nat -> limb r c j = limb r' c' j) -> value r c = value r' c'.
Proof. intros. unfold value. apply map_ext_in. intros j Hj. apply in_seq in Hj. apply H. lia. Qed.
Lemma value_inj : forall r c r' c', value r c = value r' c' -> forall j, (j < 8)%nat -> limb r c j = limb r' c' j.
Proof.
  intros r c r' c' E. unfold value in E. cbn [map seq] in E. injection E as E0 E1 E2 E3 E4 E5 E6 E7. apply seq8_cases; assumption.
Qed.
Lemma value_zero : forall r c, (forall j, (j < 8)%nat -> limb r c j = 0) -> value r c = repeat 0 8.
Proof. intros r c Z. unfold value. cbn [map seq repeat]. rewrite !Z by lia. reflexivity. Qed.
Lemma value_zero_inv : forall r c, value r c = repeat 0 8 -> forall j, (j < 8)%nat -> limb r c j = 0.
Proof. intros r c E. unfold value in E. cbn [map seq repeat] in E. injection E as E0 E1 E2 E3 E4 E5 E6 E7. apply seq8_cases; assumption. Qed.
Lemma value_tail : forall r c, (forall j, (1 <= j < 8)%nat -> limb r c j = 0) -> value r c = limb r c 0 :: repeat 0 7.
Proof.
  intros r c Z. unfold value. cbn [map seq repeat].
  rewrite (Z 1%nat), (Z 2%nat), (Z 3%nat), (Z 4%nat), (Z 5%nat), (Z 6%nat), (Z 7%nat) by lia. reflexivity.
Qed.

Section Results.
  Variables (k : labels) (lv nv : row).
  Hypothesis OK : pair_ok k lv nv.
  Let H : Forall ok (eval_cpu k lv nv) := proj1 OK.
  Let CL : forall c, canonical (lv c) := proj1 (proj2 OK).
  Let CN : forall c, canonical (nv c) := proj2 (proj2 OK).
  Let R : row_ok k lv nv := pair_row k lv nv OK.

  Ltac bits E := let B := fresh "B" in pose proof (bits_of lv _ E) as B; use_bits R.
  Ltac the_flag RN F E := destruct RN as (V & F & E & EX); cbn [flag_of] in F; cbn [opcode] in E.
  Ltac the_op RN F E := destruct RN as (V & F & E & EX); cbn [flag_of] in F; cbn [opcode] in E; specialize (E _ eq_refl).
  Ltac cell := first [apply CL | apply CN].
  Ltac five := repeat split;
    first [apply eq_cell; [cell|cell|find_eq]
          |apply eq_const; [cell|unfold SEGMENT_STACK, SEGMENT_CODE, SEGMENT_JUMPDEST_BITS, SEGMENT_SHIFT_TABLE, P; lia|find_eq]
          |apply eq_zero; [cell|find_eq]
          |apply eq_mod; [cell|find_eq]].
  (** Use a mapped constraint at index [j]. *)
  Ltac at_index M j I := let X := fresh "X" in pose proof (proj1 (Forall_forall _ _) M _ (in_map _ _ j I)) as X; apply use_ok_all in X.

  Lemma eq_core : lv EQ_ISZERO = 1 ->
    value nv (channel 0) = (if list_eq_dec Z.eq_dec (value lv (channel 0)) (value lv (channel 1)) then 1 else 0) :: repeat 0 7.
  Proof.
    intros F. pose proof (m_eq_iszero k lv nv _ H) as M. unfold eval_eq_iszero in M. cbv zeta in M. rewrite !Forall_app in M.
    destruct M as (M1 & M2 & _ & M4 & M5 & _). rewrite F in M1, M2, M4, M5. opened M1. opened M5.
    assert (Z : forall j, (1 <= j < 8)%nat -> limb nv (channel 0) j = 0).
    { intros j J. at_index M2 j (proj2 (in_seq 7 1 j) ltac:(lia)). apply eq_zero; [cell|find_eq]. }
    assert (E0 : limb nv (channel 0) 0 = 0 \/ limb nv (channel 0) 0 = 1) by (apply bool_cell; [cell|find_eq]).
    rewrite (value_tail _ _ Z). f_equal.
    destruct E0 as [E0|E0]; rewrite E0 in *.
    - destruct (list_eq_dec Z.eq_dec _ _) as [Q|Q]; [|reflexivity]. exfalso.
      pose proof (value_inj _ _ _ _ Q) as Q'.
      match goal with X : (1 * (sum ?l - (1 - 0))) mod P = 0 |- _ => assert (S0 : sum l = 0) end.
      { cbn [map seq]. unfold sum. cbn [fold_right]. rewrite !Q' by lia. ring. }
      rewrite S0 in *. match goal with X : (1 * (0 - (1 - 0))) mod P = 0 |- _ => vm_compute in X; discriminate X end.
    - destruct (list_eq_dec Z.eq_dec _ _) as [Q|Q]; [reflexivity|]. exfalso. apply Q. apply value_ext. intros j J.
      at_index M4 j (proj2 (in_seq 8 0 j) ltac:(lia)). apply eq_cell; [cell|cell|]. find_eq.
  Qed.

  Lemma s_eq : runs lv Eq ->
    value nv (channel 0) = (if list_eq_dec Z.eq_dec (value lv (channel 0)) (value lv (channel 1)) then 1 else 0) :: repeat 0 7.
  Proof. intros (_ & F & _). apply eq_core. exact F. Qed.

  Lemma s_iszero : runs lv IsZero ->
    value nv (channel 0) = (if list_eq_dec Z.eq_dec (value lv (channel 0)) (repeat 0 8) then 1 else 0) :: repeat 0 7.
  Proof.
    intros RN. the_op RN F E. bits E. rewrite (eq_core F).
    pose proof (m_eq_iszero k lv nv _ H) as M. unfold eval_eq_iszero in M. cbv zeta in M. rewrite !Forall_app in M.
    destruct M as (_ & _ & M3 & _). replace (bit lv 0) with 1 in M3 by lia. rewrite F in M3.
    rewrite (value_zero lv (channel 1)); [reflexivity|]. intros j J. at_index M3 j (proj2 (in_seq 8 0 j) ltac:(lia)).
    apply eq_zero; [cell|find_eq].
  Qed.

  Lemma s_not : runs lv Not -> forall j, (j < 8)%nat -> limb nv (channel 0) j = (2^32 - 1 - limb lv (channel 0) j) mod P.
  Proof.
    intros RN j J. the_op RN F E. bits E. pose proof (m_not k lv nv _ H) as M. unfold eval_not in M. cbv zeta in M. rewrite !Forall_app in M.
    destruct M as (M & _). replace (bit lv 0) with 1 in M by lia. rewrite F in M. at_index M j (proj2 (in_seq 8 0 j) ltac:(lia)).
    apply eq_mod; [cell|find_eq].
  Qed.

  Lemma s_pc : runs lv Pc -> value nv (channel 0) = lv PROGRAM_COUNTER :: repeat 0 7.
  Proof.
    intros RN. the_op RN F E. bits E. pose proof (m_pc k lv nv _ H) as M. unfold eval_pc in M. cbv zeta in M. rewrite !Forall_app in M.
    destruct M as (M1 & M2). replace (bit lv 0) with 0 in * by lia. rewrite F in *. opened M1.
    assert (Z : forall j, (1 <= j < 8)%nat -> limb nv (channel 0) j = 0).
    { intros j J. at_index M2 j (proj2 (in_seq 7 1 j) ltac:(lia)). apply eq_zero; [cell|find_eq]. }
    rewrite (value_tail _ _ Z). f_equal. five.
  Qed.

  Lemma s_push0 : runs lv Push0 -> value nv (channel 0) = repeat 0 8.
  Proof.
    intros RN. the_op RN F E. bits E. pose proof (m_push0 k lv nv _ H) as M. unfold eval_push0 in M. cbv zeta in M.
    replace (bit lv 0) with 1 in * by lia. rewrite F in *. apply value_zero. intros j J.
    at_index M j (proj2 (in_seq 8 0 j) ltac:(lia)). apply eq_zero; [cell|find_eq].
  Qed.

  Lemma s_get_context : runs lv GetContext ->
    value nv (channel 0) = [0; 0; lv CONTEXT; 0; 0; 0; 0; 0] /\ used nv (channel 0) = 0 /\ lv PRUNING_FLAG = 0.
  Proof.
    intros RN. the_op RN F E. bits E. pose proof (m_contextops k lv nv _ H) as M. unfold eval_contextops, eval_get_context in M. cbv zeta in M. rewrite !Forall_app in M.
    destruct M as (_ & (M1 & M2 & M3 & _ & M4) & _). replace (bit lv 0) with 0 in * by lia. rewrite F in *. opened M1. opened M3. opened M4. cbn [map] in M2. opened M2.
    split; [|split; five]. unfold value. cbn [map seq]. repeat (f_equal; [five|]). f_equal. five.
  Qed.

  Lemma s_jumpdest : runs lv Jumpdest -> used nv (channel 0) = 0 /\ value nv (channel 0) = value lv (channel 0).
  Proof. intros RN. exact (sb_same lv nv (sb 0 false true) (behaves k lv nv OK Jumpdest _ RN eq_refl) CL CN eq_refl eq_refl). Qed.

  Lemma s_mload : runs lv MloadGeneral ->
    used lv (channel 1) = 1 /\ is_read lv (channel 1) = 1 /\ addr_context lv (channel 1) = limb lv (channel 0) 2 /\
    addr_segment lv (channel 1) = limb lv (channel 0) 1 /\ addr_virtual lv (channel 1) = limb lv (channel 0) 0 /\
    value nv (channel 0) = value lv (channel 1) /\ used nv (channel 0) = 0.
  Proof.
    intros RN. the_op RN F E. bits E. pose proof (m_load k lv nv _ H) as M. unfold eval_load in M. cbv zeta in M. rewrite !Forall_app in M.
    assert (B0 : bit lv 0 = 1) by lia. destruct M as (M1 & M2 & _). rewrite B0, F in M1, M2. opened M1.
    pose proof (m_store k lv nv _ H) as S. unfold eval_store in S. cbv zeta in S. rewrite !Forall_app in S.
    destruct S as (_ & _ & _ & _ & _ & S). rewrite B0, F in S. opened S.
    split; [five|]. split; [five|]. split; [five|]. split; [five|]. split; [five|]. split; [|five].
    symmetry. apply value_ext. intros j J. at_index M2 j (proj2 (in_seq 8 0 j) ltac:(lia)). apply eq_cell; [cell|cell|find_eq].
  Qed.

  (** The value written is the one of channel 0 ([partial_look]). *)
  Lemma s_mstore : runs lv MstoreGeneral ->
    used lv partial_channel = 1 /\ is_read lv partial_channel = 0 /\ addr_context lv partial_channel = limb lv (channel 1) 2 /\
    addr_segment lv partial_channel = limb lv (channel 1) 1 /\ addr_virtual lv partial_channel = limb lv (channel 1) 0.
  Proof.
    intros RN. the_op RN F E. bits E. pose proof (m_store k lv nv _ H) as M. unfold eval_store in M. cbv zeta in M. rewrite !Forall_app in M.
    destruct M as (M & _). replace (bit lv 0) with 0 in * by lia. rewrite F in *. opened M. five.
  Qed.

  (** MSTORE_32BYTES leaves the address after the bytes written. *)
  Lemma s_mstore32 : forall n, runs lv (Mstore32 n) ->
    value nv (channel 0) = [(limb lv (channel 0) 0 + n) mod P; limb lv (channel 0) 1; limb lv (channel 0) 2; 0; 0; 0; 0; 0].
  Proof.
    intros n RN. the_op RN F E. cbn [valid] in V. bits E. pose proof (m_byte_unpacking k lv nv _ H) as M. unfold eval_byte_unpacking in M. cbv zeta in M.
    rewrite !Forall_app in M. destruct M as (M1 & M2). replace (bit lv 5) with 0 in * by lia. rewrite F in *.
    replace (le_bits 0 (map (bit lv) (seq 0 5)) + 1) with n in M1.
    2:{ cbn [map seq le_bits]. change (2^0) with 1; change (2^(0+1)) with 2; change (2^(0+1+1)) with 4; change (2^(0+1+1+1)) with 8;
        change (2^(0+1+1+1+1)) with 16. lia. }
    opened M1. cbn [map seq] in M2. opened M2. unfold value. cbn [map seq]. repeat (f_equal; [five|]). f_equal. five.
  Qed.

  (** The modulus of the base-field operations. *)
  Lemma s_fp254 : runs lv Fp254 -> value lv (channel 2) = P_LIMBS.
  Proof.
    intros RN. the_flag RN F E. pose proof (m_modfp254 k lv nv _ H) as M. unfold eval_modfp254 in M. rewrite F in M.
    unfold P_LIMBS in M |- *. cbn [map seq nth] in M. opened M. unfold value. cbn [map seq]. repeat (f_equal; [five|]). f_equal. five.
  Qed.

  (** The power of two of a shift is read in the table of powers, when the
      displacement is below 2^32; otherwise nothing is read. *)
  Lemma s_shift : runs lv Shift -> limbs32 lv (channel 0) ->
    (forall j, (1 <= j < 8)%nat -> limb lv (channel 0) j = 0) ->
    used lv (channel 2) = 1 /\ is_read lv (channel 2) = 1 /\ addr_context lv (channel 2) = 0 /\
    addr_segment lv (channel 2) = SEGMENT_SHIFT_TABLE /\ addr_virtual lv (channel 2) = limb lv (channel 0) 0.
  Proof.
    intros RN L Z. the_flag RN F E. pose proof (m_shift k lv nv _ H) as M. unfold eval_shift in M. cbv zeta in M. rewrite !Forall_app in M.
    destruct M as (M & _). rewrite F in M. 
    assert (S0 : sum (map (limb lv (channel 0)) (seq 1 7)) = 0).
    { cbn [map seq]. unfold sum. cbn [fold_right]. rewrite !Z by lia. reflexivity. }
    rewrite S0 in M. opened M.
    assert (U : used lv (channel 2) = 1) by (apply eq_const; [cell|unfold P; lia|find_eq]). rewrite U in *. five.
  Qed.
  Lemma s_shift_large : runs lv Shift -> limbs32 lv (channel 0) ->
    (exists j, (1 <= j < 8)%nat /\ limb lv (channel 0) j <> 0) -> used lv (channel 2) = 0.
  Proof.
    intros RN L (j & J & N). the_flag RN F E. pose proof (m_shift k lv nv _ H) as M. unfold eval_shift in M. cbv zeta in M. rewrite !Forall_app in M.
    destruct M as (M & _). rewrite F in M. opened M.
    assert (L0' : forall j, In j (seq 1 7) -> 0 <= limb lv (channel 0) j < 2^32) by (intros x Hx; apply in_seq in Hx; apply L; lia).
    pose proof (sum_range (limb lv (channel 0)) (seq 1 7) L0') as DS. cbn [length seq] in DS. change (Z.of_nat 7) with 7 in DS.
    apply eq_zero; [cell|].
    match goal with X : (1 * ?s * used lv (channel 2)) mod P = 0 |- _ => apply (nonzero_factor _ _ X) end.
    rewrite Z.mul_1_l. intros Q. apply small_zero in Q; [|unfold P; cbn [seq] in *; lia].
    apply N. apply (sum_zero_all _ _ (fun x Hx => proj1 (L0' x Hx)) Q j). apply in_seq. lia.
  Qed.
End Results.

(** * The shape of the table *)
Section Shape.
  Variables (k : labels) (t : list row).
  Hypothesis OK : cpu_table_ok k t.

  Lemma row_at : forall i, (i < length t)%nat -> row_ok k (crow_at t i) (cnext t i).
  Proof. intros i I. split; [apply table_all; assumption|apply (row_canonical k); assumption]. Qed.

  Lemma clock_at : forall i, (i < length t)%nat -> crow_at t i CLOCK = (Z.of_nat i + 1) mod P.
  Proof.
    induction i as [|i IH]; intros I.
    - destruct OK as [T C]. specialize (T 0%nat I). pose proof (m_clock k _ _ _ T) as M. unfold eval_clock in M.
      rewrite Forall_cons_iff in M. destruct M as (M & _). specialize (M eq_refl). cbn [snd] in M.
      rewrite (eq_mod _ _ (row_canonical k t 0 OK I CLOCK) M). reflexivity.
    - specialize (IH ltac:(lia)). destruct (table_pair k t i OK I) as (T & _ & CN).
      pose proof (m_clock k _ _ _ T) as M. unfold eval_clock in M. opened M.
      assert (E : crow_at t (S i) CLOCK = (crow_at t i CLOCK + 1) mod P) by (apply eq_mod; [apply CN|find_eq]).
      rewrite E, IH. rewrite Nat2Z.inj_succ. rewrite Zplus_mod_idemp_l. reflexivity || (f_equal; lia).
  Qed.

  Lemma padding_row : forall i, (i < length t)%nat -> padding (crow_at t i) ->
    crow_at t i IS_KERNEL_MODE = 1 /\ crow_at t i PROGRAM_COUNTER = halt_final k mod P /\
    forall c, (c < 3)%nat -> used (crow_at t i) (channel c) = 0.
  Proof.
    intros i I Pd. pose proof (row_at i I) as RO. destruct RO as (T & C). pose proof (m_halt k _ _ _ T) as M. unfold eval_halt in M. cbv zeta in M.
    rewrite !Forall_app in M. destruct M as (M1 & M2 & M3). 
    assert (Z : cpu_cycle (crow_at t i) = 0).
    { unfold cpu_cycle, OP_FLAGS. cbn [map]. unfold sum. cbn [fold_right]. rewrite !Pd by (cbn; tauto). reflexivity. }
    rewrite Z in *. opened M1. opened M3. cbn [map seq NUM_GP_CHANNELS] in M2. opened M2.
    split; [apply eq_const; [apply C|unfold P; lia|find_eq]|]. split; [apply eq_mod; [apply C|find_eq]|].
    intros c Hc. destruct c as [|[|[|]]]; [| | |lia]; (apply eq_zero; [apply C|find_eq]).
  Qed.

  Lemma padding_next : forall i, (S i < length t)%nat -> padding (crow_at t i) -> padding (crow_at t (S i)).
  Proof.
    intros i I Pd. destruct (table_pair k t i OK I) as (T & _ & _). pose proof (m_halt k _ _ _ T) as M. unfold eval_halt in M. cbv zeta in M.
    rewrite !Forall_app in M. destruct M as (M1 & _ & _).
    assert (Z : cpu_cycle (crow_at t i) = 0).
    { unfold cpu_cycle, OP_FLAGS. cbn [map]. unfold sum. cbn [fold_right]. rewrite !Pd by (cbn; tauto). reflexivity. }
    rewrite Z in M1. opened M1.
    destruct (one_flag k _ _ (row_at (S i) I)) as [[Q _]|(Q & _)]; [exact Q|]. rewrite Q in *. exfalso.
    match goal with X : ((1 - 0) * (1 - 1 - 1)) mod P = 0 |- _ => vm_compute in X; discriminate X end.
  Qed.

  Lemma last_padding : (0 < length t)%nat -> padding (crow_at t (length t - 1)).
  Proof.
    intros N. destruct OK as [T _]. specialize (T (length t - 1)%nat ltac:(lia)). pose proof (m_halt k _ _ _ T) as M. unfold eval_halt in M. cbv zeta in M.
    rewrite !Forall_app in M. destruct M as (_ & _ & M3). rewrite Forall_cons_iff in M3. destruct M3 as (M3 & _).
    cbn [fst snd applies] in M3. replace (S (length t - 1) =? length t)%nat with true in M3 by (symmetry; apply Nat.eqb_eq; lia).
    specialize (M3 eq_refl). destruct (one_flag k _ _ (row_at (length t - 1) ltac:(lia))) as [[Q _]|(Q & _)]; [exact Q|].
    rewrite Q in M3. vm_compute in M3. discriminate M3.
  Qed.

  (** A prefix of instructions, then padding to the end. *)
  Lemma shape : (0 < length t)%nat -> exists n, (n < length t)%nat /\
    (forall i, (i < n)%nat -> exists ins, runs (crow_at t i) ins) /\
    (forall i, (n <= i < length t)%nat -> padding (crow_at t i)).
  Proof.
    intros N.
    assert (G : forall n, (n < length t)%nat -> padding (crow_at t n) ->
              exists m, (m <= n)%nat /\ padding (crow_at t m) /\ forall i, (i < m)%nat -> exists ins, runs (crow_at t i) ins).
    { induction n as [|n IH]; intros L Pn; [exists 0%nat; split; [lia|]; split; [exact Pn|lia]|].
      destruct (decode k _ _ (row_at n ltac:(lia))) as [Q|(ins & Rn & _)].
      - destruct (IH ltac:(lia) Q) as (m & Lm & Pm & Am). exists m. split; [lia|]. split; assumption.
      - exists (S n). split; [lia|]. split; [exact Pn|]. intros i Hi.
        destruct (decode k _ _ (row_at i ltac:(lia))) as [Q|(ins' & R' & _)]; [|exists ins'; exact R'].
        exfalso. assert (Pp : forall m, (i + m <= n)%nat -> padding (crow_at t (i + m))).
        { induction m as [|m IHm]; intros Hm; [rewrite Nat.add_0_r; exact Q|]. rewrite Nat.add_succ_r. apply padding_next; [lia|]. apply IHm. lia. }
        specialize (Pp (n - i)%nat ltac:(lia)). replace (i + (n - i))%nat with n in Pp by lia.
        destruct Rn as (_ & F & _). rewrite (Pp _ (flag_in ins)) in F. discriminate F. }
    destruct (G (length t - 1)%nat ltac:(lia) (last_padding N)) as (m & Lm & Pm & Am).
    exists m. split; [lia|]. split; [exact Am|]. intros i Hi.
    assert (Pp : forall d, (m + d < length t)%nat -> padding (crow_at t (m + d))).
    { induction d as [|d IHd]; intros Hd; [rewrite Nat.add_0_r; exact Pm|]. rewrite Nat.add_succ_r. apply padding_next; [lia|]. apply IHd. lia. }
    specialize (Pp (i - m)%nat ltac:(lia)). replace (m + (i - m))%nat with i in Pp by lia. exact Pp.
  Qed.
End Shape.
