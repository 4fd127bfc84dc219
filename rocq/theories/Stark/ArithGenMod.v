(** Trace generation satisfies the constraints: two-row operations. *)
From Coq Require Import ZArith Znumtheory List Lia Bool.
From Coq Require Import ZifyBool ZifyNat.
From Verif Require Import Stark.Field Stark.ArithModel Stark.ArithSpec Stark.PolyProofs Stark.ArithSound Stark.ArithTrace Stark.ArithEmbed Stark.ArithGen Stark.ArithGenByte.
Import ListNotations.
Local Open Scope Z_scope.

(** * Big integers *)

Definition digits_val (d : list (Z * Z)) : Z := from_u32_digits (map fst d) - from_u32_digits (map snd d).

Lemma digit_rem : forall t, (if 0 <? t then t mod 2^32 else 0) - (if t <? 0 then (- t) mod 2^32 else 0) = Z.rem t (2^32).
Proof.
  intros t. destruct (0 <? t) eqn:E1, (t <? 0) eqn:E2; try lia.
Qed.

Lemma bigint_digits_two : forall l0 l1 r cy, bigint_digits (l0 :: l1 :: r) cy =
  (if 0 <? cy + l0 + 2^16 * l1 then (cy + l0 + 2^16 * l1) mod 2^32 else 0, if cy + l0 + 2^16 * l1 <? 0 then (- (cy + l0 + 2^16 * l1)) mod 2^32 else 0)
  :: bigint_digits r (Z.quot (cy + l0 + 2^16 * l1) (2^32)).
Proof. reflexivity. Qed.

Lemma digits_val_cons : forall a b d, digits_val ((a, b) :: d) = (a - b) + 2^32 * digits_val d.
Proof. intros. unfold digits_val. cbn [map from_u32_digits fst snd]. ring. Qed.

Lemma bigint_digits_val : forall n l cy, length l = (2 * n)%nat -> Forall (absle (2^37)) l -> absle (2^30) cy ->
  digits_val (bigint_digits l cy) = val l + cy.
Proof.
  induction n as [|n IH]; intros l cy L H Hcy.
  - destruct l; [|discriminate]. cbn [bigint_digits]. rewrite digits_val_cons, digit_rem. unfold digits_val. cbn [map from_u32_digits val].
    unfold absle in Hcy. rewrite (proj2 (Z.rem_small_iff cy (2^32) ltac:(lia))) by lia. lia.
  - destruct l as [|l0 [|l1 l]]; cbn [length] in L; try lia.
    apply Forall_cons_iff in H. destruct H as [H0 H]. apply Forall_cons_iff in H. destruct H as [H1 H].
    rewrite bigint_digits_two, digits_val_cons, digit_rem. set (t := cy + l0 + 2^16 * l1).
    assert (T : Z.abs t < 2^62) by (unfold absle, t in *; lia).
    pose proof (Z.quot_rem t (2^32) ltac:(lia)) as QR.
    assert (AQ : absle (2^30) (Z.quot t (2^32))).
    { unfold absle. pose proof (Z.rem_bound_abs t (2^32) ltac:(lia)). lia. }
    rewrite IH by (assumption || lia). cbn [val]. unfold t in QR at 1. change (2^16) with 65536 in *. lia.
Qed.

Lemma columns_val : forall n l, length l = (2 * n)%nat -> Forall (absle (2^37)) l -> columns_to_bigint l = val l.
Proof.
  intros n l L H. unfold columns_to_bigint. fold (digits_val (bigint_digits l 0)). rewrite (bigint_digits_val n) by (assumption || (unfold absle; lia)). lia.
Qed.

(** Signed limbs of an integer. *)
Definition cols (n : nat) (x : Z) : list Z :=
  map (fun i => Z.sgn x * ((Z.abs x / 2 ^ (16 * Z.of_nat i)) mod 2^16)) (seq 0 n).

Lemma val_scale : forall c l, val (map (fun x => c * x) l) = c * val l.
Proof. induction l as [|x l IH]; cbn [map val]; [ring|]. rewrite IH. ring. Qed.

Lemma cols_eq : forall n x, cols n x = map (fun y => Z.sgn x * y) (map (fun i => (Z.abs x / 2 ^ (16 * Z.of_nat i)) mod 2^16) (seq 0 n)).
Proof. intros. unfold cols. rewrite map_map. reflexivity. Qed.

Lemma cols_length : forall n x, length (cols n x) = n.
Proof. intros. unfold cols. rewrite map_length, seq_length. reflexivity. Qed.

Lemma cols_val : forall n x, Z.abs x < Bn n -> val (cols n x) = x.
Proof.
  intros n x H. rewrite cols_eq, val_scale, digits_aux by lia. change (2 ^ (16 * Z.of_nat 0)) with 1. rewrite Z.div_1_r, Z.mod_small by lia.
  rewrite Z.mul_comm. apply Z.abs_sgn.
Qed.

Lemma cols_limbs : forall n x, 0 <= x -> Forall limb (cols n x).
Proof.
  intros n x H. unfold cols. apply Forall_forall. intros y Hy. apply in_map_iff in Hy. destruct Hy as (i & <- & _).
  pose proof (Z.mod_pos_bound (Z.abs x / 2 ^ (16 * Z.of_nat i)) (2^16) ltac:(lia)) as B. change (2^16) with 65536 in B. unfold limb.
  assert (S : Z.sgn x = 0 \/ Z.sgn x = 1) by (destruct x; cbn; lia). change (2^16) with 65536. destruct S as [-> | ->]; lia.
Qed.

Lemma cols_neg : forall n x, x <= 0 -> Forall (fun y => limb (- y)) (cols n x).
Proof.
  intros n x H. unfold cols. apply Forall_forall. intros y Hy. apply in_map_iff in Hy. destruct Hy as (i & <- & _).
  pose proof (Z.mod_pos_bound (Z.abs x / 2 ^ (16 * Z.of_nat i)) (2^16) ltac:(lia)) as B. change (2^16) with 65536 in B. unfold limb.
  assert (S : Z.sgn x = 0 \/ Z.sgn x = -1) by (destruct x; cbn; lia). change (2^16) with 65536. destruct S as [-> | ->]; lia.
Qed.

Lemma cols_absle : forall n x, Forall (absle 65535) (cols n x).
Proof.
  intros n x. destruct (Z.le_ge_cases 0 x) as [H|H].
  - apply limb_absle, cols_limbs, H.
  - eapply Forall_impl; [|apply (cols_neg n x H)]. unfold limb, absle. cbn. lia.
Qed.

Lemma cols_u256 : forall x, word x -> cols 16 x = u256_to_array x.
Proof.
  intros x H. apply val_inj; [apply cols_limbs; apply H|apply u256_limbs|rewrite cols_length, u256_length; reflexivity|].
  rewrite u256_val by exact H. apply cols_val. rewrite Bn_16. unfold word in H. lia.
Qed.

Lemma cols_32_u256 : forall x, word x -> cols 32 x = u256_to_array x ++ repeat 0 16.
Proof.
  intros x H. apply val_inj; [apply cols_limbs; apply H| |rewrite cols_length, app_length, u256_length, repeat_length; reflexivity|].
  - apply Forall_app. split; [apply u256_limbs|]. apply Forall_forall. intros y Hy. apply repeat_spec in Hy. subst y. unfold limb. lia.
  - rewrite val_app, val_zeros, u256_val by exact H. rewrite cols_val; [lia|]. change 32%nat with (16 + 16)%nat. rewrite Bn_add, Bn_16. unfold word in H. nia.
Qed.

Lemma to_columns : forall n x, Z.abs x < Bn n -> bigint_to_columns n x = Some (cols n x).
Proof. intros n x H. unfold bigint_to_columns. rewrite <- Bn_pow2. rewrite (proj2 (Z.ltb_lt _ _) H). reflexivity. Qed.

(** * Polynomials, coefficient by coefficient *)

Lemma nth_add_assign : forall a b k, (k < length a)%nat -> nth k (pol_add_assign a b) 0 = nth k a 0 + nth k b 0.
Proof.
  induction a as [|x a IH]; intros b k H; cbn [length] in H; [lia|]. destruct b as [|y b].
  - cbn [pol_add_assign]. destruct k; cbn [nth]; lia.
  - cbn [pol_add_assign]. destruct k; cbn [nth]; [reflexivity|]. apply IH. lia.
Qed.

Lemma nth_sub_assign : forall a b k, (k < length a)%nat -> nth k (pol_sub_assign a b) 0 = nth k a 0 - nth k b 0.
Proof.
  induction a as [|x a IH]; intros b k H; cbn [length] in H; [lia|]. destruct b as [|y b].
  - cbn [pol_sub_assign]. destruct k; cbn [nth]; lia.
  - cbn [pol_sub_assign]. destruct k; cbn [nth]; [reflexivity|]. apply IH. lia.
Qed.

Lemma forall_nth_zero : forall l, (forall k, (k < length l)%nat -> nth k l 0 = 0) -> Forall (fun x => x = 0) l.
Proof.
  intros l H. apply Forall_forall. intros x Hx. apply (In_nth _ _ 0) in Hx. destruct Hx as (k & Hk & <-). apply H. exact Hk.
Qed.

Lemma conv_comm : forall a b k, conv a b k = conv b a k.
Proof.
  intros a b k. unfold conv.
  assert (R : forall f : nat -> Z, sum (map f (seq 0 (S k))) = sum (map (fun i => f (k - i)%nat) (seq 0 (S k)))).
  { intros f. assert (SR : forall l, sum (rev l) = sum l).
    { induction l as [|x l IH]; [reflexivity|]. cbn [rev]. assert (SA : forall u v, sum (u ++ v) = sum u + sum v).
      { induction u as [|y u IHu]; intros v; [reflexivity|]. change (y + sum (u ++ v) = y + sum u + sum v). rewrite IHu. ring. }
      rewrite SA, IH. change (sum l + (x + 0) = x + sum l). ring. }
    rewrite <- SR, <- map_rev. f_equal.
    assert (RV : rev (seq 0 (S k)) = map (fun i => (k - i)%nat) (seq 0 (S k))).
    { apply nth_ext with (d := 0%nat) (d' := 0%nat); [rewrite rev_length, map_length; reflexivity|].
      intros n Hn. rewrite rev_length, seq_length in Hn. rewrite rev_nth by (rewrite seq_length; exact Hn). rewrite seq_length, seq_nth by lia.
      rewrite nth_indep with (d' := (fun i => (k - i)%nat) 0%nat) by (rewrite map_length, seq_length; exact Hn).
      rewrite (map_nth (fun i => (k - i)%nat)), seq_nth by exact Hn. lia. }
    rewrite RV, map_map. reflexivity. }
  rewrite R. apply sum_map_ext. intros i Hi. apply in_seq in Hi. replace (k - (k - i))%nat with i by lia. ring.
Qed.

Lemma map_opp_nth : forall l k, nth k (map Z.opp l) 0 = - nth k l 0.
Proof. intros l k. change 0 with (- 0) at 1. apply map_nth. Qed.

Lemma conv_opp : forall a b k, conv (map Z.opp a) b k = - conv a b k.
Proof.
  intros a b k. unfold conv.
  assert (G : forall l (f : nat -> Z), sum (map (fun i => - f i) l) = - sum (map f l)).
  { induction l as [|x l IH]; intros f; [reflexivity|]. cbn [map]. change (- f x + sum (map (fun i => - f i) l) = - (f x + sum (map f l))). rewrite IH. ring. }
  rewrite <- G. apply sum_map_ext. intros i _. rewrite map_opp_nth. ring.
Qed.

(** * Products of the quotient and the modulus *)

Section Prod.
  Variables (q m : Z) (ml : list Z).
  Hypothesis Lm : length ml = 16%nat.
  Hypothesis Hm : Forall limb ml.
  Hypothesis Vm : val ml = m.
  Hypothesis Bq : Z.abs q < Bn 32.
  Hypothesis Bqm : Z.abs (q * m) < Bn 32.

  Let prod := pol_mul_wide2 (cols 32 q) ml.

  Lemma prod_bounds : (0 <= q -> Forall (fun x => 0 <= x <= 16 * (65535 * 65535)) prod) /\
                      (q <= 0 -> Forall (fun x => - (16 * (65535 * 65535)) <= x <= 0) prod).
  Proof.
    assert (AB : forall k, absle (16 * (65535 * 65535)) (conv (cols 32 q) ml k)).
    { intros k. rewrite conv_comm. pose proof (conv_bound ml (cols 32 q) 65535 65535 k ltac:(lia) ltac:(lia) (limb_absle _ Hm) (cols_absle 32 q)) as C.
      rewrite Lm in C. exact C. }
    assert (NN : forall l, Forall limb l -> Forall (fun x => 0 <= x) l) by (intros l Hl; eapply Forall_impl; [|exact Hl]; unfold limb; cbn; lia).
    split; intros Hq; unfold prod, pol_mul_wide2; rewrite Forall_map; apply Forall_forall; intros k _; specialize (AB k); unfold absle in AB.
    - pose proof (conv_nonneg (cols 32 q) ml k (NN _ (cols_limbs 32 q Hq)) (NN _ Hm)). lia.
    - assert (G : 0 <= conv (map Z.opp (cols 32 q)) ml k).
      { apply conv_nonneg; [|apply NN, Hm]. rewrite Forall_map. eapply Forall_impl; [|apply (cols_neg 32 q Hq)]. unfold limb. cbn. lia. }
      rewrite conv_opp in G. lia.
  Qed.

  Lemma prod_length : length prod = 47%nat.
  Proof. unfold prod, pol_mul_wide2. rewrite map_length, seq_length. reflexivity. Qed.

  Lemma prod_val : val prod = q * m.
  Proof. unfold prod, pol_mul_wide2. rewrite val_conv by (rewrite cols_length, Lm; cbn; lia). rewrite cols_val by exact Bq. rewrite Vm. reflexivity. Qed.

  Lemma nonneg_high_zero : forall l n, Forall (fun x => 0 <= x) l -> (n <= length l)%nat -> val l < Bn n ->
    Forall (fun x => x = 0) (skipn n l) /\ val (firstn n l) = val l.
  Proof.
    intros l n HL Hn HV. rewrite <- (firstn_skipn n l) in HL, HV. apply Forall_app in HL. destruct HL as [H1 H2].
    rewrite val_app, firstn_length, Nat.min_l in HV by lia.
    assert (V0 : forall l, Forall (fun x => 0 <= x) l -> 0 <= val l) by (induction 1; cbn [val]; lia).
    assert (E : val (skipn n l) = 0).
    { pose proof (V0 _ H1). pose proof (V0 _ H2). pose proof (Bn_pos n). nia. }
    split.
    - clear -H2 E V0. induction H2 as [|x l' Hx H IH]; [constructor|]. cbn [val] in E. pose proof (V0 _ H).
      constructor; [lia|apply IH; lia].
    - rewrite <- (firstn_skipn n l) at 2. rewrite val_app, E. lia.
  Qed.

  Lemma val_opp : forall l, val (map Z.opp l) = - val l.
  Proof. induction l as [|x l IH]; cbn [map val]; [reflexivity|]. rewrite IH. ring. Qed.

  Lemma prod_high : Forall (fun x => x = 0) (skipn 32 prod) /\ val (firstn 32 prod) = q * m.
  Proof.
    destruct prod_bounds as [B1 B2]. destruct (Z.le_ge_cases 0 q) as [Hq|Hq].
    - destruct (nonneg_high_zero prod 32) as [H1 H2].
      + eapply Forall_impl; [|exact (B1 Hq)]. cbn. lia.
      + rewrite prod_length. lia.
      + rewrite prod_val. lia.
      + rewrite prod_val in H2. split; assumption.
    - destruct (nonneg_high_zero (map Z.opp prod) 32) as [H1 H2].
      + rewrite Forall_map. eapply Forall_impl; [|exact (B2 Hq)]. cbn. lia.
      + rewrite map_length, prod_length. lia.
      + rewrite val_opp, prod_val. lia.
      + rewrite val_opp, prod_val in H2. rewrite firstn_map, val_opp in H2. rewrite skipn_map, Forall_map in H1.
        split; [eapply Forall_impl; [|exact H1]; cbn; lia|lia].
  Qed.
End Prod.

(** * The second row *)

Definition mod_next (lo hi : list Z) (mz : Z) (oar : list Z) (dz : Z) : row :=
  set (write (set (write (write zero_row MODULAR_AUX_INPUT_LO lo) MODULAR_AUX_INPUT_HI hi) MODULAR_MOD_IS_ZERO mz) MODULAR_OUT_AUX_RED oar) MODULAR_DIV_DENOM_IS_ZERO dz.

Section Next.
  Variables (lo hi oar : list Z) (mz dz : Z).
  Hypotheses (Llo : length lo = 31%nat) (Lhi : length hi = 31%nat) (Loar : length oar = 16%nat).
  Let nv := mod_next lo hi mz oar dz.

  Ltac mcols := cbn [length]; rewrite ?Llo, ?Lhi, ?Loar; unfold MODULAR_AUX_INPUT_LO, MODULAR_AUX_INPUT_HI, MODULAR_MOD_IS_ZERO, MODULAR_OUT_AUX_RED, MODULAR_DIV_DENOM_IS_ZERO; lia.

  Lemma next_lo : read_value 31 nv MODULAR_AUX_INPUT_LO = lo.
  Proof. unfold nv, mod_next, set. rewrite !(read_write_other 31) by mcols. apply read_write_same. exact Llo. Qed.
  Lemma next_hi : read_value 31 nv MODULAR_AUX_INPUT_HI = hi.
  Proof. unfold nv, mod_next, set. rewrite !(read_write_other 31) by mcols. apply read_write_same. exact Lhi. Qed.
  Lemma next_oar : read_value 16 nv MODULAR_OUT_AUX_RED = oar.
  Proof. unfold nv, mod_next, set. rewrite (read_write_other 16) by mcols. apply read_write_same. exact Loar. Qed.
  Lemma next_mz : nv MODULAR_MOD_IS_ZERO = mz.
  Proof. unfold nv, mod_next, set. rewrite !(write_out _ _ _ MODULAR_MOD_IS_ZERO) by mcols. rewrite write_in by mcols. reflexivity. Qed.
  Lemma next_dz : nv MODULAR_DIV_DENOM_IS_ZERO = dz.
  Proof. unfold nv, mod_next, set. rewrite write_in by mcols. reflexivity. Qed.
  Lemma next_flags : flags_zero nv.
  Proof. intros c Hc. unfold nv, mod_next, set. rewrite !write_out by mcols. reflexivity. Qed.
  Lemma next_cells : Forall limb lo -> Forall limb hi -> Forall limb oar -> limb mz -> limb dz -> cells_ok nv.
  Proof.
    intros H1 H2 H3 H4 H5. unfold nv, mod_next, set.
    assert (one : forall x, limb x -> Forall limb [x]) by (intros x Hx; repeat constructor; apply Hx).
    repeat (apply write_cells; [|first [assumption | apply one; assumption]]). apply zero_row_ok.
  Qed.
End Next.

(** * generate_modular_op *)

Lemma to_columns_word : forall x, word x -> bigint_to_columns 16 x = Some (u256_to_array x).
Proof. intros x Hx. rewrite to_columns by (rewrite Bn_16; unfold word in Hx; lia). rewrite cols_u256 by exact Hx. reflexivity. Qed.

Lemma floor_of_rem : forall i m, 0 < m ->
  let o := if Z.rem i m <? 0 then Z.rem i m + m else Z.rem i m in o = i mod m /\ Z.quot (i - o) m = i / m.
Proof.
  intros i m Hm. pose proof (Z.quot_rem i m ltac:(lia)) as QR. pose proof (Z.rem_bound_abs i m ltac:(lia)) as RB.
  pose proof (Z.div_mod i m ltac:(lia)) as DM. pose proof (Z.mod_pos_bound i m Hm) as MB. cbv zeta.
  assert (E : (if Z.rem i m <? 0 then Z.rem i m + m else Z.rem i m) = i mod m).
  { destruct (Z.rem i m <? 0) eqn:E.
    - apply Z.mod_unique with (Z.quot i m - 1); [left; lia|]. lia.
    - apply Z.mod_unique with (Z.quot i m); [left; lia|]. lia. }
  rewrite E. split; [reflexivity|]. replace (i - i mod m) with (i / m * m) by lia. apply Z.quot_mul. lia.
Qed.

Lemma last_zero : forall a p, a <> [] -> last (remove_root_from p a) 1 = 0.
Proof.
  induction a as [|x a IH]; intros p N; [congruence|]. destruct a as [|y a]; [reflexivity|].
  change (remove_root_from p (x :: y :: a)) with (Z.shiftr (p - x) 16 :: remove_root_from (Z.shiftr (p - x) 16) (y :: a)).
  assert (NE : remove_root_from (Z.shiftr (p - x) 16) (y :: a) <> []) by (destruct a; discriminate).
  specialize (IH (Z.shiftr (p - x) 16) ltac:(discriminate)).
  destruct (remove_root_from (Z.shiftr (p - x) 16) (y :: a)); [congruence|]. exact IH.
Qed.

Lemma remove_root_last : forall a, (2 <= length a)%nat -> set_last (pol_remove_root_2exp a) 0 = pol_remove_root_2exp a.
Proof.
  intros [|x [|y a]] L; cbn [length] in L; try lia. unfold set_last.
  assert (N : pol_remove_root_2exp (x :: y :: a) <> []) by discriminate.
  rewrite (app_removelast_last 1 N) at 2. f_equal. f_equal. symmetry.
  change (pol_remove_root_2exp (x :: y :: a)) with (- Z.shiftr x 16 :: remove_root_from (- Z.shiftr x 16) (y :: a)).
  pose proof (last_zero (y :: a) (- Z.shiftr x 16) ltac:(discriminate)) as L0.
  destruct (remove_root_from (- Z.shiftr x 16) (y :: a)) eqn:E; [destruct a; discriminate|]. exact L0.
Qed.

Lemma remove_root_split : forall a, length a = 32%nat -> firstn 31 (pol_remove_root_2exp a) ++ [0] = pol_remove_root_2exp a.
Proof.
  intros a L. rewrite <- (remove_root_last a) at 2 by lia. unfold set_last. f_equal.
  set (r := pol_remove_root_2exp a). assert (Lr : length r = 32%nat) by (unfold r; rewrite pol_remove_root_length; exact L).
  rewrite removelast_firstn_len, Lr. reflexivity.
Qed.

Lemma unsplit_mod : forall l, Forall (absle (2^20)) l ->
  map (fun p => fst p - AUX_COEFF_ABS_MAX + 2^16 * snd p)
    (combine (map lo16 (map (fun c => c + AUX_COEFF_ABS_MAX) l)) (map hi16 (map (fun c => c + AUX_COEFF_ABS_MAX) l))) = l.
Proof.
  intros l H. rewrite <- (unsplit l H) at 3. apply map_ext. intros p. unfold unbias. ring.
Qed.

Lemma addcy_shift_one : forall y, y <> [] -> let x := 1 :: repeat 0 (length y - 1) in
  Forall (fun t => t = 0 \/ t = 65536) (fst (addcy_limbs x y (add_hd y 1) 0)) /\ snd (addcy_limbs x y (add_hd y 1) 0) = 0.
Proof.
  intros [|y0 y] N; [congruence|]. cbn [length add_hd]. rewrite Nat.sub_succ, Nat.sub_0_r. cbn [addcy_limbs fst snd].
  replace (0 + 1 + y0 - (y0 + 1)) with 0 by ring. change (fmul 0 GOLDILOCKS_INVERSE_65536) with 0.
  assert (G : Forall (fun t => t = 0 \/ t = 65536) (fst (addcy_limbs (repeat 0 (length y)) y y 0)) /\ snd (addcy_limbs (repeat 0 (length y)) y y 0) = 0).
  { clear. induction y as [|a y IH]; [split; [constructor|reflexivity]|]. cbn [length repeat addcy_limbs fst snd].
    replace (0 + 0 + a - a) with 0 by ring. change (fmul 0 GOLDILOCKS_INVERSE_65536) with 0. destruct IH as [I1 I2]. split; [constructor; [left; reflexivity|exact I1]|exact I2]. }
  destruct G as [G1 G2]. split; [constructor; [left; reflexivity|exact G1]|exact G2].
Qed.

Lemma add_hd_0 : forall l, add_hd l 0 = l.
Proof. intros [|x l]; cbn [add_hd]; [|rewrite Z.add_0_r]; reflexivity. Qed.

(** The modulus the constraints work with. *)
Definition eff (m : Z) (d : bool) : Z := if m =? 0 then (if d then W else 1) else m.

Section Op.
  Variables (lv : row) (f modr : nat) (m i : Z) (inp : list Z) (d : bool).
  Hypothesis Hd : d = ((f =? IS_DIV)%nat || (f =? IS_SHR)%nat).
  Hypothesis Hlv : lv IS_DIV + lv IS_SHR = b2z d.
  Hypothesis Hm : word m.
  Hypothesis Rm : read_value 16 lv modr = u256_to_array m.
  Hypothesis Li : length inp = 31%nat.
  Hypothesis Vi : val inp = i.
  Hypothesis Bi : - 2^256 < i < Bn 32.
  Hypothesis Hi : (Forall (fun x => 0 <= x <= 16 * (65535 * 65535)) inp /\ 0 <= i) \/ Forall (absle 65535) inp.
  Hypothesis Hdi : d = true -> word i.
  Hypothesis Idiv : d = true -> inp = u256_to_array i ++ repeat 0 15.

  Let m' := eff m d.
  Let o := i mod m'.
  Let q := i / m'.
  Let mz := b2z (m =? 0).
  Let dz := mz * b2z d.

  Lemma mz01 : mz = 0 \/ mz = 1.
  Proof. unfold mz. destruct (m =? 0); auto. Qed.

  Lemma m'_pos : 0 < m' <= 2^256.
  Proof. unfold m', eff, W, word in *. destruct (m =? 0) eqn:E, d; lia. Qed.

  Lemma o_bounds : 0 <= o < m'.
  Proof. apply Z.mod_pos_bound, m'_pos. Qed.

  Lemma qo : i = q * m' + o.
  Proof. unfold q, o. pose proof m'_pos. pose proof (Z.div_mod i m' ltac:(lia)). lia. Qed.

  Lemma o_word : word o.
  Proof. pose proof m'_pos. pose proof o_bounds. unfold word. lia. Qed.

  Lemma Bn32 : Bn 32 = 2^256 * 2^256.
  Proof. reflexivity. Qed.

  Lemma q_bounds : Z.abs q < Bn 32 /\ Z.abs (q * m') < Bn 32 /\ (0 <= i -> 0 <= q) /\ (d = true -> word q).
  Proof.
    pose proof m'_pos as M. pose proof o_bounds as O. pose proof qo as Q. rewrite Bn32 in *.
    assert (QP : 0 <= i -> 0 <= q) by (intros; apply Z.div_pos; lia).
    assert (QN : i < 0 -> - 2^256 < q < 0) by (intros; nia).
    destruct (Z.le_gt_cases 0 i) as [G|G].
    - specialize (QP G). assert (q <= i) by nia. split; [nia|]. split; [nia|]. split; [intros _; exact QP|].
      intros D. specialize (Hdi D). unfold word in *. lia.
    - specialize (QN G). split; [nia|]. split; [nia|]. split; [intros; lia|]. intros D. specialize (Hdi D). unfold word in Hdi. lia.
  Qed.

  (** The limbs of the modulus: those used for the product. *)
  Let ml := add_hd (u256_to_array m) mz.

  Lemma u256_cons : u256_to_array m = (m mod 2^16) :: tl (u256_to_array m).
  Proof. pose proof (u256_nth0 m) as N. pose proof (u256_length m) as L. destruct (u256_to_array m); [discriminate|]. cbn [tl nth] in *. rewrite N. reflexivity. Qed.

  Lemma ml_facts : length ml = 16%nat /\ Forall limb ml /\ val ml = m + mz.
  Proof.
    unfold ml. split; [rewrite add_hd_length; apply u256_length|]. split.
    - destruct (Sumbool.sumbool_of_bool (m =? 0)) as [E|E]; unfold mz; rewrite E; cbn [b2z].
      + assert (m = 0) by lia. subst m. rewrite u256_0. repeat constructor; unfold limb; lia.
      + assert (G : add_hd (u256_to_array m) 0 = u256_to_array m) by (destruct (u256_to_array m); cbn [add_hd]; [|rewrite Z.add_0_r]; reflexivity).
        rewrite G. apply u256_limbs.
    - rewrite val_add_hd by (intros E; pose proof (u256_length m) as L; rewrite E in L; discriminate). rewrite u256_val by exact Hm. reflexivity.
  Qed.

  Lemma mz_eff : (m = 0 /\ d = true -> q = 0 /\ o = i) /\ (~ (m = 0 /\ d = true) -> m' = m + mz).
  Proof.
    split.
    - intros [E D]. unfold q, o, m', eff. rewrite E, D. cbn [Z.eqb]. specialize (Hdi D). unfold word in Hdi. change W with (2^256).
      split; [apply Z.div_small|apply Z.mod_small]; lia.
    - intros N. unfold m', eff, mz. destruct (m =? 0) eqn:E; cbn [b2z]; [|lia]. destruct d; [exfalso; apply N; split; lia|lia].
  Qed.

  (** The product has the same coefficients with the limbs of generation. *)
  Let gl := if m =? 0 then if d then u256_to_array m else 1 :: tl (u256_to_array m) else u256_to_array m.

  Lemma cols_0 : forall n, cols n 0 = repeat 0 n.
  Proof.
    intros n. unfold cols. cbn [Z.sgn]. rewrite <- (seq_length n 0) at 2. generalize (seq 0 n).
    induction l as [|x l IH]; [reflexivity|]. cbn [map length repeat]. rewrite IH. reflexivity.
  Qed.

  Lemma conv_zeros : forall n b k, conv (repeat 0 n) b k = 0.
  Proof.
    intros n b k. unfold conv. rewrite (map_ext _ (fun _ => 0)).
    - induction (seq 0 (S k)) as [|x l IH]; [reflexivity|]. cbn [map]. change (0 + sum (map (fun _ => 0) l) = 0). rewrite IH. reflexivity.
    - intros j. assert (E : nth j (repeat 0 n) 0 = 0) by (clear; revert j; induction n; intros [|j]; cbn [repeat nth]; auto). rewrite E. reflexivity.
  Qed.

  Lemma same_prod : pol_mul_wide2 (cols 32 q) gl = pol_mul_wide2 (cols 32 q) ml.
  Proof.
    unfold gl, ml, mz. destruct (Sumbool.sumbool_of_bool (m =? 0)) as [E|E]; rewrite E; cbn [b2z].
    - assert (E0 : m = 0) by lia. destruct (Sumbool.sumbool_of_bool d) as [D|D]; rewrite D.
      + destruct (proj1 mz_eff (conj E0 D)) as [Q _]. rewrite Q, cols_0. unfold pol_mul_wide2. apply map_ext. intros k. rewrite !conv_zeros. reflexivity.
      + rewrite E0, u256_0. reflexivity.
    - f_equal. destruct (u256_to_array m); cbn [add_hd]; [|rewrite Z.add_0_r]; reflexivity.
  Qed.

  Let prod := pol_mul_wide2 (cols 32 q) ml.

  Lemma qml : q * (m + mz) = q * m'.
  Proof.
    destruct (Sumbool.sumbool_of_bool (m =? 0)) as [E|E]; [destruct (Sumbool.sumbool_of_bool d) as [D|D]|].
    - destruct (proj1 mz_eff (conj (proj1 (Z.eqb_eq m 0) E) D)) as [Q _]. rewrite Q. ring.
    - rewrite (proj2 mz_eff); [reflexivity|]. intros [_ G]. congruence.
    - rewrite (proj2 mz_eff); [reflexivity|]. intros [G _]. rewrite G in E. discriminate.
  Qed.

  Lemma prod_facts : (0 <= q -> Forall (fun x => 0 <= x <= 16 * (65535 * 65535)) prod) /\ (q <= 0 -> Forall (fun x => - (16 * (65535 * 65535)) <= x <= 0) prod) /\
    length prod = 47%nat /\ Forall (fun x => x = 0) (skipn 32 prod) /\ val (firstn 32 prod) = q * m'.
  Proof.
    destruct ml_facts as (L1 & L2 & L3). destruct q_bounds as (B1 & B2 & _). rewrite <- qml in B2.
    destruct (prod_bounds q (m + mz) ml L1 L2) as [P1 P2]. destruct (prod_high q (m + mz) ml L1 L2 L3 B1 B2) as [P4 P5]. rewrite qml in P5.
    split; [exact P1|]. split; [exact P2|]. split; [apply prod_length|]. split; assumption.
  Qed.

  Let dd := pol_sub_assign (pol_sub_assign (inp ++ [0]) (u256_to_array o)) (firstn 32 prod).

  Lemma dd_facts : length dd = 32%nat /\ val dd = 0 /\ Forall (absle (16 * (65535 * 65535) + 2 * 65535)) dd.
  Proof.
    destruct prod_facts as (P1 & P2 & P3 & P4 & P5).
    assert (LI : length (inp ++ [0]) = 32%nat) by (rewrite app_length, Li; reflexivity).
    assert (LF : length (firstn 32 prod) = 32%nat) by (rewrite firstn_length, P3; reflexivity).
    assert (LD : length dd = 32%nat) by (unfold dd; rewrite !sub_assign_length; exact LI).
    split; [exact LD|]. split.
    - unfold dd. rewrite !val_sub_assign by (rewrite ?sub_assign_length, ?LI, ?LF, ?u256_length; lia). rewrite P5, u256_val by (apply o_word).
      rewrite val_app, Vi. cbn [val]. pose proof qo. lia.
    - apply Forall_forall. intros x Hx. apply (In_nth _ _ 0) in Hx. destruct Hx as (k & Hk & <-). rewrite LD in Hk.
      unfold dd. rewrite !nth_sub_assign by (rewrite ?sub_assign_length, ?LI; lia).
      assert (NO : limb (nth k (u256_to_array o) 0)) by (apply nth_Forall; [apply u256_limbs|unfold limb; lia]).
      assert (EF : nth k (firstn 32 prod) 0 = nth k prod 0) by (apply nth_firstn_lt; exact Hk). rewrite EF.
      assert (EI : nth k (inp ++ [0]) 0 = nth k inp 0).
      { destruct (Nat.lt_ge_cases k 31) as [G|G]; [apply app_nth1; lia|]. rewrite app_nth2 by lia. rewrite (nth_overflow inp) by lia.
        replace (k - length inp)%nat with 0%nat by lia. reflexivity. }
      rewrite EI. unfold absle, limb in *.
      assert (PP : 0 <= q -> 0 <= nth k prod 0 <= 16 * (65535 * 65535)) by (intros Q; apply (nth_Forall (fun x => 0 <= x <= 16 * (65535 * 65535))); [apply P1; exact Q|lia]).
      assert (PN : q <= 0 -> - (16 * (65535 * 65535)) <= nth k prod 0 <= 0) by (intros Q; apply (nth_Forall (fun x => - (16 * (65535 * 65535)) <= x <= 0)); [apply P2; exact Q|lia]).
      destruct Hi as [[Hi1 Hi2]|Hi1].
      + pose proof (nth_Forall (fun x => 0 <= x <= 16 * (65535 * 65535)) inp k Hi1 ltac:(lia)) as NI. cbn beta in NI.
        destruct q_bounds as (_ & _ & QP & _). specialize (PP (QP Hi2)). lia.
      + pose proof (nth_Forall (absle 65535) inp k Hi1 ltac:(unfold absle; lia)) as NI. unfold absle in NI.
        destruct (Z.le_ge_cases 0 q) as [G|G]; [specialize (PP G)|specialize (PN G)]; lia.
  Qed.

  Let aux := firstn 31 (pol_remove_root_2exp dd).
  Let lo := map lo16 (map (fun c => c + AUX_COEFF_ABS_MAX) aux).
  Let hi := map hi16 (map (fun c => c + AUX_COEFF_ABS_MAX) aux).
  Let oar := u256_to_array (W - m' + o).
  Definition op_next : row := mod_next lo hi mz oar dz.

  Lemma aux_bound : Forall (absle (2^20)) aux.
  Proof.
    unfold aux. destruct dd_facts as (_ & _ & B).
    pose proof (remove_root_bound (2^20) (16 * (65535 * 65535) + 2 * 65535) dd ltac:(lia) ltac:(lia) B) as RB.
    rewrite <- (firstn_skipn 31 (pol_remove_root_2exp dd)) in RB. apply Forall_app in RB. apply RB.
  Qed.

  Lemma aux_length : length aux = 31%nat.
  Proof. unfold aux. rewrite firstn_length, pol_remove_root_length. destruct dd_facts as (L & _). rewrite L. reflexivity. Qed.

  Lemma lo_length : length lo = 31%nat.
  Proof. unfold lo. rewrite !map_length. apply aux_length. Qed.
  Lemma hi_length : length hi = 31%nat.
  Proof. unfold hi. rewrite !map_length. apply aux_length. Qed.

  Lemma oar_word : word (W - m' + o).
  Proof. pose proof m'_pos. pose proof o_bounds. unfold word. change W with (2^256). lia. Qed.

  Lemma op_next_ok : cells_ok op_next /\ single_ok op_next.
  Proof.
    destruct (split_limbs aux aux_bound) as [S1 S2]. split.
    - apply next_cells; [exact S1|exact S2|apply u256_limbs| |]; unfold limb, dz, mz; destruct (m =? 0), d; cbn; lia.
    - apply flags_zero_ok. apply next_flags; [apply lo_length|apply hi_length|apply u256_length].
  Qed.

  Lemma op_next_flags : flags_zero op_next.
  Proof. apply next_flags; [apply lo_length|apply hi_length|apply u256_length]. Qed.

  (** What the constraints need. *)
  Lemma op_constraints : forall last lv' F input', lv' IS_DIV + lv' IS_SHR = b2z d ->
    (forall k, (k < 32)%nat -> nth k input' 0 = nth k inp 0) ->
    Forall (okr last) (fst (modular_constr_poly lv' op_next F (u256_to_array o) (u256_to_array m) (cols 32 q))) /\
    Forall (okr last) (poly_constraints (snd (modular_constr_poly lv' op_next F (u256_to_array o) (u256_to_array m) (cols 32 q))) input' F).
  Proof.
    intros last lv' F input' Hd' HI. unfold modular_constr_poly, check_reduced. cbv zeta. change N_LIMBS with 16%nat.
    change (2 * 16 - 1)%nat with 31%nat. change (2 * 16)%nat with 32%nat. change (16 - 1)%nat with 15%nat. cbn [fst snd].
    assert (EMZ : op_next MODULAR_MOD_IS_ZERO = mz) by (unfold op_next; apply next_mz; solve [apply u256_length | apply lo_length | apply hi_length]).
    assert (EDZ : op_next MODULAR_DIV_DENOM_IS_ZERO = dz) by (apply next_dz; (apply lo_length || apply hi_length || apply u256_length)).
    rewrite !EMZ, !EDZ.
    assert (ELO : read_value 31 op_next MODULAR_AUX_INPUT_LO = lo) by (apply next_lo; (apply lo_length || apply hi_length || apply u256_length)).
    assert (EHI : read_value 31 op_next MODULAR_AUX_INPUT_HI = hi) by (apply next_hi; (apply lo_length || apply hi_length || apply u256_length)).
    assert (EOAR : read_value 16 op_next MODULAR_OUT_AUX_RED = oar) by (apply next_oar; (apply lo_length || apply hi_length || apply u256_length)).
    rewrite ELO, EHI, EOAR. rewrite Hd'.
    fold ml. fold prod.
    destruct prod_facts as (P1 & P2 & P3 & P4 & P5). destruct dd_facts as (D1 & D2 & D3).
    split.
    - apply Forall_cons; [apply okr_z; destruct mz01 as [E|E]; rewrite E; ring|].
      apply Forall_cons.
      { apply okr_z. unfold mz. destruct (Sumbool.sumbool_of_bool (m =? 0)) as [E|E]; rewrite E; cbn [b2z]; [|ring]. rewrite (proj1 (Z.eqb_eq m 0) E), u256_0. cbn. ring. }
      apply Forall_cons; [apply okr_z; unfold dz; ring|].
      apply Forall_app. split.
      + destruct (Sumbool.sumbool_of_bool (m =? 0)) as [E|E]; [destruct (Sumbool.sumbool_of_bool d) as [D|D]|].
        * assert (E0 : m = 0) by lia. destruct (addcy_shift_one (u256_to_array o)) as [A1 A2].
          { intros G. pose proof (u256_length o) as L. rewrite G in L. discriminate. }
          rewrite u256_length in A1, A2. change (16 - 1)%nat with 15%nat in A1, A2.
          assert (M1 : ml = 1 :: repeat 0 15) by (unfold ml, mz; rewrite E0, u256_0; reflexivity).
          assert (O1 : oar = u256_to_array o) by (unfold oar; f_equal; unfold m', eff; rewrite E, D; ring).
          assert (Z1 : dz = 1) by (unfold dz, mz; rewrite E, D; reflexivity).
          rewrite M1, O1, Z1. apply addcy_okr with 0; [exact A1|exact A2|left; reflexivity| |apply zeros_forall].
          cbn [hd]. unfold mz. rewrite E, D. reflexivity.
        * assert (NE : m' = m + mz) by (apply mz_eff; intros [_ G]; congruence).
          assert (Z1 : dz = 0) by (unfold dz; rewrite D; cbn [b2z]; ring).
          destruct ml_facts as (L1 & L2 & L3).
          destruct (addcy_limbs_complete ml oar (u256_to_array o) 0 1) as [A1 A2]; try (rewrite L1; apply u256_length); try exact L2; try apply u256_limbs; try lia.
          { unfold oar. rewrite L1, L3, !u256_val by (apply oar_word || apply o_word). rewrite Bn_16, NE. change W with (2^256). lia. }
          rewrite Z1. rewrite add_hd_0.
          apply addcy_okr with 1; [exact A1|exact A2|right; reflexivity| |apply zeros_forall]. cbn [hd]. rewrite D. cbn [b2z]. ring.
        * assert (NE : m' = m + mz) by (apply mz_eff; intros [G _]; rewrite G in E; discriminate).
          assert (Z1 : dz = 0) by (unfold dz, mz; rewrite E; reflexivity).
          destruct ml_facts as (L1 & L2 & L3).
          destruct (addcy_limbs_complete ml oar (u256_to_array o) 0 1) as [A1 A2]; try (rewrite L1; apply u256_length); try exact L2; try apply u256_limbs; try lia.
          { unfold oar. rewrite L1, L3, !u256_val by (apply oar_word || apply o_word). rewrite Bn_16, NE. change W with (2^256). lia. }
          rewrite Z1. rewrite add_hd_0.
          apply addcy_okr with 1; [exact A1|exact A2|right; reflexivity| |apply zeros_forall]. cbn [hd]. unfold mz. rewrite E. cbn [b2z]. ring.
      + apply map_zero. intros x Hx. rewrite Forall_forall in P4. cbn [snd]. rewrite (P4 x Hx). ring.
    - unfold poly_constraints. apply map_zero. intros x Hx. cbn [snd].
      unfold lo, hi in Hx. rewrite unsplit_mod in Hx by exact aux_bound. unfold aux in Hx. rewrite remove_root_split in Hx by exact D1.
      pose proof (remove_root_exact dd 0 ltac:(lia) ltac:(rewrite D2; ring)) as EX. change (- 0) with 0 in EX. rewrite remove_root_last in EX by lia.
      change (2^16) with 65536 in Hx. rewrite EX in Hx.
      assert (LF : length (firstn 32 prod) = 32%nat) by (rewrite firstn_length, P3; reflexivity).
      assert (LI : length (inp ++ [0]) = 32%nat) by (rewrite app_length, Li; reflexivity).
      apply (In_nth _ _ 0) in Hx. destruct Hx as (k & Hk & <-). rewrite sub_assign_length, !add_assign_length, LF in Hk.
      rewrite nth_sub_assign, !nth_add_assign by (rewrite ?add_assign_length, LF; exact Hk).
      unfold dd. rewrite !nth_sub_assign by (rewrite ?sub_assign_length, LI; exact Hk). rewrite HI by exact Hk.
      assert (EI : nth k (inp ++ [0]) 0 = nth k inp 0).
      { destruct (Nat.lt_ge_cases k 31) as [G|G]; [apply app_nth1; lia|]. rewrite app_nth2 by lia. rewrite (nth_overflow inp) by lia.
        replace (k - length inp)%nat with 0%nat by lia. reflexivity. }
      rewrite EI. ring.
  Qed.

  Definition op_quot : list Z :=
    if (f =? IS_SUBMOD)%nat || (f =? IS_SUBFP254)%nat then
      if q <? 0 then map (fun c => c + 65535) (firstn 16 (cols 32 q)) ++ 1 :: tl (skipn 16 (cols 32 q))
      else firstn 16 (cols 32 q) ++ 0 :: tl (skipn 16 (cols 32 q))
    else cols 32 q.

  Lemma op_eq : generate_modular_op lv zero_row f inp modr = Some (op_next, u256_to_array o, map from_noncanonical op_quot).
  Proof.
    unfold generate_modular_op. cbv zeta. change N_LIMBS with 16%nat. rewrite Rm.
    rewrite (columns_val 8 (u256_to_array m)); [|apply u256_length|eapply Forall_impl; [|apply u256_limbs]; unfold limb, absle; cbn; lia].
    rewrite u256_val by exact Hm. rewrite <- Hd.
    assert (EI : columns_to_bigint (inp ++ [0]) = i).
    { rewrite (columns_val 16); [rewrite val_app, Vi; cbn [val]; lia|rewrite app_length, Li; reflexivity|].
      apply Forall_app. split; [|repeat constructor; unfold absle; lia].
      destruct Hi as [[H1 _]|H1]; (eapply Forall_impl; [|exact H1]); unfold absle; cbn; lia. }
    rewrite EI.
    assert (EM : (if m =? 0 then if d then (W, u256_to_array m, 1) else (1, 1 :: tl (u256_to_array m), 1) else (m, u256_to_array m, 0)) = (m', gl, mz)).
    { unfold m', eff, gl, mz. destruct (m =? 0); [destruct d|]; reflexivity. }
    rewrite EM. pose proof m'_pos as MP. destruct (floor_of_rem i m' ltac:(lia)) as [F1 F2]. cbv zeta in F2. rewrite F1 in *. fold o in F2 |- *. rewrite F2. fold q.
    rewrite to_columns_word by apply o_word. cbn [obind].
    rewrite (to_columns (2 * 16)) by (apply q_bounds). cbn [obind].
    rewrite to_columns_word by apply oar_word. cbn [obind]. change (2 * 16)%nat with 32%nat. rewrite same_prod. change (32 - 1)%nat with 31%nat.
    rewrite Hlv. fold prod. fold dd. rewrite firstn_map. fold aux. fold lo. fold hi. fold oar. fold dz. reflexivity.
  Qed.
End Op.
