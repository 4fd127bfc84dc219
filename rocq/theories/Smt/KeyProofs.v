(** Facts about keys, paths and limbs (SmtModel.v). *)

From Coq Require Import List Arith NArith ZArith Lia Bool ZifyN ZifyNat ZifyBool.
From Verif.Smt Require Import SmtModel.
Import ListNotations.
Local Open Scope nat_scope.
Ltac Zify.zify_post_hook ::= Z.div_mod_to_equations.

(** The elements fit in a [u64]. *)
Definition qvalid (q : quad) : Prop := (e0 q < 2 ^ 64 /\ e1 q < 2 ^ 64 /\ e2 q < 2 ^ 64 /\ e3 q < 2 ^ 64)%N.

Lemma quad_eqb_eq : forall a b, quad_eqb a b = true <-> a = b.
Proof.
  intros [a0 a1 a2 a3] [b0 b1 b2 b3]. unfold quad_eqb. cbn [e0 e1 e2 e3].
  rewrite !andb_true_iff, !N.eqb_eq. split; [intros [[[-> ->] ->] ->]; reflexivity|intros H; inversion H; auto].
Qed.

Lemma quad_eqb_refl : forall a, quad_eqb a a = true.
Proof. intros a. apply quad_eqb_eq. reflexivity. Qed.

Lemma quad_eqb_neq : forall a b, quad_eqb a b = false <-> a <> b.
Proof.
  intros a b. split.
  - intros H E. apply quad_eqb_eq in E. congruence.
  - intros H. destruct (quad_eqb a b) eqn:E; [apply quad_eqb_eq in E; congruence|reflexivity].
Qed.

Lemma quad_dec : forall a b : quad, {a = b} + {a <> b}.
Proof.
  intros a b. destruct (quad_eqb a b) eqn:E; [left; apply quad_eqb_eq, E|right; apply quad_eqb_neq, E].
Qed.

Lemma is_zero_eq : forall a, is_zero a = true <-> a = zero.
Proof. intros a. apply quad_eqb_eq. Qed.

Lemma is_zero_neq : forall a, is_zero a = false <-> a <> zero.
Proof. intros a. apply quad_eqb_neq. Qed.

(** ** split *)

Lemma split_rounds_length : forall n a, length (split_rounds n a) = 4 * n.
Proof. induction n as [|n IH]; intros a; [reflexivity|]. cbn [split_rounds]. rewrite app_length, IH. cbn [split_round length]. lia. Qed.

Lemma split_length : forall k, length (split k) = 256.
Proof. intros k. unfold split. rewrite split_rounds_length. reflexivity. Qed.

Lemma elt_div2 : forall a j, elt (div2_quad a) j = (elt a j / 2)%N.
Proof. intros a [|[|[|j]]]; reflexivity. Qed.

Lemma nth_split_rounds : forall n a m j, m < n -> j < 4 ->
  nth (4 * m + j) (split_rounds n a) false = N.testbit (elt a j) (N.of_nat m).
Proof.
  induction n as [|n IH]; intros a m j Hm Hj; [lia|]. cbn [split_rounds].
  destruct m as [|m].
  - rewrite app_nth1 by (cbn [split_round length]; lia).
    destruct j as [|[|[|[|j]]]]; try lia; cbn [Nat.mul Nat.add nth split_round elt]; rewrite N.bit0_odd; reflexivity.
  - rewrite app_nth2 by (cbn [split_round length]; lia).
    replace (4 * S m + j - length (split_round a)) with (4 * m + j) by (cbn [split_round length]; lia).
    rewrite IH by lia. rewrite elt_div2, <- N.div2_div, N.div2_spec, N.shiftr_spec by lia.
    f_equal. lia.
Qed.

Lemma nth_split : forall k m j, m < 64 -> j < 4 ->
  nth (4 * m + j) (split k) false = N.testbit (elt k j) (N.of_nat m).
Proof. intros. apply nth_split_rounds; assumption. Qed.

Lemma elt_valid : forall k j, qvalid k -> (elt k j < 2 ^ 64)%N.
Proof. intros k j (H0 & H1 & H2 & H3). destruct j as [|[|[|j]]]; assumption. Qed.

Lemma quad_ext : forall a b, (forall j, j < 4 -> elt a j = elt b j) -> a = b.
Proof.
  intros [a0 a1 a2 a3] [b0 b1 b2 b3] H.
  pose proof (H 0 ltac:(lia)) as E0. pose proof (H 1 ltac:(lia)) as E1.
  pose proof (H 2 ltac:(lia)) as E2. pose proof (H 3 ltac:(lia)) as E3. cbn in *. congruence.
Qed.

Lemma testbit_high : forall x m, (x < 2 ^ 64)%N -> 64 <= m -> N.testbit x (N.of_nat m) = false.
Proof.
  intros x m Hx Hm. destruct (N.eq_dec x 0) as [->|Hz]; [apply N.bits_0|].
  apply N.bits_above_log2. apply N.log2_lt_pow2; [lia|].
  eapply N.lt_le_trans; [exact Hx|]. apply N.pow_le_mono_r; lia.
Qed.

Lemma split_inj : forall k k', qvalid k -> qvalid k' -> split k = split k' -> k = k'.
Proof.
  intros k k' Hk Hk' H. apply quad_ext. intros j Hj. apply N.bits_inj. intros i.
  rewrite <- (N2Nat.id i). destruct (le_lt_dec 64 (N.to_nat i)) as [L|L].
  - rewrite !testbit_high; auto using elt_valid.
  - rewrite <- !nth_split by assumption. rewrite H. reflexivity.
Qed.

(** ** join and remove_key_bits *)

Lemma join_accs_spec : forall bits i j m, j < 4 ->
  N.testbit (join_accs i bits j) (N.of_nat m) = (i <=? 4 * m + j) && nth (4 * m + j - i) bits false.
Proof.
  induction bits as [|b r IH]; intros i j m Hj; cbn [join_accs].
  - rewrite N.bits_0. destruct (4 * m + j - i); rewrite andb_false_r; reflexivity.
  - assert (Hrest : N.testbit (join_accs (S i) r j) (N.of_nat m) =
                    (S i <=? 4 * m + j) && nth (4 * m + j - S i) r false) by (apply IH; exact Hj).
    destruct (Nat.eq_dec i (4 * m + j)) as [E|E].
    + replace (i <=? 4 * m + j) with true by (symmetry; apply Nat.leb_le; lia).
      replace (S i <=? 4 * m + j) with false in Hrest by (symmetry; apply Nat.leb_gt; lia).
      replace (4 * m + j - i) with 0 by lia. cbn [nth andb] in *.
      replace (i mod 4) with j by lia. rewrite Nat.eqb_refl. cbn [andb].
      destruct b.
      * rewrite N.lor_spec, Hrest. replace (i / 4) with m by lia.
        rewrite N.shiftl_spec_high' by lia. rewrite N.sub_diag. reflexivity.
      * exact Hrest.
    + assert (Hn : (i <=? 4 * m + j) && nth (4 * m + j - i) (b :: r) false =
                   (S i <=? 4 * m + j) && nth (4 * m + j - S i) r false).
      { destruct (le_lt_dec (S i) (4 * m + j)) as [L|L].
        - replace (i <=? 4 * m + j) with true by (symmetry; apply Nat.leb_le; lia).
          replace (S i <=? 4 * m + j) with true by (symmetry; apply Nat.leb_le; lia).
          replace (4 * m + j - i) with (S (4 * m + j - S i)) by lia. reflexivity.
        - replace (i <=? 4 * m + j) with false by (symmetry; apply Nat.leb_gt; lia).
          replace (S i <=? 4 * m + j) with false by (symmetry; apply Nat.leb_gt; lia). reflexivity. }
      rewrite Hn. destruct ((i mod 4 =? j) && b) eqn:C; [|exact Hrest].
      rewrite N.lor_spec, Hrest. apply andb_true_iff in C. destruct C as [C _]. apply Nat.eqb_eq in C.
      assert (Hne : i / 4 <> m) by lia.
      replace (N.testbit (N.shiftl 1 (N.of_nat (i / 4))) (N.of_nat m)) with false; [reflexivity|].
      symmetry. rewrite N.shiftl_1_l. apply N.pow2_bits_false. lia.
Qed.

(** The remaining key, without the panics. *)
Definition rem_elt (k : quad) (n j : nat) : N := N.shiftr (elt k j) (N.of_nat (join_n n j)).
Definition rem (k : quad) (n : nat) : quad := Q (rem_elt k n 0) (rem_elt k n 1) (rem_elt k n 2) (rem_elt k n 3).

Lemma elt_rem : forall k n j, j < 4 -> elt (rem k n) j = rem_elt k n j.
Proof. intros k n [|[|[|[|j]]]] H; try reflexivity; lia. Qed.

Lemma remove_elt_rem : forall k n j, j < 4 -> n <= 252 -> remove_elt k n j = Some (rem_elt k n j).
Proof.
  intros k n j Hj Hn. unfold remove_elt, rem_elt.
  replace (if n / 4 * 4 + j <? n then S (n / 4) else n / 4) with (join_n n j).
  - unfold shr64. replace (join_n n j <? 64) with true; [reflexivity|].
    symmetry. apply Nat.ltb_lt. unfold join_n. lia.
  - unfold join_n. destruct (n / 4 * 4 + j <? n) eqn:E; [apply Nat.ltb_lt in E|apply Nat.ltb_ge in E]; lia.
Qed.

Lemma remove_key_bits_rem : forall k n, n <= 252 -> remove_key_bits k n = Some (rem k n).
Proof. intros k n Hn. unfold remove_key_bits. rewrite !remove_elt_rem by lia. reflexivity. Qed.

Lemma remove_key_bits_panics : forall k n, 252 < n -> remove_key_bits k n = None.
Proof.
  intros k n Hn. unfold remove_key_bits, remove_elt, shr64.
  destruct (n / 4 * 4 + 0 <? n) eqn:E; [apply Nat.ltb_lt in E|apply Nat.ltb_ge in E].
  - replace (S (n / 4) <? 64) with false by (symmetry; apply Nat.ltb_ge; lia). reflexivity.
  - replace (n / 4 <? 64) with false by (symmetry; apply Nat.ltb_ge; lia). reflexivity.
Qed.

Lemma remove_key_bits_some : forall k n r, remove_key_bits k n = Some r -> n <= 252 /\ r = rem k n.
Proof.
  intros k n r H. destruct (le_lt_dec n 252) as [L|L].
  - rewrite remove_key_bits_rem in H by lia. inversion H. auto.
  - rewrite remove_key_bits_panics in H by lia. discriminate.
Qed.

Lemma rem_valid : forall k n, qvalid k -> qvalid (rem k n).
Proof.
  intros k n Hk.
  assert (H : forall j, (rem_elt k n j < 2 ^ 64)%N).
  { intros j. unfold rem_elt. rewrite N.shiftr_div_pow2.
    eapply N.le_lt_trans; [|apply (elt_valid k j Hk)]. apply N.div_le_upper_bound; [apply N.pow_nonzero; lia|].
    rewrite <- (N.mul_1_l (elt k j)) at 1. apply N.mul_le_mono_r.
    pose proof (N.pow_nonzero 2 (N.of_nat (join_n n j)) ltac:(lia)). lia. }
  repeat split; apply H.
Qed.

Lemma join_elt_rem : forall k n j, qvalid k -> n <= 252 -> j < 4 ->
  join_elt (firstn n (split k)) (rem k n) j = Some (elt k j).
Proof.
  intros k n j Hk Hn Hj. unfold join_elt.
  rewrite firstn_length, split_length, Nat.min_l by lia. rewrite elt_rem by exact Hj.
  unfold shl64. replace (join_n n j <? 64) with true by (symmetry; apply Nat.ltb_lt; unfold join_n; lia).
  f_equal. apply N.bits_inj. intros i. rewrite <- (N2Nat.id i). set (m := N.to_nat i).
  rewrite N.lor_spec, join_accs_spec by exact Hj. rewrite Nat.sub_0_r. cbn [Nat.leb andb].
  assert (Hacc : nth (4 * m + j) (firstn n (split k)) false =
                 if 4 * m + j <? n then N.testbit (elt k j) (N.of_nat m) else false).
  { destruct (4 * m + j <? n) eqn:E; [apply Nat.ltb_lt in E|apply Nat.ltb_ge in E].
    - rewrite <- nth_split by lia.
      transitivity (nth (4 * m + j) (firstn n (split k) ++ skipn n (split k)) false).
      + rewrite app_nth1; [reflexivity|]. rewrite firstn_length, split_length. lia.
      + rewrite firstn_skipn. reflexivity.
    - apply nth_overflow. rewrite firstn_length. lia. }
  rewrite Hacc. clear Hacc.
  destruct (le_lt_dec 64 m) as [L|L].
  - rewrite (N.mod_pow2_bits_high _ 64) by lia.
    rewrite (testbit_high (elt k j)) by (auto using elt_valid). destruct (4 * m + j <? n); reflexivity.
  - rewrite N.mod_pow2_bits_low by lia. unfold rem_elt.
    destruct (4 * m + j <? n) eqn:E; [apply Nat.ltb_lt in E|apply Nat.ltb_ge in E].
    + rewrite N.shiftl_spec_low by (unfold join_n; lia). reflexivity.
    + rewrite N.shiftl_spec_high' by (unfold join_n; lia). rewrite N.shiftr_spec' , orb_false_r. f_equal.
      unfold join_n. lia.
Qed.

Lemma join_rem : forall k n, qvalid k -> n <= 252 -> join (firstn n (split k)) (rem k n) = Some k.
Proof.
  intros k n Hk Hn. unfold join. rewrite !join_elt_rem by (auto; lia). cbn. destruct k; reflexivity.
Qed.

Lemma join_rem_prefix : forall k p q, qvalid k -> split k = p ++ q -> length p <= 252 ->
  join p (rem k (length p)) = Some k.
Proof.
  intros k p q Hk H Hp. transitivity (join (firstn (length p) (split k)) (rem k (length p))); [f_equal|apply join_rem; assumption].
  rewrite H, firstn_app, firstn_all, Nat.sub_diag. cbn. rewrite app_nil_r. reflexivity.
Qed.

Lemma join_too_long : forall bits r, 252 < length bits -> join bits r = None.
Proof.
  intros bits r H. unfold join, join_elt, shl64.
  replace (join_n (length bits) 0 <? 64) with false; [reflexivity|].
  symmetry. apply Nat.ltb_ge. unfold join_n. lia.
Qed.

(** Keys with the same path prefix and the same remaining key are equal. *)
Lemma rem_inj : forall k k' n, qvalid k -> qvalid k' -> n <= 252 ->
  firstn n (split k) = firstn n (split k') -> rem k n = rem k' n -> k = k'.
Proof.
  intros k k' n Hk Hk' Hn Hf Hr.
  pose proof (join_rem k n Hk Hn) as J. rewrite Hf, Hr, join_rem in J by assumption. congruence.
Qed.

(** ** Limbs *)

Lemma limb_lt : forall x i, (limb x i < 2 ^ 32)%N.
Proof. intros. apply N.mod_lt. discriminate. Qed.

Lemma limbs_roundtrip : forall x, (x < 2 ^ 256)%N -> limbs2f (fst (f2limbs x)) (snd (f2limbs x)) = x.
Proof.
  intros x Hx. unfold limbs2f, f2limbs. cbn [fst snd e0 e1 e2 e3].
  assert (H : forall y i, (y / 2 ^ (32 * i) = limb y i + 2 ^ 32 * (y / 2 ^ (32 * (i + 1))))%N).
  { intros y i. unfold limb. replace (32 * (i + 1))%N with (32 * i + 32)%N by lia.
    rewrite N.pow_add_r, <- N.div_div by (apply N.pow_nonzero; lia).
    rewrite (N.div_mod (y / 2 ^ (32 * i)) (2 ^ 32)) at 1 by discriminate. lia. }
  pose proof (H x 0%N) as H0. pose proof (H x 1%N) as H1. pose proof (H x 2%N) as H2. pose proof (H x 3%N) as H3.
  pose proof (H x 4%N) as H4. pose proof (H x 5%N) as H5. pose proof (H x 6%N) as H6. pose proof (H x 7%N) as H7.
  assert (H8 : (x / 2 ^ (32 * (7 + 1)) = 0)%N) by (apply N.div_small; exact Hx).
  assert (Hz : (x / 2 ^ (32 * 0) = x)%N) by (change (2 ^ (32 * 0))%N with 1%N; apply N.div_1_r).
  rewrite Hz in H0. clear H Hz.
  replace (0 + 1)%N with 1%N in * by lia. replace (1 + 1)%N with 2%N in * by lia.
  replace (2 + 1)%N with 3%N in * by lia. replace (3 + 1)%N with 4%N in * by lia.
  replace (4 + 1)%N with 5%N in * by lia. replace (5 + 1)%N with 6%N in * by lia.
  replace (6 + 1)%N with 7%N in * by lia.
  rewrite H8 in H7. rewrite H7 in H6. rewrite H6 in H5. rewrite H5 in H4. rewrite H4 in H3.
  rewrite H3 in H2. rewrite H2 in H1. rewrite H1 in H0. clear H1 H2 H3 H4 H5 H6 H7 H8.
  rewrite N.mod_small; [|eapply N.le_lt_trans; [|exact Hx]];
    (rewrite H0 at 9 || idtac); cbn [N.pow Pos.pow Pos.iter Pos.mul] in *; lia.
Qed.

Lemma key2u_roundtrip : forall k, qvalid k -> u2k (key2u k) = k.
Proof.
  intros [a b c d] (Ha & Hb & Hc & Hd). unfold u2k, key2u. cbn [e0 e1 e2 e3] in *.
  f_equal; cbn [N.pow Pos.pow Pos.iter Pos.mul] in *; lia.
Qed.
