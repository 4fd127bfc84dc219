(** The packed nibble operations implement the list operations. *)

From Coq Require Import List Arith NArith Bool Lia ZifyN ZifyNat ZifyBool.
From Verif.Mpt Require Import NibblesModel.
Import ListNotations.
Open Scope N_scope.

(** Value of a nibble list read as a base-16 number, front first. *)
Definition val (l : list nat) : N := fold_left (fun a d => 16 * a + N.of_nat d) l 0.

Definition nibs (l : list nat) : Prop := Forall (fun n => (n < 16)%nat) l.

(** [x] represents the nibble list [l]. *)
Definition rep (x : packed_nibbles) (l : list nat) : Prop :=
  count x = length l /\ packed x = val l /\ nibs l /\ (length l < 80)%nat.

Lemma fold_val l : forall a, fold_left (fun a d => 16 * a + N.of_nat d) l a = a * 16 ^ N.of_nat (length l) + val l.
Proof.
  unfold val. induction l as [|x l IH]; intros a; cbn [fold_left length].
  - cbn. lia.
  - rewrite IH. rewrite (IH (16 * 0 + N.of_nat x)). rewrite Nat2N.inj_succ, N.pow_succ_r'. lia.
Qed.

Lemma val_app a b : val (a ++ b) = val a * 16 ^ N.of_nat (length b) + val b.
Proof. unfold val at 1. rewrite fold_left_app. apply fold_val. Qed.

Lemma val_cons x l : val (x :: l) = N.of_nat x * 16 ^ N.of_nat (length l) + val l.
Proof. change (x :: l) with ([x] ++ l). rewrite val_app. cbn. lia. Qed.

Lemma val_bound l : nibs l -> val l < 16 ^ N.of_nat (length l).
Proof.
  induction 1 as [|x l H _ IH]; [cbn; lia|].
  rewrite val_cons. cbn [length]. rewrite Nat2N.inj_succ, N.pow_succ_r'.
  assert (0 < 16 ^ N.of_nat (length l)) by lia.
  assert (N.of_nat x <= 15) by lia. nia.
Qed.

Lemma pow16 n : 16 ^ N.of_nat n = 2 ^ N.of_nat (n * 4).
Proof. replace (N.of_nat (n * 4)) with (4 * N.of_nat n) by lia. now rewrite N.pow_mul_r. Qed.

Lemma val_bound2 l : nibs l -> val l < 2 ^ N.of_nat (length l * 4).
Proof. rewrite <- pow16. apply val_bound. Qed.

Lemma nibs_app a b : nibs (a ++ b) <-> nibs a /\ nibs b.
Proof. apply Forall_app. Qed.

Lemma val_inj : forall a b, nibs a -> nibs b -> length a = length b -> val a = val b -> a = b.
Proof.
  induction a as [|x a IH]; intros [|y b] Ha Hb HL HV; try discriminate; auto.
  inversion Ha; inversion Hb; subst. cbn in HL. injection HL as HL.
  rewrite !val_cons, HL in HV.
  pose proof (val_bound a) as Ba. pose proof (val_bound b) as Bb. rewrite HL in Ba.
  assert (x = y /\ val a = val b) as [-> E].
  { specialize (Ba H2). specialize (Bb H6). set (P := 16 ^ N.of_nat (length b)) in *.
    assert (N.of_nat x = N.of_nat y) by nia. split; nia. }
  f_equal. now apply IH.
Qed.

(** ** Bit lemmas *)
Lemma wshl_ok x k w : x < 2 ^ w -> w + N.of_nat k <= word_bits -> wshl x k = x * 2 ^ N.of_nat k.
Proof.
  intros H L. unfold wshl. rewrite N.shiftl_mul_pow2. apply N.mod_small.
  apply N.lt_le_trans with (2 ^ w * 2 ^ N.of_nat k).
  - apply N.mul_lt_mono_pos_r; auto. apply N.neq_0_lt_0, N.pow_nonzero. lia.
  - rewrite <- N.pow_add_r. apply N.pow_le_mono_r; [lia|auto].
Qed.

Lemma wshr_ok x k : wshr x k = x / 2 ^ N.of_nat k.
Proof. unfold wshr. apply N.shiftr_div_pow2. Qed.

Lemma mask_ok k : N.of_nat k < word_bits -> create_mask_of_1s k = Some (N.ones (N.of_nat k)).
Proof.
  intros H. unfold create_mask_of_1s. rewrite wshl_ok with (w := 1); [|cbn; lia|lia].
  rewrite N.mul_1_l. destruct (N.eqb_spec (2 ^ N.of_nat k) 0) as [E|E].
  - apply N.pow_nonzero in E; [easy|lia].
  - now rewrite N.ones_equiv, <- N.sub_1_r.
Qed.

Lemma lor_add a k b : b < 2 ^ k -> N.lor (a * 2 ^ k) b = a * 2 ^ k + b.
Proof.
  intros H. rewrite <- N.lxor_lor.
  - symmetry. apply N.add_nocarry_lxor.
    apply N.bits_inj. intros i. rewrite N.land_spec, N.bits_0.
    destruct (N.ltb_spec i k).
    + rewrite N.mul_pow2_bits_low by auto. auto.
    + rewrite <- (N.mod_small b (2 ^ k)) by auto. rewrite N.mod_pow2_bits_high by auto. apply andb_false_r.
  - apply N.bits_inj. intros i. rewrite N.land_spec, N.bits_0.
    destruct (N.ltb_spec i k).
    + rewrite N.mul_pow2_bits_low by auto. auto.
    + rewrite <- (N.mod_small b (2 ^ k)) by auto. rewrite N.mod_pow2_bits_high by auto. apply andb_false_r.
Qed.

Lemma bits_high x k i : x < 2 ^ k -> k <= i -> N.testbit x i = false.
Proof. intros H L. rewrite <- (N.mod_small x (2 ^ k)) by auto. now apply N.mod_pow2_bits_high. Qed.

Lemma split_high a b k : b < 2 ^ k -> (a * 2 ^ k + b) / 2 ^ k = a.
Proof.
  intros H. rewrite N.add_comm, N.div_add by (apply N.pow_nonzero; lia). rewrite N.div_small; lia.
Qed.

Lemma split_low a b k : b < 2 ^ k -> (a * 2 ^ k + b) mod 2 ^ k = b.
Proof.
  intros H. rewrite N.add_comm, N.mod_add by (apply N.pow_nonzero; lia). now apply N.mod_small.
Qed.

(** Masking out the front: [x & !(ones(j) << k)]. *)
Lemma land_not_front a b j k : a < 2 ^ j -> b < 2 ^ k -> j + k <= word_bits ->
  N.land (a * 2 ^ k + b) (wnot (N.ones j * 2 ^ k)) = b.
Proof.
  intros Ha Hb L. unfold wnot. rewrite <- lor_add by auto.
  apply N.bits_inj. intros i. rewrite N.land_spec, N.lor_spec.
  destruct (N.ltb_spec i k).
  - rewrite N.mul_pow2_bits_low by auto. cbn [orb].
    rewrite N.lnot_spec_low by lia. rewrite N.mul_pow2_bits_low by auto.
    apply andb_true_r.
  - rewrite (bits_high b k i) by auto. rewrite N.mul_pow2_bits_high by auto.
    rewrite orb_false_r. destruct (N.ltb_spec (i - k) j).
    + rewrite N.lnot_spec_low by lia. rewrite N.mul_pow2_bits_high by auto.
      rewrite N.ones_spec_low by auto. apply andb_false_r.
    + now rewrite (bits_high a j) by auto.
Qed.

(** Masking out the back. *)
Lemma land_not_back a b j k : a < 2 ^ j -> b < 2 ^ k -> j + k <= word_bits ->
  N.land (a * 2 ^ k + b) (wnot (N.ones k)) = a * 2 ^ k.
Proof.
  intros Ha Hb L. unfold wnot. rewrite <- lor_add by auto.
  apply N.bits_inj. intros i. rewrite N.land_spec, N.lor_spec.
  destruct (N.ltb_spec i k).
  - rewrite N.mul_pow2_bits_low by auto. rewrite N.lnot_spec_low by lia.
    rewrite N.ones_spec_low by auto. apply andb_false_r.
  - rewrite (bits_high b k i) by auto. rewrite orb_false_r.
    rewrite N.mul_pow2_bits_high by auto. destruct (N.ltb_spec (i - k) j).
    + rewrite N.lnot_spec_low by lia. rewrite N.ones_spec_high by auto. apply andb_true_r.
    + now rewrite (bits_high a j) by auto.
Qed.

(** Masking a middle range: [(x & (ones(j) << k)) >> k]. *)
Lemma land_range a b c j k : b < 2 ^ j -> c < 2 ^ k ->
  N.land (a * 2 ^ (j + k) + (b * 2 ^ k + c)) (N.ones j * 2 ^ k) / 2 ^ k = b.
Proof.
  intros Hb Hc.
  replace (a * 2 ^ (j + k) + (b * 2 ^ k + c)) with ((a * 2 ^ j + b) * 2 ^ k + c)
    by (rewrite N.pow_add_r; lia).
  rewrite <- lor_add by auto.
  rewrite <- N.shiftr_div_pow2. rewrite N.shiftr_land. rewrite N.shiftr_lor, !N.shiftr_div_pow2.
  rewrite !N.div_mul by (apply N.pow_nonzero; lia). rewrite (N.div_small c) by auto.
  rewrite N.lor_0_r, N.land_ones. apply split_low. auto.
Qed.

(** ** Operations *)
Lemma usub_some a b : (b <= a)%nat -> usub a b = Some (a - b)%nat.
Proof. intros H. unfold usub. apply Nat.leb_le in H. now rewrite H. Qed.
Lemma usub_none a b : (a < b)%nat -> usub a b = None.
Proof. intros H. unfold usub. apply Nat.leb_gt in H. now rewrite H. Qed.

Lemma rep_new : rep pn_new [].
Proof. repeat split; try constructor; cbn; lia. Qed.

Lemma rep_nibble n : (n < 16)%nat -> exists x, from_nibble n = Some x /\ rep x [n].
Proof.
  intros H. unfold from_nibble. destruct (Nat.leb_spec n 15); [|lia]. cbn.
  eexists. split; [reflexivity|]. split; [reflexivity|]. split; [cbn; lia|]. split; [constructor; auto; constructor|cbn; lia].
Qed.

Lemma rep_inj x y l : rep x l -> rep y l -> x = y.
Proof. intros (H1 & H2 & _) (H3 & H4 & _). destruct x, y; cbn in *. subst. congruence. Qed.

Lemma rep_eqb x y l m : rep x l -> rep y m -> (pn_eqb x y = true <-> l = m).
Proof.
  intros (H1 & H2 & H3 & _) (H4 & H5 & H6 & _). unfold pn_eqb. rewrite andb_true_iff, Nat.eqb_eq, N.eqb_eq.
  split.
  - intros [E1 E2]. apply val_inj; congruence.
  - intros ->. split; congruence.
Qed.

Lemma rep_split a b : nibs (a ++ b) -> val a < 2 ^ N.of_nat (length a * 4) /\ val b < 2 ^ N.of_nat (length b * 4)
  /\ val (a ++ b) = val a * 2 ^ N.of_nat (length b * 4) + val b.
Proof.
  intros H. apply nibs_app in H as [Ha Hb]. split; [now apply val_bound2|]. split; [now apply val_bound2|].
  rewrite val_app. now rewrite pow16.
Qed.

Lemma rep_get_nibble x a n b : rep x (a ++ n :: b) -> get_nibble x (length a) = Some n.
Proof.
  intros (H1 & H2 & H3 & H4). rewrite app_length in *. cbn [length] in *.
  unfold get_nibble. rewrite usub_some by lia. cbn [obind]. rewrite usub_some by lia. cbn [obind].
  replace (count x - length a - 1)%nat with (length b) by lia.
  unfold word_byte, assert.
  destruct (Nat.ltb_spec (length b / 2) 40) as [_|C].
  2:{ exfalso. pose proof (Nat.div_lt_upper_bound (length b) 2 40). lia. }
  cbn [obind]. f_equal. rewrite H2.
  apply nibs_app in H3 as H3'. destruct H3' as [Ha Hb]. inversion Hb as [|? ? Hn Hb']; subst.
  rewrite val_app, val_cons. cbn [length].
  pose proof (val_bound b Hb') as Bb.
  rewrite wshr_ok.
  pose proof (Nat.div_mod (length b) 2) as DM. set (q := (length b / 2)%nat) in *.
  assert (EV : Nat.even (length b) = (length b mod 2 =? 0)%nat).
  { rewrite <- Nat.bit0_mod. rewrite Nat.bit0_odd, <- Nat.negb_odd. now destruct (Nat.odd (length b)). }
  rewrite EV. pose proof (Nat.mod_upper_bound (length b) 2).
  change 255 with (N.ones 8). change 15 with (N.ones 4).
  destruct (Nat.eqb_spec (length b mod 2) 0) as [E0|E1].
  - assert (LB : length b = (2 * q)%nat) by lia.
    replace (N.of_nat (8 * q)) with (N.of_nat (length b * 4)) by lia. rewrite <- pow16.
    rewrite Nat2N.inj_succ, N.pow_succ_r'.
    replace (val a * (16 * 16 ^ N.of_nat (length b)) + (N.of_nat n * 16 ^ N.of_nat (length b) + val b))
      with ((val a * 16 + N.of_nat n) * 16 ^ N.of_nat (length b) + val b) by lia.
    rewrite pow16 at 1 2. rewrite split_high by (now rewrite <- pow16).
    rewrite <- N.land_assoc. change (N.land (N.ones 8) (N.ones 4)) with (N.ones 4).
    rewrite N.land_ones. change (2 ^ 4) with 16.
    rewrite N.add_comm, N.mod_add, N.mod_small by lia. lia.
  - assert (LB : length b = (2 * q + 1)%nat) by lia.
    destruct b as [|m b]; [cbn in LB; lia|]. cbn [length] in *.
    inversion Hb' as [|? ? Hm Hb'']; subst.
    assert (LB' : length b = (2 * q)%nat) by lia.
    replace (N.of_nat (8 * q)) with (N.of_nat (length b * 4)) by lia. rewrite <- pow16.
    rewrite !Nat2N.inj_succ, !N.pow_succ_r', val_cons.
    pose proof (val_bound b Hb'') as Bb'.
    replace (val a * (16 * (16 * 16 ^ N.of_nat (length b))) +
             (N.of_nat n * (16 * 16 ^ N.of_nat (length b)) + (N.of_nat m * 16 ^ N.of_nat (length b) + val b)))
      with ((val a * 256 + N.of_nat n * 16 + N.of_nat m) * 16 ^ N.of_nat (length b) + val b) by lia.
    rewrite pow16 at 1 2. rewrite split_high by (now rewrite <- pow16).
    rewrite <- N.land_assoc. change (N.land (N.ones 8) 240) with (N.land 240 (N.ones 8)).
    rewrite N.shiftr_land. rewrite N.shiftr_div_pow2. change (2 ^ 4) with 16.
    change (N.shiftr (N.land 240 (N.ones 8)) 4) with (N.ones 4).
    rewrite N.land_ones. change (2 ^ 4) with 16.
    replace ((val a * 256 + N.of_nat n * 16 + N.of_nat m) / 16) with (N.of_nat n + val a * 16).
    + rewrite N.mod_add, N.mod_small by lia. lia.
    + apply N.div_unique with (r := N.of_nat m); lia.
Qed.

Lemma rep_get_nibble_nth x l i : rep x l -> get_nibble x i = nth_error l i.
Proof.
  intros R. destruct (nth_error l i) as [n|] eqn:E.
  - apply nth_error_split in E as (a & b & -> & <-). now apply rep_get_nibble with (b := b).
  - apply nth_error_None in E. destruct R as (H1 & _). unfold get_nibble.
    destruct (Nat.eq_dec i (length l)) as [->|].
    + rewrite usub_some by lia. cbn [obind]. now rewrite usub_none by lia.
    + now rewrite usub_none by lia.
Qed.

Lemma rep_range x a b c : rep x (a ++ b ++ c) ->
  exists y, get_nibble_range x (length a) (length a + length b) = Some y /\ rep y b.
Proof.
  intros (H1 & H2 & H3 & H4). rewrite !app_length in *.
  apply nibs_app in H3 as H3'. destruct H3' as [Ha Hbc]. apply nibs_app in Hbc as Hbc'. destruct Hbc' as [Hb Hc].
  unfold get_nibble_range. rewrite usub_some by lia. cbn [obind]. rewrite usub_some by lia. cbn [obind].
  replace (length a + length b - length a)%nat with (length b) by lia.
  replace (count x - (length a + length b))%nat with (length c) by lia.
  rewrite mask_ok by (unfold word_bits; lia). cbn [obind].
  eexists. split; [reflexivity|]. repeat split; cbn [count packed]; auto; try lia.
  rewrite wshr_ok, wshl_ok with (w := N.of_nat (length b * 4)).
  - rewrite H2. rewrite !val_app, app_length.
    replace (16 ^ N.of_nat (length b + length c)) with (2 ^ (N.of_nat (length b * 4) + N.of_nat (length c * 4))).
    + rewrite pow16. apply land_range; now apply val_bound2.
    + rewrite pow16. f_equal. lia.
  - rewrite N.ones_equiv. assert (2 ^ N.of_nat (length b * 4) <> 0) by (apply N.pow_nonzero; lia). lia.
  - unfold word_bits. lia.
Qed.

Lemma rep_get_nibble_range x l i j : rep x l -> (i <= j <= length l)%nat ->
  exists y, get_nibble_range x i j = Some y /\ rep y (firstn (j - i) (skipn i l)).
Proof.
  intros R L.
  destruct (rep_range x (firstn i l) (firstn (j - i) (skipn i l)) (skipn (j - i) (skipn i l))) as (y & E & Ry).
  - now rewrite !firstn_skipn.
  - rewrite !firstn_length, skipn_length in E.
    replace (Nat.min i (length l)) with i in E by lia.
    replace (i + Nat.min (j - i) (length l - i))%nat with j in E by lia. eauto.
Qed.

Lemma rep_truncate_front_app x a b : rep x (a ++ b) -> exists y, pn_truncate_front x (length a) = Some y /\ rep y b.
Proof.
  intros (H1 & H2 & H3 & H4). destruct (rep_split a b H3) as (Va & Vb & EV).
  apply nibs_app in H3 as [Ha Hb]. rewrite app_length in *.
  unfold pn_truncate_front, min_truncate. destruct (Nat.leb_spec (length a) (count x)); [|lia].
  replace (count x - length a)%nat with (length b) by lia.
  rewrite mask_ok by (unfold word_bits; lia). cbn [obind].
  eexists. split; [reflexivity|]. repeat split; cbn [count packed]; auto; try lia.
  rewrite wshl_ok with (w := N.of_nat (length a * 4)).
  - rewrite H2, EV. apply land_not_front; auto. unfold word_bits. lia.
  - rewrite N.ones_equiv. assert (2 ^ N.of_nat (length a * 4) <> 0) by (apply N.pow_nonzero; lia). lia.
  - unfold word_bits. lia.
Qed.

Lemma rep_truncate_back_app x a b : rep x (a ++ b) -> exists y, pn_truncate_back x (length b) = Some y /\ rep y a.
Proof.
  intros (H1 & H2 & H3 & H4). destruct (rep_split a b H3) as (Va & Vb & EV).
  apply nibs_app in H3 as [Ha Hb]. rewrite app_length in *.
  unfold pn_truncate_back, min_truncate. destruct (Nat.leb_spec (length b) (count x)); [|lia].
  replace (count x - length b)%nat with (length a) by lia.
  rewrite mask_ok by (unfold word_bits; lia). cbn [obind].
  eexists. split; [reflexivity|]. repeat split; cbn [count packed]; auto; try lia.
  rewrite wshr_ok, H2, EV. rewrite land_not_back with (j := N.of_nat (length a * 4)); auto.
  - apply N.div_mul. apply N.pow_nonzero. lia.
  - unfold word_bits. lia.
Qed.

Lemma min_truncate_min x n : min_truncate x n = Nat.min n (count x).
Proof. unfold min_truncate. destruct (Nat.leb_spec n (count x)); lia. Qed.

Lemma truncate_front_min x n : pn_truncate_front x n = pn_truncate_front x (Nat.min n (count x)).
Proof. unfold pn_truncate_front. rewrite !min_truncate_min. now rewrite <- Nat.min_assoc, Nat.min_id. Qed.
Lemma truncate_back_min x n : pn_truncate_back x n = pn_truncate_back x (Nat.min n (count x)).
Proof. unfold pn_truncate_back. rewrite !min_truncate_min. now rewrite <- Nat.min_assoc, Nat.min_id. Qed.

Lemma rep_truncate_front x l n : rep x l -> exists y, pn_truncate_front x n = Some y /\ rep y (skipn n l).
Proof.
  intros R. rewrite truncate_front_min. pose proof R as (H1 & _).
  destruct (rep_truncate_front_app x (firstn n l) (skipn n l)) as (y & E & Ry).
  - now rewrite firstn_skipn.
  - exists y. split; auto. rewrite firstn_length in E. now rewrite H1.
Qed.

Lemma rep_truncate_back x l n : rep x l ->
  exists y, pn_truncate_back x n = Some y /\ rep y (firstn (length l - n) l).
Proof.
  intros R. rewrite truncate_back_min. pose proof R as (H1 & _).
  destruct (rep_truncate_back_app x (firstn (length l - n) l) (skipn (length l - n) l)) as (y & E & Ry).
  - now rewrite firstn_skipn.
  - exists y. split; auto. rewrite skipn_length in E. rewrite H1.
    replace (Nat.min n (length l)) with (length l - (length l - n))%nat by lia. auto.
Qed.

Lemma rep_push_nibbles_back x y l m : rep x l -> rep y m -> (length l + length m <= 64)%nat ->
  exists z, push_nibbles_back x y = Some z /\ rep z (l ++ m).
Proof.
  intros (H1 & H2 & H3 & H4) (H5 & H6 & H7 & H8) L.
  unfold push_nibbles_back, assert. destruct (Nat.leb_spec (count x + count y) 64); [|lia]. cbn [obind].
  eexists. split; [reflexivity|]. repeat split; cbn [count packed].
  - rewrite app_length. lia.
  - rewrite wshl_ok with (w := N.of_nat (length l * 4)).
    + rewrite H2, H5, H6. replace (4 * length m)%nat with (length m * 4)%nat by lia.
      rewrite lor_add by (now apply val_bound2). rewrite val_app. now rewrite pow16.
    + rewrite H2. now apply val_bound2.
    + unfold word_bits. lia.
  - now apply nibs_app.
  - rewrite app_length. lia.
Qed.

Lemma rep_push_nibbles_front x y l m : rep x l -> rep y m -> (length l + length m <= 64)%nat ->
  exists z, push_nibbles_front x y = Some z /\ rep z (m ++ l).
Proof.
  intros (H1 & H2 & H3 & H4) (H5 & H6 & H7 & H8) L.
  unfold push_nibbles_front, assert. destruct (Nat.leb_spec (count x + count y) 64); [|lia]. cbn [obind].
  eexists. split; [reflexivity|]. repeat split; cbn [count packed].
  - rewrite app_length. lia.
  - rewrite wshl_ok with (w := N.of_nat (length m * 4)).
    + rewrite H2, H1, H6. replace (4 * length l)%nat with (length l * 4)%nat by lia.
      rewrite N.lor_comm, lor_add by (now apply val_bound2). rewrite val_app. now rewrite pow16.
    + rewrite H6. now apply val_bound2.
    + unfold word_bits. lia.
  - now apply nibs_app.
  - rewrite app_length. lia.
Qed.

Lemma rep_push_nibble_back x l n : rep x l -> (n < 16)%nat -> (length l < 64)%nat ->
  exists z, push_nibble_back x n = Some z /\ rep z (l ++ [n]).
Proof.
  intros R Hn L. destruct (rep_nibble n Hn) as (y & Ey & Ry).
  destruct (rep_push_nibbles_back x y l [n] R Ry) as (z & Ez & Rz); [cbn; lia|].
  exists z. split; auto. rewrite <- Ez.
  unfold from_nibble, assert in Ey. destruct (Nat.leb_spec n 15); [|lia]. injection Ey as <-.
  destruct R as (H1 & _). unfold push_nibble_back, push_nibbles_back, nibble_append_asserts, assert.
  cbn [count packed]. destruct (Nat.ltb_spec (count x) 64); [|lia]. cbn [obind].
  destruct (Nat.ltb_spec n 16); [|lia]. destruct (Nat.leb_spec (count x + 1) 64); [|lia]. cbn [obind].
  now rewrite Nat.add_1_r.
Qed.

Lemma rep_push_nibble_front x l n : rep x l -> (n < 16)%nat -> (length l < 64)%nat ->
  exists z, push_nibble_front x n = Some z /\ rep z (n :: l).
Proof.
  intros R Hn L. destruct (rep_nibble n Hn) as (y & Ey & Ry).
  destruct (rep_push_nibbles_front x y l [n] R Ry) as (z & Ez & Rz); [cbn; lia|].
  exists z. split; auto. rewrite <- Ez.
  unfold from_nibble, assert in Ey. destruct (Nat.leb_spec n 15); [|lia]. injection Ey as <-.
  destruct R as (H1 & _). unfold push_nibble_front, push_nibbles_front, nibble_append_asserts, assert.
  cbn [count packed]. destruct (Nat.ltb_spec (count x) 64); [|lia]. cbn [obind].
  destruct (Nat.ltb_spec n 16); [|lia]. destruct (Nat.leb_spec (count x + 1) 64); [|lia]. cbn [obind].
  now rewrite Nat.add_1_r.
Qed.

Lemma push_overflow x y l m : rep x l -> rep y m -> (64 < length l + length m)%nat ->
  push_nibbles_back x y = None /\ push_nibbles_front x y = None.
Proof.
  intros (H1 & _) (H5 & _) L. unfold push_nibbles_back, push_nibbles_front, assert.
  destruct (Nat.leb_spec (count x + count y) 64); [lia|]. auto.
Qed.

Lemma push_nibble_overflow x l n : rep x l -> (64 <= length l \/ 16 <= n)%nat ->
  push_nibble_back x n = None /\ push_nibble_front x n = None.
Proof.
  intros (H1 & _) L. unfold push_nibble_back, push_nibble_front, nibble_append_asserts, assert.
  destruct (Nat.ltb_spec (count x) 64); cbn [obind]; auto.
  destruct (Nat.ltb_spec n 16); cbn [obind]; auto. lia.
Qed.

(** [get_nibble_range] rejects anything outside the sequence. *)
Lemma range_out x l i j : rep x l -> (length l < j \/ j < i)%nat -> get_nibble_range x i j = None.
Proof.
  intros (H1 & _) L. unfold get_nibble_range. destruct (Nat.leb_spec i j).
  - rewrite usub_some by auto. cbn [obind]. now rewrite usub_none by lia.
  - now rewrite usub_none by lia.
Qed.

Lemma split_idx_prefix_range x i : split_at_idx_prefix x i = get_nibble_range x 0 i.
Proof.
  unfold split_at_idx_prefix, get_nibble_range. rewrite (usub_some i 0) by lia.
  rewrite Nat.sub_0_r. cbn [obind]. reflexivity.
Qed.

Lemma rep_split_postfix x l i : rep x l -> (i <= length l)%nat ->
  exists y, split_at_idx_postfix x i = Some y /\ rep y (skipn i l).
Proof.
  intros R L. destruct (rep_get_nibble_range x l i (length l) R) as (y & E & Ry); [lia|].
  exists y. rewrite firstn_all2 in Ry by (rewrite skipn_length; lia). split; auto. rewrite <- E.
  destruct R as (H1 & H2 & H3 & H4). unfold split_at_idx_postfix, get_nibble_range.
  rewrite H1. rewrite usub_some by lia. cbn [obind]. rewrite (usub_some (length l) (length l)) by lia. cbn [obind].
  rewrite Nat.sub_diag. cbn [Nat.mul]. rewrite mask_ok by (unfold word_bits; lia). cbn [obind].
  rewrite wshr_ok, wshl_ok with (w := word_bits).
  - change (N.of_nat 0) with 0. now rewrite N.pow_0_r, N.mul_1_r, N.div_1_r.
  - apply N.lt_le_trans with (2 ^ N.of_nat ((length l - i) * 4)).
    + rewrite N.ones_equiv. assert (2 ^ N.of_nat ((length l - i) * 4) <> 0) by (apply N.pow_nonzero; lia). lia.
    + apply N.pow_le_mono_r; unfold word_bits; lia.
  - cbn. lia.
Qed.

Lemma rep_split_at x l i : rep x l -> (i <= length l)%nat ->
  exists y z, split_at_idx x i = Some (y, z) /\ rep y (firstn i l) /\ rep z (skipn i l).
Proof.
  intros R L. destruct (rep_split_postfix x l i R L) as (z & Ez & Rz).
  destruct (rep_truncate_back x l (length l - i) R) as (y & Ey & Ry).
  replace (length l - (length l - i))%nat with i in Ry by lia.
  exists y, z. split; auto. unfold split_at_idx. unfold split_at_idx_postfix in Ez.
  destruct R as (H1 & _). rewrite H1 in *. rewrite usub_some in * by auto. cbn [obind] in *.
  unfold pn_truncate_back in Ey. rewrite min_truncate_min, H1 in Ey.
  replace (Nat.min (length l - i) (length l)) with (length l - i)%nat in Ey by lia.
  destruct (create_mask_of_1s ((length l - i) * 4)); [|discriminate]. cbn [obind] in *.
  injection Ez as <-. injection Ey as <-. f_equal. f_equal. f_equal. lia.
Qed.

(** ** Reverse *)
Lemma reverse_loop_ok : forall b a acc,
  nibs (b ++ a) -> nibs acc -> length acc = length a -> (length (b ++ a) < 80)%nat ->
  reverse_loop (length b) (length a) (val (b ++ a)) (15 * 16 ^ N.of_nat (length a)) (val acc)
  = val (acc ++ rev b).
Proof.
  induction b as [|n b IH] using rev_ind; intros a acc Hn Hacc Hlen HL.
  - cbn. now rewrite app_nil_r.
  - rewrite app_length, Nat.add_1_r. cbn [reverse_loop].
    rewrite rev_app_distr. cbn [rev app]. rewrite <- app_assoc in *. cbn [app] in *.
    rewrite app_length in HL. cbn [length] in HL.
    apply nibs_app in Hn as Hn'. destruct Hn' as [Hb Hna]. inversion Hna as [|? ? Hn1 Ha]; subst.
    assert (E1 : wshr (N.land (val (b ++ n :: a)) (15 * 16 ^ N.of_nat (length a))) (length a * 4) = N.of_nat n).
    { rewrite wshr_ok. rewrite val_app, val_cons. cbn [length]. rewrite !pow16.
      change 15 with (N.ones 4).
      replace (N.of_nat (S (length a) * 4)) with (4 + N.of_nat (length a * 4)) by lia.
      apply land_range; [change (2 ^ 4) with 16; lia|now apply val_bound2]. }
    rewrite E1.
    assert (E2 : N.lor (wshl (val acc) 4) (N.of_nat n) = val (acc ++ [n])).
    { rewrite wshl_ok with (w := N.of_nat (length acc * 4)); [|now apply val_bound2|unfold word_bits; lia].
      change (N.of_nat 4) with 4. rewrite lor_add by (change (2 ^ 4) with 16; lia).
      rewrite val_app. cbn. lia. }
    rewrite E2.
    assert (E3 : reverse_loop (length b) (S (length a)) (val (b ++ n :: a))
                   (wshl (15 * 16 ^ N.of_nat (length a)) 4) (val (acc ++ [n]))
                 = reverse_loop (length b) (length (n :: a)) (val (b ++ n :: a))
                   (15 * 16 ^ N.of_nat (length (n :: a))) (val (acc ++ [n]))).
    { destruct b as [|m b]; [reflexivity|]. cbn [length] in HL |- *. f_equal.
      rewrite wshl_ok with (w := N.of_nat (S (length a) * 4)).
      - change (2 ^ N.of_nat 4) with 16. rewrite Nat2N.inj_succ, N.pow_succ_r'. lia.
      - rewrite <- pow16, Nat2N.inj_succ, N.pow_succ_r'.
        assert (0 < 16 ^ N.of_nat (length a)) by (apply N.neq_0_lt_0, N.pow_nonzero; lia). lia.
      - unfold word_bits. lia. }
    rewrite E3. rewrite IH.
    + now rewrite <- app_assoc.
    + auto.
    + apply nibs_app. split; [auto|]. constructor; [auto|constructor].
    + rewrite app_length. cbn. lia.
    + rewrite app_length. cbn [length]. lia.
Qed.

Lemma rep_reverse x l : rep x l -> rep (pn_reverse x) (rev l).
Proof.
  intros (H1 & H2 & H3 & H4). unfold pn_reverse. repeat split; cbn [count packed].
  - now rewrite rev_length.
  - rewrite H1, H2. pose proof (reverse_loop_ok l [] []) as E. rewrite app_nil_r in E.
    cbn in E. apply E; auto. constructor.
  - now apply Forall_rev.
  - now rewrite rev_length.
Qed.

(** ** Comparisons *)
Fixpoint list_identical (a b : list nat) : bool :=
  match a, b with
  | x :: a', y :: b' => Nat.eqb x y && list_identical a' b'
  | _, _ => true
  end.

Lemma identical_loop_ok x y l m : rep x l -> rep y m ->
  forall s i, (i + s = Nat.min (length l) (length m))%nat ->
  identical_loop s i x y = Some (list_identical (skipn i l) (skipn i m)).
Proof.
  intros Rx Ry. induction s as [|s IH]; intros i H.
  - cbn. destruct (Nat.min_spec (length l) (length m)) as [[? E]|[? E]].
    + rewrite (skipn_all2 l) by lia. auto.
    + rewrite (skipn_all2 m) by lia. now destruct (skipn i l).
  - cbn. rewrite (rep_get_nibble_nth x l i Rx), (rep_get_nibble_nth y m i Ry).
    destruct (nth_error l i) as [a|] eqn:Ea; [|apply nth_error_None in Ea; lia].
    destruct (nth_error m i) as [b|] eqn:Eb; [|apply nth_error_None in Eb; lia].
    cbn [obind].
    assert (SK : forall (l : list nat) i a, nth_error l i = Some a -> skipn i l = a :: skipn (S i) l).
    { clear. induction l as [|z l IH]; intros [|i] a H; cbn in *; try discriminate.
      - now injection H as ->.
      - now apply IH. }
    rewrite (SK l i a Ea), (SK m i b Eb). cbn [list_identical].
    destruct (a =? b)%nat; auto. apply IH. lia.
Qed.

Lemma rep_identical x y l m : rep x l -> rep y m -> pn_identical x y = Some (list_identical l m).
Proof.
  intros Rx Ry. unfold pn_identical. pose proof Rx as (H1 & _). pose proof Ry as (H2 & _).
  rewrite (identical_loop_ok x y l m) by (auto; rewrite H1, H2; auto). reflexivity.
Qed.

Fixpoint list_diff (a b : list nat) : nat :=
  match a, b with
  | x :: a', y :: b' => if Nat.eqb x y then S (list_diff a' b') else 0%nat
  | _, _ => 0%nat
  end.

Lemma diff_loop_ok : forall a b p q,
  nibs (p ++ a) -> nibs (q ++ b) -> length a = length b -> length p = length q ->
  (length (p ++ a) < 80)%nat -> forall i,
  diff_loop (length a) i (val (p ++ a)) (val (q ++ b))
    (match a with [] => 0 | _ :: t => 15 * 16 ^ N.of_nat (length t) end) = (i + list_diff a b)%nat.
Proof.
  induction a as [|x a IH]; intros [|y b] p q Ha Hb HL HP HB i; try discriminate; cbn [length diff_loop list_diff].
  - lia.
  - cbn in HL. injection HL as HL.
    apply nibs_app in Ha as Ha'. destruct Ha' as [Hp Hxa]. inversion Hxa as [|? ? Hx Ha1]; subst.
    apply nibs_app in Hb as Hb'. destruct Hb' as [Hq Hyb]. inversion Hyb as [|? ? Hy Hb1]; subst.
    assert (LM : forall p x a, nibs a -> (x < 16)%nat ->
               N.land (val (p ++ x :: a)) (15 * 16 ^ N.of_nat (length a)) = N.of_nat x * 16 ^ N.of_nat (length a)).
    { clear. intros p x a Ha Hx. rewrite val_app, val_cons. cbn [length].
      rewrite Nat2N.inj_succ, N.pow_succ_r'.
      replace (val p * (16 * 16 ^ N.of_nat (length a)) + (N.of_nat x * 16 ^ N.of_nat (length a) + val a))
        with ((val p * 16 + N.of_nat x) * 16 ^ N.of_nat (length a) + val a) by lia.
      rewrite !pow16. pose proof (val_bound2 a Ha) as B. rewrite <- lor_add by auto.
      rewrite N.land_lor_distr_l.
      rewrite <- !N.shiftl_mul_pow2. rewrite <- N.shiftl_land.
      change 15 with (N.ones 4). rewrite N.land_ones. change (2 ^ 4) with 16.
      rewrite (N.add_comm (val p * 16)), N.mod_add, N.mod_small by lia.
      rewrite <- (N.lor_0_r (N.shiftl (N.of_nat x) _)) at 2. f_equal.
      apply N.bits_inj. intros j. rewrite N.land_spec, N.bits_0.
      destruct (N.ltb_spec j (N.of_nat (length a * 4))).
      - rewrite N.shiftl_spec_low by auto. apply andb_false_r.
      - now rewrite (bits_high (val a) (N.of_nat (length a * 4))) by auto. }
    rewrite (LM p x a Ha1 Hx). rewrite HL. rewrite (LM q y b Hb1 Hy).
    assert (0 < 16 ^ N.of_nat (length b)) as P0 by (apply N.neq_0_lt_0, N.pow_nonzero; lia).
    destruct (Nat.eqb_spec x y) as [->|Hne].
    + rewrite N.eqb_refl.
      replace (i + S (list_diff a b))%nat with (S i + list_diff a b)%nat by lia.
      rewrite <- (IH b (p ++ [y]) (q ++ [y])).
      * rewrite <- !app_assoc. cbn [app]. rewrite HL.
        destruct a as [|z a]; [destruct b; [reflexivity|discriminate]|].
        destruct b as [|w b]; [discriminate|]. cbn [length] in *. f_equal.
        rewrite wshr_ok. change (2 ^ N.of_nat 4) with 16.
        injection HL as HL. rewrite HL. rewrite Nat2N.inj_succ, N.pow_succ_r'.
        replace (15 * (16 * 16 ^ N.of_nat (length b))) with ((15 * 16 ^ N.of_nat (length b)) * 16) by lia.
        apply N.div_mul. lia.
      * now rewrite <- app_assoc.
      * now rewrite <- app_assoc.
      * auto.
      * rewrite !app_length. cbn. lia.
      * rewrite <- app_assoc. auto.
    + destruct (N.eqb_spec (N.of_nat x * 16 ^ N.of_nat (length b)) (N.of_nat y * 16 ^ N.of_nat (length b))) as [E|E].
      * exfalso. apply Hne. apply Nat2N.inj. nia.
      * lia.
Qed.

Lemma list_diff_firstn a : forall b, list_diff a b =
  list_diff (firstn (Nat.min (length a) (length b)) a) (firstn (Nat.min (length a) (length b)) b).
Proof.
  induction a as [|x a IH]; intros [|y b]; cbn; auto.
  destruct (x =? y)%nat; auto.
Qed.

Lemma rep_diff_idx x y l m : rep x l -> rep y m -> pn_diff_idx x y = Some (list_diff l m).
Proof.
  intros Rx Ry. unfold pn_diff_idx. pose proof Rx as (H1 & _). pose proof Ry as (H2 & _).
  rewrite H1, H2. rewrite (list_diff_firstn l m). set (k := Nat.min (length l) (length m)) in *.
  destruct (rep_get_nibble_range x l 0 k Rx) as (a & Ea & Ra); [lia|].
  destruct (rep_get_nibble_range y m 0 k Ry) as (b & Eb & Rb); [lia|].
  rewrite Ea, Eb. cbn [obind]. rewrite Nat.sub_0_r in *. cbn [skipn] in *.
  destruct Ra as (A1 & A2 & A3 & A4), Rb as (B1 & B2 & B3 & B4).
  rewrite !firstn_length in *. unfold diff_idx_equal_lengths, assert.
  replace (count a =? count b)%nat with true by (symmetry; apply Nat.eqb_eq; lia). cbn [obind].
  destruct (Nat.eqb_spec (count a) 0) as [E|E].
  - f_equal. replace k with 0%nat by lia. reflexivity.
  - f_equal. rewrite A2, B2.
    pose proof (diff_loop_ok (firstn k l) (firstn k m) [] []) as D. cbn [app] in D.
    rewrite <- (Nat.add_0_l (list_diff _ _)). rewrite <- D; auto.
    + f_equal.
      * rewrite firstn_length. lia.
      * destruct (firstn k l) as [|z t] eqn:Ef; [apply (f_equal (@length nat)) in Ef; rewrite firstn_length in Ef; cbn in Ef; lia|].
        apply (f_equal (@length nat)) in Ef. rewrite firstn_length in Ef. cbn [length] in Ef.
        rewrite wshl_ok with (w := 4); [|reflexivity|unfold word_bits; lia].
        rewrite pow16. f_equal. f_equal. f_equal. lia.
    + rewrite !firstn_length. lia.
    + rewrite firstn_length. lia.
Qed.
