(** The packed bit sequences behave as lists. *)

From Coq Require Import List Arith NArith ZArith Lia Bool ZifyN ZifyNat ZifyBool.
From Verif.Smt Require Import SmtModel SmtSpec BitsModel CodeModel CodeSpec.
Import ListNotations.
Local Open Scope nat_scope.

Ltac Zify.zify_post_hook ::= Z.div_mod_to_equations.

Fixpoint val_acc (acc : N) (l : list bool) : N :=
  match l with [] => acc | b :: r => val_acc (2 * acc + N.b2n b)%N r end.
Definition val (l : list bool) : N := val_acc 0 l.
Definition pack (l : list bool) : bits := Bits (length l) (val l).

Lemma val_acc_app : forall a b acc, val_acc acc (a ++ b) = val_acc (val_acc acc a) b.
Proof. induction a as [|x a IH]; intros b acc; cbn [app val_acc]; auto. Qed.

Lemma val_snoc : forall l x, val (l ++ [x]) = (2 * val l + N.b2n x)%N.
Proof. intros l x. unfold val. rewrite val_acc_app. reflexivity. Qed.

Lemma val_acc_val : forall l acc, val_acc acc l = (acc * 2 ^ N.of_nat (length l) + val l)%N.
Proof.
  induction l as [|x l IH] using rev_ind; intros acc.
  - cbn. lia.
  - rewrite val_acc_app, val_snoc, app_length, Nat.add_1_r, Nat2N.inj_succ, N.pow_succ_r'. cbn [val_acc length]. rewrite IH. lia.
Qed.

Lemma val_app : forall a b, val (a ++ b) = (val a * 2 ^ N.of_nat (length b) + val b)%N.
Proof. intros a b. unfold val at 1. rewrite val_acc_app. fold (val a). apply val_acc_val. Qed.

Lemma val_lt : forall l, (val l < 2 ^ N.of_nat (length l))%N.
Proof.
  induction l as [|x l IH] using rev_ind; [reflexivity|].
  rewrite val_snoc, app_length, Nat.add_1_r, Nat2N.inj_succ, N.pow_succ_r'. destruct x; cbn [N.b2n]; lia.
Qed.

Lemma val_lt_W : forall l, length l <= 256 -> (val l < W)%N.
Proof.
  intros l Hl. pose proof (val_lt l). unfold W. pose proof (N.pow_le_mono_r 2 (N.of_nat (length l)) 256 ltac:(lia) ltac:(lia)). lia.
Qed.

Lemma b2n_testbit0 : forall n x, N.testbit (2 * n + N.b2n x) 0 = x.
Proof. intros n x. rewrite N.bit0_odd. rewrite N.odd_add, N.odd_mul. destruct x, n; reflexivity. Qed.

Lemma shr1 : forall n x, N.shiftr (2 * n + N.b2n x) 1 = n.
Proof. intros n x. rewrite N.shiftr_div_pow2, N.pow_1_r. destruct x; cbn [N.b2n]; lia. Qed.

Lemma land_pow2 : forall n i, negb (N.land n (2 ^ i) =? 0)%N = N.testbit n i.
Proof.
  intros n i. destruct (N.testbit n i) eqn:T.
  - apply negb_true_iff, N.eqb_neq. intros E.
    assert (A : N.testbit (N.land n (2 ^ i)) i = true) by (rewrite N.land_spec, T, N.pow2_bits_true; reflexivity).
    rewrite E, N.bits_0 in A. discriminate.
  - apply negb_false_iff, N.eqb_eq. apply N.bits_inj_0. intros j. rewrite N.land_spec.
    destruct (N.eq_dec i j) as [->|H]; [rewrite T; reflexivity|]. rewrite N.pow2_bits_false by exact H. apply andb_false_r.
Qed.

Lemma val_testbit : forall l i, i < length l -> N.testbit (val l) (N.of_nat (length l - 1 - i)) = nth i l false.
Proof.
  induction l as [|x l IH] using rev_ind; intros i Hi; [cbn in Hi; lia|].
  rewrite app_length in *. cbn [length] in *. rewrite val_snoc.
  destruct (Nat.eq_dec i (length l)) as [->|Hn].
  - replace (length l + 1 - 1 - length l) with 0 by lia. rewrite b2n_testbit0, app_nth2, Nat.sub_diag by lia. reflexivity.
  - rewrite app_nth1 by lia. rewrite <- IH by lia.
    replace (N.of_nat (length l + 1 - 1 - i)) with (N.succ (N.of_nat (length l - 1 - i))) by lia.
    replace (N.testbit (2 * val l + N.b2n x) (N.succ (N.of_nat (length l - 1 - i))))
      with (N.testbit (N.shiftr (2 * val l + N.b2n x) 1) (N.of_nat (length l - 1 - i)))
      by (rewrite N.shiftr_spec', N.add_1_r; reflexivity).
    rewrite shr1. reflexivity.
Qed.

Lemma bits_list_pack : forall l, bits_list (pack l) = l.
Proof.
  intros l. apply nth_ext with (d := false) (d' := false).
  - unfold bits_list. rewrite map_length, seq_length. reflexivity.
  - unfold bits_list. rewrite map_length, seq_length. cbn [count packed pack]. intros n Hn.
    rewrite (nth_indep _ false (N.testbit (val l) (N.of_nat (length l - 1 - 0)))) by (rewrite map_length, seq_length; exact Hn).
    rewrite (map_nth (fun i => N.testbit (val l) (N.of_nat (length l - 1 - i)))).
    rewrite seq_nth by exact Hn. apply val_testbit. exact Hn.
Qed.

Lemma pack_wf : forall l, length l <= 256 -> bits_wf (pack l).
Proof. intros l Hl. split; [apply val_lt|exact Hl]. Qed.

Lemma wf_pack : forall b, bits_wf b -> b = pack (bits_list b).
Proof.
  assert (G : forall n p, (p < 2 ^ N.of_nat n)%N -> exists l, length l = n /\ val l = p).
  { induction n as [|n IH]; intros p Hp.
    - exists []. cbn in *. split; [reflexivity|]. cbn. lia.
    - rewrite Nat2N.inj_succ, N.pow_succ_r' in Hp. destruct (IH (p / 2)%N) as (l & L1 & L2).
      { apply N.div_lt_upper_bound; lia. }
      exists (l ++ [N.odd p]). rewrite app_length, val_snoc, L1, L2. split; [cbn; lia|].
      rewrite (N.div_mod p 2) at 3 by lia. rewrite <- N.bit0_mod, N.bit0_odd. reflexivity. }
  intros [n p] [Hp Hn]. cbn [count packed] in *. destruct (G n p Hp) as (l & <- & <-).
  fold (pack l). rewrite bits_list_pack. reflexivity.
Qed.

Lemma bits_list_length : forall b, length (bits_list b) = count b.
Proof. intros b. unfold bits_list. rewrite map_length, seq_length. reflexivity. Qed.

Lemma pack_inj : forall l l', pack l = pack l' -> l = l'.
Proof. intros l l' H. rewrite <- (bits_list_pack l), <- (bits_list_pack l'), H. reflexivity. Qed.

Lemma bits_eqb_eq : forall a b, bits_eqb a b = true <-> a = b.
Proof.
  intros [n p] [m q]. unfold bits_eqb. cbn [count packed]. rewrite andb_true_iff, Nat.eqb_eq, N.eqb_eq.
  split; [intros [-> ->]; reflexivity|intros H; inversion H; auto].
Qed.

Lemma push_pack : forall l x, length l < 256 -> push_bit (pack l) x = pack (l ++ [x]).
Proof.
  intros l x Hl. unfold push_bit, pack. cbn [count packed]. rewrite app_length, val_snoc. f_equal; [cbn; lia|].
  pose proof (val_lt_W (l ++ [x]) ltac:(rewrite app_length; cbn; lia)) as A. rewrite val_snoc in A.
  rewrite (N.mod_small (val l * 2)) by lia. rewrite N.mod_small; lia.
Qed.

Lemma pop_pack : forall l x, pop_next_bit (pack (l ++ [x])) = Some (x, pack l).
Proof.
  intros l x. unfold pop_next_bit, is_empty, pack. cbn [count packed].
  replace (length (l ++ [x]) =? 0) with false by (symmetry; apply Nat.eqb_neq; rewrite app_length; cbn; lia).
  rewrite val_snoc, shr1. change 1%N with (2 ^ 0)%N at 1. rewrite land_pow2, b2n_testbit0, app_length. cbn [length].
  rewrite Nat.add_sub. reflexivity.
Qed.

Lemma get_pack : forall l i, i < length l -> length l <= 256 -> get_bit (pack l) i = Some (nth i l false).
Proof.
  intros l i Hi Hl. unfold get_bit, pack. cbn [count packed].
  replace (i <? length l) with true by (symmetry; apply Nat.ltb_lt; exact Hi).
  rewrite N.shiftl_1_l, N.mod_small.
  - rewrite land_pow2, val_testbit by exact Hi. reflexivity.
  - unfold W. apply N.pow_lt_mono_r; lia.
Qed.

Lemma add_pack : forall a b, length a + length b <= 256 -> add (pack a) (pack b) = Some (pack (a ++ b)).
Proof.
  intros a b Hl. unfold add, pack. cbn [count packed].
  replace (length a + length b <=? 256) with true by (symmetry; apply Nat.leb_le; exact Hl).
  rewrite app_length. do 2 f_equal.
  pose proof (val_lt_W (a ++ b) ltac:(rewrite app_length; lia)) as A. rewrite val_app in A |- *.
  rewrite N.shiftl_1_l.
  destruct (Nat.eq_dec (length b) 256) as [E|E].
  - assert (a = []) by (destruct a; [reflexivity|cbn in Hl; lia]). subst a. cbn [val val_acc]. rewrite !N.mul_0_l in *.
    rewrite N.mod_0_l by discriminate. cbn [N.add] in *. rewrite N.mod_small; [reflexivity|exact A].
  - rewrite (N.mod_small (2 ^ N.of_nat (length b))) by (unfold W; apply N.pow_lt_mono_r; lia).
    rewrite (N.mod_small (val a * 2 ^ N.of_nat (length b))) by lia. rewrite N.mod_small; [reflexivity|exact A].
Qed.

Lemma shorten_pack : forall fuel n l, length l <= fuel + n ->
  shorten fuel n (pack l) = Some (pack (firstn n l)).
Proof.
  induction fuel as [|f IH]; intros n l Hl; cbn [shorten]; cbn [count pack].
  - replace (n <? length l) with false by (symmetry; apply Nat.ltb_ge; lia). rewrite firstn_all2 by lia. reflexivity.
  - destruct (n <? length l) eqn:E.
    + apply Nat.ltb_lt in E. destruct (@exists_last _ l) as (l' & x & ->); [destruct l; [cbn in E; lia|discriminate]|].
      fold (pack (l' ++ [x])). rewrite pop_pack. rewrite app_length in *. cbn [length] in *. rewrite IH by lia.
      rewrite firstn_app. replace (n - length l') with 0 by lia. rewrite app_nil_r. reflexivity.
    + apply Nat.ltb_ge in E. rewrite firstn_all2 by lia. reflexivity.
Qed.

Lemma strip_pack : forall fuel a b x y, length a = length b -> length a <= fuel -> (a = b -> x <> y) ->
  exists p x' y' ra rb, strip fuel (pack a) (pack b) x y = Some (pack p, x', y') /\ x' <> y' /\
    a ++ [x] = p ++ x' :: ra /\ b ++ [y] = p ++ y' :: rb.
Proof.
  induction fuel as [|f IH]; intros a b x y Hab Hl Hxy; cbn [strip].
  - destruct a; [|cbn in Hl; lia]. destruct b; [|discriminate].
    exists [], x, y, [], []. repeat split; auto.
  - destruct (bits_eqb (pack a) (pack b)) eqn:E.
    + apply bits_eqb_eq, pack_inj in E. subst b. exists a, x, y, [], []. repeat split; auto.
    + assert (Hne : a <> b) by (intros ->; rewrite (proj2 (bits_eqb_eq _ _) eq_refl) in E; discriminate).
      destruct (@exists_last _ a) as (a' & xa & ->); [intros ->; destruct b; [congruence|discriminate]|].
      destruct (@exists_last _ b) as (b' & xb & ->); [intros ->; rewrite app_length in Hab; cbn in Hab; lia|].
      rewrite !pop_pack. rewrite !app_length in *. cbn [length] in *.
      destruct (IH a' b' xa xb ltac:(lia) ltac:(lia)) as (p & x' & y' & ra & rb & S1 & S2 & S3 & S4).
      { intros ->. intros ->. congruence. }
      exists p, x', y', (ra ++ [x]), (rb ++ [y]). split; [exact S1|]. split; [exact S2|].
      rewrite S3, S4, <- !app_assoc. split; reflexivity.
Qed.

Lemma common_prefix_pack : forall a b,
  (exists p, common_prefix (pack a) (pack b) = Some (pack p, None) /\
     ((p = a /\ exists r, b = p ++ r) \/ (p = b /\ exists r, a = p ++ r))) \/
  (exists p x y ra rb, common_prefix (pack a) (pack b) = Some (pack p, Some (x, y)) /\ x <> y /\
     a = p ++ x :: ra /\ b = p ++ y :: rb).
Proof.
  intros a b. unfold common_prefix. cbn [count pack]. fold (pack a). fold (pack b).
  rewrite shorten_pack by lia. cbn [count pack]. fold (pack (firstn (length b) a)). rewrite shorten_pack by lia.
  set (a1 := firstn (length b) a). set (b1 := firstn (length a1) b).
  assert (L : length a1 = length b1).
  { unfold b1, a1. rewrite !firstn_length. lia. }
  assert (Ra : exists ra, a = a1 ++ ra) by (exists (skipn (length b) a); unfold a1; symmetry; apply firstn_skipn).
  assert (Rb : exists rb, b = b1 ++ rb) by (exists (skipn (length a1) b); unfold b1; symmetry; apply firstn_skipn).
  assert (Full : a1 = a \/ b1 = b).
  { destruct (le_lt_dec (length a) (length b)) as [Hle|Hlt].
    - left. unfold a1. apply firstn_all2. exact Hle.
    - right. unfold b1. apply firstn_all2. unfold a1. rewrite firstn_length. lia. }
  clearbody a1 b1.
  destruct (bits_eqb (pack a1) (pack b1)) eqn:E.
  - apply bits_eqb_eq, pack_inj in E. subst b1. left. exists a1. split; [reflexivity|].
    destruct Full as [-> | ->]; [left|right]; auto.
  - assert (Hne : a1 <> b1) by (intros ->; rewrite (proj2 (bits_eqb_eq _ _) eq_refl) in E; discriminate).
    destruct (@exists_last _ a1) as (a' & xa & ->); [intros ->; destruct b1; [congruence|discriminate]|].
    destruct (@exists_last _ b1) as (b' & xb & ->); [intros ->; rewrite app_length in L; cbn in L; lia|].
    rewrite !pop_pack. rewrite !app_length in L. cbn [length] in L.
    destruct (strip_pack (length (a' ++ [xa])) a' b' xa xb) as (p & x' & y' & ra & rb & S1 & S2 & S3 & S4).
    + lia.
    + rewrite app_length. lia.
    + intros ->. intros ->. congruence.
    + right. rewrite S1. destruct Ra as [ra' ->], Rb as [rb' ->].
      exists p, x', y', (ra ++ ra'), (rb ++ rb').
      replace (Bool.eqb x' y') with false by (symmetry; apply eqb_false_iff; exact S2).
      split; [reflexivity|]. split; [exact S2|]. rewrite S3, S4, <- !app_assoc. split; reflexivity.
Qed.
