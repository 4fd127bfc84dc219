(** C94: the extension towers of the pairing curves are commutative rings
    with i^2 = -1, t^3 = xi and z^2 = t; the sparse products are products,
    the Frobenius maps are ring homomorphisms, and the inverses invert. *)

From Coq Require Import ZArith List Bool Arith Lia Ring Eqdep_dec.
From Verif Require Import Tower.FieldModel Tower.TowerModel Tower.FieldProps.
Import ListNotations.
Local Open Scope Z_scope.

(** The specification of a commutative ring is that of the library. *)
Notation is_ring F := (ring_theory (zero F) (unit F) (add F) (mul F) (sub F) (neg F) eq) (only parsing).

(** * Base field *)
Section Base.
  Context {p : Z} (Hp : (1 <? p) = true).
  Lemma zq_eq (a b : zq p) : val a = val b -> a = b.
  Proof. destruct a as [x hx], b as [y hy]. cbn. intros ->. f_equal. apply UIP_dec, bool_dec. Qed.
  Lemma val_small (a : zq p) : val a mod p = val a.
  Proof. destruct a as [x hx]. cbn. apply andb_prop in hx. destruct hx as [A B]. apply Z.leb_le in A. apply Z.ltb_lt in B. apply Z.mod_small. lia. Qed.
  Lemma zp_ring : is_ring (zp Hp).
  Proof.
    constructor; intros; apply zq_eq; cbn [zp zero unit add mul sub neg]; unfold zmk, val; cbn [proj1_sig]; fold (@val p);
      repeat rewrite ?Zplus_mod_idemp_l, ?Zplus_mod_idemp_r, ?Zmult_mod_idemp_l, ?Zmult_mod_idemp_r, ?Zminus_mod_idemp_l, ?Zminus_mod_idemp_r.
    - apply val_small.
    - f_equal. ring.
    - f_equal. ring.
    - rewrite Z.mul_1_l. apply val_small.
    - f_equal. ring.
    - f_equal. ring.
    - f_equal. ring.
    - f_equal.
    - rewrite Z.add_opp_diag_r. reflexivity.
  Qed.
End Base.

(** * Fp2 *)
Section Two.
  Context {T : Type} (F : ops T).
  Hypothesis R : is_ring F.
  Add Ring Fr : R.
  Lemma ring2 : is_ring (ops2 F).
  Proof.
    constructor; intros; repeat match goal with x : fp2 T |- _ => destruct x end; cbn; unfold add2, mul2, sub2, neg2; cbn; f_equal; ring.
  Qed.
  Lemma i_squared : mul (ops2 F) (mk2 (zero F) (unit F)) (mk2 (zero F) (unit F)) = neg (ops2 F) (unit (ops2 F)).
  Proof. cbn. unfold mul2, neg2. cbn. f_equal; ring. Qed.
  Lemma conj2_hom : (forall a b, conj2 F (add2 F a b) = add2 F (conj2 F a) (conj2 F b)) /\ (forall a b, conj2 F (mul2 F a b) = mul2 F (conj2 F a) (conj2 F b)) /\
    (forall a, conj2 F (conj2 F a) = a) /\ (forall a, conj2 F (neg2 F a) = neg2 F (conj2 F a)).
  Proof. repeat split; intros; repeat match goal with x : fp2 T |- _ => destruct x end; unfold conj2, add2, mul2, neg2; cbn; f_equal; ring. Qed.
  Lemma norm_conj a : mul2 F a (conj2 F a) = mk2 (norm_sq F a) (zero F).
  Proof. destruct a. unfold mul2, conj2, norm_sq. cbn. f_equal; ring. Qed.
  Lemma inv2_ok a : mul F (norm_sq F a) (inv F (norm_sq F a)) = unit F -> mul2 F a (inv2 F a) = unit (ops2 F).
  Proof.
    intros H. unfold inv2. revert H. generalize (inv F (norm_sq F a)). intros v H. destruct a as [x y]. unfold norm_sq, mul2, scale2, conj2 in *. cbn in *. f_equal; [rewrite <- H|]; ring.
  Qed.
  Lemma over_norm_ok a : mul F (norm_sq F a) (inv F (norm_sq F a)) = unit F -> mul2 F (conj2 F a) (scale2 F a (inv F (norm_sq F a))) = unit (ops2 F).
  Proof.
    intros H. revert H. generalize (inv F (norm_sq F a)). intros v H. destruct a as [x y]. unfold norm_sq, mul2, scale2, conj2 in *. cbn in *. f_equal; [rewrite <- H|]; ring.
  Qed.
  Lemma bn_adj_mul nine a : bn_mul_adj F nine a = mul2 F (mk2 nine (unit F)) a.
  Proof. destruct a. unfold bn_mul_adj, mul2. cbn. f_equal; ring. Qed.
  Lemma bls_adj_mul a : bls_mul_adj F a = mul2 F (mk2 (unit F) (unit F)) a.
  Proof. destruct a. unfold bls_mul_adj, mul2. cbn. f_equal; ring. Qed.
End Two.

(** * What the towers need of the elements of Fp2 *)
Definition sig {K} (A : adj K) (n : nat) (x : K) : K := if Nat.odd n then conj A x else x.
Record adj_laws {K} (F : ops K) (A : adj K) (xi : K) : Prop := {
  al_adj : forall x, mul_adj A x = mul F xi x;
  al_add : forall x y, conj A (add F x y) = add F (conj A x) (conj A y);
  al_mul : forall x y, conj A (mul F x y) = mul F (conj A x) (conj A y);
  al_neg : forall x, conj A (neg F x) = neg F (conj A x);
  al_inv : forall x, conj A (conj A x) = x;
  al_t0 : frob_t1 A 0 = unit F;
  al_z6 : frob_z A 6 = neg F (unit F);
  al_t1 : forall n, (n < 6)%nat -> mul F (mul F (frob_t1 A n) (mul F (frob_t1 A n) (frob_t1 A n))) xi = sig A n xi;
  al_t2 : forall n, (n < 6)%nat -> frob_t2 A n = mul F (frob_t1 A n) (frob_t1 A n);
  al_z : forall n, (n < 12)%nat -> mul F (frob_z A n) (frob_z A n) = frob_t1 A (n mod 6);
  al_comp : forall n m, (n < 6)%nat -> (m < 6)%nat -> mul F (frob_t1 A n) (sig A n (frob_t1 A m)) = frob_t1 A ((n + m) mod 6);
  al_zcomp : forall n m, (n < 12)%nat -> (m < 12)%nat -> mul F (frob_z A n) (sig A n (frob_z A m)) = frob_z A ((n + m) mod 12);
  al_omega : add F (add F (mul F (frob_t1 A 2) (frob_t1 A 2)) (frob_t1 A 2)) (unit F) = zero F }.

Section Six.
  Context {K : Type} (F : ops K) (A : adj K) (xi : K).
  Hypothesis R : is_ring F.
  Hypothesis L : adj_laws F A xi.
  Add Ring Kr : R.
  Local Notation S := (ops6 F A).
  Ltac d6 := repeat match goal with x : fp6 K |- _ => destruct x end.
  Ltac u6 := cbn [ops6 zero unit add mul sub neg]; unfold add6, mul6, sub6, neg6, scale6, sh, mul_by_1, mul_by_01, sh; cbn [t0 t1 t2 ops6 zero unit add mul sub neg]; rewrite ?(al_adj _ _ _ L).
  Lemma ring6 : is_ring S.
  Proof. constructor; intros; d6; u6; f_equal; ring. Qed.
  Definition tt6 : fp6 K := mk6 (zero F) (unit F) (zero F).
  Lemma t_cubed : mul S tt6 (mul S tt6 tt6) = mk6 xi (zero F) (zero F).
  Proof. unfold tt6. u6. f_equal; ring. Qed.
  Lemma sh_mul a : sh A a = mul6 F A tt6 a.
  Proof. unfold tt6. d6; u6; f_equal; ring. Qed.
  Lemma scale_mul a c : scale6 F a c = mul6 F A (mk6 c (zero F) (zero F)) a.
  Proof. d6; u6; f_equal; ring. Qed.
  Lemma mul_by_1_ok a c : mul_by_1 F A a c = mul6 F A a (mk6 (zero F) c (zero F)).
  Proof. d6; u6; f_equal; ring. Qed.
  Lemma mul_by_01_ok a c0 c1 : mul_by_01 F A a c0 c1 = mul6 F A a (mk6 c0 c1 (zero F)).
  Proof. d6; u6; f_equal; ring. Qed.

  (** Frobenius *)
  Lemma sig_add n x y : sig A n (add F x y) = add F (sig A n x) (sig A n y).
  Proof. unfold sig. destruct (Nat.odd n); [apply (al_add _ _ _ L)|reflexivity]. Qed.
  Lemma sig_mul n x y : sig A n (mul F x y) = mul F (sig A n x) (sig A n y).
  Proof. unfold sig. destruct (Nat.odd n); [apply (al_mul _ _ _ L)|reflexivity]. Qed.
  Lemma sig_comp n m x : sig A n (sig A m x) = sig A (n + m) x.
  Proof. unfold sig. rewrite Nat.odd_add. destruct (Nat.odd n), (Nat.odd m); cbn; try reflexivity. apply (al_inv _ _ _ L). Qed.
  Lemma sig_neg n x : sig A n (neg F x) = neg F (sig A n x).
  Proof. unfold sig. destruct (Nat.odd n); [apply (al_neg _ _ _ L)|reflexivity]. Qed.
  Lemma frob6_eq a n : (n < 6)%nat -> frob6 F A a n = mk6 (sig A n (t0 a)) (mul F (frob_t1 A n) (sig A n (t1 a))) (mul F (mul F (frob_t1 A n) (frob_t1 A n)) (sig A n (t2 a))).
  Proof. intros H. unfold frob6, sig. rewrite Nat.mod_small by exact H. rewrite (al_t2 _ _ _ L) by exact H. destruct (Nat.odd n); reflexivity. Qed.
  Lemma frob6_mod a n : frob6 F A a n = frob6 F A a (n mod 6).
  Proof. unfold frob6. rewrite Nat.mod_mod by lia. reflexivity. Qed.
  Lemma frob6_add a b n : frob6 F A (add6 F a b) n = add6 F (frob6 F A a n) (frob6 F A b n).
  Proof.
    rewrite (frob6_mod _ n), (frob6_mod a), (frob6_mod b). pose proof (Nat.mod_upper_bound n 6 ltac:(lia)). rewrite !frob6_eq by assumption. d6. u6. rewrite !sig_add. f_equal; ring.
  Qed.
  Lemma frob6_mul a b n : frob6 F A (mul6 F A a b) n = mul6 F A (frob6 F A a n) (frob6 F A b n).
  Proof.
    rewrite (frob6_mod _ n), (frob6_mod a), (frob6_mod b). pose proof (Nat.mod_upper_bound n 6 ltac:(lia)) as H. rewrite !frob6_eq by assumption. d6. u6.
    rewrite !sig_add, !sig_mul, !sig_add, !sig_mul, <- (al_t1 _ _ _ L _ H). f_equal; ring.
  Qed.
  Lemma frob6_comp a n m : frob6 F A (frob6 F A a m) n = frob6 F A a (n + m).
  Proof.
    rewrite (frob6_mod (frob6 F A a m)), (frob6_mod a m), (frob6_mod a (n + m)), Nat.add_mod by lia.
    pose proof (Nat.mod_upper_bound n 6 ltac:(lia)) as Hn. pose proof (Nat.mod_upper_bound m 6 ltac:(lia)) as Hm. revert Hn Hm. generalize (n mod 6)%nat (m mod 6)%nat. clear n m. intros n m Hn Hm.
    pose proof (Nat.mod_upper_bound (n + m) 6 ltac:(lia)) as Hs. rewrite !frob6_eq by assumption. cbn [t0 t1 t2]. rewrite <- (al_comp _ _ _ L) by assumption. rewrite !sig_mul, !sig_comp.
    assert (P : forall x, sig A ((n + m) mod 6) x = sig A (n + m) x).
    { intros x. unfold sig. rewrite (Nat.div_mod (n + m) 6) at 2 by lia. rewrite Nat.odd_add, Nat.odd_mul. cbn. destruct (Nat.odd _); reflexivity. }
    rewrite !P. f_equal; ring.
  Qed.
  Lemma frob6_0 a : frob6 F A a 0 = a.
  Proof. rewrite frob6_eq by lia. rewrite (al_t0 _ _ _ L). unfold sig. cbn. d6. cbn. f_equal; ring. Qed.
  Lemma frob6_6 a : frob6 F A a 6 = a.
  Proof. rewrite frob6_mod. apply frob6_0. Qed.

  (** The norm to Fp2. *)
  Definition norm6 (a : fp6 K) : K := let x := t0 a in let y := t1 a in let z := t2 a in
    sub F (add F (add F (mul F x (mul F x x)) (mul F xi (mul F y (mul F y y)))) (mul F (mul F xi xi) (mul F z (mul F z z))))
      (mul F (add F (unit F) (add F (unit F) (unit F))) (mul F xi (mul F x (mul F y z)))).
  Lemma norm6_ok a : mul6 F A a (mul6 F A (frob6 F A a 2) (frob6 F A a 4)) = mk6 (norm6 a) (zero F) (zero F).
  Proof.
    rewrite !frob6_eq by lia. rewrite <- (al_comp _ _ _ L 2 2 ltac:(lia) ltac:(lia) : _ = frob_t1 A 4). unfold sig at 1 2 3 4.
    assert (W : mul F (frob_t1 A 2) (frob_t1 A 2) = sub F (neg F (frob_t1 A 2)) (unit F)).
    { pose proof (al_omega _ _ _ L) as W. transitivity (add F (add F (add F (mul F (frob_t1 A 2) (frob_t1 A 2)) (frob_t1 A 2)) (unit F)) (sub F (neg F (frob_t1 A 2)) (unit F))); [ring|rewrite W; ring]. }
    revert W. generalize (frob_t1 A 2). intros w W. rewrite !W. unfold sig, norm6. cbn [Nat.odd Nat.even negb]. d6. u6. f_equal; ring [W].
  Qed.
  Lemma prod_135_ok a : mul6 F A (mul6 F A (frob6 F A a 1) (frob6 F A a 3)) (frob6 F A a 5) = mk6 (conj A (norm6 a)) (zero F) (zero F).
  Proof.
    pose proof (f_equal (fun x => frob6 F A x 1) (norm6_ok a)) as H. cbn beta in H. rewrite !frob6_mul, !frob6_comp in H. cbn [Nat.add] in H.
    transitivity (mul6 F A (frob6 F A a 1) (mul6 F A (frob6 F A a 3) (frob6 F A a 5))); [symmetry; apply (Rmul_assoc ring6)|]. rewrite H.
    assert (Z0 : conj A (zero F) = zero F). { transitivity (conj A (add F (unit F) (neg F (unit F)))); [f_equal; ring|]. rewrite (al_add _ _ _ L), (al_neg _ _ _ L). ring. }
    rewrite frob6_eq by lia. unfold sig. cbn [Nat.odd Nat.even negb t0 t1 t2]. rewrite Z0. f_equal; ring.
  Qed.
  Lemma inv6_ok a : mul F (norm6 a) (over_norm A (conj A (norm6 a))) = unit F -> mul6 F A a (inv6 F A a) = unit S.
  Proof.
    intros H. unfold inv6. rewrite prod_135_ok. cbn [t0]. rewrite scale_mul, frob6_mul, !frob6_comp. cbn [Nat.add].
    transitivity (mul6 F A (mul6 F A a (mul6 F A (frob6 F A a 2) (frob6 F A a 4))) (mk6 (over_norm A (conj A (norm6 a))) (zero F) (zero F))).
    { pose proof ring6 as R6. pose proof (Rmul_comm R6) as C. cbn [mul ops6] in C. rewrite (C (mk6 _ _ _)). apply (Rmul_assoc R6). }
    rewrite norm6_ok. u6. rewrite <- H. f_equal; ring.
  Qed.
End Six.

Section Twelve.
  Context {K : Type} (F : ops K) (A : adj K) (xi : K).
  Hypothesis R : is_ring F.
  Hypothesis L : adj_laws F A xi.
  Local Notation S := (ops6 F A).
  Local Notation D := (ops12 F A).
  Local Definition R6 : is_ring S := ring6 F A xi R L.
  Add Ring Kr2 : R.
  Add Ring Sr : R6.
  Ltac d12 := repeat match goal with x : fp12 (fp6 K) |- _ => destruct x end.
  Ltac fold6 := change (add6 F) with (add S); change (mul6 F A) with (mul S); change (sub6 F) with (sub S); change (neg6 F) with (neg S).
  Ltac u12 := cbn [ops12 zero unit add mul sub neg]; unfold add12, mul12, sub12, neg12, scale12, conj12, mul_by_014; cbn [z0 z1]; rewrite ?(sh_mul F A xi R L); fold6; change (mk6 (zero F) (zero F) (zero F)) with (zero S); change (mk6 (unit F) (zero F) (zero F)) with (unit S).
  Lemma ring12 : is_ring D.
  Proof. constructor; intros; d12; u12; f_equal; ring. Qed.
  Definition zz : fp12 (fp6 K) := mk12 (zero S) (unit S).
  Lemma z_squared : mul D zz zz = mk12 (tt6 F) (zero S).
  Proof. unfold zz. u12. f_equal; ring. Qed.
  Lemma mul_by_014_ok a c0 c1 c4 : mul_by_014 F A a c0 c1 c4 = mul12 F A a (mk12 (mk6 c0 c1 (zero F)) (mk6 (zero F) c4 (zero F))).
  Proof.
    d12. unfold mul_by_014. rewrite !(mul_by_01_ok F A xi R L), !(mul_by_1_ok F A xi R L). u12.
    replace (mk6 c0 (add F c1 c4) (zero F)) with (add S (mk6 c0 c1 (zero F)) (mk6 (zero F) c4 (zero F))) by (cbn; unfold add6; cbn; f_equal; ring).
    generalize (mk6 c0 c1 (zero F)) (mk6 (zero F) c4 (zero F)). intros; f_equal; ring.
  Qed.
  Lemma frob6_mod12 a n : frob6 F A a (n mod 12) = frob6 F A a n.
  Proof.
    rewrite (frob6_mod F A a n), (frob6_mod F A a (n mod 12)). f_equal. rewrite (Nat.div_mod n 12) at 2 by lia.
    rewrite (Nat.add_comm (12 * _)). replace (12 * (n / 12))%nat with (2 * (n / 12) * 6)%nat by lia. rewrite Nat.mod_add by lia. reflexivity.
  Qed.
  Definition kz (n : nat) : fp6 K := mk6 (frob_z A n) (zero F) (zero F).
  Lemma frob12_eq a n : (n < 12)%nat -> frob12 F A a n = mk12 (frob6 F A (z0 a) n) (mul S (kz n) (frob6 F A (z1 a) n)).
  Proof. intros H. unfold frob12. rewrite Nat.mod_small by exact H. rewrite (scale_mul F A xi R L). reflexivity. Qed.
  Lemma frob12_mod a n : frob12 F A a n = frob12 F A a (n mod 12).
  Proof. unfold frob12. rewrite Nat.mod_mod by lia. reflexivity. Qed.
  Lemma kz_t n : (n < 12)%nat -> mul S (mul S (kz n) (kz n)) (tt6 F) = frob6 F A (tt6 F) n.
  Proof.
    intros H. rewrite (frob6_mod F A _ n), (frob6_eq F A xi L) by (apply Nat.mod_upper_bound; lia). rewrite <- (al_z _ _ _ L) by exact H.
    assert (Z0 : sig A (n mod 6) (zero F) = zero F). { transitivity (sig A (n mod 6) (add F (unit F) (neg F (unit F)))); [f_equal; ring|]. rewrite (sig_add F A xi L), (sig_neg F A xi L). ring. }
    assert (Z1 : sig A (n mod 6) (unit F) = unit F).
    { unfold sig. destruct (Nat.odd _); [|reflexivity]. rewrite <- (al_inv _ _ _ L (unit F)) at 2. transitivity (conj A (mul F (unit F) (conj A (unit F)))); [rewrite (al_mul _ _ _ L), (al_inv _ _ _ L); ring|f_equal; ring]. }
    unfold tt6, kz. cbn [t0 t1 t2]. rewrite Z0, Z1. cbn [mul ops6]. unfold mul6. cbn [t0 t1 t2]. rewrite !(al_adj _ _ _ L). f_equal; ring.
  Qed.
  Lemma frob12_add a b n : frob12 F A (add12 F a b) n = add12 F (frob12 F A a n) (frob12 F A b n).
  Proof.
    rewrite (frob12_mod _ n), (frob12_mod a), (frob12_mod b). pose proof (Nat.mod_upper_bound n 12 ltac:(lia)). rewrite !frob12_eq by assumption. d12. u12. rewrite !(frob6_add F A xi R L : forall a b n, frob6 F A (add S a b) n = _). fold6. f_equal. ring.
  Qed.
  Lemma frob6_sub a b n : frob6 F A (sub S a b) n = sub S (frob6 F A a n) (frob6 F A b n).
  Proof.
    transitivity (sub S (add S (frob6 F A (sub S a b) n) (frob6 F A b n)) (frob6 F A b n)); [ring|].
    rewrite <- (frob6_add F A xi R L : forall a b n, frob6 F A (add S a b) n = add S _ _). f_equal. f_equal. ring.
  Qed.
  Lemma frob12_mul a b n : frob12 F A (mul12 F A a b) n = mul12 F A (frob12 F A a n) (frob12 F A b n).
  Proof.
    rewrite (frob12_mod _ n), (frob12_mod a), (frob12_mod b). pose proof (Nat.mod_upper_bound n 12 ltac:(lia)) as H. rewrite !frob12_eq by assumption. d12. u12.
    repeat rewrite ?frob6_sub, ?(frob6_add F A xi R L : forall a b n, frob6 F A (add S a b) n = add S _ _), ?(frob6_mul F A xi R L : forall a b n, frob6 F A (mul S a b) n = mul S _ _).
    rewrite <- (kz_t _ H). f_equal; ring.
  Qed.
  Lemma kz_comp n m : (n < 12)%nat -> (m < 12)%nat -> mul S (kz n) (frob6 F A (kz m) n) = kz ((n + m) mod 12).
  Proof.
    intros Hn Hm. rewrite (frob6_mod F A _ n), (frob6_eq F A xi L) by (apply Nat.mod_upper_bound; lia). unfold kz. cbn [t0 t1 t2]. rewrite <- (al_zcomp _ _ _ L) by assumption.
    assert (P : forall x, sig A (n mod 6) x = sig A n x).
    { intros x. unfold sig. rewrite (Nat.div_mod n 6) at 2 by lia. rewrite Nat.odd_add, Nat.odd_mul. cbn. destruct (Nat.odd _); reflexivity. }
    rewrite !P.
    assert (Z0 : sig A n (zero F) = zero F). { transitivity (sig A n (add F (unit F) (neg F (unit F)))); [f_equal; ring|]. rewrite (sig_add F A xi L), (sig_neg F A xi L). ring. }
    rewrite Z0. cbn [mul ops6]. unfold mul6. cbn [t0 t1 t2]. rewrite !(al_adj _ _ _ L). f_equal; ring.
  Qed.
  Lemma frob12_comp a n m : frob12 F A (frob12 F A a m) n = frob12 F A a (n + m).
  Proof.
    rewrite (frob12_mod (frob12 F A a m)), (frob12_mod a m), (frob12_mod a (n + m)), Nat.add_mod by lia.
    pose proof (Nat.mod_upper_bound n 12 ltac:(lia)) as Hn. pose proof (Nat.mod_upper_bound m 12 ltac:(lia)) as Hm. revert Hn Hm. generalize (n mod 12)%nat (m mod 12)%nat. clear n m. intros n m Hn Hm.
    pose proof (Nat.mod_upper_bound (n + m) 12 ltac:(lia)) as Hs. rewrite !frob12_eq by assumption. cbn [z0 z1]. rewrite !frob6_mod12.
    rewrite (frob6_mul F A xi R L : forall a b n, frob6 F A (mul S a b) n = mul S _ _), !(frob6_comp F A xi R L), <- kz_comp by assumption. f_equal. ring.
  Qed.

  Definition norm12 (a : fp12 (fp6 K)) : fp6 K := sub S (mul S (z0 a) (z0 a)) (mul S (tt6 F) (mul S (z1 a) (z1 a))).
  Lemma norm12_ok a : mul12 F A a (conj12 F a) = mk12 (norm12 a) (zero S).
  Proof. unfold norm12. d12. u12. f_equal; ring. Qed.
  Lemma frob12_6 a : frob12 F A a 6 = conj12 F a.
  Proof.
    rewrite frob12_eq by lia. rewrite !(frob6_6 F A xi R L). unfold conj12. fold6. f_equal.
    replace (kz 6) with (neg S (unit S)); [ring|]. unfold kz. rewrite (al_z6 _ _ _ L). cbn. unfold neg6. cbn. f_equal; ring.
  Qed.
  Lemma prod_17_ok a : z0 (mul12 F A (frob12 F A a 1) (frob12 F A a 7)) = frob6 F A (norm12 a) 1.
  Proof. pose proof (f_equal (fun x => z0 (frob12 F A x 1)) (norm12_ok a)) as H. cbn beta in H. rewrite <- frob12_6, frob12_mul, frob12_comp in H. exact H. Qed.
  Lemma inv12_eq a : inv12 F A a = scale12 F A (conj12 F a) (inv6 F A (norm12 a)).
  Proof. unfold inv12, inv6. cbv zeta. rewrite prod_17_ok, !(frob6_comp F A xi R L). reflexivity. Qed.
  Lemma scaled a v : mul12 F A a (scale12 F A (conj12 F a) v) = mk12 (mul S (norm12 a) v) (zero S).
  Proof. unfold norm12. d12. u12. f_equal; ring. Qed.
  Lemma inv12_ok a : mul F (norm6 F xi (norm12 a)) (over_norm A (conj A (norm6 F xi (norm12 a)))) = unit F -> mul12 F A a (inv12 F A a) = unit D.
  Proof.
    intros H. rewrite inv12_eq. apply (inv6_ok F A xi R L) in H. change (mul6 F A) with (mul S) in H.
    rewrite scaled, H. reflexivity.
  Qed.
End Twelve.

(** * The two towers *)

Definition eqb2 {p} (a b : fp2 (zq p)) : bool := (val (re a) =? val (re b)) && (val (im a) =? val (im b)).
Lemma eqb2_eq {p} (a b : fp2 (zq p)) : eqb2 a b = true -> a = b.
Proof. destruct a, b. unfold eqb2. cbn. intros H. apply andb_prop in H. destruct H as [H1 H2]. apply Z.eqb_eq in H1, H2. f_equal; apply zq_eq; assumption. Qed.
Lemma upto (f : nat -> bool) k : forallb f (seq 0 k) = true -> forall n, (n < k)%nat -> f n = true.
Proof. rewrite forallb_forall. intros H n Hn. apply H, in_seq. lia. Qed.

Definition bn_xi : fp2 (zq BN_P) := mk2 (zmk BN_HP 9) (zmk BN_HP 1).
Definition bls_xi : fp2 (zq BLS_P) := mk2 (zmk BLS_HP 1) (zmk BLS_HP 1).

(** The laws of all the constants follow from fewer. *)
Section Fewer.
  Context {K : Type} (F : ops K) (A : adj K) (xi : K).
  Hypothesis R : is_ring F.
  Add Ring Kr3 : R.
  Hypothesis CM : forall x y, conj A (mul F x y) = mul F (conj A x) (conj A y).
  Hypothesis CC : forall x, conj A (conj A x) = x.
  Hypothesis Z0 : frob_z A 0 = unit F.
  Hypothesis ZS : forall n, (n < 12)%nat -> mul F (frob_z A 1) (conj A (frob_z A n)) = frob_z A ((1 + n) mod 12).
  Hypothesis ZT : forall n, (n < 12)%nat -> mul F (frob_z A n) (frob_z A n) = frob_t1 A (n mod 6).
  Hypothesis X : mul F (mul F (frob_t1 A 1) (mul F (frob_t1 A 1) (frob_t1 A 1))) xi = conj A xi.
  Lemma few_mul n x y : sig A n (mul F x y) = mul F (sig A n x) (sig A n y).
  Proof. unfold sig. destruct (Nat.odd n); [apply CM|reflexivity]. Qed.
  Lemma few_S n x : sig A (S n) x = conj A (sig A n x).
  Proof. unfold sig. rewrite Nat.odd_succ, <- Nat.negb_odd. destruct (Nat.odd n); cbn; [symmetry; apply CC|reflexivity]. Qed.
  Lemma few_z : forall n m, (n < 12)%nat -> (m < 12)%nat -> mul F (frob_z A n) (sig A n (frob_z A m)) = frob_z A ((n + m) mod 12).
  Proof.
    induction n as [|n IH]; intros m Hn Hm.
    - rewrite Z0. unfold sig. cbn [Nat.odd Nat.even negb Nat.add]. rewrite Nat.mod_small by exact Hm. ring.
    - rewrite few_S. pose proof (ZS n ltac:(lia)) as E. rewrite Nat.mod_small in E by lia. change (1 + n)%nat with (S n) in E. rewrite <- E.
      transitivity (mul F (frob_z A 1) (conj A (mul F (frob_z A n) (sig A n (frob_z A m))))); [rewrite CM; ring|].
      rewrite IH, ZS by (try lia; apply Nat.mod_upper_bound; lia). f_equal. rewrite Nat.add_mod_idemp_r by lia. reflexivity.
  Qed.
  Lemma few_t n m : (n < 6)%nat -> (m < 6)%nat -> mul F (frob_t1 A n) (sig A n (frob_t1 A m)) = frob_t1 A ((n + m) mod 6).
  Proof.
    intros Hn Hm. pose proof (few_z n m ltac:(lia) ltac:(lia)) as E. rewrite Nat.mod_small in E by lia.
    rewrite <- (ZT (n + m)) by lia. rewrite <- E. pose proof (ZT n ltac:(lia)) as En. pose proof (ZT m ltac:(lia)) as Em. rewrite Nat.mod_small in En, Em by assumption.
    rewrite <- En, <- Em, few_mul. ring.
  Qed.
  Lemma few_x : frob_t1 A 0 = unit F -> forall n, (n < 6)%nat -> mul F (mul F (frob_t1 A n) (mul F (frob_t1 A n) (frob_t1 A n))) xi = sig A n xi.
  Proof.
    intros T0. induction n as [|n IH]; intros Hn; [rewrite T0; unfold sig; cbn; ring|].
    rewrite few_S, <- IH by lia. pose proof (few_t 1 n ltac:(lia) ltac:(lia)) as E. rewrite Nat.mod_small in E by lia. change (1 + n)%nat with (S n) in E. change (sig A 1) with (conj A) in E. rewrite <- E, !CM, <- X. ring.
  Qed.
End Fewer.

Definition constants_ok {p} (F : ops (fp2 (zq p))) (A : adj (fp2 (zq p))) (xi : fp2 (zq p)) : bool :=
  eqb2 (frob_t1 A 0) (unit F) && eqb2 (frob_z A 6) (neg F (unit F)) && eqb2 (frob_z A 0) (unit F) &&
  eqb2 (add F (add F (mul F (frob_t1 A 2) (frob_t1 A 2)) (frob_t1 A 2)) (unit F)) (zero F) &&
  eqb2 (mul F (mul F (frob_t1 A 1) (mul F (frob_t1 A 1) (frob_t1 A 1))) xi) (conj A xi) &&
  forallb (fun n => eqb2 (frob_t2 A n) (mul F (frob_t1 A n) (frob_t1 A n))) (seq 0 6) &&
  forallb (fun n => eqb2 (mul F (frob_z A n) (frob_z A n)) (frob_t1 A (n mod 6))) (seq 0 12) &&
  forallb (fun n => eqb2 (mul F (frob_z A 1) (conj A (frob_z A n))) (frob_z A ((1 + n) mod 12))) (seq 0 12).
Lemma bn_constants : constants_ok bn2 BN_ADJ bn_xi = true.
Proof. vm_compute. reflexivity. Qed.
Lemma bls_constants : constants_ok bls2 BLS_ADJ bls_xi = true.
Proof. vm_compute. reflexivity. Qed.

Lemma laws_from {p} (Hp : (1 <? p) = true) (A : adj (fp2 (zq p))) xi :
  (forall x, mul_adj A x = mul2 (zp Hp) xi x) -> conj A = conj2 (zp Hp) -> constants_ok (ops2 (zp Hp)) A xi = true -> adj_laws (ops2 (zp Hp)) A xi.
Proof.
  intros HA HC H. unfold constants_ok in H. do 7 (apply andb_prop in H; destruct H as [H ?]).
  pose proof (ring2 _ (zp_ring Hp)) as R.
  destruct (conj2_hom (zp Hp) (zp_ring Hp)) as (C1 & C2 & C3 & C4). rewrite <- HC in C1, C2, C3, C4.
  assert (ZT : forall n, (n < 12)%nat -> mul (ops2 (zp Hp)) (frob_z A n) (frob_z A n) = frob_t1 A (n mod 6)) by (intros n Hn; apply eqb2_eq; exact (upto _ _ H1 n Hn)).
  assert (ZS : forall n, (n < 12)%nat -> mul (ops2 (zp Hp)) (frob_z A 1) (conj A (frob_z A n)) = frob_z A ((1 + n) mod 12)) by (intros n Hn; apply eqb2_eq; exact (upto _ _ H0 n Hn)).
  apply eqb2_eq in H, H3, H4, H5, H6.
  constructor; try assumption.
  - exact (few_x _ A xi R C2 C3 H5 ZS ZT H3 H).
  - intros n Hn. apply eqb2_eq. exact (upto _ _ H2 n Hn).
  - intros n m. exact (few_t _ A R C2 C3 H5 ZS ZT n m).
  - intros n m. exact (few_z _ A R C2 C3 H5 ZS n m).
Qed.
Lemma bn_laws : adj_laws bn2 BN_ADJ bn_xi.
Proof. apply laws_from; [|reflexivity|exact bn_constants]. intros x. apply (bn_adj_mul _ (zp_ring BN_HP)). Qed.
Lemma bls_laws : adj_laws bls2 BLS_ADJ bls_xi.
Proof. apply laws_from; [|reflexivity|exact bls_constants]. intros x. apply (bls_adj_mul _ (zp_ring BLS_HP)). Qed.

(** The two base fields are those of the code. *)
Theorem C94_base_fields :
  (forall a b : zq BN_P, bn_add (val a) (val b) = Some (val (add (zp BN_HP) a b)) /\ bn_sub (val a) (val b) = Some (val (sub (zp BN_HP) a b)) /\
     bn_neg (val a) = Some (val (neg (zp BN_HP) a)) /\ bn_mul (val a) (val b) = Some (val (mul (zp BN_HP) a b))) /\
  (forall a b : zq BLS_P, bls_add (val a) (val b) = Some (val (add (zp BLS_HP) a b)) /\ bls_sub (val a) (val b) = Some (val (sub (zp BLS_HP) a b)) /\
     bls_neg (val a) = Some (val (neg (zp BLS_HP) a)) /\ bls_mul (val a) (val b) = Some (val (mul (zp BLS_HP) a b))).
Proof.
  assert (E : forall p (a : zq p), element p (val a)).
  { intros p [x h]. cbn. apply andb_prop in h. destruct h as [h1 h2]. apply Z.leb_le in h1. apply Z.ltb_lt in h2. split; assumption. }
  split; intros a b; [destruct C92_bn_field as [_ M]|destruct C92_bls_field as [_ M]]; exact (M (val a) (val b) (E _ a) (E _ b)).
Qed.

(** What is claimed of a tower over a base field [B], with [xi] the cube of t. *)
Definition tower {T} (B : ops T) (A : adj (fp2 T)) (xi : fp2 T) : Prop :=
  let F := ops2 B in let S := ops6 F A in let D := ops12 F A in
  (is_ring F /\ is_ring S /\ is_ring D) /\
  mul F (mk2 (zero B) (unit B)) (mk2 (zero B) (unit B)) = neg F (unit F) /\
  (let t := mk6 (zero F) (unit F) (zero F) in
   mul S t (mul S t t) = mk6 xi (zero F) (zero F) /\ mul D (mk12 (zero S) (unit S)) (mk12 (zero S) (unit S)) = mk12 t (zero S)) /\
  (forall a c0 c1 c4,
     mul_by_1 F A a c1 = mul S a (mk6 (zero F) c1 (zero F)) /\ mul_by_01 F A a c0 c1 = mul S a (mk6 c0 c1 (zero F)) /\
     forall d, mul_by_014 F A d c0 c1 c4 = mul D d (mk12 (mk6 c0 c1 (zero F)) (mk6 (zero F) c4 (zero F)))).
(** The Frobenius maps: homomorphisms, the [n]-th being the first, [n] times. *)
Definition frobenius {T} (B : ops T) (A : adj (fp2 T)) : Prop :=
  let F := ops2 B in let S := ops6 F A in let D := ops12 F A in
  (forall a b n, frob6 F A (add S a b) n = add S (frob6 F A a n) (frob6 F A b n) /\ frob6 F A (mul S a b) n = mul S (frob6 F A a n) (frob6 F A b n)) /\
  (forall a b n, frob12 F A (add D a b) n = add D (frob12 F A a n) (frob12 F A b n) /\ frob12 F A (mul D a b) n = mul D (frob12 F A a n) (frob12 F A b n)) /\
  (forall a n m, frob6 F A (frob6 F A a m) n = frob6 F A a (n + m)) /\ (forall a n m, frob12 F A (frob12 F A a m) n = frob12 F A a (n + m)) /\
  (forall a, frob6 F A a 0 = a).
(** Inverses, wherever the norm to the base field has one. *)
Definition inverses {T} (B : ops T) (A : adj (fp2 T)) (xi : fp2 T) : Prop :=
  let F := ops2 B in let S := ops6 F A in let D := ops12 F A in
  let invertible x := mul B x (inv B x) = unit B in
  (forall a, invertible (norm_sq B a) -> mul F a (inv F a) = unit F) /\
  (forall a, invertible (norm_sq B (conj2 B (norm6 F xi a))) -> mul S a (inv S a) = unit S) /\
  (forall a, invertible (norm_sq B (conj2 B (norm6 F xi (norm12 F A a)))) -> mul D a (inv D a) = unit D).

Lemma tower_ok {T} (B : ops T) A xi : is_ring B -> adj_laws (ops2 B) A xi -> tower B A xi.
Proof.
  intros R L. pose proof (ring2 B R) as R2. unfold tower. cbv zeta.
  split; [split; [exact R2|split; [exact (ring6 _ _ _ R2 L)|exact (ring12 _ _ _ R2 L)]]|].
  split; [exact (i_squared B R)|].
  split; [split; [exact (t_cubed _ _ _ R2 L)|exact (z_squared _ _ _ R2 L)]|].
  intros a c0 c1 c4. split; [exact (mul_by_1_ok _ _ _ R2 L a c1)|]. split; [exact (mul_by_01_ok _ _ _ R2 L a c0 c1)|].
  intros d. exact (mul_by_014_ok _ _ _ R2 L d c0 c1 c4).
Qed.
Lemma frobenius_ok {T} (B : ops T) A xi : is_ring B -> adj_laws (ops2 B) A xi -> frobenius B A.
Proof.
  intros R L. pose proof (ring2 B R) as R2. split; [|split; [|split; [|split]]]; intros.
  - split; [apply (frob6_add _ _ _ R2 L)|apply (frob6_mul _ _ _ R2 L)].
  - split; [apply (frob12_add _ _ _ R2 L)|apply (frob12_mul _ _ _ R2 L)].
  - apply (frob6_comp _ _ _ R2 L).
  - apply (frob12_comp _ _ _ R2 L).
  - apply (frob6_0 _ _ _ R2 L).
Qed.
Lemma inverses_ok {T} (B : ops T) A xi : is_ring B -> adj_laws (ops2 B) A xi ->
  (forall q, over_norm A q = scale2 B q (inv B (norm_sq B q))) -> conj A = conj2 B -> inverses B A xi.
Proof.
  intros R L HO HC. pose proof (ring2 B R) as R2. destruct (conj2_hom B R) as (_ & _ & CC & _). split; [|split]; intros a H.
  - apply (inv2_ok B R), H.
  - apply (inv6_ok _ _ _ R2 L). rewrite HO, HC. pose proof (over_norm_ok B R _ H) as Q. rewrite CC in Q. exact Q.
  - apply (inv12_ok _ _ _ R2 L). rewrite HO, HC. pose proof (over_norm_ok B R _ H) as Q. rewrite CC in Q. exact Q.
Qed.

Theorem C94_bn_tower : tower (zp BN_HP) BN_ADJ bn_xi.
Proof. apply tower_ok; [apply zp_ring|exact bn_laws]. Qed.
Theorem C94_bls_tower : tower (zp BLS_HP) BLS_ADJ bls_xi.
Proof. apply tower_ok; [apply zp_ring|exact bls_laws]. Qed.
Theorem C94_bn_frobenius : frobenius (zp BN_HP) BN_ADJ.
Proof. apply (frobenius_ok _ _ bn_xi); [apply zp_ring|exact bn_laws]. Qed.
Theorem C94_bls_frobenius : frobenius (zp BLS_HP) BLS_ADJ.
Proof. apply (frobenius_ok _ _ bls_xi); [apply zp_ring|exact bls_laws]. Qed.
Theorem C94_bn_inverse_partial : inverses (zp BN_HP) BN_ADJ bn_xi.
Proof. apply inverses_ok; [apply zp_ring|exact bn_laws|reflexivity|reflexivity]. Qed.
Theorem C94_bls_inverse_partial : inverses (zp BLS_HP) BLS_ADJ bls_xi.
Proof. apply inverses_ok; [apply zp_ring|exact bls_laws|reflexivity|reflexivity]. Qed.

(** Cases: i as an element of Fp12, whose norm has an inverse, and an element
    that the first Frobenius map moves. *)
Definition bn_i : fp12 (fp6 (fp2 (zq BN_P))) := mk12 (mk6 (mk2 (zmk BN_HP 0) (zmk BN_HP 1)) (zero bn2) (zero bn2)) (zero (ops6 bn2 BN_ADJ)).
Theorem C94_case :
  (let x := norm_sq (zp BN_HP) (conj2 (zp BN_HP) (norm6 bn2 bn_xi (norm12 bn2 BN_ADJ bn_i))) in mul (zp BN_HP) x (inv (zp BN_HP) x) = unit (zp BN_HP)) /\
  val (re (t1 (frob6 bn2 BN_ADJ (mk6 bn_xi bn_xi bn_xi) 1))) <> 9.
Proof. split; [apply zq_eq; vm_compute; reflexivity|vm_compute; discriminate]. Qed.

Print Assumptions C94_base_fields. Print Assumptions C94_bn_tower. Print Assumptions C94_bls_tower. Print Assumptions C94_bn_frobenius.
Print Assumptions C94_bls_frobenius. Print Assumptions C94_bn_inverse_partial. Print Assumptions C94_bls_inverse_partial. Print Assumptions C94_case.
