(** C92: the base fields of the pairings.  The specification is arithmetic of
    integers modulo the prime. *)

From Coq Require Import ZArith List Bool Lia.
From Verif Require Import Tower.FieldModel.
Import ListNotations.
Local Open Scope Z_scope.

(** EIP-196 and EIP-2537. *)
Definition P_BN : Z := 21888242871839275222246405745257275088696311157297823662689037894645226208583.
Definition P_BLS : Z := 0x1a0111ea397fe69a4b1ba7b6434bacd764774b84f38512bf6730d2a0f6b0f6241eabfffeb153ffffb9feffffffffaaab.

(** Elements of the field are the integers below the prime. *)
Definition element (p x : Z) : Prop := 0 <= x < p.
(** The operations of a field of integers modulo [p], without panics. *)
Definition modular (p : Z) (add : Z -> Z -> option Z) (sub : Z -> Z -> option Z) (neg : Z -> option Z) (mul : Z -> Z -> option Z) : Prop :=
  forall a b, element p a -> element p b ->
    add a b = Some ((a + b) mod p) /\ sub a b = Some ((a - b) mod p) /\ neg a = Some ((- a) mod p) /\ mul a b = Some ((a * b) mod p).

Lemma bn_p : BN_BASE = P_BN. Proof. vm_compute. reflexivity. Qed.
Lemma bls_p : BLS_BASE = P_BLS. Proof. vm_compute. reflexivity. Qed.

Lemma uadd_ok : forall w a b, a + b < 2^w -> uadd w a b = Some (a + b).
Proof. intros w a b H. unfold uadd. destruct (Z.ltb_spec (a + b) (2^w)); [reflexivity|lia]. Qed.
Lemma usub_ok : forall a b, b <= a -> usub a b = Some (a - b).
Proof. intros a b H. unfold usub. destruct (Z.ltb_spec a b); [lia|reflexivity]. Qed.
Lemma smul_ok : forall w a b, a * b < 2^w -> saturating_mul w a b = a * b.
Proof. intros w a b H. unfold saturating_mul. destruct (Z.ltb_spec (a * b) (2^w)); [reflexivity|lia]. Qed.
Lemma mod_lt : forall a p, 0 < p -> 0 <= a mod p < p.
Proof. intros. apply Z.mod_pos_bound. assumption. Qed.
Lemma add_p : forall p a, 0 < p -> (p + a) mod p = a mod p.
Proof. intros p a H. replace (p + a) with (a + 1 * p) by ring. apply Z.mod_add. lia. Qed.

Theorem C92_bn_field : BN_BASE = P_BN /\ modular P_BN bn_add bn_sub bn_neg bn_mul.
Proof.
  split; [exact bn_p|]. intros a b Ha Hb. unfold element in *.
  unfold bn_add, bn_sub, bn_neg, bn_mul, to_u256. rewrite bn_p.
  assert (0 < P_BN < 2^254) as HP by (vm_compute; split; reflexivity).
  assert (2^254 * 4 = 2^256) as E by reflexivity.
  rewrite uadd_ok by lia. rewrite uadd_ok by lia. rewrite !usub_ok by lia.
  pose proof (mod_lt (a * b) P_BN ltac:(lia)). destruct (Z.ltb_spec ((a * b) mod P_BN) (2^256)); [|lia].
  replace (P_BN + a - b) with (P_BN + (a - b)) by ring. replace (P_BN - a) with (P_BN + (- a)) by ring.
  rewrite !add_p by lia. repeat split.
Qed.

Lemma bls_bound : 0 < P_BLS /\ P_BLS < 2^381. Proof. vm_compute. split; reflexivity. Qed.

Lemma bls_add_ok : forall a b, a + b < 2^512 -> bls_add a b = Some ((a + b) mod P_BLS).
Proof. intros a b H. unfold bls_add. rewrite uadd_ok by lia. rewrite bls_p. reflexivity. Qed.
Lemma lsh_128_ok : forall a, 0 <= a < 2^384 -> lsh_128 a = (a * 2^128) mod P_BLS.
Proof.
  intros a H. unfold lsh_128. rewrite bls_p, smul_ok; [reflexivity|].
  assert (2^384 * 2^128 = 2^512) by reflexivity. nia.
Qed.
Lemma lsh_256_ok : forall a, 0 <= a < 2^384 -> lsh_256 a = (a * 2^256) mod P_BLS.
Proof.
  intros a H. unfold lsh_256. pose proof bls_bound. assert (2^381 < 2^384) by reflexivity. rewrite (lsh_128_ok a) by assumption.
  pose proof (mod_lt (a * 2^128) P_BLS ltac:(lia)). rewrite lsh_128_ok by lia.
  rewrite Z.mul_mod_idemp_l by lia. f_equal. replace (2^256) with (2^128 * 2^128) by reflexivity. ring.
Qed.
Lemma lsh_512_ok : forall a, 0 <= a < 2^384 -> lsh_512 a = (a * 2^512) mod P_BLS.
Proof.
  intros a H. unfold lsh_512. pose proof bls_bound. assert (2^381 < 2^384) by reflexivity. rewrite (lsh_256_ok a) by assumption.
  pose proof (mod_lt (a * 2^256) P_BLS ltac:(lia)). rewrite lsh_256_ok by lia.
  rewrite Z.mul_mod_idemp_l by lia. f_equal. replace (2^512) with (2^256 * 2^256) by reflexivity. ring.
Qed.

(** The product is right even on [BLS_BASE] itself. *)
Lemma bls_mul_ok : forall a b, 0 <= a <= P_BLS -> 0 <= b <= P_BLS -> bls_mul a b = Some ((a * b) mod P_BLS).
Proof.
  intros a b Ha Hb. pose proof bls_bound as [HP HQ].
  assert (2^381 = 2^125 * 2^256) as E1 by reflexivity. assert (2^256 * 2^256 = 2^512) as E2 by reflexivity.
  assert (2^256 * 2^125 = 2^381) as E3 by reflexivity. assert (2^125 * 2^125 = 2^250) as E4 by reflexivity.
  assert (2^381 + 2^381 < 2^384) as E5 by reflexivity. assert (2^384 < 2^512) as E6 by reflexivity. assert (2^250 < 2^384) as E7 by reflexivity.
  assert (HLa : 0 <= lo a < 2^256) by (apply Z.mod_pos_bound; reflexivity).
  assert (HLb : 0 <= lo b < 2^256) by (apply Z.mod_pos_bound; reflexivity).
  assert (HHa : 0 <= hi a < 2^125) by (unfold hi; split; [apply Z.div_pos; lia|apply Z.div_lt_upper_bound; lia]).
  assert (HHb : 0 <= hi b < 2^125) by (unfold hi; split; [apply Z.div_pos; lia|apply Z.div_lt_upper_bound; lia]).
  assert (Ea : a = lo a + 2^256 * hi a) by (unfold lo, hi; pose proof (Z.div_mod a (2^256) ltac:(discriminate)); lia).
  assert (Eb : b = lo b + 2^256 * hi b) by (unfold lo, hi; pose proof (Z.div_mod b (2^256) ltac:(discriminate)); lia).
  unfold bls_mul. generalize dependent (lo a). generalize dependent (lo b). generalize dependent (hi a). generalize dependent (hi b).
  intros hb HHb ha HHa lb HLb Eb la HLa Ea.
  assert (K1 : 0 <= la * lb < 2^512) by nia. assert (K2 : 0 <= la * hb < 2^381) by nia. assert (K3 : 0 <= ha * lb < 2^381) by nia. assert (K4 : 0 <= ha * hb < 2^250) by nia.
  rewrite !smul_ok by lia. rewrite bls_p.
  rewrite bls_add_ok by lia.
  pose proof (mod_lt (la * hb + ha * lb) P_BLS HP) as M1. pose proof (mod_lt (la * lb) P_BLS HP) as M2.
  rewrite lsh_256_ok by lia.
  match goal with |- context [bls_add ?x ?y] => assert (0 <= y < P_BLS) as M3 by (apply mod_lt; exact HP); rewrite (bls_add_ok x y) by lia end.
  rewrite lsh_512_ok by lia.
  match goal with |- bls_add ?x ?y = _ => assert (0 <= y < P_BLS) as M4 by (apply mod_lt; exact HP); assert (0 <= x < P_BLS) as M5 by (apply mod_lt; exact HP); rewrite (bls_add_ok x y) by lia end.
  f_equal. rewrite Z.mul_mod_idemp_l by lia. rewrite <- (Zplus_mod (la * lb) ((la * hb + ha * lb) * 2^256)), <- Zplus_mod. rewrite Ea, Eb. f_equal.
  rewrite <- E2. ring.
Qed.

Theorem C92_bls_field : BLS_BASE = P_BLS /\ modular P_BLS bls_add bls_sub bls_neg bls_mul.
Proof.
  split; [exact bls_p|]. intros a b Ha Hb. unfold element in *. pose proof bls_bound.
  assert (2^381 * 2 < 2^512) by reflexivity.
  split; [apply bls_add_ok; lia|]. unfold bls_sub, bls_neg. rewrite bls_p.
  rewrite uadd_ok by lia. rewrite !usub_ok by lia.
  replace (P_BLS + a - b) with (P_BLS + (a - b)) by ring. replace (P_BLS - a) with (P_BLS + (- a)) by ring.
  rewrite !add_p by lia. repeat split. apply bls_mul_ok; lia.
Qed.

Fixpoint value (bits : list bool) : Z := match bits with [] => 0 | b :: r => (if b then 1 else 0) + 2 * value r end.
Lemma value_nonneg : forall l, 0 <= value l.
Proof. induction l as [|b l IH]; cbn [value]; [lia|destruct b; lia]. Qed.
Lemma value_bits : forall n e i, 0 <= e -> value (map (fun j => Z.testbit e (Z.of_nat j)) (seq i n)) = (e / 2 ^ Z.of_nat i) mod 2 ^ Z.of_nat n.
Proof.
  induction n as [|n IH]; intros e i He; [cbn; rewrite Z.mod_1_r; reflexivity|].
  cbn [seq map value]. rewrite IH by assumption.
  rewrite !Nat2Z.inj_succ, !Z.pow_succ_r by lia.
  assert (0 < 2 ^ Z.of_nat i) by (apply Z.pow_pos_nonneg; lia). assert (0 < 2 ^ Z.of_nat n) by (apply Z.pow_pos_nonneg; lia).
  rewrite (Z.mul_comm 2 (2 ^ Z.of_nat i)), <- Z.div_div by lia.
  rewrite Z.rem_mul_r by lia. f_equal.
  rewrite <- Z.bit0_mod, <- Z.shiftr_div_pow2 by lia. rewrite Z.shiftr_spec by lia. rewrite Z.add_0_l. destruct (Z.testbit e (Z.of_nat i)); reflexivity.
Qed.

Lemma square_multiply_ok : forall p mul, 0 < p -> (forall a b, element p a -> element p b -> mul a b = Some ((a * b) mod p)) ->
  forall bits q c, element p q -> element p c -> square_multiply mul bits q c = Some ((q * c ^ value bits) mod p).
Proof.
  intros p mul Hp Hm. induction bits as [|b bits IH]; intros q c Hq Hc; cbn [square_multiply value].
  - rewrite Z.pow_0_r, Z.mul_1_r, Z.mod_small by exact Hq. reflexivity.
  - assert (forall x, element p (x mod p)) as El by (intros; apply mod_lt; exact Hp).
    pose proof (value_nonneg bits) as Hv.
    assert (E : forall q', ((q' mod p) * ((c * c) mod p) ^ value bits) mod p = (q' * (c * c) ^ value bits) mod p).
    { intros q'. rewrite Z.mul_mod_idemp_l by lia.
      rewrite <- (Z.mul_mod_idemp_r q' ((c * c) ^ value bits)), <- (Z.mul_mod_idemp_r q' (((c * c) mod p) ^ value bits)) by lia.
      f_equal. f_equal. generalize (value bits), Hv. clear -Hp. intros v Hv. revert v Hv.
      apply (natlike_ind (fun v => (((c * c) mod p) ^ v) mod p = ((c * c) ^ v) mod p)); [reflexivity|].
      intros v Hv IH. rewrite !Z.pow_succ_r by assumption. rewrite Z.mul_mod_idemp_l by lia.
      rewrite <- Z.mul_mod_idemp_r, IH, Z.mul_mod_idemp_r by lia. reflexivity. }
    assert (S : (c * c) ^ value bits = c ^ (2 * value bits)) by (rewrite Z.pow_mul_r by lia; f_equal; ring).
    destruct b.
    + rewrite Hm by assumption. rewrite Hm by assumption. rewrite IH by apply El. f_equal. rewrite E, S, Z.pow_add_r, Z.pow_1_r by lia. f_equal. ring.
    + rewrite Hm by assumption. rewrite IH by (assumption || apply El). f_equal. rewrite <- (Z.mod_small q p) by exact Hq. rewrite E, S, Z.add_0_l. rewrite (Z.mod_small q p) by exact Hq. reflexivity.
Qed.

(** The inverse is the power p - 2. *)
Theorem C92_bn_inverse : forall a, element P_BN a -> bn_inv a = Some ((a ^ (P_BN - 2)) mod P_BN).
Proof.
  intros a Ha. destruct C92_bn_field as [_ M]. unfold bn_inv.
  assert (0 < P_BN) as H0 by (vm_compute; reflexivity). assert (element P_BN 1) as H1 by (vm_compute; split; [discriminate|reflexivity]).
  rewrite (square_multiply_ok P_BN bn_mul H0) by (try (intros; apply M; assumption); assumption).
  unfold bits_of. rewrite value_bits by (vm_compute; discriminate).
  replace (((BN_BASE - 2) / 2 ^ Z.of_nat 0) mod 2 ^ Z.of_nat 256) with (P_BN - 2) by (vm_compute; reflexivity). rewrite Z.mul_1_l. reflexivity.
Qed.
Theorem C92_bls_inverse : forall a, element P_BLS a -> bls_inv a = Some ((a ^ (P_BLS - 2)) mod P_BLS).
Proof.
  intros a Ha. destruct C92_bls_field as [_ M]. unfold bls_inv.
  assert (0 < P_BLS) as H0 by (vm_compute; reflexivity). assert (element P_BLS 1) as H1 by (vm_compute; split; [discriminate|reflexivity]).
  rewrite (square_multiply_ok P_BLS bls_mul H0) by (try (intros; apply M; assumption); assumption).
  unfold bits_of. rewrite value_bits by (vm_compute; discriminate).
  replace (((BLS_BASE - 2) / 2 ^ Z.of_nat 0) mod 2 ^ Z.of_nat 384) with (P_BLS - 2) by (vm_compute; reflexivity). rewrite Z.mul_1_l. reflexivity.
Qed.

(** A square root is found exactly for the elements that are squares of
    elements satisfying Fermat's theorem (in a field, all of them). *)
Lemma bls_sqrt_ok : forall a, element P_BLS a ->
  bls_sqrt a = Some (if ((a ^ ((P_BLS + 1) / 4)) ^ 2) mod P_BLS =? a then Some ((a ^ ((P_BLS + 1) / 4)) mod P_BLS) else None).
Proof.
  intros a Ha. destruct C92_bls_field as [_ M]. pose proof bls_bound as [HP _]. unfold bls_sqrt.
  assert (element P_BLS 1) as H1 by (vm_compute; split; [discriminate|reflexivity]).
  rewrite (square_multiply_ok P_BLS bls_mul HP) by (try (intros; apply M; assumption); assumption).
  rewrite Z.mul_1_l. replace (value SQRT_EXPONENT) with ((P_BLS + 1) / 4) by (vm_compute; reflexivity).
  generalize (a ^ ((P_BLS + 1) / 4)). intros r. pose proof (mod_lt r P_BLS HP).
  destruct (M (r mod P_BLS) (r mod P_BLS)) as (_ & _ & _ & E); [assumption..|]. rewrite E.
  rewrite Z.mul_mod_idemp_l, Z.mul_mod_idemp_r by lia. rewrite Z.pow_2_r. reflexivity.
Qed.
Theorem C92_bls_sqrt : forall a, element P_BLS a ->
  (forall r, bls_sqrt a = Some (Some r) -> element P_BLS r /\ (r * r) mod P_BLS = a) /\
  (forall y, (y ^ P_BLS) mod P_BLS = y mod P_BLS -> (y * y) mod P_BLS = a -> exists r, bls_sqrt a = Some (Some r)) /\
  bls_sqrt a <> None.
Proof.
  intros a Ha. pose proof bls_bound as [HP _]. rewrite bls_sqrt_ok by assumption.
  split; [|split; [|discriminate]].
  - generalize (a ^ ((P_BLS + 1) / 4)). intros x r. destruct (Z.eqb_spec ((x ^ 2) mod P_BLS) a) as [E|_]; [|discriminate].
    intros H. assert (r = x mod P_BLS) as -> by congruence. split; [apply mod_lt; exact HP|].
    rewrite Z.mul_mod_idemp_l, Z.mul_mod_idemp_r by lia. rewrite Z.pow_2_r in E. exact E.
  - intros y Hy Hs. assert (E4 : (P_BLS + 1) / 4 * 4 = P_BLS + 1) by reflexivity.
    assert (0 <= (P_BLS + 1) / 4) as H4 by (vm_compute; discriminate).
    remember ((P_BLS + 1) / 4) as k eqn:Ek. clear Ek.
    assert (((a ^ k) ^ 2) mod P_BLS = a) as E.
    { rewrite <- Hs at 1. rewrite <- Z.pow_mul_r by lia.
      assert (forall x v, 0 <= v -> ((x mod P_BLS) ^ v) mod P_BLS = (x ^ v) mod P_BLS) as EX.
      { intros x. apply (natlike_ind (fun v => ((x mod P_BLS) ^ v) mod P_BLS = (x ^ v) mod P_BLS)); [reflexivity|].
        intros v Hv IH. rewrite !Z.pow_succ_r by assumption. rewrite Z.mul_mod_idemp_l by lia.
        rewrite <- Z.mul_mod_idemp_r, IH, Z.mul_mod_idemp_r by lia. reflexivity. }
      rewrite EX by lia. rewrite <- Z.pow_2_r, <- Z.pow_mul_r by lia. replace (2 * (k * 2)) with (P_BLS + 1) by lia.
      rewrite Z.pow_add_r, Z.pow_1_r by lia. rewrite <- Z.mul_mod_idemp_l, Hy, Z.mul_mod_idemp_l by lia. exact Hs. }
    rewrite E, Z.eqb_refl. eauto.
Qed.

(** [lexicographically_largest] is right except at (p + 1) / 2. *)
Theorem C92_lexicographic_partial : forall a n, element P_BLS a -> a <> (P_BLS + 1) / 2 -> bls_neg a = Some n ->
  (lexicographically_largest a = true <-> n < a).
Proof.
  intros a n Ha Hne Hn. destruct C92_bls_field as [_ M]. pose proof bls_bound as [HP _].
  destruct (M a a Ha Ha) as (_ & _ & E & _). rewrite E in Hn. injection Hn as <-.
  unfold lexicographically_largest. assert (MODULUS_MINUS_ONE_DIV_TWO = (P_BLS + 1) / 2) as -> by (vm_compute; reflexivity).
  assert (E2 : (P_BLS + 1) / 2 * 2 = P_BLS + 1) by reflexivity. rewrite Z.ltb_lt. unfold element in Ha.
  remember ((P_BLS + 1) / 2) as h eqn:Eh. clear Eh.
  destruct (Z.eq_dec a 0) as [->|]; [rewrite Z.mod_0_l by lia; lia|].
  replace ((- a) mod P_BLS) with (P_BLS - a); [lia|].
  apply (Z.mod_unique_pos _ _ (-1)); lia.
Qed.
Theorem C92_lexicographic_refuted : exists a n, element P_BLS a /\ bls_neg a = Some n /\ n < a /\
  lexicographically_largest a = false /\ lexicographically_largest n = false.
Proof. exists ((P_BLS + 1) / 2), ((P_BLS - 1) / 2). vm_compute. repeat split; discriminate. Qed.

(** An encoding whose abscissa is the prime itself, not an element, gets the
    answer of the encoding of 0, with that abscissa. *)
Theorem C92_g1_prime_accepted : forall compressed sort,
  g1_from_bytes compressed false sort P_BLS =
    option_map (option_map (fun q => (P_BLS, snd q))) (g1_from_bytes compressed false sort 0).
Proof.
  intros c s. pose proof bls_bound as [HP _]. unfold g1_from_bytes. rewrite bls_p, Z.ltb_irrefl.
  replace (P_BLS <? 0) with false by reflexivity.
  rewrite (bls_mul_ok P_BLS P_BLS), (bls_mul_ok 0 0) by lia. rewrite Z.mul_0_l, Z.mod_0_l by lia. rewrite Z.mod_mul by lia.
  rewrite (bls_mul_ok 0 P_BLS), (bls_mul_ok 0 0) by lia. rewrite !Z.mul_0_l, Z.mod_0_l by lia.
  destruct (bls_add 0 4) as [v|]; [|reflexivity]. destruct (bls_sqrt v) as [[y|]|]; [|reflexivity..].
  destruct (xorb (lexicographically_largest y) s); [destruct (bls_neg y) as [n|]; [|reflexivity]|]; destruct c; reflexivity.
Qed.
Theorem C92_g1_larger_rejected : forall compressed infinity sort x, P_BLS < x -> g1_from_bytes compressed infinity sort x = Some None.
Proof. intros c i s x H. unfold g1_from_bytes. rewrite bls_p. destruct (Z.ltb_spec P_BLS x); [reflexivity|lia]. Qed.

(** Cases: elements, their products, and a root. *)
Theorem C92_case : bn_mul (P_BN - 1) (P_BN - 1) = Some 1 /\ bls_mul (P_BLS - 1) (P_BLS - 2) = Some 2 /\ bls_sub 1 3 = Some (P_BLS - 2) /\
  (1 ^ P_BLS) mod P_BLS = 1 mod P_BLS /\ (1 * 1) mod P_BLS = 1.
Proof. split; [vm_compute; reflexivity|]. split; [vm_compute; reflexivity|]. split; [vm_compute; reflexivity|]. rewrite Z.pow_1_l by (vm_compute; discriminate). split; vm_compute; reflexivity. Qed.

Print Assumptions C92_bn_field. Print Assumptions C92_bls_field. Print Assumptions C92_bn_inverse. Print Assumptions C92_bls_inverse.
Print Assumptions C92_bls_sqrt. Print Assumptions C92_lexicographic_partial. Print Assumptions C92_lexicographic_refuted.
Print Assumptions C92_g1_prime_accepted. Print Assumptions C92_g1_larger_rejected. Print Assumptions C92_case.
