(** The Goldilocks field.

    plonky2's [GoldilocksField] (the field of every table in
    evm_arithmetization, see e.g. arithmetic/addcy.rs:67 and the
    [PoseidonGoldilocksConfig] used by the provers) is the field of integers
    modulo P = 2^64 - 2^32 + 1.  Field elements are modelled as integers in
    [0, P); an arithmetic expression over the field is evaluated over Z and
    compared with zero modulo P, which is the same thing because reduction
    modulo P is a ring morphism. *)
From Coq Require Import ZArith Znumtheory Zpow_facts List Lia.
Import ListNotations.
Local Open Scope Z_scope.

Definition P : Z := 2^64 - 2^32 + 1.

(** Multiplication with a canonical result. *)
Definition fmul (a b : Z) : Z := (a * b) mod P.

(** [a] is a canonical field element. *)
Definition canonical (a : Z) : Prop := 0 <= a < P.

(** * P is prime

    If n divides P and h = 7^(2^32-1), then h^(2^31) = -1 modulo n, so the
    2^32 powers of h are distinct modulo n and n >= 2^32; but a proper
    factor and its cofactor cannot both be that large. *)

Definition m0 : Z := 2^32 - 1.

Lemma generator_half : Zpow_mod 7 ((2^31) * m0) P = P - 1.
Proof. vm_compute. reflexivity. Qed.

Lemma half_power : (7 ^ (m0 * 2^31)) mod P = P - 1.
Proof.
  rewrite <- generator_half, Zpow_mod_correct by (unfold P; lia).
  replace (m0 * 2^31) with (2^31 * m0) by ring. reflexivity.
Qed.

  (** A positive integer below 2^32 is a power of two below 2^32 times an odd number. *)
  Lemma two_part : forall (f : nat) d, 0 < d -> d < 2 ^ Z.of_nat f ->
    exists k o, 0 <= k < Z.of_nat f /\ 0 <= o /\ d = 2 ^ k * (2 * o + 1).
  Proof.
    induction f as [|f IH]; intros d Hd Hlt.
    - cbn in Hlt. lia.
    - rewrite Nat2Z.inj_succ in Hlt. rewrite Z.pow_succ_r in Hlt by lia.
      destruct (Z.eq_dec (d mod 2) 0) as [E|E].
      + destruct (IH (d / 2)) as (k & o & Hk & Ho & Hd2).
        * apply Z.div_str_pos. split; [lia|]. destruct (Z.eq_dec d 1); [subst; cbn in E; lia|lia].
        * apply Z.div_lt_upper_bound; lia.
        * exists (k + 1), o. split; [lia|]. split; [exact Ho|].
          rewrite Z.pow_add_r by lia. rewrite (Z.div_mod d 2), E, Hd2 by lia.
          change (2 ^ 1) with 2. ring.
      + exists 0, (d / 2). split; [lia|]. split; [apply Z.div_pos; lia|].
        assert (d mod 2 = 1) by (pose proof (Z.mod_pos_bound d 2); lia).
        rewrite Z.pow_0_r. pose proof (Z.div_mod d 2). lia.
  Qed.

Section Divisor.
  Variable n : Z.
  Hypothesis n_pos : 2 < n.
  Variable h K : Z.
  Hypothesis K_def : K = 2^31.
  Hypothesis h_half : (h ^ K + 1) mod n = 0.

  Lemma pow_one_mod : forall a k, 0 <= k -> a mod n = 1 -> (a ^ k) mod n = 1.
  Proof.
    intros a k Hk Ha. rewrite Zpower_mod by lia. rewrite Ha.
    rewrite Z.pow_1_l by lia. apply Z.mod_small. lia.
  Qed.

  Lemma minus_one_pow_odd : forall a o, 0 <= o -> (a + 1) mod n = 0 ->
    (a ^ (2 * o + 1) + 1) mod n = 0.
  Proof.
    intros a o Ho Ha.
    assert (H : forall k, 0 <= k -> (a ^ (2 * k) - 1) mod n = 0).
    { intros k Hk. pattern k. apply natlike_ind; [reflexivity| |exact Hk].
      intros x Hx IH. replace (2 * Z.succ x) with (2 * x + 2) by lia.
      rewrite Z.pow_add_r by lia.
      replace (a ^ (2 * x) * a ^ 2 - 1)
        with ((a ^ (2 * x) - 1) * a ^ 2 + (a + 1) * (a - 1)) by ring.
      rewrite Z.add_mod, (Z.mul_mod (_ - 1)), (Z.mul_mod (a + 1)), IH, Ha by lia.
      rewrite !Z.mul_0_l. rewrite !Z.mod_0_l by lia. reflexivity. }
    rewrite Z.pow_add_r by lia. rewrite Z.pow_1_r.
    replace (a ^ (2 * o) * a + 1) with ((a ^ (2 * o) - 1) * a + (a + 1)) by ring.
    rewrite Z.add_mod, Z.mul_mod, (H o Ho), Ha by lia.
    rewrite Z.mul_0_l, Z.mod_0_l by lia. reflexivity.
  Qed.

  Lemma no_small_order : forall d, 0 < d < 2 * K -> (h ^ d) mod n <> 1.
  Proof.
    intros d [Hd Hlt] E.
    destruct (two_part 32 d Hd ltac:(cbn; lia)) as (k & o & Hk & Ho & Hd2).
    change (Z.of_nat 32) with 32 in Hk.
    assert (H1 : (h ^ (d * 2 ^ (31 - k))) mod n = 1).
    { rewrite Z.pow_mul_r by lia. apply pow_one_mod; [apply Z.pow_nonneg; lia|exact E]. }
    replace (d * 2 ^ (31 - k)) with (K * (2 * o + 1)) in H1.
    2: { rewrite Hd2, K_def. replace 31 with (k + (31 - k)) at 1 by lia. rewrite Z.pow_add_r by lia. ring. }
    rewrite Z.pow_mul_r in H1 by lia.
    pose proof (minus_one_pow_odd (h ^ K) o Ho h_half) as H2.
    rewrite Z.add_mod, H1 in H2 by lia.
    rewrite (Z.mod_small 1 n) in H2 by lia. rewrite Z.mod_small in H2 by lia. lia.
  Qed.

  Lemma h_full : (h ^ (2 * K)) mod n = 1.
  Proof.
    rewrite Z.mul_comm. rewrite Z.pow_mul_r by lia.
    assert (G : forall x, (x + 1) mod n = 0 -> (x ^ 2) mod n = 1); [|exact (G _ h_half)].
    intros x Hx. replace (x ^ 2) with ((x + 1) * (x - 1) + 1) by ring.
    rewrite Z.add_mod, Z.mul_mod, Hx by lia.
    rewrite Z.mul_0_l, Z.mod_0_l, Z.add_0_l by lia. rewrite Z.mod_mod by lia.
    apply Z.mod_small. lia.
  Qed.

  Lemma pow_inj : forall i j, 0 <= i < j -> j < 2 * K -> (h ^ i) mod n <> (h ^ j) mod n.
  Proof.
    intros i j [Hi Hij] Hj E. apply (no_small_order (j - i)); [lia|].
    assert (A : (h ^ (2 * K - i) * h ^ i) mod n = 1).
    { rewrite <- Z.pow_add_r by lia. replace (2 * K - i + i) with (2 * K) by lia. apply h_full. }
    assert (B : (h ^ (2 * K - i) * h ^ j) mod n = 1).
    { rewrite Z.mul_mod, <- E, <- Z.mul_mod by lia. exact A. }
    rewrite <- Z.pow_add_r in B by lia.
    replace (2 * K - i + j) with (2 * K + (j - i)) in B by lia.
    rewrite Z.pow_add_r, Z.mul_mod, h_full, Z.mul_1_l, Z.mod_mod in B by lia. exact B.
  Qed.

  (** Pigeonhole. *)
  Lemma divisor_large : forall N : nat, Z.of_nat N <= 2 * K -> Z.of_nat N <= n.
  Proof.
    intros N HN.
    set (f := fun i : nat => (h ^ Z.of_nat i) mod n).
    assert (ND : NoDup (map f (seq 0 N))).
    { apply NoDup_nth with (d := f 0%nat). intros i j Hi Hj E.
      rewrite map_length, seq_length in Hi, Hj.
      rewrite !(map_nth f) in E. rewrite !seq_nth in E by assumption. cbn [Nat.add] in E.
      unfold f in E. destruct (Nat.lt_trichotomy i j) as [L|[L|L]]; [|exact L|]; exfalso.
      - exact (pow_inj (Z.of_nat i) (Z.of_nat j) ltac:(lia) ltac:(lia) E).
      - exact (pow_inj (Z.of_nat j) (Z.of_nat i) ltac:(lia) ltac:(lia) (eq_sym E)). }
    assert (IN : incl (map f (seq 0 N)) (map Z.of_nat (seq 0 (Z.to_nat n)))).
    { intros x Hx. apply in_map_iff in Hx. destruct Hx as (i & <- & _).
      pose proof (Z.mod_pos_bound (h ^ Z.of_nat i) n ltac:(lia)).
      apply in_map_iff. exists (Z.to_nat (f i)). unfold f. split; [lia|].
      apply in_seq. lia. }
    pose proof (NoDup_incl_length ND IN) as L.
    rewrite !map_length, !seq_length in L. lia.
  Qed.
End Divisor.

Lemma h_half_divisor : forall n, 2 < n -> (n | P) -> ((7 ^ m0) ^ (2^31) + 1) mod n = 0.
Proof.
  intros n Hn Hd. apply Zdivide_mod. apply Z.divide_trans with P; [exact Hd|].
  apply Zmod_divide; [unfold P; lia|].
  rewrite <- Z.pow_mul_r by (unfold m0; lia).
  rewrite Z.add_mod, half_power by (unfold P; lia).
  vm_compute. reflexivity.
Qed.

Lemma P_odd_div : forall n, (n | P) -> n <> 2.
Proof. intros n [k Hk] ->. unfold P in Hk. lia. Qed.

Theorem P_prime : prime P.
Proof.
  apply prime_alt. split; [unfold P; lia|].
  intros n [H1 H2] D.
  destruct D as [k Hk].
  assert (Dn : (n | P)) by (exists k; exact Hk).
  assert (Dk : (k | P)) by (exists n; lia).
  assert (0 < k) by (assert (0 < P) by reflexivity; nia).
  assert (1 < k) by (destruct (Z.eq_dec k 1) as [->|]; lia).
  pose proof (P_odd_div n Dn). pose proof (P_odd_div k Dk).
  assert (Gn : 2 < n) by lia. assert (Gk : 2 < k) by lia.
  assert (BND : Z.of_nat (Z.to_nat (2^32)) <= 2 * 2^31) by (rewrite Z2Nat.id by (apply Z.pow_nonneg; lia); reflexivity || discriminate).
  pose proof (divisor_large n Gn (7 ^ m0) (2^31) eq_refl (h_half_divisor n Gn Dn) (Z.to_nat (2^32)) BND) as A.
  pose proof (divisor_large k Gk (7 ^ m0) (2^31) eq_refl (h_half_divisor k Gk Dk) (Z.to_nat (2^32)) BND) as B.
  rewrite Z2Nat.id in A, B by lia. unfold P in *. nia.
Qed.

(** * Consequences used by the table proofs *)

Lemma P_pos : 0 < P.
Proof. reflexivity. Qed.

(** A small expression that is zero in the field is zero. *)
Lemma small_zero : forall e, e mod P = 0 -> -P < e < P -> e = 0.
Proof.
  intros e H B. apply Zmod_divide in H; [|unfold P; lia]. destruct H as [k Hk].
  assert (k = 0); [|subst; reflexivity]. pose proof P_pos. nia.
Qed.

Lemma field_integral : forall a b, (a * b) mod P = 0 -> a mod P = 0 \/ b mod P = 0.
Proof.
  intros a b H. apply Zmod_divide in H; [|unfold P; lia].
  destruct (prime_mult P P_prime a b H) as [D|D]; [left|right]; apply Zdivide_mod; exact D.
Qed.

Lemma canonical_zero : forall a, canonical a -> a mod P = 0 -> a = 0.
Proof. unfold canonical. intros a C H. rewrite Z.mod_small in H by lia. exact H. Qed.

(** A canonical element satisfying the boolean constraint is 0 or 1. *)
Lemma bool_of_constraint : forall a, canonical a -> (a * (a - 1)) mod P = 0 -> a = 0 \/ a = 1.
Proof.
  intros a C H. destruct (field_integral _ _ H) as [E|E].
  - left. exact (canonical_zero a C E).
  - right. unfold canonical in C. apply small_zero in E; unfold P in *; lia.
Qed.
