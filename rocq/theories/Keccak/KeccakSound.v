(** One row of the Keccak permutation table performs one round, if the cells
    that stand for bits are bits. *)
From Coq Require Import ZArith List Lia Bool Arith.
From Coq Require Import ZifyBool ZifyNat.
From Verif Require Import Stark.Field Stark.ArithModel Stark.LogicModel Stark.MemModel Stark.MemSound Stark.Lookup
  Keccak.KeccakSpec Keccak.SpongeFacts Keccak.SpongeSound Keccak.SpongeSwap Keccak.KeccakModel Keccak.KeccakFacts.
Import ListNotations.
Local Open Scope Z_scope.

(** * Bits of lanes *)

Definition tb (w : Z) (z : nat) : bool := Z.testbit w (Z.of_nat z).

Lemma tb_ext : forall a b, 0 <= a < 2^64 -> 0 <= b < 2^64 -> (forall z, (z < 64)%nat -> tb a z = tb b z) -> a = b.
Proof.
  intros a b Ha Hb H. rewrite <- (Z.mod_small a (2^64)), <- (Z.mod_small b (2^64)) by assumption. apply Z.bits_inj'. intros n Hn. destruct (Z.lt_ge_cases n 64) as [L|L].
  - rewrite !Z.mod_pow2_bits_low by lia. specialize (H (Z.to_nat n) ltac:(lia)). unfold tb in H. rewrite Z2Nat.id in H by exact Hn. exact H.
  - rewrite !Z.mod_pow2_bits_high by lia. reflexivity.
Qed.

Lemma bit_split : forall q s n z, (0 <= n) -> 0 <= s < 2 ^ n -> 0 <= z -> Z.testbit (2 ^ n * q + s) z = if z <? n then Z.testbit s z else Z.testbit q (z - n).
Proof.
  intros q s n z Hn Hs Hz. assert (PN : 0 < 2 ^ n) by lia. destruct (Z.ltb_spec z n) as [L|L].
  - rewrite <- (Z.mod_pow2_bits_low (2 ^ n * q + s) n z) by lia. f_equal. rewrite Z.add_comm, Z.mul_comm, Z_mod_plus_full. apply Z.mod_small. exact Hs.
  - replace z with ((z - n) + n) at 1 by lia. rewrite <- Z.div_pow2_bits by lia. f_equal. rewrite Z.add_comm, Z.mul_comm, Z_div_plus_full by lia. rewrite Z.div_small by exact Hs. lia.
Qed.

Lemma rotl_bit : forall w n z, 0 <= w < 2^64 -> (n < 64)%nat -> (z < 64)%nat -> tb (rotl w (Z.of_nat n)) z = tb w ((z + 64 - n) mod 64).
Proof.
  intros w n z Hw Hn Hz. unfold tb, rotl. set (m := Z.of_nat n). assert (E : 2^64 = 2 ^ m * 2 ^ (64 - m)) by (rewrite <- Z.pow_add_r by lia; f_equal; lia).
  assert (A : 0 < 2 ^ m) by (apply Z.pow_pos_nonneg; lia). assert (B : 0 < 2 ^ (64 - m)) by (apply Z.pow_pos_nonneg; lia).
  rewrite E, (Z.mul_comm w), Zmult_mod_distr_l. assert (LT : w / 2 ^ (64 - m) < 2 ^ m) by (apply Z.div_lt_upper_bound; [exact B|]; rewrite (Z.mul_comm (2 ^ (64 - m))), <- E; apply Hw). assert (GE : 0 <= w / 2 ^ (64 - m)) by (apply Z.div_pos; lia).
  rewrite bit_split by lia.
  destruct (Z.ltb_spec (Z.of_nat z) m) as [L|L].
  - rewrite Z.div_pow2_bits by lia. f_equal. rewrite Nat.mod_small by lia. lia.
  - rewrite Z.mod_pow2_bits_low by lia. f_equal. replace (z + 64 - n)%nat with ((z - n) + 1 * 64)%nat by lia. rewrite Nat.mod_add, Nat.mod_small by lia. lia.
Qed.

Lemma lane_build : forall g x y, (x < 5)%nat -> (y < 5)%nat -> lane (build g) x y = g x y.
Proof.
  intros g x y Hx Hy. unfold lane, build. rewrite nth_map_seq by lia. cbn [Nat.add]. f_equal.
  - rewrite (Nat.mul_comm 5), Nat.mod_add, Nat.mod_small by lia. reflexivity.
  - rewrite (Nat.mul_comm 5), Nat.div_add, Nat.div_small by lia. reflexivity.
Qed.
Lemma build_ext : forall g h, (forall x y, (x < 5)%nat -> (y < 5)%nat -> g x y = h x y) -> build g = build h.
Proof. intros g h H. unfold build. apply map_ext_in. intros i Hi. apply in_seq in Hi. apply H; [apply Nat.mod_upper_bound; lia|apply Nat.div_lt_upper_bound; lia]. Qed.

Lemma tb_lxor : forall a b z, tb (Z.lxor a b) z = xorb (tb a z) (tb b z).
Proof. intros. apply Z.lxor_spec. Qed.
Lemma tb_ldiff : forall a b z, tb (Z.ldiff a b) z = tb a z && negb (tb b z).
Proof. intros. apply Z.ldiff_spec. Qed.

(** * Sums of bits *)

Lemma horner_S : forall g lo n, horner g lo (S n) = 2 * horner g (S lo) n + g lo.
Proof. reflexivity. Qed.

Lemma horner_app : forall g n m lo, horner g lo (n + m) = horner g lo n + 2 ^ Z.of_nat n * horner g (lo + n) m.
Proof.
  intros g n m. induction n as [|n IH]; intros lo; [rewrite Nat.add_0_r; cbn [Nat.add]; change (horner g lo 0) with 0; rewrite Z.pow_0_r; lia|].
  cbn [Nat.add]. rewrite !horner_S, IH, Nat2Z.inj_succ, Z.pow_succ_r by lia. replace (S lo + n)%nat with (lo + S n)%nat by lia. ring.
Qed.

Lemma horner_bits : forall (h : nat -> bool) g n lo, (forall z, (lo <= z < lo + n)%nat -> g z = Z.b2z (h z)) ->
  0 <= horner g lo n < 2 ^ Z.of_nat n /\ forall i, (i < n)%nat -> tb (horner g lo n) i = h (lo + i)%nat.
Proof.
  intros h g n. induction n as [|n IH]; intros lo H; [change (horner g lo 0) with 0; split; [rewrite Z.pow_0_r; lia|intros; lia]|].
  destruct (IH (S lo) (fun z Hz => H z ltac:(lia))) as [B T]. rewrite horner_S, (H lo ltac:(lia)), Nat2Z.inj_succ, Z.pow_succ_r by lia. split.
  - destruct (h lo); cbn [Z.b2z]; lia.
  - intros i Hi. unfold tb. destruct i as [|i].
    + change (Z.of_nat 0) with 0. rewrite Z.testbit_0_r, Nat.add_0_r. reflexivity.
    + rewrite Nat2Z.inj_succ, Z.testbit_succ_r by lia. specialize (T i ltac:(lia)). unfold tb in T. rewrite T. f_equal. lia.
Qed.

(** Two field cells that are sums of 32 bits make a lane. *)
Lemma two_limbs : forall (h : nat -> bool) g lo hi, (forall z, (z < 64)%nat -> g z = Z.b2z (h z)) -> canonical lo -> canonical hi ->
  (horner g 0 32 - lo) mod P = 0 -> (horner g 32 32 - hi) mod P = 0 ->
  0 <= lo < 2^32 /\ 0 <= hi < 2^32 /\ 0 <= lo + 2^32 * hi < 2^64 /\ forall z, (z < 64)%nat -> tb (lo + 2^32 * hi) z = h z.
Proof.
  intros h g lo hi H CL CH EL EH.
  destruct (horner_bits h g 32 0 (fun z Hz => H z ltac:(lia))) as [BL _]. destruct (horner_bits h g 32 32 (fun z Hz => H z ltac:(lia))) as [BH _]. change (2 ^ Z.of_nat 32) with (2^32) in *.
  assert (XL : horner g 0 32 = lo) by (apply canonical_eq; [unfold canonical, P; lia|exact CL|exact EL]). assert (XH : horner g 32 32 = hi) by (apply canonical_eq; [unfold canonical, P; lia|exact CH|exact EH]).
  rewrite <- XL, <- XH. pose proof (horner_app g 32 32 0) as J. change (32 + 32)%nat with 64%nat in J. change (0 + 32)%nat with 32%nat in J. change (Z.of_nat 32) with 32 in J.
  destruct (horner_bits h g 64 0 (fun z Hz => H z ltac:(lia))) as [B T]. rewrite <- J. split; [exact BL|]. split; [exact BH|]. split; [exact B|]. intros z Hz. rewrite T by exact Hz. reflexivity.
Qed.

Lemma xor_b2z : forall a b, xor_gen (Z.b2z a) (Z.b2z b) = Z.b2z (xorb a b).
Proof. intros [] []; reflexivity. Qed.
Lemma andn_b2z : forall a b, andn_gen (Z.b2z a) (Z.b2z b) = Z.b2z (negb a && b).
Proof. intros [] []; reflexivity. Qed.
Lemma bit_b2z : forall v, bit v -> v = Z.b2z (v =? 1).
Proof. intros v [-> | ->]; reflexivity. Qed.
Lemma b2z_can : forall b, canonical (Z.b2z b).
Proof. intros []; split; (discriminate || reflexivity). Qed.

(** * Constants *)

Lemma offsets_right : forall x y, (x < 5)%nat -> (y < 5)%nat -> offset x y = Z.of_nat (nth y (nth x R_OFFSETS []) 0%nat) /\ (nth y (nth x R_OFFSETS []) 0 < 64)%nat.
Proof.
  intros x y Hx Hy. assert (G : forallb (fun x => forallb (fun y => (offset x y =? Z.of_nat (nth y (nth x R_OFFSETS []) 0%nat)) && (nth y (nth x R_OFFSETS []) 0 <? 64)%nat) (seq 0 5)) (seq 0 5) = true) by (vm_compute; reflexivity).
  rewrite forallb_forall in G. specialize (G x ltac:(apply in_seq; lia)). rewrite forallb_forall in G. specialize (G y ltac:(apply in_seq; lia)). lia.
Qed.

Lemma rc_values_right : forall k, (k < 24)%nat -> rc_value k = round_constant k.
Proof.
  intros k Hk. assert (G : forallb (fun k => rc_value k =? round_constant k) (seq 0 24) = true) by (vm_compute; reflexivity).
  rewrite forallb_forall in G. specialize (G k ltac:(apply in_seq; lia)). lia.
Qed.
Lemma constants_right : forall k i, (k < 24)%nat -> (i < 64)%nat -> rc_value_bit k i = Z.b2z (tb (round_constant k) i).
Proof.
  intros k i Hk Hi. rewrite <- rc_values_right by exact Hk. assert (G : forallb (fun k => forallb (fun i => rc_value_bit k i =? Z.b2z (tb (rc_value k) i)) (seq 0 64)) (seq 0 24) = true) by (vm_compute; reflexivity).
  rewrite forallb_forall in G. specialize (G k ltac:(apply in_seq; lia)). rewrite forallb_forall in G. specialize (G i ltac:(apply in_seq; lia)). lia.
Qed.
Lemma round_constant64 : forall k, (k < 24)%nat -> 0 <= round_constant k < 2^64.
Proof.
  intros k Hk. assert (R : forallb (fun i => (0 <=? round_constant i) && (round_constant i <? 2^64)) (seq 0 24) = true) by (vm_compute; reflexivity).
  rewrite forallb_forall in R. specialize (R k ltac:(apply in_seq; lia)). lia.
Qed.

Lemma pick : forall (v : nat -> Z) k, (k < 24)%nat -> sum (map (fun j => (if (j =? k)%nat then 1 else 0) * v j) (seq 0 24)) = v k.
Proof.
  intros v k Hk. assert (G : forall n a, (a <= k < a + n)%nat -> sum (map (fun j => (if (j =? k)%nat then 1 else 0) * v j) (seq a n)) = v k).
  { induction n as [|n IH]; intros a Ha; [lia|]. cbn [seq map]. rewrite sum_cons. destruct (Nat.eqb_spec a k) as [->|N].
    - rewrite sum_all_zero; [lia|]. intros j Hj. apply in_seq in Hj. replace (j =? k)%nat with false by lia. reflexivity.
    - rewrite IH by lia. lia. }
  apply G. lia.
Qed.

(** * The round *)

(** The lanes of a row before and after the round. *)
Definition lane_in (r : row) (x y : nat) : Z := r (reg_a x y) + 2^32 * r (reg_a x y + 1)%nat.
Definition lane_out (r : row) (x y : nat) : Z := r (reg_a_prime_prime_prime x y) + 2^32 * r (reg_a_prime_prime_prime x y + 1)%nat.

(** The cells that stand for bits are bits; no constraint says so. *)
Definition bits_are_bits (r : row) : Prop :=
  (forall x z, (x < 5)%nat -> (z < 64)%nat -> bit (r (reg_c x z))) /\
  (forall x y z, (x < 5)%nat -> (y < 5)%nat -> (z < 64)%nat -> bit (r (reg_a_prime x y z))) /\
  (forall z, (z < 64)%nat -> bit (r (reg_a_prime_prime_0_0_bit z))).

Lemma m5 : forall n, (n mod 5 < 5)%nat.
Proof. intros. apply Nat.mod_upper_bound. lia. Qed.
Lemma m64 : forall n, (n mod 64 < 64)%nat.
Proof. intros. apply Nat.mod_upper_bound. lia. Qed.

Lemma rc_bit_at : forall r k, at_round r k -> forall i, (i < 64)%nat -> rc_bit r i = Z.b2z (tb (round_constant k) i).
Proof.
  intros r k AT i Hi. destruct AT as [Hk F]. unfold rc_bit. rewrite (map_ext_in _ (fun j => (if (j =? k)%nat then 1 else 0) * rc_value_bit j i)) by (intros j Hj; apply in_seq in Hj; unfold reg_step, NUM_ROUNDS in *; rewrite F by lia; reflexivity).
  change NUM_ROUNDS with 24%nat. rewrite (pick (fun j => rc_value_bit j i)) by exact Hk. apply constants_right; assumption.
Qed.

Section Round.
  Variable r : row.
  Variable k : nat.
  Hypothesis CAN : forall c, canonical (r c).
  Hypothesis CON : forall e, In (All, e) (eval_round r) -> e mod P = 0.
  Hypothesis BITS : bits_are_bits r.

  Let C x z : bool := r (reg_c x z) =? 1.
  Let C' x z : bool := r (reg_c_prime x z) =? 1.
  Let A' x y z : bool := r (reg_a_prime x y z) =? 1.
  Let B x y z : bool := r (reg_b x y z) =? 1.
  Let D z : bool := r (reg_a_prime_prime_0_0_bit z) =? 1.

  Lemma C_val : forall x z, (x < 5)%nat -> (z < 64)%nat -> r (reg_c x z) = Z.b2z (C x z).
  Proof. intros. apply bit_b2z. apply (proj1 BITS); assumption. Qed.
  Lemma A'_val : forall x y z, (x < 5)%nat -> (y < 5)%nat -> (z < 64)%nat -> r (reg_a_prime x y z) = Z.b2z (A' x y z).
  Proof. intros. apply bit_b2z. apply (proj1 (proj2 BITS)); assumption. Qed.
  Lemma D_val : forall z, (z < 64)%nat -> r (reg_a_prime_prime_0_0_bit z) = Z.b2z (D z).
  Proof. intros. apply bit_b2z. apply (proj2 (proj2 BITS)); assumption. Qed.

  Lemma C'_cell : forall x z, (x < 5)%nat -> (z < 64)%nat -> r (reg_c_prime x z) = Z.b2z (xorb (C x z) (xorb (C ((x + 4) mod 5) z) (C ((x + 1) mod 5) ((z + 63) mod 64)))).
  Proof.
    intros x z Hx Hz. apply canonical_eq; [apply CAN|apply b2z_can|]. rewrite <- !xor_b2z, <- !C_val by (try assumption; apply m5 || apply m64). apply CON. unfold eval_round. apply in_or_app. left.
    apply (in_xz _ x z); [exact Hx|exact Hz|]. left. reflexivity.
  Qed.
  Lemma C'_val : forall x z, (x < 5)%nat -> (z < 64)%nat -> r (reg_c_prime x z) = Z.b2z (C' x z).
  Proof. intros x z Hx Hz. apply bit_b2z. rewrite C'_cell by assumption. destruct (xorb _ _); [right|left]; reflexivity. Qed.
  Lemma C'_bool : forall x z, (x < 5)%nat -> (z < 64)%nat -> C' x z = xorb (C x z) (xorb (C ((x + 4) mod 5) z) (C ((x + 1) mod 5) ((z + 63) mod 64))).
  Proof. intros x z Hx Hz. unfold C'. rewrite C'_cell by assumption. destruct (xorb _ _); reflexivity. Qed.

  Lemma a_bit_val : forall x y z, (x < 5)%nat -> (y < 5)%nat -> (z < 64)%nat -> a_bit r x y z = Z.b2z (xorb (A' x y z) (xorb (C x z) (C' x z))).
  Proof. intros x y z Hx Hy Hz. unfold a_bit, xor3_gen. rewrite A'_val, C_val, C'_val, !xor_b2z by assumption. reflexivity. Qed.

  Lemma input_lane : forall x y, (x < 5)%nat -> (y < 5)%nat ->
    (0 <= r (reg_a x y) < 2^32 /\ 0 <= r (reg_a x y + 1)%nat < 2^32) /\ 0 <= lane_in r x y < 2^64 /\ forall z, (z < 64)%nat -> tb (lane_in r x y) z = xorb (A' x y z) (xorb (C x z) (C' x z)).
  Proof.
    intros x y Hx Hy. destruct (two_limbs (fun z => xorb (A' x y z) (xorb (C x z) (C' x z))) (a_bit r x y) (r (reg_a x y)) (r (reg_a x y + 1)%nat)) as (L1 & L2 & L3 & L4); try apply CAN.
    - intros z Hz. apply a_bit_val; assumption.
    - apply CON. unfold eval_round. at_seg 1. apply (in_xy _ x y); [exact Hx|exact Hy|]. left. reflexivity.
    - apply CON. unfold eval_round. at_seg 1. apply (in_xy _ x y); [exact Hx|exact Hy|]. right. left. reflexivity.
    - repeat split; assumption || apply L1 || apply L2 || apply L3.
  Qed.

  Lemma column_parity : forall x z, (x < 5)%nat -> (z < 64)%nat -> xorb (A' x 0 z) (xorb (A' x 1 z) (xorb (A' x 2 z) (xorb (A' x 3 z) (A' x 4 z)))) = C' x z.
  Proof.
    intros x z Hx Hz. assert (H : (parity_diff r x z * (parity_diff r x z - 2) * (parity_diff r x z - 4)) mod P = 0).
    { apply CON. unfold eval_round. at_seg 2. apply (in_xz _ x z); [exact Hx|exact Hz|]. left. reflexivity. }
    unfold parity_diff in H. change (seq 0 5) with [0; 1; 2; 3; 4]%nat in H. cbn [map sum fold_right] in H. rewrite !A'_val, C'_val in H by lia.
    revert H. destruct (A' x 0 z), (A' x 1 z), (A' x 2 z), (A' x 3 z), (A' x 4 z), (C' x z); intros H; first [reflexivity|discriminate H].
  Qed.

  Let S := build (lane_in r).

  Lemma S_lane : forall x y, (x < 5)%nat -> (y < 5)%nat -> lane S x y = lane_in r x y.
  Proof. intros. apply lane_build; assumption. Qed.
  Lemma S64 : Forall (fun w => 0 <= w < 2^64) S.
  Proof. unfold S, build. rewrite Forall_map. apply Forall_forall. intros i Hi. apply in_seq in Hi. apply input_lane; [apply m5|apply Nat.div_lt_upper_bound; lia]. Qed.

  Lemma parity_bit : forall x z, (x < 5)%nat -> (z < 64)%nat -> tb (parity S x) z = C x z.
  Proof.
    intros x z Hx Hz. unfold parity. rewrite !tb_lxor, !S_lane by lia. destruct (input_lane x 0 Hx ltac:(lia)) as (_ & _ & H0). destruct (input_lane x 1 Hx ltac:(lia)) as (_ & _ & H1).
    destruct (input_lane x 2 Hx ltac:(lia)) as (_ & _ & H2). destruct (input_lane x 3 Hx ltac:(lia)) as (_ & _ & H3). destruct (input_lane x 4 Hx ltac:(lia)) as (_ & _ & H4).
    rewrite H0, H1, H2, H3, H4 by exact Hz. rewrite <- (column_parity x z Hx Hz). destruct (A' x 0 z), (A' x 1 z), (A' x 2 z), (A' x 3 z), (A' x 4 z), (C x z); reflexivity.
  Qed.
  Lemma parity64 : forall x, 0 <= parity S x < 2^64.
  Proof. intros x. unfold parity. repeat apply lxor64; apply lane64; apply S64. Qed.

  Lemma theta_bit : forall x y z, (x < 5)%nat -> (y < 5)%nat -> (z < 64)%nat -> tb (lane (theta S) x y) z = A' x y z.
  Proof.
    intros x y z Hx Hy Hz. unfold theta. cbv zeta. rewrite lane_build by assumption. rewrite tb_lxor, S_lane by assumption. destruct (input_lane x y Hx Hy) as (_ & _ & HA). rewrite HA by exact Hz.
    rewrite (nth_map_seq (fun x0 => Z.lxor (nth ((x0 + 4) mod 5) (map (parity S) (seq 0 5)) 0) (rotl (nth ((x0 + 1) mod 5) (map (parity S) (seq 0 5)) 0) 1))) by exact Hx. cbn [Nat.add].
    rewrite (nth_map_seq (parity S) 0 5 ((x + 4) mod 5)), (nth_map_seq (parity S) 0 5 ((x + 1) mod 5)) by apply m5. cbn [Nat.add].
    rewrite tb_lxor. change 1 with (Z.of_nat 1) at 1. rewrite rotl_bit by (try lia; apply parity64). rewrite !parity_bit by (try assumption; apply m5 || apply m64).
    rewrite C'_bool by assumption. replace (z + 64 - 1)%nat with (z + 63)%nat by lia. destruct (A' x y z), (C x z), (C ((x + 4) mod 5) z), (C ((x + 1) mod 5) ((z + 63) mod 64)); reflexivity.
  Qed.
  Lemma theta64 : Forall (fun w => 0 <= w < 2^64) (theta S).
  Proof.
    unfold theta. cbv zeta. apply build64. intros x y. apply lxor64; [apply lane64; apply S64|]. apply nth64. rewrite Forall_map. apply Forall_forall. intros q Hq.
    rewrite (nth_map_seq (parity S) 0 5 ((q + 4) mod 5)), (nth_map_seq (parity S) 0 5 ((q + 1) mod 5)) by apply m5. apply lxor64; [apply parity64|apply rotl64; [apply parity64|lia]].
  Qed.

  Lemma B_bit : forall x y z, (x < 5)%nat -> (y < 5)%nat -> (z < 64)%nat -> tb (lane (pi (rho (theta S))) x y) z = B x y z.
  Proof.
    intros x y z Hx Hy Hz. unfold pi. rewrite lane_build by assumption. unfold rho. rewrite lane_build by (try assumption; apply m5).
    destruct (offsets_right ((x + 3 * y) mod 5) x (m5 _) Hx) as [E L]. rewrite E, rotl_bit by (try assumption; apply lane64; apply theta64). rewrite theta_bit by (try assumption; apply m5 || apply m64). reflexivity.
  Qed.
  Lemma B_val : forall x y z, (x < 5)%nat -> (y < 5)%nat -> (z < 64)%nat -> r (reg_b x y z) = Z.b2z (B x y z).
  Proof. intros x y z Hx Hy Hz. unfold B, reg_b. cbv zeta. apply A'_val; [apply m5|exact Hx|apply m64]. Qed.

  Let T := chi (pi (rho (theta S))).
  Lemma chi_bit : forall x y z, (x < 5)%nat -> (y < 5)%nat -> (z < 64)%nat -> a2_bit r x y z = Z.b2z (tb (lane T x y) z).
  Proof.
    intros x y z Hx Hy Hz. unfold a2_bit, T, chi. rewrite lane_build by assumption. rewrite !B_val, andn_b2z, xor_b2z by (try assumption; apply m5). f_equal.
    rewrite tb_lxor, tb_ldiff, !B_bit by (try assumption; apply m5). f_equal. apply andb_comm.
  Qed.
  Lemma T64 : Forall (fun w => 0 <= w < 2^64) T.
  Proof.
    unfold T, chi. assert (H2 : Forall (fun w => 0 <= w < 2^64) (rho (theta S))) by (apply build64; intros x y; apply rotl64; [apply lane64; apply theta64|apply offset_bound]).
    assert (H3 : Forall (fun w => 0 <= w < 2^64) (pi (rho (theta S)))) by (apply build64; intros x y; apply lane64; exact H2).
    apply build64; intros x y; apply lxor64; [|apply ldiff64]; apply lane64; exact H3.
  Qed.

  Lemma chi_lane : forall x y, (x < 5)%nat -> (y < 5)%nat ->
    (0 <= r (reg_a_prime_prime x y) < 2^32 /\ 0 <= r (reg_a_prime_prime x y + 1)%nat < 2^32) /\ r (reg_a_prime_prime x y) + 2^32 * r (reg_a_prime_prime x y + 1)%nat = lane T x y.
  Proof.
    intros x y Hx Hy. destruct (two_limbs (tb (lane T x y)) (a2_bit r x y) (r (reg_a_prime_prime x y)) (r (reg_a_prime_prime x y + 1)%nat)) as (L1 & L2 & L3 & L4); try apply CAN.
    - intros z Hz. apply chi_bit; assumption.
    - apply CON. unfold eval_round. at_seg 3. apply (in_xy _ x y); [exact Hx|exact Hy|]. left. reflexivity.
    - apply CON. unfold eval_round. at_seg 3. apply (in_xy _ x y); [exact Hx|exact Hy|]. right. left. reflexivity.
    - split; [split; assumption|]. apply tb_ext; [exact L3|apply lane64; apply T64|exact L4].
  Qed.

  Hypothesis AT : at_round r k.

  Lemma rc_bit_val : forall i, (i < 64)%nat -> rc_bit r i = Z.b2z (tb (round_constant k) i).
  Proof. apply rc_bit_at. exact AT. Qed.

  Lemma iota_lane : (0 <= r (reg_a_prime_prime_prime 0 0) < 2^32 /\ 0 <= r (reg_a_prime_prime_prime 0 0 + 1)%nat < 2^32) /\ lane_out r 0 0 = Z.lxor (lane T 0 0) (round_constant k).
  Proof.
    destruct (chi_lane 0 0 ltac:(lia) ltac:(lia)) as [_ E].
    destruct (two_limbs D (fun z => r (reg_a_prime_prime_0_0_bit z)) (r (reg_a_prime_prime 0 0)) (r (reg_a_prime_prime 0 0 + 1)%nat)) as (_ & _ & _ & L4); try apply CAN.
    { intros z Hz. apply D_val. exact Hz. }
    { apply CON. unfold eval_round. do 4 (apply in_or_app; right). left. reflexivity. }
    { apply CON. unfold eval_round. do 4 (apply in_or_app; right). right. left. reflexivity. }
    rewrite E in L4.
    destruct (two_limbs (fun z => xorb (D z) (tb (round_constant k) z)) (a3_bit r) (r (reg_a_prime_prime_prime 0 0)) (r (reg_a_prime_prime_prime 0 0 + 1)%nat)) as (M1 & M2 & M3 & M4); try apply CAN.
    { intros z Hz. unfold a3_bit. rewrite D_val, rc_bit_val, xor_b2z by exact Hz. reflexivity. }
    { apply CON. unfold eval_round. do 4 (apply in_or_app; right). right. right. left. reflexivity. }
    { apply CON. unfold eval_round. do 4 (apply in_or_app; right). right. right. right. left. reflexivity. }
    split; [split; assumption|]. unfold lane_out. apply tb_ext; [exact M3|apply lxor64; [apply lane64; apply T64|apply round_constant64; apply AT]|].
    intros z Hz. rewrite M4, tb_lxor, L4 by exact Hz. reflexivity.
  Qed.

  Theorem row_round : build (lane_out r) = round k (build (lane_in r)).
  Proof.
    unfold round. fold S T. unfold iota. apply build_ext. intros x y Hx Hy. destruct ((x =? 0)%nat && (y =? 0)%nat) eqn:E.
    - assert (x = 0%nat /\ y = 0%nat) as [-> ->] by lia. apply iota_lane.
    - unfold lane_out, reg_a_prime_prime_prime. rewrite E. apply chi_lane; assumption.
  Qed.
  Theorem row_words : forall x y, (x < 5)%nat -> (y < 5)%nat -> 0 <= r (reg_a_prime_prime_prime x y) < 2^32 /\ 0 <= r (reg_a_prime_prime_prime x y + 1)%nat < 2^32.
  Proof.
    intros x y Hx Hy. destruct ((x =? 0)%nat && (y =? 0)%nat) eqn:E.
    - assert (x = 0%nat /\ y = 0%nat) as [-> ->] by lia. apply iota_lane.
    - unfold reg_a_prime_prime_prime. rewrite E. apply chi_lane; assumption.
  Qed.
End Round.
