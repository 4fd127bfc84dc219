(** The rows that the Keccak table's generator makes meet the constraints. *)
From Coq Require Import ZArith List Lia Bool Arith.
From Coq Require Import ZifyBool ZifyNat.
From Verif Require Import Stark.Field Stark.ArithModel Stark.ArithGen Stark.LogicModel Stark.MemModel Stark.MemSound Stark.Lookup Stark.BytePackProps
  Keccak.KeccakSpec Keccak.SpongeFacts Keccak.SpongeSound Keccak.SpongeGen Keccak.SpongeSwap Keccak.KeccakModel Keccak.KeccakFacts Keccak.KeccakSound Keccak.KeccakGaps.
Import ListNotations.
Local Open Scope Z_scope.

(** * Loops that fill columns *)

Lemma flat_length : forall {A} (L : nat -> list A) m n a, (forall i, length (L i) = m) -> length (flat_map L (seq a n)) = (n * m)%nat.
Proof. intros A L m n. induction n as [|n IH]; intros a H; [reflexivity|]. cbn [seq flat_map]. rewrite app_length, H, IH by exact H. lia. Qed.
Lemma flat_nth : forall {A} (L : nat -> list A) d m n a i z, (forall i, length (L i) = m) -> (i < n)%nat -> (z < m)%nat -> nth (i * m + z) (flat_map L (seq a n)) d = nth z (L (a + i)%nat) d.
Proof.
  intros A L d m n. induction n as [|n IH]; intros a i z H Hi Hz; [lia|]. cbn [seq flat_map]. destruct i as [|i].
  - rewrite app_nth1 by (rewrite H; lia). rewrite Nat.add_0_r. reflexivity.
  - rewrite app_nth2 by (rewrite H; lia). rewrite H. replace (S i * m + z - m)%nat with (i * m + z)%nat by lia. rewrite IH by (assumption || lia). f_equal. f_equal. lia.
Qed.

Lemma xz_length : forall (g : nat -> nat -> Z), length (for_xz (fun x z => [g x z])) = 320%nat.
Proof. intros g. unfold for_xz. rewrite (flat_length _ 64); [reflexivity|]. intros x. apply (flat_length (fun z => [g x z]) 1). reflexivity. Qed.
Lemma xz_nth : forall (g : nat -> nat -> Z) x z, (x < 5)%nat -> (z < 64)%nat -> nth (x * 64 + z) (for_xz (fun x z => [g x z])) 0 = g x z.
Proof.
  intros g x z Hx Hz. unfold for_xz. rewrite (flat_nth _ 0 64) by (try assumption; intros; apply (flat_length (fun z => [g _ z]) 1); reflexivity).
  replace z with (z * 1 + 0)%nat at 1 by lia. rewrite (flat_nth (fun z => [g (0 + x)%nat z]) 0 1) by (try assumption; try lia; reflexivity). reflexivity.
Qed.
Lemma xy_length : forall (g : nat -> nat -> Z) (h : nat -> nat -> Z), length (for_xy (fun x y => [g x y; h x y])) = 50%nat.
Proof. intros g h. unfold for_xy. rewrite (flat_length _ 10); [reflexivity|]. intros x. apply (flat_length (fun y => [g x y; h x y]) 2). reflexivity. Qed.
Lemma xy_nth : forall (g h : nat -> nat -> Z) x y b, (x < 5)%nat -> (y < 5)%nat -> (b < 2)%nat -> nth (x * 10 + (y * 2 + b)) (for_xy (fun x y => [g x y; h x y])) 0 = nth b [g x y; h x y] 0.
Proof.
  intros g h x y b Hx Hy Hb. unfold for_xy. rewrite (flat_nth _ 0 10) by (try assumption; try lia; intros; apply (flat_length (fun y => [g _ y; h _ y]) 2); reflexivity).
  rewrite (flat_nth (fun y => [g (0 + x)%nat y; h (0 + x)%nat y]) 0 2) by (try assumption; try lia; reflexivity). reflexivity.
Qed.
Lemma xyz_length : forall g, length (for_xyz g) = 1600%nat.
Proof. intros g. unfold for_xyz. rewrite (flat_length _ 320); [reflexivity|]. intros x. apply (flat_length _ 64). intros y. rewrite map_length, seq_length. reflexivity. Qed.
Lemma xyz_nth : forall g x y z, (x < 5)%nat -> (y < 5)%nat -> (z < 64)%nat -> nth (x * 320 + (y * 64 + z)) (for_xyz g) 0 = g x y z.
Proof.
  intros g x y z Hx Hy Hz. unfold for_xyz. assert (LI : forall x0 y0, length (map (g x0 y0) (seq 0 64)) = 64%nat) by (intros; rewrite map_length, seq_length; reflexivity).
  rewrite (flat_nth _ 0 320) by (try assumption; try lia; intros; apply (flat_length _ 64); intros; apply LI).
  rewrite (flat_nth _ 0 64) by (try assumption; try lia; intros; apply LI). rewrite nth_map_seq by exact Hz. reflexivity.
Qed.

(** * Bits *)

Lemma xor_cells_bits : forall l, xor_cells (map Z.b2z l) = Z.b2z (fold_left xorb l false).
Proof.
  intros l. unfold xor_cells. assert (G : forall q b, fold_left Z.lxor (map Z.b2z q) (Z.b2z b) = Z.b2z (fold_left xorb q b)).
  { induction q as [|x q IH]; intros b; [reflexivity|]. cbn [map fold_left]. rewrite <- IH. f_equal. destruct b, x; reflexivity. }
  apply (G l false).
Qed.

Lemma lane_bit : forall lo hi z, 0 <= lo < 2^32 -> 0 <= hi < 2^32 -> (z < 64)%nat -> tb (lo + 2^32 * hi) z = if (z <? 32)%nat then tb lo z else tb hi (z - 32).
Proof.
  intros lo hi z Hl Hh Hz. unfold tb. rewrite Z.add_comm, bit_split by lia. destruct (Z.ltb_spec (Z.of_nat z) 32) as [L|L], (Nat.ltb_spec z 32) as [M|M]; first [reflexivity|exfalso; lia|f_equal; lia].
Qed.
Lemma bit_arith : forall w z, (w / 2 ^ Z.of_nat z) mod 2 = Z.b2z (tb w z).
Proof. intros w z. unfold tb. rewrite Z.testbit_spec' by lia. reflexivity. Qed.

Lemma limb_bit_lane : forall r x y z, 0 <= r (reg_a x y) < 2^32 -> 0 <= r (reg_a x y + 1)%nat < 2^32 -> (z < 64)%nat -> limb_bit r x y z = Z.b2z (tb (lane_in r x y) z).
Proof.
  intros r x y z H1 H2 Hz. unfold lane_in. rewrite lane_bit by assumption. unfold limb_bit. rewrite bit_arith. destruct (Nat.ltb_spec z 32) as [L|L].
  - rewrite (Nat.div_small z), (Nat.mod_small z), Nat.add_0_r, Z.mod_small by assumption. reflexivity.
  - replace (z / 32)%nat with 1%nat by (clear -L Hz; lia). replace (z mod 32)%nat with (z - 32)%nat by (clear -L Hz; lia). rewrite Z.mod_small by exact H2. reflexivity.
Qed.

(** The sum of the 32 bits of a word is the word. *)
Lemma horner_word : forall g lo w, 0 <= w < 2^32 -> (forall z, (z < 32)%nat -> g (lo + z)%nat = Z.b2z (tb w z)) -> horner g lo 32 = w.
Proof.
  intros g lo w Hw H. destruct (horner_bits (fun z => tb w (z - lo)) g 32 lo) as [B T].
  - intros z Hz. replace z with (lo + (z - lo))%nat at 1 by lia. apply H. lia.
  - change (2 ^ Z.of_nat 32) with (2^32) in B. apply tb_ext; [lia|lia|]. intros z Hz. destruct (Nat.lt_ge_cases z 32) as [L|L].
    + rewrite T by exact L. f_equal. lia.
    + unfold tb. rewrite <- (Z.mod_small (horner g lo 32) (2^32)), <- (Z.mod_small w (2^32)) by assumption. rewrite !Z.mod_pow2_bits_high by lia. reflexivity.
Qed.

(** * One round *)

Lemma cell_same : forall r s vs c, (c < s)%nat -> write r s vs c = r c.
Proof. intros. apply write_out. lia. Qed.

Lemma nth2_0 : forall u v : Z, nth 0 [u; v] 0 = u.
Proof. reflexivity. Qed.
Lemma nth2_1 : forall u v : Z, nth 1 [u; v] 0 = v.
Proof. reflexivity. Qed.
Lemma a2_lt : forall x y b, (x < 5)%nat -> (y < 5)%nat -> (b < 2)%nat -> (reg_a_prime_prime x y + b < 2365)%nat.
Proof. intros. unfold reg_a_prime_prime, START_A_PRIME_PRIME. lia. Qed.
Lemma a2_in : forall x y b, (x < 5)%nat -> (y < 5)%nat -> (b < 2)%nat -> (START_A_PRIME_PRIME <= reg_a_prime_prime x y + b < START_A_PRIME_PRIME + 50)%nat.
Proof. intros. unfold reg_a_prime_prime. lia. Qed.
Lemma a2_index : forall x y b, (reg_a_prime_prime x y + b - START_A_PRIME_PRIME = x * 10 + (y * 2 + b))%nat.
Proof. intros. unfold reg_a_prime_prime. lia. Qed.

Section Row.
  Variable r0 : row.
  Variable k : nat.
  Hypothesis HK : (k < 24)%nat.
  Hypothesis FLAGS : idle r0.
  Hypothesis WORDS : forall x y, (x < 5)%nat -> (y < 5)%nat -> 0 <= r0 (reg_a x y) < 2^32 /\ 0 <= r0 (reg_a x y + 1)%nat < 2^32.
  Hypothesis CAN0 : forall c, canonical (r0 c).

  (** The row after each loop. *)
  Variables r1 r2 r3 r4 r5 r6 R : row.
  Hypothesis E1 : r1 = set r0 (reg_step k) 1.
  Hypothesis E2 : r2 = fill_c r1.
  Hypothesis E3 : r3 = fill_c_prime r2.
  Hypothesis E4 : r4 = fill_a_prime r3.
  Hypothesis E5 : r5 = fill_a_prime_prime r4.
  Hypothesis E6 : r6 = fill_bits r5.
  Hypothesis R_def : R = fill_output k r6.

  (** Each column keeps the value it was first given. *)
  Lemma R6 : forall c, (c < 2429)%nat -> R c = r6 c.
  Proof. intros c H. rewrite R_def. unfold fill_output. apply cell_same. exact H. Qed.
  Lemma R5 : forall c, (c < 2365)%nat -> R c = r5 c.
  Proof. intros c H. rewrite R6 by lia. rewrite E6. unfold fill_bits. cbv zeta. apply cell_same. exact H. Qed.
  Lemma R4 : forall c, (c < 2315)%nat -> R c = r4 c.
  Proof. intros c H. rewrite R5 by lia. rewrite E5. unfold fill_a_prime_prime. apply cell_same. exact H. Qed.
  Lemma R3 : forall c, (c < 715)%nat -> R c = r3 c.
  Proof. intros c H. rewrite R4 by lia. rewrite E4. unfold fill_a_prime. apply cell_same. exact H. Qed.
  Lemma R2 : forall c, (c < 395)%nat -> R c = r2 c.
  Proof. intros c H. rewrite R3 by lia. rewrite E3. unfold fill_c_prime. apply cell_same. exact H. Qed.
  Lemma R1 : forall c, (c < 75)%nat -> R c = r1 c.
  Proof. intros c H. rewrite R2 by lia. rewrite E2. unfold fill_c. apply cell_same. exact H. Qed.

  Lemma R_time : R K_TIMESTAMP = r0 K_TIMESTAMP.
  Proof. rewrite R1 by (unfold K_TIMESTAMP; lia). rewrite E1. apply set_neq. unfold K_TIMESTAMP, reg_step. lia. Qed.
  Lemma R_flags : at_round R k.
  Proof.
    split; [exact HK|]. intros i Hi. rewrite R1 by lia. rewrite E1. unfold reg_step. destruct (Nat.eqb_spec i k) as [->|N]; [apply set_eq|]. rewrite set_neq by exact N. apply FLAGS. exact Hi.
  Qed.
  Lemma r1_a : forall x y b, (x < 5)%nat -> (y < 5)%nat -> (b < 2)%nat -> r1 (reg_a x y + b)%nat = r0 (reg_a x y + b)%nat.
  Proof. intros x y b Hx Hy Hb. rewrite E1. apply set_neq. unfold reg_a, START_A, reg_step. lia. Qed.
  Lemma R_a : forall x y b, (x < 5)%nat -> (y < 5)%nat -> (b < 2)%nat -> R (reg_a x y + b)%nat = r0 (reg_a x y + b)%nat.
  Proof. intros x y b Hx Hy Hb. rewrite R1 by (pose proof (reg_a_lt x y Hx Hy); lia). apply r1_a; assumption. Qed.

  Let A x y z : bool := tb (lane_in r0 x y) z.
  Let C x z : bool := fold_left xorb (map (fun i => A x i z) (seq 0 5)) false.
  Let C' x z : bool := xorb (xorb (C x z) (C ((x + 4) mod 5) z)) (C ((x + 1) mod 5) ((z + 63) mod 64)).
  Let A' x y z : bool := xorb (xorb (A x y z) (C x z)) (C' x z).

  Lemma limb_bit_A : forall q x y z, (forall b, (b < 2)%nat -> q (reg_a x y + b)%nat = r0 (reg_a x y + b)%nat) -> (x < 5)%nat -> (y < 5)%nat -> (z < 64)%nat -> limb_bit q x y z = Z.b2z (A x y z).
  Proof.
    intros q x y z H Hx Hy Hz. destruct (WORDS x y Hx Hy) as [W1 W2]. unfold A. rewrite <- limb_bit_lane by assumption. unfold limb_bit. rewrite H; [reflexivity|]. clear -Hz. lia.
  Qed.

  Lemma R_c : forall x z, (x < 5)%nat -> (z < 64)%nat -> R (reg_c x z) = Z.b2z (C x z).
  Proof.
    intros x z Hx Hz. rewrite R2 by (apply reg_c_lt; assumption). rewrite E2. unfold fill_c. rewrite write_in by (rewrite xz_length; unfold reg_c; lia).
    replace (reg_c x z - START_C)%nat with (x * 64 + z)%nat by (unfold reg_c; lia). rewrite (xz_nth (fun x z => xor_cells (map (fun i => limb_bit r1 x i z) (seq 0 5)))) by assumption.
    unfold C. rewrite <- xor_cells_bits, map_map. f_equal. apply map_ext_in. intros i Hi. apply in_seq in Hi. apply limb_bit_A; try assumption; [|lia]. intros b Hb. apply r1_a; [assumption|lia|assumption].
  Qed.
  Lemma r2_c : forall x z, (x < 5)%nat -> (z < 64)%nat -> r2 (reg_c x z) = Z.b2z (C x z).
  Proof. intros x z Hx Hz. rewrite <- R2 by (apply reg_c_lt; assumption). apply R_c; assumption. Qed.
  Lemma R_c' : forall x z, (x < 5)%nat -> (z < 64)%nat -> R (reg_c_prime x z) = Z.b2z (C' x z).
  Proof.
    intros x z Hx Hz. rewrite R3 by (apply reg_c'_lt; assumption). rewrite E3. unfold fill_c_prime. rewrite write_in by (rewrite xz_length; unfold reg_c_prime; lia).
    replace (reg_c_prime x z - START_C_PRIME)%nat with (x * 64 + z)%nat by (unfold reg_c_prime; lia).
    rewrite (xz_nth (fun x z => xor_cells [r2 (reg_c x z); r2 (reg_c ((x + 4) mod 5) z); r2 (reg_c ((x + 1) mod 5) ((z + 63) mod 64))])) by assumption.
    rewrite !r2_c by (try assumption; apply m5 || apply m64). pose proof (xor_cells_bits [C x z; C ((x + 4) mod 5) z; C ((x + 1) mod 5) ((z + 63) mod 64)]%nat) as X. cbn [map fold_left] in X. rewrite X, xorb_false_l. reflexivity.
  Qed.
  Lemma R_a' : forall x y z, (x < 5)%nat -> (y < 5)%nat -> (z < 64)%nat -> R (reg_a_prime x y z) = Z.b2z (A' x y z).
  Proof.
    intros x y z Hx Hy Hz. rewrite R4 by (apply reg_a'_lt; assumption). rewrite E4. unfold fill_a_prime. rewrite write_in by (rewrite xyz_length; unfold reg_a_prime; lia).
    replace (reg_a_prime x y z - START_A_PRIME)%nat with (x * 320 + (y * 64 + z))%nat by (unfold reg_a_prime; lia). rewrite xyz_nth by assumption.
    pose proof (reg_c_lt x z Hx Hz). pose proof (reg_c'_lt x z Hx Hz). rewrite <- (R3 (reg_c x z)), <- (R3 (reg_c_prime x z)) by lia. rewrite R_c, R_c' by assumption.
    rewrite (limb_bit_A r3) by (try assumption; intros b Hb; rewrite <- R3 by (pose proof (reg_a_lt x y Hx Hy); lia); apply R_a; assumption).
    pose proof (xor_cells_bits [A x y z; C x z; C' x z]) as X. cbn [map fold_left] in X. rewrite X, xorb_false_l. reflexivity.
  Qed.
  Lemma R_b : forall x y z, (x < 5)%nat -> (y < 5)%nat -> (z < 64)%nat -> bit (R (reg_b x y z)).
  Proof. intros x y z Hx Hy Hz. unfold reg_b. cbv zeta. rewrite R_a' by (try assumption; apply m5 || apply m64). destruct (A' _ _ _); [right|left]; reflexivity. Qed.

  Lemma get_bit_R : forall x y z, (x < 5)%nat -> (y < 5)%nat -> (z < 64)%nat -> get_bit r4 x y z = a2_bit R x y z /\ bit (a2_bit R x y z).
  Proof.
    intros x y z Hx Hy Hz. unfold get_bit, a2_bit. rewrite <- (R4 (reg_b x y z)), <- (R4 (reg_b ((x + 1) mod 5) y z)), <- (R4 (reg_b ((x + 2) mod 5) y z)) by (apply reg_b_lt; try assumption; apply m5).
    destruct (R_b x y z Hx Hy Hz) as [-> | ->], (R_b ((x + 1) mod 5) y z (m5 _) Hy Hz) as [-> | ->], (R_b ((x + 2) mod 5) y z (m5 _) Hy Hz) as [-> | ->]; unfold bit; split; (reflexivity || (left; reflexivity) || (right; reflexivity)).
  Qed.
  Lemma r5_a'' : forall x y b, (x < 5)%nat -> (y < 5)%nat -> (b < 2)%nat -> r5 (reg_a_prime_prime x y + b)%nat = nth b [horner (get_bit r4 x y) 0 32; horner (get_bit r4 x y) 32 32] 0.
  Proof.
    intros x y b Hx Hy Hb. rewrite E5. unfold fill_a_prime_prime. rewrite write_in by (rewrite xy_length; apply a2_in; assumption). rewrite a2_index.
    apply (xy_nth (fun x y => horner (get_bit r4 x y) 0 32) (fun x y => horner (get_bit r4 x y) 32 32)); assumption.
  Qed.
  Lemma R_a''_get : forall x y b, (x < 5)%nat -> (y < 5)%nat -> (b < 2)%nat -> R (reg_a_prime_prime x y + b)%nat = nth b [horner (get_bit r4 x y) 0 32; horner (get_bit r4 x y) 32 32] 0.
  Proof. intros x y b Hx Hy Hb. rewrite (R5 _ (a2_lt x y b Hx Hy Hb)). apply r5_a''; assumption. Qed.
  Lemma get_horner : forall x y lo, (x < 5)%nat -> (y < 5)%nat -> (lo + 32 <= 64)%nat -> horner (get_bit r4 x y) lo 32 = horner (a2_bit R x y) lo 32.
  Proof. intros x y lo Hx Hy Hl. apply horner_ext. intros z Hz. apply get_bit_R; [exact Hx|exact Hy|clear -Hz Hl; lia]. Qed.
  Lemma R_a'' : forall x y, (x < 5)%nat -> (y < 5)%nat -> R (reg_a_prime_prime x y) = horner (a2_bit R x y) 0 32 /\ R (reg_a_prime_prime x y + 1)%nat = horner (a2_bit R x y) 32 32.
  Proof.
    intros x y Hx Hy. rewrite <- !get_horner by (assumption || (clear; lia)). split; [|rewrite (R_a''_get x y 1 Hx Hy (Nat.lt_succ_diag_r 1)); apply nth2_1].
    rewrite <- (Nat.add_0_r (reg_a_prime_prime x y)). rewrite (R_a''_get x y 0 Hx Hy (Nat.lt_0_succ 1)). apply nth2_0.
  Qed.
  Lemma R_a''_word : forall x y, (x < 5)%nat -> (y < 5)%nat -> 0 <= R (reg_a_prime_prime x y) < 2^32 /\ 0 <= R (reg_a_prime_prime x y + 1)%nat < 2^32.
  Proof.
    intros x y Hx Hy. destruct (R_a'' x y Hx Hy) as [X1 X2]. rewrite X1, X2.
    assert (V : forall z, (z < 64)%nat -> a2_bit R x y z = Z.b2z (a2_bit R x y z =? 1)) by (intros z Hz; apply bit_b2z; apply get_bit_R; assumption).
    split; apply (horner_bits (fun z => a2_bit R x y z =? 1)); intros z Hz; apply V; lia.
  Qed.

  Let alo := R (reg_a_prime_prime 0 0).
  Let ahi := R (reg_a_prime_prime 0 0 + 1)%nat.
  Lemma R_bit : forall z, (z < 64)%nat -> R (reg_a_prime_prime_0_0_bit z) = Z.b2z (tb (alo + 2^32 * ahi) z).
  Proof.
    intros z Hz. rewrite R6 by (unfold reg_a_prime_prime_0_0_bit, START_A_PRIME_PRIME_0_0_BITS; lia). rewrite E6. unfold fill_bits. cbv zeta. rewrite write_in by (rewrite map_length, seq_length; unfold reg_a_prime_prime_0_0_bit; lia).
    replace (reg_a_prime_prime_0_0_bit z - START_A_PRIME_PRIME_0_0_BITS)%nat with z by (unfold reg_a_prime_prime_0_0_bit; lia). rewrite (nth_map_seq (fun i => ((r5 (reg_a_prime_prime 0 0) + 2^32 * r5 (reg_a_prime_prime 0 0 + 1)%nat) / 2 ^ Z.of_nat i) mod 2)) by exact Hz.
    cbn [Nat.add]. rewrite bit_arith. unfold alo, ahi. rewrite (R5 (reg_a_prime_prime 0 0)), (R5 (reg_a_prime_prime 0 0 + 1)%nat) by (change (reg_a_prime_prime 0 0) with 2315%nat; lia). reflexivity.
  Qed.
  Lemma R_out : R (reg_a_prime_prime_prime 0 0) = Z.lxor alo (rc_value k mod 2^32) /\ R (reg_a_prime_prime_prime 0 0 + 1)%nat = Z.lxor ahi (rc_value k / 2^32).
  Proof.
    unfold alo, ahi. rewrite (R6 (reg_a_prime_prime 0 0)), (R6 (reg_a_prime_prime 0 0 + 1)%nat) by (change (reg_a_prime_prime 0 0) with 2315%nat; lia). rewrite R_def. unfold fill_output.
    change (reg_a_prime_prime_prime 0 0) with REG_A_PRIME_PRIME_PRIME_0_0_LO. split; rewrite write_in by (cbn [length]; lia).
    - rewrite Nat.sub_diag. reflexivity.
    - replace (REG_A_PRIME_PRIME_PRIME_0_0_LO + 1 - REG_A_PRIME_PRIME_PRIME_0_0_LO)%nat with 1%nat by lia. reflexivity.
  Qed.

  Theorem row_bits : bits_are_bits R.
  Proof.
    assert (G : forall b : bool, bit (Z.b2z b)) by (intros []; [right|left]; reflexivity). split; [|split]; intros.
    - rewrite R_c by assumption. apply G.
    - rewrite R_a' by assumption. apply G.
    - rewrite R_bit by assumption. apply G.
  Qed.

  Lemma row_head : forall c, In c (round_head R) -> snd c mod P = 0.
  Proof.
    intros c Hc. unfold round_head in Hc. rewrite !in_app_iff in Hc. destruct Hc as [Hc|[Hc|[Hc|Hc]]]; apply in_flat_map in Hc; destruct Hc as (x & Hx & Hc); apply in_flat_map in Hc; destruct Hc as (y & Hy & Hc);
      apply in_seq in Hx; apply in_seq in Hy; assert (X5 : (x < 5)%nat) by lia; clear Hx.
    - assert (Y : (y < 64)%nat) by lia. clear Hy. destruct Hc as [<-|[]]. cbn [snd]. rewrite R_c', !R_c by (try assumption; apply m5 || apply m64). unfold xor3_gen. rewrite !xor_b2z. unfold C'.
      destruct (C x y), (C ((x + 4) mod 5) y), (C ((x + 1) mod 5) ((y + 63) mod 64)); reflexivity.
    - assert (Y : (y < 5)%nat) by lia. clear Hy. destruct (WORDS x y X5 Y) as [W1 W2].
      assert (AB : forall z, (z < 64)%nat -> a_bit R x y z = Z.b2z (A x y z)).
      { intros z Hz. unfold a_bit, xor3_gen. rewrite R_a', R_c, R_c', !xor_b2z by assumption. unfold A'. f_equal. destruct (A x y z), (C x z), (C' x z); reflexivity. }
      pose proof (R_a x y 0 X5 Y ltac:(lia)) as A0. rewrite !Nat.add_0_r in A0. pose proof (R_a x y 1 X5 Y ltac:(lia)) as A1.
      destruct Hc as [<-|[<-|[]]]; cbn [snd].
      + rewrite A0, (horner_word _ 0 (r0 (reg_a x y)) W1), Z.sub_diag; [reflexivity|]. intros z Hz. cbn [Nat.add]. rewrite AB by lia. unfold A, lane_in. rewrite lane_bit by (assumption || lia). replace (z <? 32)%nat with true by lia. reflexivity.
      + rewrite A1, (horner_word _ 32 (r0 (reg_a x y + 1)%nat) W2), Z.sub_diag; [reflexivity|]. intros z Hz. rewrite AB by lia. unfold A, lane_in. rewrite lane_bit by (assumption || lia). replace (32 + z <? 32)%nat with false by lia. f_equal. f_equal. lia.
    - assert (Y : (y < 64)%nat) by lia. clear Hy. destruct Hc as [<-|[]]. cbn [snd]. unfold parity_diff. change (seq 0 5) with [0; 1; 2; 3; 4]%nat. cbn [map sum fold_right]. rewrite !R_a', R_c' by (assumption || lia).
      unfold A'. unfold C. change (seq 0 5) with [0; 1; 2; 3; 4]%nat. cbn [map fold_left]. generalize (C' x y). intros c'. destruct (A x 0 y), (A x 1 y), (A x 2 y), (A x 3 y), (A x 4 y), c'; reflexivity.
    - assert (Y : (y < 5)%nat) by lia. clear Hy. destruct (R_a'' x y X5 Y) as [X1 X2]. destruct Hc as [<-|[<-|[]]]; cbn [snd]; [rewrite X1|rewrite X2]; rewrite Z.sub_diag; reflexivity.
  Qed.

  Lemma row_tail : forall c, In c (round_tail R) -> snd c mod P = 0.
  Proof.
    destruct (R_a''_word 0 0 ltac:(lia) ltac:(lia)) as [W1 W2]. fold alo in W1. fold ahi in W2. destruct R_out as [O1 O2].
    assert (RC : 0 <= rc_value k < 2^64) by (rewrite rc_values_right by exact HK; apply round_constant64; exact HK).
    assert (RL : 0 <= rc_value k mod 2^32 < 2^32) by (apply Z.mod_pos_bound; lia).
    assert (RH : 0 <= rc_value k / 2^32 < 2^32) by (split; [apply Z.div_pos; lia|apply Z.div_lt_upper_bound; lia]).
    assert (SPL : forall z, (z < 64)%nat -> rc_bit R z = Z.b2z (if (z <? 32)%nat then tb (rc_value k mod 2^32) z else tb (rc_value k / 2^32) (z - 32))).
    { intros z Hz. rewrite (rc_bit_at R k R_flags z Hz), <- rc_values_right by exact HK. rewrite <- lane_bit by assumption. f_equal. f_equal. pose proof (Z.div_mod (rc_value k) (2^32) ltac:(lia)). lia. }
    intros c Hc. unfold round_tail in Hc. fold alo ahi in Hc. rewrite O1, O2 in Hc. destruct Hc as [<-|[<-|[<-|[<-|[]]]]]; cbn [snd].
    - rewrite (horner_word _ 0 alo W1), Z.sub_diag; [reflexivity|]. intros z Hz. cbn [Nat.add]. rewrite R_bit, lane_bit by (assumption || lia). replace (z <? 32)%nat with true by lia. reflexivity.
    - rewrite (horner_word _ 32 ahi W2), Z.sub_diag; [reflexivity|]. intros z Hz. rewrite R_bit, lane_bit by (assumption || lia). replace (32 + z <? 32)%nat with false by lia. f_equal. f_equal. lia.
    - rewrite (horner_word _ 0 (Z.lxor alo (rc_value k mod 2^32))), Z.sub_diag; [reflexivity|apply lxor_bound; lia|]. intros z Hz. cbn [Nat.add]. unfold a3_bit. rewrite R_bit, SPL, lane_bit by (assumption || lia). replace (z <? 32)%nat with true by lia.
      rewrite xor_b2z, tb_lxor. reflexivity.
    - rewrite (horner_word _ 32 (Z.lxor ahi (rc_value k / 2^32))), Z.sub_diag; [reflexivity|apply lxor_bound; lia|]. intros z Hz. unfold a3_bit. rewrite R_bit, SPL, lane_bit by (assumption || lia). replace (32 + z <? 32)%nat with false by lia.
      rewrite xor_b2z, tb_lxor. replace (32 + z - 32)%nat with z by lia. reflexivity.
  Qed.

  Theorem row_constraints : forall c, In c (eval_round R) -> snd c mod P = 0.
  Proof. intros c Hc. rewrite round_parts in Hc. apply in_app_or in Hc. destruct Hc; [apply row_head|apply row_tail]; assumption. Qed.

  Theorem row_canonical : forall c, canonical (R c).
  Proof.
    intros c. assert (G : forall b : bool, canonical (Z.b2z b)) by apply b2z_can. assert (U : forall w, 0 <= w < 2^32 -> canonical w) by (intros w Hw; unfold canonical, P; lia).
    destruct (Nat.lt_ge_cases c 75) as [L1|L1]; [|destruct (Nat.lt_ge_cases c 395) as [L2|L2]; [|destruct (Nat.lt_ge_cases c 715) as [L3|L3]; [|destruct (Nat.lt_ge_cases c 2315) as [L4|L4]; [|destruct (Nat.lt_ge_cases c 2365) as [L5|L5]; [|destruct (Nat.lt_ge_cases c 2429) as [L6|L6]]]]]].
    - rewrite R1 by exact L1. rewrite E1. unfold set. apply write_canonical; [exact CAN0|]. constructor; [apply (G true)|constructor].
    - replace c with (reg_c ((c - 75) / 64) ((c - 75) mod 64)) by (unfold reg_c, START_C; clear -L1; lia). rewrite R_c by (clear -L1 L2; lia). apply G.
    - replace c with (reg_c_prime ((c - 395) / 64) ((c - 395) mod 64)) by (unfold reg_c_prime, START_C_PRIME; clear -L2; lia). rewrite R_c' by (clear -L2 L3; lia). apply G.
    - replace c with (reg_a_prime ((c - 715) / 320) ((c - 715) mod 320 / 64) ((c - 715) mod 64)) by (unfold reg_a_prime, START_A_PRIME; clear -L3; lia). rewrite R_a' by (clear -L3 L4; lia). apply G.
    - assert (X : ((c - 2315) / 10 < 5)%nat) by (clear -L4 L5; lia). assert (Y : ((c - 2315) mod 10 / 2 < 5)%nat) by (clear -L4 L5; lia). destruct (R_a''_word _ _ X Y) as [W1 W2].
      assert (M : ((c - 2315) mod 2 = 0 \/ (c - 2315) mod 2 = 1)%nat) by (clear; lia). destruct M as [M|M].
      + replace c with (reg_a_prime_prime ((c - 2315) / 10) ((c - 2315) mod 10 / 2)) by (unfold reg_a_prime_prime, START_A_PRIME_PRIME; clear -L4 M; lia). apply U. exact W1.
      + replace c with (reg_a_prime_prime ((c - 2315) / 10) ((c - 2315) mod 10 / 2) + 1)%nat by (unfold reg_a_prime_prime, START_A_PRIME_PRIME; clear -L4 M; lia). apply U. exact W2.
    - replace c with (reg_a_prime_prime_0_0_bit (c - 2365)) by (unfold reg_a_prime_prime_0_0_bit, START_A_PRIME_PRIME_0_0_BITS; lia). rewrite R_bit by lia. apply G.
    - destruct R_out as [O1 O2]. destruct (R_a''_word 0 0 ltac:(lia) ltac:(lia)) as [W1 W2]. fold alo in W1. fold ahi in W2.
      assert (RC : 0 <= rc_value k < 2^64) by (rewrite rc_values_right by exact HK; apply round_constant64; exact HK).
      rewrite R_def in *. unfold fill_output in *. change (reg_a_prime_prime_prime 0 0) with REG_A_PRIME_PRIME_PRIME_0_0_LO in *.
      destruct (Nat.eq_dec c 2429) as [->|N1]; [|destruct (Nat.eq_dec c 2430) as [->|N2]].
      + change 2429%nat with REG_A_PRIME_PRIME_PRIME_0_0_LO. rewrite O1. apply U. apply lxor_bound; [lia|exact W1|apply Z.mod_pos_bound; lia].
      + change 2430%nat with (REG_A_PRIME_PRIME_PRIME_0_0_LO + 1)%nat. rewrite O2. apply U. apply lxor_bound; [lia|exact W2|]. split; [apply Z.div_pos; lia|apply Z.div_lt_upper_bound; lia].
      + rewrite write_out by (right; cbn [length]; unfold REG_A_PRIME_PRIME_PRIME_0_0_LO; lia).
        rewrite E6. unfold fill_bits. cbv zeta. rewrite write_out by (right; rewrite map_length, seq_length; unfold START_A_PRIME_PRIME_0_0_BITS; lia). rewrite E5. unfold fill_a_prime_prime. rewrite write_out by (right; rewrite xy_length; unfold START_A_PRIME_PRIME; lia).
        rewrite E4. unfold fill_a_prime. rewrite write_out by (right; rewrite xyz_length; unfold START_A_PRIME; lia). rewrite E3. unfold fill_c_prime. rewrite write_out by (right; rewrite xz_length; unfold START_C_PRIME; lia).
        rewrite E2. unfold fill_c. rewrite write_out by (right; rewrite xz_length; unfold START_C; lia). rewrite E1. rewrite set_neq by (unfold reg_step; lia). apply CAN0.
  Qed.
  Theorem row_all : at_round R k /\ bits_are_bits R /\ (forall c, In c (eval_round R) -> snd c mod P = 0) /\ (forall c, canonical (R c)) /\
    R K_TIMESTAMP = r0 K_TIMESTAMP /\ (forall x y b, (x < 5)%nat -> (y < 5)%nat -> (b < 2)%nat -> R (reg_a x y + b)%nat = r0 (reg_a x y + b)%nat).
  Proof. exact (conj R_flags (conj row_bits (conj row_constraints (conj row_canonical (conj R_time R_a))))). Qed.
End Row.

Theorem generated_round : forall r0 k, (k < 24)%nat -> idle r0 ->
  (forall x y, (x < 5)%nat -> (y < 5)%nat -> 0 <= r0 (reg_a x y) < 2^32 /\ 0 <= r0 (reg_a x y + 1)%nat < 2^32) -> (forall c, canonical (r0 c)) ->
  exists R, R = generate_trace_row_for_round r0 k /\
    at_round R k /\ bits_are_bits R /\ (forall c, In c (eval_round R) -> snd c mod P = 0) /\ (forall c, canonical (R c)) /\
    R K_TIMESTAMP = r0 K_TIMESTAMP /\ (forall x y b, (x < 5)%nat -> (y < 5)%nat -> (b < 2)%nat -> R (reg_a x y + b)%nat = r0 (reg_a x y + b)%nat).
Proof.
  intros r0 k HK FLAGS WORDS CAN0. exists (generate_trace_row_for_round r0 k). split; [reflexivity|].
  exact (row_all r0 k HK FLAGS WORDS CAN0 _ _ _ _ _ _ _ eq_refl eq_refl eq_refl eq_refl eq_refl eq_refl eq_refl).
Qed.
