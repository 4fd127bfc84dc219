(** The Keccak permutation table: the first lane of the output is free (C86). *)
From Coq Require Import ZArith List Lia Bool Arith.
From Coq Require Import ZifyBool ZifyNat.
From Verif Require Import Stark.Field Stark.ArithModel Stark.ArithGen Stark.LogicModel Stark.MemModel Stark.MemSound Stark.Lookup
  Keccak.KeccakSpec Keccak.SpongeFacts Keccak.SpongeSound Keccak.SpongeGen Keccak.KeccakModel Keccak.KeccakFacts Keccak.KeccakSound.
Import ListNotations.
Local Open Scope Z_scope.

(** * Rows that agree *)

Lemma for_xy_ext : forall {A} (g h : nat -> nat -> list A), (forall x y, (x < 5)%nat -> (y < 5)%nat -> g x y = h x y) -> for_xy g = for_xy h.
Proof.
  intros A g h H. unfold for_xy. rewrite !flat_map_concat_map. f_equal. apply map_ext_in. intros x Hx. rewrite !flat_map_concat_map. f_equal. apply map_ext_in. intros y Hy.
  apply in_seq in Hx. apply in_seq in Hy. apply H; lia.
Qed.
Lemma for_xz_ext : forall {A} (g h : nat -> nat -> list A), (forall x z, (x < 5)%nat -> (z < 64)%nat -> g x z = h x z) -> for_xz g = for_xz h.
Proof.
  intros A g h H. unfold for_xz. rewrite !flat_map_concat_map. f_equal. apply map_ext_in. intros x Hx. rewrite !flat_map_concat_map. f_equal. apply map_ext_in. intros y Hy.
  apply in_seq in Hx. apply in_seq in Hy. apply H; lia.
Qed.
Lemma horner_ext : forall g h n lo, (forall z, (lo <= z < lo + n)%nat -> g z = h z) -> horner g lo n = horner h lo n.
Proof. intros g h n. induction n as [|n IH]; intros lo H; [reflexivity|]. rewrite !horner_S, (IH (S lo)), (H lo) by (intros; apply H; lia) || lia. reflexivity. Qed.

Lemma reg_a_lt : forall x y, (x < 5)%nat -> (y < 5)%nat -> (reg_a x y + 1 < 75)%nat.
Proof. intros x y Hx Hy. unfold reg_a, START_A. lia. Qed.
Lemma reg_c_lt : forall x z, (x < 5)%nat -> (z < 64)%nat -> (reg_c x z < 395)%nat.
Proof. intros x y Hx Hy. unfold reg_c, START_C. lia. Qed.
Lemma reg_c'_lt : forall x z, (x < 5)%nat -> (z < 64)%nat -> (reg_c_prime x z < 715)%nat.
Proof. intros x y Hx Hy. unfold reg_c_prime, START_C_PRIME. lia. Qed.
Lemma reg_a'_lt : forall x y z, (x < 5)%nat -> (y < 5)%nat -> (z < 64)%nat -> (reg_a_prime x y z < 2315)%nat.
Proof. intros x y z Hx Hy Hz. unfold reg_a_prime, START_A_PRIME. lia. Qed.
Lemma reg_b_lt : forall x y z, (x < 5)%nat -> (y < 5)%nat -> (z < 64)%nat -> (reg_b x y z < 2315)%nat.
Proof. intros x y z Hx Hy Hz. unfold reg_b. cbv zeta. apply reg_a'_lt; [apply m5|exact Hx|apply m64]. Qed.
Lemma reg_a''_lt : forall x y, (x < 5)%nat -> (y < 5)%nat -> (reg_a_prime_prime x y + 1 < 2365)%nat.
Proof. intros x y Hx Hy. unfold reg_a_prime_prime, START_A_PRIME_PRIME. lia. Qed.

Lemma any_ext : forall r r', (forall c, (c < 75)%nat -> r' c = r c) -> any_flag r' = any_flag r.
Proof. intros r r' H. unfold any_flag. f_equal. apply map_ext_in. intros i Hi. apply in_seq in Hi. apply H. unfold NUM_ROUNDS, reg_step in *. lia. Qed.

Lemma flags_ext : forall lv lv' nv nv', (forall c, (c < 75)%nat -> lv' c = lv c) -> (forall c, (c < 75)%nat -> nv' c = nv c) -> eval_round_flags lv' nv' = eval_round_flags lv nv.
Proof.
  intros lv lv' nv nv' HL HN. unfold eval_round_flags. cbv zeta. rewrite (any_ext lv lv' HL), (any_ext nv nv' HN). change (reg_step (NUM_ROUNDS - 1)) with 23%nat. unfold reg_step. rewrite (HL 23%nat), (HL 0%nat) by lia.
  apply f_equal2; [apply map_ext_in; intros i Hi; apply in_seq in Hi; unfold NUM_ROUNDS in Hi; rewrite HL by lia; reflexivity|].
  apply f_equal2; [reflexivity|]. apply f_equal2; [apply map_ext_in; intros i Hi; apply in_seq in Hi; unfold NUM_ROUNDS in Hi; rewrite HL by lia; reflexivity|].
  apply f_equal2; [|reflexivity]. apply map_ext_in. intros i Hi. apply in_seq in Hi. unfold NUM_ROUNDS in *. assert (M : ((i + 1) mod 24 < 24)%nat) by (apply Nat.mod_upper_bound; lia). rewrite HL, HN by lia. reflexivity.
Qed.

(** The constraints read inputs, flags and the timestamp of the next row. *)
Lemma next_ext : forall lv nv nv', (forall c, (c < 75)%nat -> nv' c = nv c) -> eval_keccak lv nv' = eval_keccak lv nv.
Proof.
  intros lv nv nv' H. unfold eval_keccak. rewrite (flags_ext lv lv nv nv' (fun c _ => eq_refl) H), (H K_TIMESTAMP) by (unfold K_TIMESTAMP; lia).
  apply f_equal2; [reflexivity|]. apply f_equal2; [reflexivity|]. apply f_equal2; [reflexivity|]. apply for_xy_ext. intros x y Hx Hy. pose proof (reg_a_lt x y Hx Hy). cbv zeta. rewrite !H by lia. reflexivity.
Qed.

(** The constraints on one row but for the last four. *)
Definition round_head (lv : row) : list constr :=
  for_xz (fun x z => [(All, lv (reg_c_prime x z) - xor3_gen (lv (reg_c x z)) (lv (reg_c ((x + 4) mod 5) z)) (lv (reg_c ((x + 1) mod 5) ((z + 63) mod 64))))]) ++
  for_xy (fun x y => [(All, horner (a_bit lv x y) 0 32 - lv (reg_a x y)); (All, horner (a_bit lv x y) 32 32 - lv (reg_a x y + 1)%nat)]) ++
  for_xz (fun x z => let diff := parity_diff lv x z in [(All, diff * (diff - 2) * (diff - 4))]) ++
  for_xy (fun x y => [(All, horner (a2_bit lv x y) 0 32 - lv (reg_a_prime_prime x y)); (All, horner (a2_bit lv x y) 32 32 - lv (reg_a_prime_prime x y + 1)%nat)]).
Definition round_tail (lv : row) : list constr :=
  [ (All, horner (fun z => lv (reg_a_prime_prime_0_0_bit z)) 0 32 - lv (reg_a_prime_prime 0 0));
    (All, horner (fun z => lv (reg_a_prime_prime_0_0_bit z)) 32 32 - lv (reg_a_prime_prime 0 0 + 1)%nat);
    (All, horner (a3_bit lv) 0 32 - lv (reg_a_prime_prime_prime 0 0));
    (All, horner (a3_bit lv) 32 32 - lv (reg_a_prime_prime_prime 0 0 + 1)%nat) ].
Lemma round_parts : forall lv, eval_round lv = round_head lv ++ round_tail lv.
Proof. intros lv. unfold eval_round, round_head, round_tail. rewrite <- !app_assoc. reflexivity. Qed.

Lemma head_ext : forall lv lv', (forall c, (c < 2365)%nat -> lv' c = lv c) -> round_head lv' = round_head lv.
Proof.
  intros lv lv' H. unfold round_head. apply f_equal2; [|apply f_equal2; [|apply f_equal2]].
  - apply for_xz_ext. intros x z Hx Hz. pose proof (reg_c_lt x z Hx Hz). pose proof (reg_c'_lt x z Hx Hz). pose proof (reg_c_lt ((x + 4) mod 5) z (m5 _) Hz). pose proof (reg_c_lt ((x + 1) mod 5) ((z + 63) mod 64) (m5 _) (m64 _)).
    rewrite !H by lia. reflexivity.
  - apply for_xy_ext. intros x y Hx Hy. pose proof (reg_a_lt x y Hx Hy).
    assert (E : forall z, (z < 64)%nat -> a_bit lv' x y z = a_bit lv x y z).
    { intros z Hz. unfold a_bit. pose proof (reg_a'_lt x y z Hx Hy Hz). pose proof (reg_c_lt x z Hx Hz). pose proof (reg_c'_lt x z Hx Hz). rewrite !H by lia. reflexivity. }
    rewrite (horner_ext (a_bit lv' x y) (a_bit lv x y) 32 0), (horner_ext (a_bit lv' x y) (a_bit lv x y) 32 32), !H by (intros; apply E; lia) || lia. reflexivity.
  - apply for_xz_ext. intros x z Hx Hz. assert (E : parity_diff lv' x z = parity_diff lv x z).
    { unfold parity_diff. pose proof (reg_c'_lt x z Hx Hz). f_equal; [f_equal; apply map_ext_in; intros y Hy; apply in_seq in Hy; pose proof (reg_a'_lt x y z Hx ltac:(lia) Hz)|]; apply H; lia. }
    cbv zeta. rewrite E. reflexivity.
  - apply for_xy_ext. intros x y Hx Hy. pose proof (reg_a''_lt x y Hx Hy).
    assert (E : forall z, (z < 64)%nat -> a2_bit lv' x y z = a2_bit lv x y z).
    { intros z Hz. unfold a2_bit. pose proof (reg_b_lt x y z Hx Hy Hz). pose proof (reg_b_lt ((x + 1) mod 5) y z (m5 _) Hy Hz). pose proof (reg_b_lt ((x + 2) mod 5) y z (m5 _) Hy Hz). rewrite !H by lia. reflexivity. }
    rewrite (horner_ext (a2_bit lv' x y) (a2_bit lv x y) 32 0), (horner_ext (a2_bit lv' x y) (a2_bit lv x y) 32 32), !H by (intros; apply E; lia) || lia. reflexivity.
Qed.

(** * A last round with a chosen first lane *)

Definition INV_2_4 : Z := (15 * P + 1) / 16.
Definition INV_2_32 : Z := ((2^32 - 1) * P + 1) / 2^32.

(** 64 cells that make [alo] and [ahi], and make [lo] and [hi] with the
    constant 0x8000000080008008 of the last round. *)
Definition forged_bits (alo ahi lo hi : Z) : list Z :=
  let u := ((alo + 0x80008008 - lo) * INV_2_4) mod P in
  let u' := ((ahi + 0x80000000 - hi) * INV_2_32) mod P in
  [(alo - 8 * u) mod P; 0; 0; u] ++ repeat 0 28 ++ [(ahi - 2^31 * u') mod P] ++ repeat 0 30 ++ [u'].
Definition forge (r : row) (lo hi : Z) : row :=
  write (write r START_A_PRIME_PRIME_0_0_BITS (forged_bits (r (reg_a_prime_prime 0 0)) (r (reg_a_prime_prime 0 0 + 1)%nat) lo hi)) REG_A_PRIME_PRIME_PRIME_0_0_LO [lo; hi].

Lemma forge_below : forall r lo hi c, (c < 2365)%nat -> forge r lo hi c = r c.
Proof. intros r lo hi c H. unfold forge. rewrite !write_out; [reflexivity| |]; unfold START_A_PRIME_PRIME_0_0_BITS, REG_A_PRIME_PRIME_PRIME_0_0_LO; lia. Qed.
Lemma forge_bit : forall r lo hi z, (z < 64)%nat -> forge r lo hi (reg_a_prime_prime_0_0_bit z) = nth z (forged_bits (r (reg_a_prime_prime 0 0)) (r (reg_a_prime_prime 0 0 + 1)%nat) lo hi) 0.
Proof.
  intros r lo hi z H. unfold forge, reg_a_prime_prime_0_0_bit. rewrite write_out by (unfold START_A_PRIME_PRIME_0_0_BITS, REG_A_PRIME_PRIME_PRIME_0_0_LO; lia). rewrite write_in.
  - f_equal. lia.
  - assert (L : forall a b c d, length (forged_bits a b c d) = 64%nat) by reflexivity. rewrite L. lia.
Qed.
Lemma forge_lo : forall r lo hi, forge r lo hi REG_A_PRIME_PRIME_PRIME_0_0_LO = lo.
Proof. intros. unfold forge. rewrite write_in by (cbn [length]; lia). rewrite Nat.sub_diag. reflexivity. Qed.
Lemma forge_hi : forall r lo hi, forge r lo hi (REG_A_PRIME_PRIME_PRIME_0_0_LO + 1)%nat = hi.
Proof. intros. unfold forge. rewrite write_in by (cbn [length]; lia). replace (_ + 1 - _)%nat with 1%nat by lia. reflexivity. Qed.

Lemma forge_canonical : forall r lo hi, (forall c, canonical (r c)) -> canonical lo -> canonical hi -> forall c, canonical (forge r lo hi c).
Proof.
  intros r lo hi H HL HH. unfold forge. apply write_canonical; [apply write_canonical; [exact H|]|auto].
  assert (Z0 : canonical 0) by (split; [discriminate|reflexivity]). assert (M : forall a, canonical (a mod P)) by (intros; apply Z.mod_pos_bound; reflexivity).
  unfold forged_bits. cbv zeta. assert (ZR : forall n, Forall canonical (repeat 0 n)) by (intros n; apply Forall_forall; intros x Hx; apply repeat_spec in Hx; subst; exact Z0).
  rewrite !Forall_app. split; [constructor; [apply M|constructor; [exact Z0|constructor; [exact Z0|constructor; [apply M|constructor]]]]|]. split; [apply ZR|]. split; [constructor; [apply M|constructor]|]. split; [apply ZR|constructor; [apply M|constructor]].
Qed.

Lemma solve_low : forall alo lo, let u := ((alo + 0x80008008 - lo) * INV_2_4) mod P in let v := (alo - 8 * u) mod P in
  (v + 8 * u - alo) mod P = 0 /\ (v + 8 * (1 - u) + 2^15 + 2^31 - lo) mod P = 0.
Proof.
  intros alo lo u v. assert (PP : P <> 0) by discriminate.
  assert (Ev : v = alo - 8 * u - P * ((alo - 8 * u) / P)) by (unfold v; rewrite Z.mod_eq by exact PP; reflexivity). set (q1 := (alo - 8 * u) / P) in *. clearbody q1 v.
  set (X := alo + 0x80008008 - lo) in *. assert (Eu : u = X * INV_2_4 - P * (X * INV_2_4 / P)) by (unfold u; rewrite Z.mod_eq by exact PP; reflexivity). set (q2 := X * INV_2_4 / P) in *. clearbody q2 u.
  assert (I : 16 * INV_2_4 = 15 * P + 1) by reflexivity. split.
  - rewrite Ev. replace (alo - 8 * u - P * q1 + 8 * u - alo) with ((- q1) * P) by ring. apply Z_mod_mult.
  - replace (v + 8 * (1 - u) + 2^15 + 2^31 - lo) with ((- q1 - 15 * X + 16 * q2) * P); [apply Z_mod_mult|]. rewrite Ev, Eu.
    replace (alo - 8 * (X * INV_2_4 - P * q2) - P * q1 + 8 * (1 - (X * INV_2_4 - P * q2)) + 2^15 + 2^31 - lo) with (alo + 8 + 2^15 + 2^31 - lo - X * (16 * INV_2_4) + 16 * P * q2 - P * q1) by ring.
    rewrite I. unfold X. ring.
Qed.
Lemma solve_high : forall ahi hi, let u := ((ahi + 0x80000000 - hi) * INV_2_32) mod P in let v := (ahi - 2^31 * u) mod P in
  (v + 2^31 * u - ahi) mod P = 0 /\ (v + 2^31 * (1 - u) - hi) mod P = 0.
Proof.
  intros ahi hi u v. assert (PP : P <> 0) by discriminate.
  assert (Ev : v = ahi - 2^31 * u - P * ((ahi - 2^31 * u) / P)) by (unfold v; rewrite Z.mod_eq by exact PP; reflexivity). set (q1 := (ahi - 2^31 * u) / P) in *. clearbody q1 v.
  set (X := ahi + 0x80000000 - hi) in *. assert (Eu : u = X * INV_2_32 - P * (X * INV_2_32 / P)) by (unfold u; rewrite Z.mod_eq by exact PP; reflexivity). set (q2 := X * INV_2_32 / P) in *. clearbody q2 u.
  assert (I : 2^32 * INV_2_32 = (2^32 - 1) * P + 1) by reflexivity. split.
  - rewrite Ev. replace (ahi - 2^31 * u - P * q1 + 2^31 * u - ahi) with ((- q1) * P) by ring. apply Z_mod_mult.
  - replace (v + 2^31 * (1 - u) - hi) with ((- q1 - (2^32 - 1) * X + 2^32 * q2) * P); [apply Z_mod_mult|]. rewrite Ev, Eu.
    replace (ahi - 2^31 * (X * INV_2_32 - P * q2) - P * q1 + 2^31 * (1 - (X * INV_2_32 - P * q2)) - hi) with (ahi + 2^31 - hi - X * (2^32 * INV_2_32) + 2^32 * P * q2 - P * q1) by ring.
    rewrite I. unfold X. ring.
Qed.

(** The four constraints on the first lane. *)
Lemma forge_tail : forall r lo hi e, at_round r 23 -> In e (round_tail (forge r lo hi)) -> snd e mod P = 0.
Proof.
  intros r lo hi e A I. set (r' := forge r lo hi) in *. set (alo := r (reg_a_prime_prime 0 0)). set (ahi := r (reg_a_prime_prime 0 0 + 1)%nat).
  assert (A' : at_round r' 23) by (destruct A as [K F]; split; [exact K|]; intros i Hi; unfold r'; rewrite forge_below by lia; apply F; exact Hi).
  pose proof (solve_low alo lo) as SL. pose proof (solve_high ahi hi) as SH. cbv zeta in SL, SH.
  assert (FB : forall z, (z < 64)%nat -> r' (reg_a_prime_prime_0_0_bit z) = nth z (forged_bits alo ahi lo hi) 0) by (intros; apply forge_bit; assumption).
  unfold forged_bits in FB. cbv zeta in FB. set (u := ((alo + 0x80008008 - lo) * INV_2_4) mod P) in *. set (u' := ((ahi + 0x80000000 - hi) * INV_2_32) mod P) in *.
  set (v := (alo - 8 * u) mod P) in *. set (v' := (ahi - 2^31 * u') mod P) in *. set (bits := [v; 0; 0; u] ++ repeat 0 28 ++ [v'] ++ repeat 0 30 ++ [u']) in *.
  assert (RC : forall z, (z < 64)%nat -> a3_bit r' z = xor_gen (nth z bits 0) (rc_value_bit 23 z)).
  { intros z Hz. unfold a3_bit. rewrite FB by exact Hz. rewrite (rc_bit_at r' 23 A' z Hz), constants_right by lia. reflexivity. }
  unfold round_tail in I. change (reg_a_prime_prime_prime 0 0) with REG_A_PRIME_PRIME_PRIME_0_0_LO in I.
  assert (EL : r' (reg_a_prime_prime 0 0) = alo) by (apply forge_below; change (reg_a_prime_prime 0 0) with 2315%nat; lia).
  assert (EH : r' (reg_a_prime_prime 0 0 + 1)%nat = ahi) by (apply forge_below; change (reg_a_prime_prime 0 0 + 1)%nat with 2316%nat; lia).
  rewrite EL, EH in I. unfold r' in I at 5 6. fold r' in I. 
  replace (r' REG_A_PRIME_PRIME_PRIME_0_0_LO) with lo in I by (symmetry; apply forge_lo). replace (r' (REG_A_PRIME_PRIME_PRIME_0_0_LO + 1)%nat) with hi in I by (symmetry; apply forge_hi).
  rewrite (horner_ext (fun z => r' (reg_a_prime_prime_0_0_bit z)) (fun z => nth z bits 0) 32 0), (horner_ext (fun z => r' (reg_a_prime_prime_0_0_bit z)) (fun z => nth z bits 0) 32 32) in I by (intros; apply FB; lia).
  rewrite (horner_ext (a3_bit r') (fun z => xor_gen (nth z bits 0) (rc_value_bit 23 z)) 32 0), (horner_ext (a3_bit r') (fun z => xor_gen (nth z bits 0) (rc_value_bit 23 z)) 32 32) in I by (intros; apply RC; lia).
  assert (H1 : horner (fun z => nth z bits 0) 0 32 = v + 8 * u) by (unfold bits; cbv [horner fold_right seq nth app repeat]; ring).
  assert (H2 : horner (fun z => nth z bits 0) 32 32 = v' + 2^31 * u') by (unfold bits; cbv [horner fold_right seq nth app repeat]; ring).
  assert (H3 : horner (fun z => xor_gen (nth z bits 0) (rc_value_bit 23 z)) 0 32 = v + 8 * (1 - u) + 2^15 + 2^31) by (unfold bits; cbv [horner fold_right seq nth app repeat xor_gen rc_value_bit RC_BITS]; ring).
  assert (H4 : horner (fun z => xor_gen (nth z bits 0) (rc_value_bit 23 z)) 32 32 = v' + 2^31 * (1 - u')) by (unfold bits; cbv [horner fold_right seq nth app repeat xor_gen rc_value_bit RC_BITS]; ring).
  rewrite H1, H2, H3, H4 in I. destruct I as [<-|[<-|[<-|[<-|[]]]]]; cbn [snd]; [apply SL|apply SH|apply SL|apply SH].
Qed.

Lemma forge_row : forall r nv lo hi (Q : constr -> Prop), at_round r 23 -> (forall k e, e mod P = 0 -> Q (k, e)) ->
  Forall Q (eval_keccak r nv) -> Forall Q (eval_keccak (forge r lo hi) nv).
Proof.
  intros r nv lo hi Q A QZ H. unfold eval_keccak in *. rewrite round_parts in *. rewrite !Forall_app in *. destruct H as (H1 & H2 & (H3 & _) & _).
  assert (B : forall c, (c < 2365)%nat -> forge r lo hi c = r c) by (intros; apply forge_below; assumption).
  split; [rewrite (flags_ext r (forge r lo hi) nv nv) by (intros; try reflexivity; apply B; lia); exact H1|].
  split; [rewrite (any_ext r (forge r lo hi)), !B by (intros; try apply B; unfold reg_step, NUM_ROUNDS, K_TIMESTAMP; lia); exact H2|].
  split; [split; [rewrite (head_ext r _ B); exact H3|]|].
  - apply Forall_forall. intros [k e] He. apply QZ. exact (forge_tail r lo hi (k, e) A He).
  - apply Forall_forall. intros c Hc. unfold for_xy in Hc. apply in_flat_map in Hc. destruct Hc as (x & Hx & Hc). apply in_flat_map in Hc. destruct Hc as (y & Hy & Hc).
    change (reg_step (NUM_ROUNDS - 1)) with 23%nat in Hc. assert (E : forge r lo hi 23%nat = 1) by (rewrite B by lia; destruct A as [_ F]; rewrite F by lia; reflexivity). cbv zeta in Hc. rewrite E in Hc.
    destruct Hc as [<-|[<-|[]]]; apply QZ; reflexivity.
Qed.

(** * C86: for every accepted table, any last round, any first lane *)

Definition replace_row (t : list row) (j : nat) (r : row) : list row := firstn j t ++ r :: skipn (S j) t.

Lemma replace_length : forall t j r, (j < length t)%nat -> length (replace_row t j r) = length t.
Proof. intros t j r H. unfold replace_row. rewrite app_length, firstn_length. cbn [length]. rewrite skipn_length. lia. Qed.
Lemma replace_at : forall t j r i, (j < length t)%nat -> trow_at (replace_row t j r) i = if (i =? j)%nat then r else trow_at t i.
Proof.
  intros t j r i H. unfold trow_at, replace_row. destruct (Nat.eqb_spec i j) as [->|N].
  - rewrite app_nth2 by (rewrite firstn_length; lia). rewrite firstn_length. replace (j - Nat.min j (length t))%nat with 0%nat by lia. reflexivity.
  - destruct (Nat.lt_ge_cases i j) as [L|L].
    + rewrite app_nth1 by (rewrite firstn_length; lia). rewrite <- (firstn_skipn j t) at 2. rewrite app_nth1 by (rewrite firstn_length; lia). reflexivity.
    + rewrite app_nth2 by (rewrite firstn_length; lia). rewrite firstn_length. replace (i - Nat.min j (length t))%nat with (S (i - S j)) by lia. cbn [nth].
      rewrite <- (firstn_skipn (S j) t) at 2. rewrite app_nth2 by (rewrite firstn_length; lia). rewrite firstn_length. f_equal. lia.
Qed.

Theorem C86_first_lane_refuted : forall t j lo hi, keccak_table_ok t -> (j < length t)%nat -> k_filter_outputs (trow_at t j) mod P <> 0 -> canonical lo -> canonical hi ->
  exists t', keccak_table_ok t' /\ length t' = length t /\ (forall i, i <> j -> trow_at t' i = trow_at t i) /\
    k_inputs (trow_at t' j) = k_inputs (trow_at t j) /\ k_filter_inputs (trow_at t' j) = k_filter_inputs (trow_at t j) /\ k_filter_outputs (trow_at t' j) = k_filter_outputs (trow_at t j) /\
    k_outputs (trow_at t' j) = [lo; hi] ++ skipn 2 (k_outputs (trow_at t j)).
Proof.
  intros t j lo hi OK L NZ CL CH. set (r := trow_at t j) in *. set (r' := forge r lo hi). exists (replace_row t j r').
  assert (A : at_round r 23).
  { destruct (flags_shape t OK) as (N & SH). specialize (SH j L). fold r in SH. destruct (j <? N)%nat.
    - destruct SH as [K F]. unfold k_filter_outputs, reg_step in NZ. rewrite F in NZ by lia. destruct (Nat.eqb_spec 23 (j mod 24)) as [E|E]; [|exfalso; apply NZ; reflexivity]. rewrite E. split; assumption.
    - exfalso. apply NZ. unfold k_filter_outputs, reg_step. rewrite SH by lia. reflexivity. }
  assert (B : forall c, (c < 2365)%nat -> r' c = r c) by (intros; apply forge_below; assumption).
  assert (LEN := replace_length t j r' L). assert (AT := fun i => replace_at t j r' i L).
  assert (OJ : trow_at (replace_row t j r') j = r') by (rewrite AT, Nat.eqb_refl; reflexivity). rewrite OJ.
  split; [|split; [exact LEN|split; [|split; [|split; [|split]]]]].
  - destruct OK as [HOLD CAN]. split.
    + intros i Hi. rewrite LEN in *. specialize (HOLD i Hi). unfold tnext. rewrite LEN.
      assert (NX : forall lv, eval_keccak lv (trow_at (replace_row t j r') (S i mod length t)) = eval_keccak lv (tnext t i)).
      { intros lv. rewrite AT. unfold tnext. destruct (Nat.eqb_spec (S i mod length t) j) as [E|E]; [|reflexivity]. rewrite E. fold r. apply next_ext. intros c Hc. apply B. lia. }
      rewrite NX, AT. destruct (Nat.eqb_spec i j) as [E|E]; [|exact HOLD]. subst i. fold r in HOLD. apply forge_row; [exact A| |exact HOLD]. intros k e He _. exact He.
    + assert (CR : forall c, canonical (r c)) by (intros c; apply (at_canonical t CAN)). unfold canonical_rows in *. unfold replace_row. apply Forall_app. split; [|constructor].
      * rewrite <- (firstn_skipn j t) in CAN. apply Forall_app in CAN. apply CAN.
      * apply forge_canonical; assumption.
      * rewrite <- (firstn_skipn (S j) t) in CAN. apply Forall_app in CAN. apply CAN.
  - intros i Hi. rewrite AT. apply Nat.eqb_neq in Hi. rewrite Hi. reflexivity.
  - unfold k_inputs. rewrite (B K_TIMESTAMP) by (unfold K_TIMESTAMP; lia). apply (f_equal (fun q => q ++ [r K_TIMESTAMP])). apply map_ext_in. intros i Hi. apply in_seq in Hi. apply B. unfold reg_input_limb.
    pose proof (reg_a_lt (i / 2 mod 5) (i / 2 / 5) (m5 _) ltac:(clear -Hi; lia)). assert (i mod 2 < 2)%nat by (apply Nat.mod_upper_bound; lia). lia.
  - unfold k_filter_inputs. apply B. unfold reg_step. lia.
  - unfold k_filter_outputs. apply B. unfold reg_step. lia.
  - unfold k_outputs. change (seq 0 50) with (0%nat :: 1%nat :: seq 2 48). cbn [map app skipn]. 
    change (reg_output_limb 0) with REG_A_PRIME_PRIME_PRIME_0_0_LO. change (reg_output_limb 1) with (REG_A_PRIME_PRIME_PRIME_0_0_LO + 1)%nat. unfold r' at 1 2. rewrite forge_lo, forge_hi.
    rewrite (B K_TIMESTAMP) by (unfold K_TIMESTAMP; lia). apply (f_equal (fun q => lo :: hi :: q ++ [r K_TIMESTAMP])). apply map_ext_in. intros i Hi. apply in_seq in Hi. apply B. unfold reg_output_limb, reg_a_prime_prime_prime.
    assert (E : ((i / 2) mod 5 =? 0)%nat && (i / 2 / 5 =? 0)%nat = false) by (clear -Hi; lia). rewrite E.
    pose proof (reg_a''_lt (i / 2 mod 5) (i / 2 / 5) (m5 _) ltac:(clear -Hi; lia)). assert (i mod 2 < 2)%nat by (apply Nat.mod_upper_bound; lia). lia.
Qed.
Print Assumptions C86_first_lane_refuted.
