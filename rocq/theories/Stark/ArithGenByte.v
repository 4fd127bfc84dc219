(** Trace generation satisfies the constraints: BYTE. *)
From Coq Require Import ZArith Znumtheory List Lia Bool.
From Coq Require Import ZifyBool ZifyNat.
From Verif Require Import Stark.Field Stark.ArithModel Stark.ArithSpec Stark.PolyProofs Stark.ArithSound Stark.ArithTrace Stark.ArithEmbed Stark.ArithGen.
Import ListNotations.
Local Open Scope Z_scope.

(** * Field inversion *)

Lemma egcd_spec : forall a f r0 r1 s0 s1, 0 <= r1 -> r1 < r0 -> r0 * r1 < 2 ^ Z.of_nat f ->
  (P | r0 - s0 * a) -> (P | r1 - s1 * a) -> (P | Z.gcd r0 r1 - egcd f r0 r1 s0 s1 * a).
Proof.
  intros a. induction f as [|f IH]; intros r0 r1 s0 s1 H1 H2 HF D0 D1.
  - cbn [egcd]. change (2 ^ Z.of_nat 0) with 1 in HF. assert (r1 = 0) by nia. subst r1. rewrite Z.gcd_0_r, Z.abs_eq by lia. exact D0.
  - cbn [egcd]. destruct (r1 =? 0) eqn:E.
    + assert (r1 = 0) by lia. subst r1. rewrite Z.gcd_0_r, Z.abs_eq by lia. exact D0.
    + assert (Z.gcd r0 r1 = Z.gcd r1 (r0 mod r1)) as ->.
      { rewrite (Z.gcd_comm r1), Z.gcd_mod by lia. apply Z.gcd_comm. }
      pose proof (Z.mod_pos_bound r0 r1 ltac:(lia)) as MB. pose proof (Z.div_mod r0 r1 ltac:(lia)) as DM.
      apply IH; try lia.
      * rewrite Nat2Z.inj_succ, Z.pow_succ_r in HF by lia. assert (1 <= r0 / r1) by (apply Z.div_le_lower_bound; lia). nia.
      * exact D1.
      * replace (r0 mod r1 - (s0 - r0 / r1 * s1) * a) with ((r0 - s0 * a) - (r0 / r1) * (r1 - s1 * a)) by (rewrite DM at 1; ring).
        apply Z.divide_sub_r; [exact D0|]. apply Z.divide_mul_r. exact D1.
Qed.

Lemma egcd_inverse : forall f a, 0 < a < P -> P * P <= 2 ^ Z.of_nat f -> (P | 1 - egcd f P a 0 1 * a).
Proof.
  intros f a Ha HF. pose proof (egcd_spec a f P a 0 1 ltac:(lia) ltac:(lia)) as G.
  assert (R : rel_prime a P) by (apply rel_prime_sym, prime_rel_prime; [exact P_prime|intros D; apply Z.divide_pos_le in D; lia]).
  assert (Z.gcd P a = 1) as EG by (rewrite Z.gcd_comm; apply Zgcd_1_rel_prime; exact R). rewrite EG in G.
  apply G; [nia|exists 1; lia|exists 0; lia].
Qed.

Lemma reduce_inverse : forall x a, (P | 1 - x * a) -> canonical (x mod P) /\ (a * (x mod P) - 1) mod P = 0.
Proof.
  intros x a D. split; [apply Z.mod_pos_bound; reflexivity|].
  apply Z.mod_divide; [discriminate|].
  destruct D as [k Hk]. exists (- k - a * (x / P)). pose proof (Z.div_mod x P ltac:(discriminate)) as DM.
  assert (EX : x mod P = x - P * (x / P)) by lia. rewrite EX. replace (a * (x - P * (x / P)) - 1) with (- (1 - x * a) - a * (x / P) * P) by ring.
  rewrite Hk. ring.
Qed.

Lemma try_inverse_spec : forall a, 0 < a < P -> exists i, try_inverse a = Some i /\ canonical i /\ (a * i - 1) mod P = 0.
Proof.
  intros a Ha. exists (egcd 130 P (a mod P) 0 1 mod P). split.
  - unfold try_inverse. rewrite (Z.mod_small a P) by lia. destruct (a =? 0) eqn:E; [lia|]. reflexivity.
  - rewrite (Z.mod_small a P) by lia. apply reduce_inverse. apply egcd_inverse; [exact Ha|]. vm_compute. discriminate.
Qed.

(** * The constraints from the cells *)

Lemma byte_complete : forall last (r : row) (b : nat -> bool) (large : bool),
  r IS_BYTE = 1 ->
  (forall i, (i < 5)%nat -> r (82 + i)%nat = b2z (b i)) ->
  r 18%nat = sum (map (fun i => b2z (b i) * 2 ^ Z.of_nat i) (seq 0 5)) + 32 * r 87%nat ->
  (forall i, (i < 8)%nat -> r (98 + i)%nat = if b 4%nat then r (34 + i)%nat else r (34 + (i + 8))%nat) ->
  (forall i, (i < 4)%nat -> r (98 + (i + 8))%nat = if b 3%nat then r (98 + i)%nat else r (98 + (i + 4))%nat) ->
  (forall i, (i < 2)%nat -> r (98 + (i + 12))%nat = if b 2%nat then r (98 + (i + 8))%nat else r (98 + (i + 10))%nat) ->
  r 112%nat = (if b 1%nat then r 110%nat else r 111%nat) ->
  r 88%nat = 256 * (r 112%nat mod 256) -> r 89%nat = r 112%nat / 256 ->
  r 113%nat = (if b 0%nat then r 112%nat mod 256 else r 112%nat / 256) ->
  r 90%nat = b2z large ->
  (large = false -> r 87%nat + sum (map (fun i => r (18 + i)%nat) (seq 1 15)) = 0) ->
  ((r 87%nat + sum (map (fun i => r (18 + i)%nat) (seq 1 15))) * (r 91%nat + r 92%nat * 2^16 + r 93%nat * 2^32 + r 94%nat * 2^48) - b2z large) mod P = 0 ->
  r 66%nat = (if large then 0 else r 113%nat) ->
  (forall i, (1 <= i < 16)%nat -> r (66 + i)%nat = 0) ->
  Forall (okr last) (eval_byte r).
Proof.
  intros last r b large F HB HI H3 H2 H1 H0 HLO HHI H15 HLG HL0 HINV HO HOZ.
  unfold eval_byte. cbv zeta. rewrite F.
  unfold INPUT_REGISTER_0, INPUT_REGISTER_1, OUTPUT_REGISTER, AUX_INPUT_REGISTER_0, AUX_INPUT_REGISTER_1, BYTE_LAST_LIMB_LO, BYTE_LAST_LIMB_HI,
    BYTE_IDX_DECOMP_HI, BYTE_IDX_IS_LARGE, BYTE_IDX_HI_LIMB_SUM_INV_0, BYTE_IDX_HI_LIMB_SUM_INV_1, BYTE_IDX_HI_LIMB_SUM_INV_2, BYTE_IDX_HI_LIMB_SUM_INV_3.
  apply Forall_app. split; [|apply Forall_app; split; [|apply Forall_app; split; [|apply Forall_app; split; [|apply Forall_app; split; [|apply Forall_app; split]]]]].
  - apply map_zero. intros i Hi. apply in_seq in Hi. cbn [snd]. rewrite HB by lia. destruct (b i); reflexivity.
  - constructor; [|constructor]. apply okr_z.
    assert (E : sum (map (fun i => r (82 + i)%nat * 2 ^ Z.of_nat i) (seq 0 5)) = sum (map (fun i => b2z (b i) * 2 ^ Z.of_nat i) (seq 0 5))).
    { f_equal. apply map_ext_in. intros i Hi. apply in_seq in Hi. rewrite HB by lia. reflexivity. }
    rewrite E. change (18 + 0)%nat with 18%nat. change (82 + 5)%nat with 87%nat. rewrite HI. ring.
  - apply map_zero. intros i Hi. apply in_seq in Hi. cbn [snd]. rewrite H3, (HB 4%nat) by lia. destruct (b 4%nat); cbn [b2z]; ring.
  - apply map_zero. intros i Hi. apply in_seq in Hi. cbn [snd]. rewrite H2, (HB 3%nat) by lia. destruct (b 3%nat); cbn [b2z]; ring.
  - apply map_zero. intros i Hi. apply in_seq in Hi. cbn [snd]. rewrite H1, (HB 2%nat) by lia. destruct (b 2%nat); cbn [b2z]; ring.
  - change (98 + 12)%nat with 110%nat. change (98 + 13)%nat with 111%nat. change (98 + 14)%nat with 112%nat. change (98 + 15)%nat with 113%nat.
    change (66 + 0)%nat with 66%nat.
    assert (EL : r (82 + 1)%nat * r 110%nat + (1 - r (82 + 1)%nat) * r 111%nat = r 112%nat).
    { rewrite H0, (HB 1%nat) by lia. destruct (b 1%nat); cbn [b2z]; ring. }
    rewrite EL. rewrite (HB 0%nat) by lia. rewrite HLO, HHI, H15, HLG.
    pose proof (Z.div_mod (r 112%nat) 256 ltac:(lia)) as DM.
    constructor; [apply okr_z; ring|]. constructor; [apply okr_z; lia|].
    constructor; [apply okr_z; destruct (b 0%nat); cbn [b2z]; lia|].
    constructor; [apply okr_z; destruct large; reflexivity|].
    constructor; [apply okr_z; destruct large; cbn [b2z]; [lia|rewrite HL0 by reflexivity; reflexivity]|].
    constructor; [unfold okr; cbn [fst snd]; unfold z; rewrite Z.mul_1_l; exact HINV|].
    constructor; [apply okr_z; rewrite HO, H15; destruct large; cbn [b2z]; ring|constructor].
  - apply map_zero. intros i Hi. apply in_seq in Hi. cbn [snd]. rewrite HOZ by lia. reflexivity.
Qed.

(** * The tree of limbs *)

Lemma nth_firstn_lt : forall {A} (l : list A) n i d, (i < n)%nat -> nth i (firstn n l) d = nth i l d.
Proof.
  intros A l. induction l as [|x l IH]; intros n i d H; [rewrite firstn_nil; reflexivity|].
  destruct n as [|n]; [lia|]. destruct i as [|i]; [reflexivity|]. cbn [firstn nth]. apply IH. lia.
Qed.

Lemma nth_skipn_add : forall {A} (l : list A) n i d, nth i (skipn n l) d = nth (n + i) l d.
Proof.
  intros A l. induction l as [|x l IH]; intros n i d; [rewrite skipn_nil; destruct i, (n + 0)%nat; try reflexivity; destruct (n + S i)%nat; reflexivity|].
  destruct n as [|n]; [reflexivity|]. cbn [skipn Nat.add nth]. apply IH.
Qed.

Lemma tree_level_spec : forall src idx k n, n = Nat.pow 2 k -> length src = (2 * n)%nat ->
  length (tree_level src idx k) = n /\
  forall i, (i < n)%nat -> nth i (tree_level src idx k) 0 = if bit idx (Z.of_nat k + 1) then nth i src 0 else nth (i + n) src 0.
Proof.
  intros src idx k n -> L. unfold tree_level. set (n := Nat.pow 2 k) in *. destruct (bit idx (Z.of_nat k + 1)).
  - split; [rewrite firstn_length, skipn_length; lia|]. intros i Hi. rewrite nth_firstn_lt by exact Hi. reflexivity.
  - split; [rewrite firstn_length, skipn_length; lia|]. intros i Hi. rewrite nth_firstn_lt by exact Hi. rewrite nth_skipn_add. f_equal. lia.
Qed.

Lemma Forall_firstn_skipn : forall (Q : Z -> Prop) l n m, Forall Q l -> Forall Q (firstn n (skipn m l)).
Proof.
  intros Q l n m H. rewrite <- (firstn_skipn m l) in H. apply Forall_app in H. destruct H as [_ H].
  rewrite <- (firstn_skipn n (skipn m l)) in H. apply Forall_app in H. apply H.
Qed.

(** * The low bits of the index *)

Lemma index_bits : forall x, 0 <= x ->
  x mod 2^16 = sum (map (fun i => b2z (bit x (Z.of_nat i)) * 2 ^ Z.of_nat i) (seq 0 5)) + 32 * Z.shiftr (x mod 2^16) 5.
Proof.
  intros x Hx. cbn [map seq]. unfold sum. cbn [fold_right]. rewrite Z.shiftr_div_pow2 by lia. unfold bit.
  assert (B : forall n, 0 <= n -> b2z (Z.testbit x n) = (x / 2^n) mod 2) by (intros n Hn; rewrite <- Z.testbit_spec' by lia; destruct (Z.testbit x n); reflexivity).
  rewrite !B by lia. change (2 ^ Z.of_nat 0) with 1. change (2 ^ Z.of_nat 1) with 2. change (2 ^ Z.of_nat 2) with 4. change (2 ^ Z.of_nat 3) with 8. change (2 ^ Z.of_nat 4) with 16.
  change (2^5) with 32. change (2^16) with 65536.
  rewrite Z.div_1_r. 
  assert (E1 : x / 4 = x / 2 / 2) by (rewrite Z.div_div by lia; reflexivity).
  assert (E2 : x / 8 = x / 2 / 2 / 2) by (rewrite !Z.div_div by lia; reflexivity).
  assert (E3 : x / 16 = x / 2 / 2 / 2 / 2) by (rewrite !Z.div_div by lia; reflexivity).
  rewrite E1, E2, E3.
  assert (E4 : (x mod 65536) / 32 = (x / 32) mod 2048).
  { change 65536 with (32 * 2048). rewrite Z.rem_mul_r by lia. rewrite Z.mul_comm, Z.div_add by lia. rewrite Z.div_small by (apply Z.mod_pos_bound; lia). lia. }
  assert (E5 : x mod 65536 = x mod 32 + 32 * ((x / 32) mod 2048)) by (change 65536 with (32 * 2048); apply Z.rem_mul_r; lia).
  rewrite E4, E5. assert (E6 : x / 32 = x / 2 / 2 / 2 / 2 / 2) by (rewrite !Z.div_div by lia; reflexivity).
  pose proof (Z.div_mod x 32 ltac:(lia)). rewrite E6 in *.
  pose proof (Z.div_mod x 2 ltac:(lia)). pose proof (Z.div_mod (x / 2) 2 ltac:(lia)). pose proof (Z.div_mod (x / 2 / 2) 2 ltac:(lia)).
  pose proof (Z.div_mod (x / 2 / 2 / 2) 2 ltac:(lia)). pose proof (Z.div_mod (x / 2 / 2 / 2 / 2) 2 ltac:(lia)). lia.
Qed.

(** * The generated row *)

Ltac cols := cbn [length]; unfold INPUT_REGISTER_0, INPUT_REGISTER_1, INPUT_REGISTER_2, OUTPUT_REGISTER, AUX_INPUT_REGISTER_0, AUX_INPUT_REGISTER_1, BYTE_LAST_LIMB_LO, BYTE_LAST_LIMB_HI,
    BYTE_IDX_DECOMP, BYTE_IDX_DECOMP_HI, BYTE_IDX_IS_LARGE, BYTE_IDX_HI_LIMB_SUM_INV_0, BYTE_IDX_HI_LIMB_SUM_INV_1, BYTE_IDX_HI_LIMB_SUM_INV_2, BYTE_IDX_HI_LIMB_SUM_INV_3.

Lemma limb_mod : forall x, limb (x mod 2^16).
Proof. intros x. unfold limb. change (2^16) with 65536. apply Z.mod_pos_bound. lia. Qed.

Lemma split_inverse : forall i, canonical i ->
  i = i mod 2^16 + Z.shiftr i 16 mod 2^16 * 2^16 + Z.shiftr i 32 mod 2^16 * 2^32 + Z.shiftr i 48 mod 2^16 * 2^48.
Proof.
  intros i Hi. rewrite !Z.shiftr_div_pow2 by lia. unfold canonical, P in Hi.
  change (2^32) with (65536*65536). change (2^48) with (65536*65536*65536). change (2^16) with 65536.
  assert (E1 : i / (65536 * 65536) = i / 65536 / 65536) by (rewrite Z.div_div by lia; reflexivity).
  assert (E2 : i / (65536 * 65536 * 65536) = i / 65536 / 65536 / 65536) by (rewrite !Z.div_div by lia; reflexivity).
  rewrite E1, E2.
  pose proof (Z.div_mod i 65536 ltac:(lia)). pose proof (Z.div_mod (i / 65536) 65536 ltac:(lia)). pose proof (Z.div_mod (i / 65536 / 65536) 65536 ltac:(lia)).
  rewrite (Z.mod_small (i / 65536 / 65536 / 65536)); [lia|].
  split; [repeat apply Z.div_pos; lia|]. repeat (apply Z.div_lt_upper_bound; [lia|]). lia.
Qed.

Lemma u256_nth0 : forall x, nth 0 (u256_to_array x) 0 = x mod 2^16.
Proof. intros x. unfold u256_to_array. cbn [N_LIMBS seq map nth]. change (2 ^ (16 * Z.of_nat 0)) with 1. rewrite Z.div_1_r. reflexivity. Qed.

Lemma large_index : forall x, word x ->
  let hs := Z.shiftr (x mod 2^16) 5 + sum (tl (u256_to_array x)) in
  0 <= hs < P /\ (hs = 0 <-> x < 32).
Proof.
  intros x Hx hs. pose proof (u256_limbs x) as HL. pose proof (u256_val x Hx) as HV. pose proof (u256_length x) as LL. pose proof (u256_nth0 x) as N0.
  unfold hs. clear hs. destruct (u256_to_array x) as [|x0 l]; [discriminate|]. cbn [tl nth val] in *.
  apply Forall_cons_iff in HL. destruct HL as [Hx0 HL]. pose proof (sum_limbs_bound l HL) as SB. cbn [length] in LL. replace (length l) with 15%nat in SB by lia.
  rewrite Z.shiftr_div_pow2 by lia. change (2^5) with 32. rewrite <- N0 in *. unfold limb in Hx0.
  pose proof (Z.div_mod x0 32 ltac:(lia)) as DM. pose proof (Z.mod_pos_bound x0 32 ltac:(lia)).
  pose proof (val_limb_bounds l HL) as VB. unfold P. change (Z.of_nat 15) with 15 in SB.
  split; [lia|]. split.
  - intros E. assert (sum l = 0) as E0 by lia. apply sum_limbs_zero in E0; [|exact HL]. lia.
  - intros E. assert (val l = 0) as E0 by lia.
    assert (sum l = 0).
    { clear -HL E0. induction HL as [|y l Hy HL IH]; [reflexivity|]. cbn [val] in E0. pose proof (val_limb_bounds l HL). unfold limb in Hy.
      change (sum (y :: l)) with (y + sum l). rewrite IH; lia. }
    lia.
Qed.

Lemma byte_good : forall idx v, word idx -> word v ->
  good_row IS_BYTE (generate_byte (set zero_row IS_BYTE 1) idx v) idx v (evm_byte idx v).
Proof.
  intros idx v Hi Hv. destruct (op_row_set IS_BYTE ltac:(unfold IS_BYTE; lia)) as [O C].
  set (base := set zero_row IS_BYTE 1) in *. clearbody base. unfold generate_byte. cbv zeta. change N_LIMBS with 16%nat.
  set (r1 := write (write base INPUT_REGISTER_0 (u256_to_array idx)) INPUT_REGISTER_1 (u256_to_array v)).
  set (dec := map (fun i => b2z (bit idx (Z.of_nat i))) (seq 0 5) ++ [Z.shiftr (idx mod 2^16) 5]).
  set (r2 := write r1 BYTE_IDX_DECOMP dec).
  assert (Ldec : length dec = 6%nat) by reflexivity.
  assert (E87 : r2 BYTE_IDX_DECOMP_HI = Z.shiftr (idx mod 2^16) 5).
  { unfold r2. rewrite write_in by (rewrite Ldec; cbv; lia). reflexivity. }
  assert (EI : read_value 16 r2 INPUT_REGISTER_0 = u256_to_array idx).
  { unfold r2, r1. rewrite (read_write_other 16) by (rewrite Ldec; cbv; lia). rdw. reflexivity. }
  rewrite E87, EI.
  destruct (large_index idx Hi) as [HB HL]. cbv zeta in HB, HL. set (hs := Z.shiftr (idx mod 2^16) 5 + sum (tl (u256_to_array idx))) in *.
  rewrite (Z.mod_small hs P) by exact HB.
  assert (INV : exists inv, (match try_inverse hs with Some x => x | None => 1 end) = inv /\ canonical inv /\ (hs * inv - b2z (negb (hs =? 0))) mod P = 0).
  { destruct (hs =? 0) eqn:E.
    - exists 1. assert (hs = 0) as -> by lia. split; [reflexivity|]. split; [unfold canonical, P; lia|reflexivity].
    - destruct (try_inverse_spec hs ltac:(lia)) as (i & E1 & E2 & E3). exists i. rewrite E1. split; [reflexivity|]. split; [exact E2|exact E3]. }
  destruct INV as (inv & -> & Cinv & Hinv).
  set (r3 := set (set (set (set (set r2 BYTE_IDX_HI_LIMB_SUM_INV_0 (inv mod 2^16)) BYTE_IDX_HI_LIMB_SUM_INV_1 (Z.shiftr inv 16 mod 2^16))
     BYTE_IDX_HI_LIMB_SUM_INV_2 (Z.shiftr inv 32 mod 2^16)) BYTE_IDX_HI_LIMB_SUM_INV_3 (Z.shiftr inv 48 mod 2^16)) BYTE_IDX_IS_LARGE (b2z (negb (hs =? 0)))).
  assert (EV : read_value 16 r3 INPUT_REGISTER_1 = u256_to_array v).
  { unfold r3, set, r2, r1. rewrite !(read_write_other 16) by (rewrite ?Ldec; cbv; lia). rdw. reflexivity. }
  rewrite EV.
  set (l3 := tree_level (u256_to_array v) idx 3). set (l2 := tree_level l3 idx 2). set (l1 := tree_level l2 idx 1). set (l0 := tree_level l1 idx 0).
  destruct (tree_level_spec (u256_to_array v) idx 3 8 eq_refl (u256_length v)) as [L3 N3]. fold l3 in L3, N3.
  destruct (tree_level_spec l3 idx 2 4 eq_refl L3) as [L2 N2]. fold l2 in L2, N2.
  destruct (tree_level_spec l2 idx 1 2 eq_refl L2) as [L1 N1]. fold l1 in L1, N1.
  destruct (tree_level_spec l1 idx 0 1 eq_refl L1) as [L0 N0]. fold l0 in L0, N0.
  assert (F3 : Forall limb l3) by (apply Forall_firstn_skipn, u256_limbs).
  assert (F2 : Forall limb l2) by (apply Forall_firstn_skipn, F3).
  assert (F1 : Forall limb l1) by (apply Forall_firstn_skipn, F2).
  assert (F0 : Forall limb l0) by (apply Forall_firstn_skipn, F1).
  set (t := hd 0 l0).
  assert (Et : t = nth 0 l0 0) by (unfold t; destruct l0; reflexivity).
  assert (Ht : limb t) by (rewrite Et; apply nth_Forall; [exact F0|unfold limb; lia]).
  assert (Etree : Z.shiftr t 8 = t / 256) by (rewrite Z.shiftr_div_pow2 by lia; reflexivity).
  rewrite Etree. change (2^8) with 256.
  assert (Elo : Z.shiftl (t mod 256) 8 = 256 * (t mod 256)) by (rewrite Z.shiftl_mul_pow2 by lia; change (2^8) with 256; ring). rewrite Elo.
  set (o := if bit idx 0 then t mod 256 else t / 256).
  assert (Bm : 0 <= t mod 256 < 256) by (apply Z.mod_pos_bound; lia).
  assert (Bd : 0 <= t / 256 < 256) by (unfold limb in Ht; split; [apply Z.div_pos; lia|apply Z.div_lt_upper_bound; lia]).
  assert (Bo : 0 <= o < 256) by (unfold o; destruct (bit idx 0); assumption).
  set (tl4 := l3 ++ l2 ++ l1 ++ l0).
  assert (Ltl : length tl4 = 15%nat) by (unfold tl4; rewrite !app_length, L3, L2, L1, L0; reflexivity).
  set (res := if idx <? 32 then o else 0).
  assert (Hres : word res) by (unfold res, word; destruct (idx <? 32); lia).
  set (r4 := write r3 AUX_INPUT_REGISTER_1 tl4).
  set (r := write (set (set (set r4 BYTE_LAST_LIMB_LO (256 * (t mod 256))) BYTE_LAST_LIMB_HI (t / 256)) (AUX_INPUT_REGISTER_1 + 15) o) OUTPUT_REGISTER (u256_to_array res)).
  assert (O' : op_row IS_BYTE r).
  { unfold r, set, r4, r3, set, r2, r1. repeat (apply op_row_write; [cbv; lia|]). exact O. }
  assert (one : forall x, limb x -> Forall limb [x]) by (intros x Hx; repeat constructor; exact Hx || apply Hx).
  assert (Hdec : Forall limb dec).
  { unfold dec. apply Forall_app. split.
    - apply Forall_forall. intros x Hx. apply in_map_iff in Hx. destruct Hx as (i & <- & _). unfold limb. destruct (bit idx (Z.of_nat i)); cbn; lia.
    - apply one. pose proof (limb_mod idx) as G. unfold limb in *. rewrite Z.shiftr_div_pow2 by lia. change (2^5) with 32. set (y := idx mod 2^16) in *. clearbody y. split; [apply Z.div_pos; lia|apply Z.div_lt_upper_bound; lia]. }
  assert (C' : cells_ok r).
  { unfold r, set, r4, r3, set, r2, r1. repeat (apply write_cells; [|first [apply u256_limbs | exact Hdec | apply one, limb_mod | idtac]]); try exact C.
    - apply one. unfold limb. destruct (hs =? 0); cbn; lia.
    - unfold tl4. repeat (apply Forall_app; split); assumption.
    - apply one. unfold limb. lia.
    - apply one. unfold limb. lia.
    - apply one. unfold limb. lia. }
  assert (RI0 : read_value 16 r INPUT_REGISTER_0 = u256_to_array idx).
  { unfold r, set, r4, r3, set, r2, r1. rewrite !(read_write_other 16) by (rewrite ?Ldec, ?Ltl, ?u256_length; cbv; lia). rdw. reflexivity. }
  assert (RI1 : read_value 16 r INPUT_REGISTER_1 = u256_to_array v).
  { unfold r, set, r4, r3, set, r2, r1. rewrite !(read_write_other 16) by (rewrite ?Ldec, ?Ltl, ?u256_length; cbv; lia). rdw. reflexivity. }
  assert (RO : read_value 16 r OUTPUT_REGISTER = u256_to_array res) by (unfold r; apply read_write_same, u256_length).
  assert (RD : forall i, (i < 6)%nat -> r (82 + i)%nat = nth i dec 0).
  { intros i Hi'. unfold r, set, r4, r3, set, r2. rewrite !write_out by (rewrite ?Ldec, ?Ltl, ?u256_length; cols; lia).
    rewrite write_in by (rewrite Ldec; cols; lia). f_equal. unfold BYTE_IDX_DECOMP. lia. }
  assert (RT : forall i, (i < 15)%nat -> r (98 + i)%nat = nth i tl4 0).
  { intros i Hi'. unfold r, set, r4. rewrite !write_out by (rewrite ?Ldec, ?Ltl, ?u256_length; cols; lia).
    rewrite write_in by (rewrite Ltl; cols; lia). f_equal. unfold AUX_INPUT_REGISTER_1. lia. }
  assert (T3 : forall i, (i < 8)%nat -> r (98 + i)%nat = nth i l3 0).
  { intros i Hi'. rewrite RT by lia. unfold tl4. apply app_nth1. lia. }
  assert (T2 : forall i, (i < 4)%nat -> r (98 + (i + 8))%nat = nth i l2 0).
  { intros i Hi'. rewrite RT by lia. unfold tl4. rewrite app_nth2 by lia. rewrite app_nth1 by lia. f_equal. lia. }
  assert (T1 : forall i, (i < 2)%nat -> r (98 + (i + 12))%nat = nth i l1 0).
  { intros i Hi'. rewrite RT by lia. unfold tl4. rewrite !app_nth2 by lia. rewrite app_nth1 by lia. f_equal. lia. }
  assert (T0 : r 112%nat = t).
  { change 112%nat with (98 + 14)%nat. rewrite RT by lia. unfold tl4. rewrite !app_nth2 by lia. rewrite L3, L2, L1. rewrite Et. reflexivity. }
  assert (RV : forall i, (i < 16)%nat -> r (34 + i)%nat = nth i (u256_to_array v) 0).
  { intros i Hi'. rewrite <- RI1, nth_read by exact Hi'. reflexivity. }
  assert (RX : forall i, (i < 16)%nat -> r (18 + i)%nat = nth i (u256_to_array idx) 0).
  { intros i Hi'. rewrite <- RI0, nth_read by exact Hi'. reflexivity. }
  assert (RR : forall i, (i < 16)%nat -> r (66 + i)%nat = nth i (u256_to_array res) 0).
  { intros i Hi'. rewrite <- RO, nth_read by exact Hi'. reflexivity. }
  assert (X88 : r 88%nat = 256 * (t mod 256)).
  { unfold r, set. rewrite !write_out by (rewrite ?u256_length; cbv; lia). rewrite write_in by (cbv; lia). reflexivity. }
  assert (X89 : r 89%nat = t / 256).
  { unfold r, set. rewrite !write_out by (rewrite ?u256_length; cbv; lia). rewrite write_in by (cbv; lia). reflexivity. }
  assert (X113 : r 113%nat = o).
  { unfold r, set. rewrite !write_out by (rewrite ?u256_length; cbv; lia). rewrite write_in by (cbv; lia). reflexivity. }
  assert (X90 : r 90%nat = b2z (negb (hs =? 0))).
  { unfold r, set, r4, r3, set. rewrite !write_out by (rewrite ?u256_length, ?Ltl; clear; cols; lia). rewrite write_in by (cbv; lia). reflexivity. }
  assert (X91 : r 91%nat = inv mod 2^16).
  { unfold r, set, r4, r3, set. rewrite !write_out by (rewrite ?u256_length, ?Ltl; clear; cols; lia). rewrite write_in by (cbv; lia). reflexivity. }
  assert (X92 : r 92%nat = Z.shiftr inv 16 mod 2^16).
  { unfold r, set, r4, r3, set. rewrite !write_out by (rewrite ?u256_length, ?Ltl; clear; cols; lia). rewrite write_in by (cbv; lia). reflexivity. }
  assert (X93 : r 93%nat = Z.shiftr inv 32 mod 2^16).
  { unfold r, set, r4, r3, set. rewrite !write_out by (rewrite ?u256_length, ?Ltl; clear; cols; lia). rewrite write_in by (cbv; lia). reflexivity. }
  assert (X94 : r 94%nat = Z.shiftr inv 48 mod 2^16).
  { unfold r, set, r4, r3, set. rewrite !write_out by (rewrite ?u256_length, ?Ltl; clear; cols; lia). rewrite write_in by (cbv; lia). reflexivity. }
  assert (X87 : r 87%nat = Z.shiftr (idx mod 2^16) 5) by (change 87%nat with (82 + 5)%nat; rewrite RD by lia; reflexivity).
  assert (ES : r 87%nat + sum (map (fun i => r (18 + i)%nat) (seq 1 15)) = hs).
  { rewrite X87. unfold hs. f_equal. }
  clearbody r. clear r4 r3 r2 r1 E87 EI EV RT C O.
  assert (OK : forall last, Forall (okr last) (eval_byte r)).
  { intros last. apply byte_complete with (b := fun i => bit idx (Z.of_nat i)) (large := negb (hs =? 0)).
    - rewrite O' by (cbv; lia). reflexivity.
    - intros i Hi'. rewrite RD by lia. unfold dec. rewrite app_nth1 by exact Hi'. do 5 (destruct i as [|i]; [reflexivity|]). lia.
    - pose proof (RX 0%nat ltac:(lia)) as A0. cbn [Nat.add] in A0. rewrite A0, u256_nth0, X87. apply index_bits. apply Hi.
    - intros i Hi'. rewrite T3, N3 by exact Hi'. rewrite !RV by lia. reflexivity.
    - intros i Hi'. rewrite T2, N2 by exact Hi'. rewrite !T3 by lia. reflexivity.
    - intros i Hi'. rewrite T1, N1 by exact Hi'. rewrite T2 by lia. replace (i + 10)%nat with (i + 2 + 8)%nat by lia. rewrite T2 by lia. reflexivity.
    - rewrite T0, Et, (N0 0%nat) by lia. pose proof (T1 0%nat ltac:(lia)) as A0. pose proof (T1 1%nat ltac:(lia)) as A1. cbn [Nat.add] in A0, A1. rewrite A0, A1. reflexivity.
    - rewrite X88, T0. reflexivity.
    - rewrite X89, T0. reflexivity.
    - rewrite X113, T0. reflexivity.
    - exact X90.
    - rewrite ES. intros EN. destruct (hs =? 0) eqn:E; [lia|discriminate].
    - rewrite ES, X91, X92, X93, X94, <- (split_inverse inv Cinv). exact Hinv.
    - pose proof (RR 0%nat ltac:(lia)) as A0. cbn [Nat.add] in A0. rewrite A0, u256_nth0, X113. unfold res.
      destruct (idx <? 32) eqn:E1, (hs =? 0) eqn:E2; cbn [negb]; try lia.
    - intros i Hi'. rewrite RR by lia. unfold u256_to_array. change N_LIMBS with 16%nat.
      rewrite nth_indep with (d' := (fun i => (res / 2 ^ (16 * Z.of_nat i)) mod 2^16) 0%nat) by (rewrite map_length, seq_length; lia).
      rewrite (map_nth (fun i => (res / 2 ^ (16 * Z.of_nat i)) mod 2^16)), seq_nth by lia. cbn [Nat.add].
      rewrite Z.div_small; [reflexivity|]. assert (0 <= res < 256) by (unfold res; destruct (idx <? 32); lia).
      split; [lia|]. apply Z.lt_le_trans with (2^16); [change (2^16) with 65536; lia|]. apply Z.pow_le_mono_r; lia. }
  split; [exact O'|]. split; [exact C'|]. split.
  - intros last nv. rewrite eval_ops_eq. apply Forall_app6; try (others O'). apply OK.
  - assert (E0 : input0 r = idx) by (apply reg_u256; assumption). assert (E1 : input1 r = v) by (apply reg_u256; assumption).
    split; [exact E0|]. split; [exact E1|]. rewrite <- E0, <- E1. apply (byte_row r r false); [apply C'|rewrite O' by (cbv; lia); reflexivity|apply OK].
Qed.
