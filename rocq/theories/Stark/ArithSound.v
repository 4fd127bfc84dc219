(** Soundness of the arithmetic constraints. *)
From Coq Require Import ZArith Znumtheory List Lia Bool.
From Coq Require Import ZifyBool ZifyNat.
From Verif Require Import Stark.Field Stark.ArithModel Stark.ArithSpec Stark.PolyProofs.
Import ListNotations.
Local Open Scope Z_scope.

Definition z (e : Z) : Prop := e mod P = 0.

(** A constraint holds on a row that is or is not the last one. *)
Definition okr (last : bool) (c : constr) : Prop :=
  match fst c with
  | All => z (snd c)
  | Transition => last = false -> z (snd c)
  | Last => last = true -> z (snd c)
  | First => True
  end.

Definition limbs_ok (r : row) : Prop := forall c, (18 <= c < 114)%nat -> limb (r c).

Lemma z1 : ~ z 1.
Proof. unfold z. discriminate. Qed.

(** * Flags *)

Definition flagged (lv : row) (f : nat) : Prop :=
  lv f = 1 /\ forall g, In g op_flags -> g <> f -> lv g = 0.

Lemma one_hot : forall (lv : row) l f, NoDup l -> (forall g, In g l -> lv g = 0 \/ lv g = 1) ->
  sum (map lv l) <= 1 -> In f l -> lv f = 1 -> forall g, In g l -> g <> f -> lv g = 0.
Proof.
  intros lv l f ND HB HS HF H1 g Hg Hne.
  assert (NN : forall l', (forall g, In g l' -> lv g = 0 \/ lv g = 1) -> 0 <= sum (map lv l')).
  { induction l' as [|a l' IH]; intros Hb; cbn; [lia|].
    pose proof (Hb a (or_introl eq_refl)). specialize (IH (fun g H => Hb g (or_intror H))).
    unfold sum in IH. lia. }
  assert (ST : forall l', (forall g, In g l' -> lv g = 0 \/ lv g = 1) -> forall x, In x l' -> lv x <= sum (map lv l')).
  { induction l' as [|a l' IH]; intros Hb x Hx; [destruct Hx|].
    cbn. change (fold_right Z.add 0 (map lv l')) with (sum (map lv l')).
    pose proof (NN l' (fun g H => Hb g (or_intror H))).
    pose proof (Hb a (or_introl eq_refl)).
    destruct Hx as [->|Hx]; [lia|]. pose proof (IH (fun g H => Hb g (or_intror H)) x Hx). lia. }
  revert ND HB HS HF Hg. induction l as [|a l IH]; intros ND HB HS HF Hg; [destruct HF|].
  inversion ND as [|? ? Hni ND']; subst.
  cbn in HS. change (fold_right Z.add 0 (map lv l)) with (sum (map lv l)) in HS.
  pose proof (NN l (fun g H => HB g (or_intror H))).
  pose proof (HB a (or_introl eq_refl)).
  destruct HF as [->|HF]; destruct Hg as [->|Hg].
  - congruence.
  - pose proof (ST l (fun g H => HB g (or_intror H)) g Hg).
    destruct (HB g (or_intror Hg)); lia.
  - pose proof (ST l (fun g H => HB g (or_intror H)) f HF). lia.
  - apply IH; try assumption; [|lia]. intros; apply HB; right; assumption.
Qed.

Lemma flags_sound : forall lv last f, (forall c, canonical (lv c)) -> Forall (okr last) (eval_flags lv) ->
  In f op_flags -> lv f = 1 -> flagged lv f.
Proof.
  intros lv last f HC H HF H1. split; [exact H1|].
  unfold eval_flags in H. apply Forall_app in H. destruct H as [HB HS].
  assert (Bo : forall g, In g op_flags -> lv g = 0 \/ lv g = 1).
  { intros g Hg. apply bool_of_constraint; [apply HC|].
    rewrite Forall_forall in HB. specialize (HB (All, lv g * (lv g - 1))). apply HB.
    apply in_map_iff. exists (lv g). split; [reflexivity|]. apply in_map. exact Hg. }
  inversion HS as [|? ? HS1 _]; subst. cbn [okr fst snd] in HS1.
  assert (SB : 0 <= sum (map lv op_flags) <= 17).
  { assert (G : forall l, (forall g, In g l -> lv g = 0 \/ lv g = 1) -> 0 <= sum (map lv l) <= Z.of_nat (length l)).
    { induction l as [|a l IH]; intros Hb; [cbn; lia|].
      specialize (IH (fun g H => Hb g (or_intror H))). pose proof (Hb a (or_introl eq_refl)).
      cbn [map length]. change (sum (lv a :: map lv l)) with (lv a + sum (map lv l)). lia. }
    exact (G op_flags Bo). }
  set (s := sum (map lv op_flags)) in *.
  assert (S1 : s <= 1).
  { change (z (s * (s - 1))) in HS1. unfold z in HS1. apply small_zero in HS1; [nia|]. unfold P. nia. }
  intros g Hg Hne. apply (one_hot lv op_flags f); try assumption.
  apply seq_NoDup.
Qed.

(** * addcy *)

Definition limb1 (x : Z) : Prop := 0 <= x <= 65536.

Lemma limb_limb1 : forall l, Forall limb l -> Forall limb1 l.
Proof. unfold limb, limb1. intros l H. eapply Forall_impl; [|exact H]. cbn. lia. Qed.

Lemma limb1_add_hd : forall l v, 0 <= v <= 1 -> Forall limb l -> Forall limb1 (add_hd l v).
Proof.
  intros [|x l] v Hv H; [constructor|]. inversion H; subst. cbn [add_hd].
  constructor; [unfold limb, limb1 in *; lia|]. apply limb_limb1. assumption.
Qed.

Lemma carry_inverse : forall t, t = 0 \/ t = 65536 -> fmul t GOLDILOCKS_INVERSE_65536 = 0 \/ fmul t GOLDILOCKS_INVERSE_65536 = 1.
Proof. intros t [-> | ->]; [left|right]; reflexivity. Qed.

Lemma addcy_limbs_sound : forall x y w cy, length y = length x -> length w = length x ->
  Forall limb1 x -> Forall limb1 y -> Forall limb1 w -> cy = 0 \/ cy = 1 ->
  Forall (fun t => z (t * (65536 - t))) (fst (addcy_limbs x y w cy)) ->
  let c := snd (addcy_limbs x y w cy) in
  (c = 0 \/ c = 1) /\ val x + val y + cy = val w + Bn (length x) * c.
Proof.
  induction x as [|a x IH]; intros [|b y] [|d w] cy Ly Lw Hx Hy Hw Hc H; try discriminate.
  - cbn [addcy_limbs snd val length]. rewrite Bn_0. split; [exact Hc|lia].
  - cbn [length] in Ly, Lw. inversion Hx; inversion Hy; inversion Hw; subst. unfold limb1 in *.
    cbn [addcy_limbs fst snd] in H |- *. inversion H as [|? ? Ht Hr]; subst.
    assert (T : cy + a + b - d = 0 \/ cy + a + b - d = 65536).
    { set (t := cy + a + b - d) in *. assert (-65536 <= t <= 131073) by (unfold t; lia).
      apply small_zero in Ht; [nia|]. unfold P. nia. }
    set (t := cy + a + b - d) in *. 
    pose proof (carry_inverse t T) as Hc'.
    specialize (IH y w _ ltac:(lia) ltac:(lia) ltac:(assumption) ltac:(assumption) ltac:(assumption) Hc' Hr).
    destruct IH as [C V]. split; [exact C|].
    cbn [val length]. rewrite Bn_S.
    assert (E : 65536 * fmul t GOLDILOCKS_INVERSE_65536 = t) by (destruct T as [-> | ->]; reflexivity).
    unfold t in E at 2. lia.
Qed.

Lemma addcy_sound : forall last two x y w g, length x = 16%nat -> length y = 16%nat -> length w = 16%nat ->
  Forall limb1 x -> Forall limb1 y -> Forall limb1 w -> (two = true -> last = false) ->
  Forall (okr last) (eval_packed_generic_addcy 1 x y w g two) ->
  exists c, (c = 0 \/ c = 1) /\ val x + val y = val w + 2^256 * c /\ z (c - hd 0 g) /\ Forall z (tl g).
Proof.
  intros last two x y w g Lx Ly Lw Hx Hy Hw HL H.
  unfold eval_packed_generic_addcy in H.
  apply Forall_app in H. destruct H as [H1 H2].
  apply Forall_app in H2. destruct H2 as [_ H2].
  apply Forall_app in H2. destruct H2 as [H2 H3].
  assert (K : forall l (f : Z -> Z), Forall (okr last) (map (fun t => (if two then Transition else All, f t)) l) -> Forall (fun t => z (f t)) l).
  { intros l f Hl. rewrite Forall_map in Hl. eapply Forall_impl; [|exact Hl].
    intros a Ha. unfold okr in Ha. destruct two; cbn [fst snd] in Ha; [apply Ha, HL; reflexivity|exact Ha]. }
  apply (K _ (fun t => 1 * t * (65536 - t))) in H1.
  pose proof (addcy_limbs_sound x y w 0 ltac:(congruence) ltac:(congruence) Hx Hy Hw (or_introl eq_refl)) as S.
  destruct S as [C V].
  { eapply Forall_impl; [|exact H1]. intros a Ha. cbn beta in Ha. rewrite Z.mul_1_l in Ha. exact Ha. }
  exists (snd (addcy_limbs x y w 0)). split; [exact C|].
  rewrite Lx in V. change (Bn 16) with (2^256) in V. split; [lia|].
  apply (K [_] (fun t => 1 * (t - hd 0 g))) in H2. inversion H2 as [|? ? H2' _]; subst.
  rewrite Z.mul_1_l in H2'. split; [exact H2'|].
  apply (K _ (fun t => 1 * t)) in H3. eapply Forall_impl; [|exact H3].
  intros a Ha. cbn beta in Ha. rewrite Z.mul_1_l in Ha. exact Ha.
Qed.

(** With a range-checked carry register. *)
Lemma carry_register : forall g c, length g = 16%nat -> Forall limb g -> c = 0 \/ c = 1 ->
  z (c - hd 0 g) -> Forall z (tl g) -> val g = c.
Proof.
  intros [|x g] c L Hg Hc H1 H2; [discriminate|]. cbn [hd tl] in *. inversion Hg; subst.
  unfold limb in *. apply small_zero in H1; [|unfold P; lia]. cbn [val].
  rewrite val_all_zero; [lia|].
  apply zeros_of_field with (M := 65535); [reflexivity| |exact H2].
  apply limb_absle. assumption.
Qed.

  Lemma eval_addcy_eq : forall lv, eval_addcy lv = 
  eval_packed_generic_addcy (lv IS_ADD) (read_value 16 lv INPUT_REGISTER_0) (read_value 16 lv INPUT_REGISTER_1) (read_value 16 lv OUTPUT_REGISTER) (read_value 16 lv AUX_INPUT_REGISTER_0) false ++
  eval_packed_generic_addcy (lv IS_SUB) (read_value 16 lv INPUT_REGISTER_1) (read_value 16 lv OUTPUT_REGISTER) (read_value 16 lv INPUT_REGISTER_0) (read_value 16 lv AUX_INPUT_REGISTER_0) false ++
  eval_packed_generic_addcy (lv IS_LT) (read_value 16 lv INPUT_REGISTER_1) (read_value 16 lv AUX_INPUT_REGISTER_0) (read_value 16 lv INPUT_REGISTER_0) (read_value 16 lv OUTPUT_REGISTER) false ++
  eval_packed_generic_addcy (lv IS_GT) (read_value 16 lv INPUT_REGISTER_0) (read_value 16 lv AUX_INPUT_REGISTER_0) (read_value 16 lv INPUT_REGISTER_1) (read_value 16 lv OUTPUT_REGISTER) false.
  Proof. intros. reflexivity. Qed.

Section Row.
  Variables (lv nv : row) (last : bool).
  Hypothesis limbs_lv : limbs_ok lv.
  Hypothesis limbs_nv : limbs_ok nv.

  Lemma reg_limbs : forall s, (18 <= s)%nat -> (s + 16 <= 114)%nat -> Forall limb (read_value 16 lv s).
  Proof. intros s H1 H2. apply read_Forall. intros c Hc. apply limbs_lv. lia. Qed.

  Lemma reg_bounds : forall s, (18 <= s)%nat -> (s + 16 <= 114)%nat -> 0 <= reg 16 lv s < 2^256.
  Proof.
    intros s H1 H2. rewrite reg_val. pose proof (val_limb_bounds _ (reg_limbs s H1 H2)) as V.
    rewrite read_length in V. exact V.
  Qed.

  Notation R := (reg 16 lv).
  Notation in0 := (R INPUT_REGISTER_0).
  Notation in1 := (R INPUT_REGISTER_1).
  Notation in2 := (R INPUT_REGISTER_2).
  Notation out := (R OUTPUT_REGISTER).

  Ltac rl := first [apply read_length | apply limb_limb1, reg_limbs; unfold INPUT_REGISTER_0, INPUT_REGISTER_1, INPUT_REGISTER_2, OUTPUT_REGISTER, AUX_INPUT_REGISTER_0; lia].

  Lemma addcy_rows : forall sx sy sw sg,
    Forall (fun s => 18 <= s /\ s + 16 <= 114)%nat [sx; sy; sw; sg] ->
    Forall (okr last) (eval_packed_generic_addcy 1 (read_value 16 lv sx) (read_value 16 lv sy) (read_value 16 lv sw) (read_value 16 lv sg) false) ->
    (R sg = 0 \/ R sg = 1) /\ R sx + R sy = R sw + 2^256 * R sg.
  Proof.
    intros sx sy sw sg HB H. inversion HB as [|? ? [] HB1]; subst. inversion HB1 as [|? ? [] HB2]; subst.
    inversion HB2 as [|? ? [] HB3]; subst. inversion HB3 as [|? ? [] _]; subst.
    destruct (addcy_sound last false (read_value 16 lv sx) (read_value 16 lv sy) (read_value 16 lv sw) (read_value 16 lv sg))
      as (c & C & V & Z1 & Z2); try assumption; try apply read_length;
      try (apply limb_limb1, reg_limbs; assumption); [discriminate|].
    pose proof (carry_register (read_value 16 lv sg) c (read_length _ _ _) ltac:(apply reg_limbs; assumption) C Z1 Z2) as Hc.
    rewrite !reg_val. rewrite Hc. split; assumption.
  Qed.

  Ltac regs := repeat constructor; unfold INPUT_REGISTER_0, INPUT_REGISTER_1, INPUT_REGISTER_2, OUTPUT_REGISTER, AUX_INPUT_REGISTER_0; lia.
  Ltac bnd s := pose proof (reg_bounds s ltac:(unfold INPUT_REGISTER_0, INPUT_REGISTER_1, INPUT_REGISTER_2, OUTPUT_REGISTER, AUX_INPUT_REGISTER_0; lia) ltac:(unfold INPUT_REGISTER_0, INPUT_REGISTER_1, INPUT_REGISTER_2, OUTPUT_REGISTER, AUX_INPUT_REGISTER_0; lia)).

  Lemma add_row : lv IS_ADD = 1 -> Forall (okr last) (eval_addcy lv) -> out = evm_add in0 in1.
  Proof.
    intros F H. rewrite eval_addcy_eq in H. apply Forall_app in H. destruct H as [H _].
    rewrite F in H. apply addcy_rows in H; [|regs]. destruct H as [C V].
    bnd OUTPUT_REGISTER. unfold evm_add. symmetry. rewrite V.
    rewrite (Z.mul_comm (2^256)), Z.mod_add by lia. apply Z.mod_small. assumption.
  Qed.

  Lemma sub_row : lv IS_SUB = 1 -> Forall (okr last) (eval_addcy lv) -> out = evm_sub in0 in1.
  Proof.
    intros F H. rewrite eval_addcy_eq in H. apply Forall_app in H. destruct H as [_ H].
    apply Forall_app in H. destruct H as [H _].
    rewrite F in H. apply addcy_rows in H; [|regs]. destruct H as [C V].
    bnd OUTPUT_REGISTER. unfold evm_sub.
    replace (in0 - in1) with (out + (- R AUX_INPUT_REGISTER_0) * 2^256) by lia.
    rewrite Z.mod_add by lia. symmetry. apply Z.mod_small. assumption.
  Qed.

  Lemma lt_row : lv IS_LT = 1 -> Forall (okr last) (eval_addcy lv) -> out = evm_lt in0 in1.
  Proof.
    intros F H. rewrite eval_addcy_eq in H. apply Forall_app in H. destruct H as [_ H].
    apply Forall_app in H. destruct H as [_ H]. apply Forall_app in H. destruct H as [H _].
    rewrite F in H. apply addcy_rows in H; [|regs]. destruct H as [C V].
    bnd INPUT_REGISTER_0. bnd INPUT_REGISTER_1. bnd AUX_INPUT_REGISTER_0.
    unfold evm_lt. destruct (in0 <? in1) eqn:E; lia.
  Qed.

  Lemma gt_row : lv IS_GT = 1 -> Forall (okr last) (eval_addcy lv) -> out = evm_gt in0 in1.
  Proof.
    intros F H. rewrite eval_addcy_eq in H. apply Forall_app in H. destruct H as [_ H].
    apply Forall_app in H. destruct H as [_ H]. apply Forall_app in H. destruct H as [_ H].
    rewrite F in H. apply addcy_rows in H; [|regs]. destruct H as [C V].
    bnd INPUT_REGISTER_0. bnd INPUT_REGISTER_1. bnd AUX_INPUT_REGISTER_0.
    unfold evm_gt. destruct (in1 <? in0) eqn:E; lia.
  Qed.

  (** * Multiplication *)

  Lemma combine_unbias_bound : forall f lo hi M, Forall limb lo -> Forall limb hi ->
    (forall a b, limb a -> limb b -> absle M (f (a, b))) -> Forall (absle M) (map f (combine lo hi)).
  Proof.
    intros f lo hi M Hlo. revert hi. induction Hlo as [|a lo Ha Hlo IH]; intros [|b hi] Hhi Hf; try constructor.
    - inversion Hhi; subst. apply Hf; assumption.
    - inversion Hhi; subst. apply IH; assumption.
  Qed.

  Lemma all_filter_1 : forall l, Forall (okr last) (map (fun c => (All, 1 * c)) l) -> Forall z l.
  Proof.
    intros l H. rewrite Forall_map in H. eapply Forall_impl; [|exact H].
    intros a Ha. unfold okr in Ha. cbn [fst snd] in Ha. rewrite Z.mul_1_l in Ha. exact Ha.
  Qed.

  Lemma mul_sound : forall sa sb, (18 <= sa)%nat -> (sa + 16 <= 114)%nat -> (18 <= sb)%nat -> (sb + 16 <= 114)%nat ->
    Forall (okr last) (eval_packed_generic_mul lv 1 (read_value N_LIMBS lv sa) (read_value N_LIMBS lv sb)) ->
    out = evm_mul (R sa) (R sb).
  Proof.
    intros sa sb A1 A2 B1 B2 H. unfold eval_packed_generic_mul in H. apply all_filter_1 in H.
    change N_LIMBS with 16%nat in *.
    set (a := read_value 16 lv sa) in *. set (b := read_value 16 lv sb) in *.
    set (o := read_value 16 lv OUTPUT_REGISTER) in *.
    set (aux := map _ (combine _ _)) in H.
    assert (Ha : Forall limb a) by (apply reg_limbs; assumption).
    assert (Hb : Forall limb b) by (apply reg_limbs; assumption).
    assert (Ho : Forall limb o) by (apply reg_limbs; unfold OUTPUT_REGISTER; lia).
    assert (Haux : Forall (absle (2^33)) aux).
    { apply combine_unbias_bound; [apply reg_limbs; unfold MUL_AUX_INPUT_LO, AUX_INPUT_REGISTER_0; lia
        | apply reg_limbs; unfold MUL_AUX_INPUT_HI, AUX_INPUT_REGISTER_1; lia|].
      unfold limb, absle, unbias, AUX_COEFF_ABS_MAX. intros; cbn [fst snd]. lia. }
    assert (Laux : length aux = 16%nat) by (unfold aux; rewrite map_length, combine_length, !read_length; reflexivity).
    unfold pol_mul_lo, pol_adjoin_root in H. change N_LIMBS with 16%nat in H.
    assert (Lm : length (map (conv a b) (seq 0 16)) = 16%nat) by (rewrite map_length, seq_length; reflexivity).
    apply zeros_of_field with (M := 2^36 + 65535 + 65537 * 2^33) in H.
    2: reflexivity.
    2: { apply sub_assign_bound; [lia| |apply adjoin_bound; [lia|unfold absle; lia|exact Haux]].
         apply sub_assign_bound; [lia| |apply limb_absle; exact Ho].
         apply Forall_forall. intros x Hx. apply in_map_iff in Hx. destruct Hx as (k & <- & _).
         pose proof (conv_bound a b 65535 65535 k ltac:(lia) ltac:(lia) (limb_absle _ Ha) (limb_absle _ Hb)) as C.
         unfold a in C at 1. rewrite read_length in C. unfold absle in *. lia. }
    apply val_all_zero in H.
    rewrite !val_sub_assign in H by (rewrite ?sub_assign_length, ?adjoin_length, ?Lm, ?Laux; unfold o; rewrite ?read_length; lia).
    rewrite val_adjoin, Laux in H.
    destruct (val_conv_mod a b 16) as [k Hk]. rewrite Bn_16 in *.
    assert (E : R sa * R sb = out + (k + (- List.last aux 0)) * 2^256).
    { rewrite !reg_val. fold a b o. rewrite Hk. lia. }
    bnd OUTPUT_REGISTER. unfold evm_mul. rewrite E, Z.mod_add by lia. symmetry. apply Z.mod_small. assumption.
  Qed.

  (** * Modular reduction *)

  Lemma trans_filter_1 : forall l, last = false -> Forall (okr last) (map (fun c => (Transition, 1 * c)) l) -> Forall z l.
  Proof.
    intros l E H. rewrite Forall_map in H. eapply Forall_impl; [|exact H].
    intros a Ha. unfold okr in Ha. cbn [fst snd] in Ha. rewrite Z.mul_1_l in Ha. apply Ha. exact E.
  Qed.

  Lemma sum_limbs_zero : forall l, Forall limb l -> sum l = 0 -> val l = 0.
  Proof.
    intros l H. assert (N : forall l, Forall limb l -> 0 <= sum l).
    { induction 1 as [|x l' Hx Hl IH]; cbn; [lia|]. fold (sum l'). unfold limb in Hx. lia. }
    induction H as [|x l Hx H IH]; intros E; [reflexivity|].
    change (sum (x :: l)) with (x + sum l) in E. pose proof (N l H). unfold limb in Hx. cbn [val]. rewrite IH by lia. lia.
  Qed.

  Lemma sum_limbs_bound : forall l, Forall limb l -> 0 <= sum l <= 65535 * Z.of_nat (length l).
  Proof.
    induction 1 as [|x l Hx H IH]; [cbn; lia|]. unfold limb in Hx.
    change (sum (x :: l)) with (x + sum l). cbn [length]. lia.
  Qed.

  Lemma modular_sound : forall output modulus quot input d,
    last = false ->
    length output = 16%nat -> length modulus = 16%nat -> length quot = 32%nat -> (length input <= 32)%nat ->
    Forall limb output -> Forall limb modulus -> Forall (absle 65535) quot -> Forall (absle (2^37)) input ->
    lv IS_DIV + lv IS_SHR = d -> d = 0 \/ d = 1 ->
    Forall (okr last) (fst (modular_constr_poly lv nv 1 output modulus quot)) ->
    Forall (okr last) (poly_constraints (snd (modular_constr_poly lv nv 1 output modulus quot)) input 1) ->
    exists mz, (mz = 0 \/ mz = 1) /\ (mz = 1 -> val modulus = 0) /\
      val quot * (val modulus + mz) + val output = val input /\
      (d * mz = 0 -> val output < val modulus + mz).
  Proof.
    intros output modulus quot input d Hlast Lo Lm Lq Li Ho Hm Hq Hi Hd Hd01 H1 H2.
    unfold poly_constraints in H2. apply trans_filter_1 in H2; [|exact Hlast].
    unfold modular_constr_poly in H1, H2. cbv zeta in H1, H2. cbn [fst snd] in H1, H2. rewrite Hd in H1.
    change (2 * N_LIMBS)%nat with 32%nat in *. change (2 * N_LIMBS - 1)%nat with 31%nat in *.
    set (mz := nv MODULAR_MOD_IS_ZERO) in *. set (dz := nv MODULAR_DIV_DENOM_IS_ZERO) in *.
    assert (Lmz : limb mz) by (apply limbs_nv; unfold MODULAR_MOD_IS_ZERO; lia).
    assert (Ldz : limb dz) by (apply limbs_nv; unfold MODULAR_DIV_DENOM_IS_ZERO; lia).
    apply Forall_app in H1. destruct H1 as [HA H1]. apply Forall_app in H1. destruct H1 as [HR HH].
    cbn [app] in HA. apply Forall_cons_iff in HA. destruct HA as [HA1 HA]. apply Forall_cons_iff in HA. destruct HA as [HA2 HA]. apply Forall_cons_iff in HA. destruct HA as [HA3 _].
    unfold okr in HA1, HA2, HA3. cbn [fst snd] in HA1, HA2, HA3.
    specialize (HA1 Hlast). specialize (HA2 Hlast). specialize (HA3 Hlast). unfold z in HA1, HA2, HA3. rewrite !Z.mul_1_l in HA1, HA2, HA3.
    unfold limb in Lmz, Ldz.
    apply small_zero in HA1; [|unfold P; nia].
    assert (Bmz : mz = 0 \/ mz = 1) by nia. clear HA1.
    pose proof (sum_limbs_bound modulus Hm) as SB. rewrite Lm in SB.
    apply small_zero in HA2; [|unfold P; nia].
    apply small_zero in HA3; [|unfold P; nia].
    assert (Ez : mz = 1 -> val modulus = 0) by (intros E; apply sum_limbs_zero; [exact Hm|lia]).
    assert (Edz : dz = mz * d) by lia. clear HA2 HA3.
    assert (Bdz : 0 <= dz <= 1) by nia.
    assert (Nm : modulus <> []) by (intros ->; discriminate).
    assert (No : output <> []) by (intros ->; discriminate).
    (* the remainder is reduced *)
    assert (RED : d * mz = 0 -> val output < val modulus + mz).
    { intros D0. unfold check_reduced in HR. change N_LIMBS with 16%nat in HR.
      destruct (addcy_sound last true (add_hd modulus mz) (read_value 16 nv MODULAR_OUT_AUX_RED) (add_hd output dz)
        ((1 - mz * (lv IS_DIV + lv IS_SHR)) :: repeat 0 (16 - 1))) as (c & C & V & Z1 & _).
      - rewrite add_hd_length. exact Lm.
      - apply read_length.
      - rewrite add_hd_length. exact Lo.
      - apply limb1_add_hd; [lia|exact Hm].
      - apply limb_limb1. apply read_Forall. intros c Hc. apply limbs_nv. unfold MODULAR_OUT_AUX_RED in Hc. lia.
      - apply limb1_add_hd; [lia|exact Ho].
      - intros _. exact Hlast.
      - exact HR.
      - rewrite !val_add_hd in V by assumption. cbn [hd] in Z1. rewrite Hd in Z1.
        assert (c = 1). { unfold z in Z1. apply small_zero in Z1; [|unfold P]; nia. }
        assert (VB : 0 <= val (read_value 16 nv MODULAR_OUT_AUX_RED) < 2^256).
        { pose proof (val_limb_bounds (read_value 16 nv MODULAR_OUT_AUX_RED)) as VB.
          rewrite read_length in VB. apply VB. apply read_Forall. intros c' Hc. apply limbs_nv. unfold MODULAR_OUT_AUX_RED in Hc. lia. }
        lia. }
    (* the polynomial identity *)
    set (m' := add_hd modulus mz) in *.
    assert (Lm' : length m' = 16%nat) by (unfold m'; rewrite add_hd_length; exact Lm).
    assert (Hm' : Forall (absle 65536) m').
    { pose proof (limb1_add_hd modulus mz ltac:(lia) Hm) as G. fold m' in G. eapply Forall_impl; [|exact G].
      unfold limb1, absle. lia. }
    assert (Vm' : val m' = val modulus + mz) by (apply val_add_hd; exact Nm).
    set (prod := pol_mul_wide2 quot m') in *.
    assert (Lp : length prod = 47%nat) by (unfold prod, pol_mul_wide2; rewrite map_length, seq_length; reflexivity).
    assert (Hp : Forall (absle (2^37)) prod).
    { unfold prod, pol_mul_wide2. apply Forall_forall. intros x Hx. apply in_map_iff in Hx. destruct Hx as (k & <- & _).
      pose proof (conv_bound quot m' 65535 65536 k ltac:(lia) ltac:(lia) Hq Hm') as C. rewrite Lq in C. unfold absle in *. lia. }
    assert (Vp : val prod = val quot * val m').
    { unfold prod, pol_mul_wide2. apply val_conv. rewrite Lq, Lm'. cbn. lia. }
    rewrite <- (firstn_skipn 32 prod) in Vp, Hp. apply Forall_app in Hp. destruct Hp as [Hp1 Hp2].
    apply trans_filter_1 in HH; [|exact Hlast].
    apply zeros_of_field with (M := 2^37) in HH; [|reflexivity|exact Hp2].
    rewrite val_app, (val_all_zero _ HH), Z.mul_0_r, Z.add_0_r in Vp.
    assert (L32 : length (firstn 32 prod) = 32%nat) by (rewrite firstn_length; lia).
    set (aux := map _ (combine _ _)) in H2.
    assert (Haux : Forall (absle (2^33)) aux).
    { apply combine_unbias_bound.
      - apply read_Forall. intros c Hc. apply limbs_nv. unfold MODULAR_AUX_INPUT_LO in Hc. lia.
      - apply read_Forall. intros c Hc. apply limbs_nv. unfold MODULAR_AUX_INPUT_HI in Hc. lia.
      - unfold limb, absle, AUX_COEFF_ABS_MAX. intros; cbn [fst snd]. lia. }
    assert (Laux : length aux = 31%nat) by (unfold aux; rewrite map_length, combine_length, !read_length; reflexivity).
    assert (Haux' : Forall (absle (2^33)) (aux ++ [0])).
    { apply Forall_app. split; [exact Haux|]. constructor; [unfold absle; lia|constructor]. }
    assert (Laux' : length (aux ++ [0]) = 32%nat) by (rewrite app_length, Laux; reflexivity).
    apply zeros_of_field with (M := 2^37 + 65535 + 65537 * 2^33 + 2^37) in H2.
    2: reflexivity.
    2: { apply sub_assign_bound; [lia| |exact Hi].
         apply add_assign_bound; [lia| |apply adjoin_bound; [lia|unfold absle; lia|exact Haux']].
         apply add_assign_bound; [lia|exact Hp1|apply limb_absle; exact Ho]. }
    apply val_all_zero in H2. unfold pol_adjoin_root in H2. 
    rewrite val_sub_assign in H2 by (rewrite !add_assign_length, L32; exact Li).
    rewrite !val_add_assign in H2 by (rewrite ?add_assign_length, ?adjoin_length, ?L32, ?Laux', ?Lo; lia).
    rewrite val_adjoin, last_last, Vp, Vm' in H2.
    exists mz. split; [exact Bmz|]. split; [exact Ez|]. split; [lia|exact RED].
  Qed.

  Lemma reduced_unique : forall q m mz o i, mz = 0 \/ mz = 1 -> (mz = 1 -> m = 0) -> 0 <= o -> 0 <= m ->
    q * (m + mz) + o = i -> o < m + mz -> o = (if m =? 0 then 0 else i mod m).
  Proof.
    intros q m mz o i Hmz Hz Ho Hm E L. destruct (m =? 0) eqn:E0.
    - lia.
    - assert (mz = 0) by lia. subst mz. rewrite Z.add_0_r in *. symmetry in E.
      apply Z.mod_unique_pos with q; [lia|]. lia.
  Qed.

  Lemma val_pol_add : forall a b, length a = 16%nat -> length b = 16%nat -> val (pol_add a b) = val a + val b.
  Proof.
    intros a b La Lb. unfold pol_add, pol_zero. change (2 * N_LIMBS - 1)%nat with 31%nat.
    rewrite !val_add_assign by (rewrite ?add_assign_length, ?repeat_length; lia). rewrite val_zeros. lia.
  Qed.

  Lemma val_pol_sub : forall a b, length a = 16%nat -> length b = 16%nat -> val (pol_sub a b) = val a - val b.
  Proof.
    intros a b La Lb. unfold pol_sub, pol_zero. change (2 * N_LIMBS - 1)%nat with 31%nat.
    rewrite val_sub_assign by (rewrite ?add_assign_length, ?repeat_length; lia).
    rewrite val_add_assign by (rewrite ?repeat_length; lia). rewrite val_zeros. lia.
  Qed.

  Lemma zeros_bound : forall n, Forall (absle 0) (repeat 0 n).
  Proof. intros n. apply Forall_forall. intros x Hx. apply repeat_spec in Hx. subst. unfold absle. lia. Qed.

  Lemma pol_add_bound : forall a b, Forall limb a -> Forall limb b -> Forall (absle (2^37)) (pol_add a b).
  Proof.
    intros a b Ha Hb. apply absle_weaken with (0 + 65535 + 65535); [lia|]. unfold pol_add, pol_zero.
    apply add_assign_bound; [lia| |apply limb_absle; exact Hb].
    apply add_assign_bound; [lia|apply zeros_bound|apply limb_absle; exact Ha].
  Qed.

  Lemma pol_sub_bound : forall a b, Forall limb a -> Forall limb b -> Forall (absle (2^37)) (pol_sub a b).
  Proof.
    intros a b Ha Hb. apply absle_weaken with (0 + 65535 + 65535); [lia|]. unfold pol_sub, pol_zero.
    apply sub_assign_bound; [lia| |apply limb_absle; exact Hb].
    apply add_assign_bound; [lia|apply zeros_bound|apply limb_absle; exact Ha].
  Qed.

  Lemma pol_mul_wide_bound : forall a b, length a = 16%nat -> Forall limb a -> Forall limb b -> Forall (absle (2^37)) (pol_mul_wide a b).
  Proof.
    intros a b La Ha Hb. unfold pol_mul_wide. apply Forall_forall. intros x Hx. apply in_map_iff in Hx. destruct Hx as (k & <- & _).
    pose proof (conv_bound a b 65535 65535 k ltac:(lia) ltac:(lia) (limb_absle _ Ha) (limb_absle _ Hb)) as C.
    rewrite La in C. unfold absle in *. lia.
  Qed.

  Lemma val_pol_mul_wide : forall a b, length a = 16%nat -> length b = 16%nat -> val (pol_mul_wide a b) = val a * val b.
  Proof. intros a b La Lb. unfold pol_mul_wide. apply val_conv. rewrite La, Lb. cbn. lia. Qed.

  Lemma last_row : forall f l, Forall (okr last) ((Last, f) :: l) -> f = 1 -> last = false.
  Proof.
    intros f l H ->. apply Forall_cons_iff in H. destruct H as [H _]. unfold okr in H. cbn [fst snd] in H.
    destruct last; [|reflexivity]. destruct (z1 (H eq_refl)).
  Qed.

  (** The parts of [eval_modular]. *)
  Definition m_out := read_value 16 lv MODULAR_OUTPUT.
  Definition m_mod := read_value 16 lv MODULAR_MODULUS.
  Definition m_quo := read_value 32 lv MODULAR_QUO_INPUT.

  Ltac rr := apply read_Forall; intros c Hc; apply limbs_lv; unfold MODULAR_OUTPUT, MODULAR_MODULUS, MODULAR_QUO_INPUT, MODULAR_INPUT_0, MODULAR_INPUT_1,
    INPUT_REGISTER_0, INPUT_REGISTER_1, INPUT_REGISTER_2, OUTPUT_REGISTER, AUX_INPUT_REGISTER_0, AUX_INPUT_REGISTER_DBL in Hc; lia.

  Lemma modular_row : forall input, last = false -> lv IS_DIV + lv IS_SHR = 0 ->
    (length input <= 32)%nat -> Forall (absle (2^37)) input ->
    Forall (okr last) (fst (modular_constr_poly lv nv 1 m_out m_mod m_quo)) ->
    Forall (okr last) (poly_constraints (snd (modular_constr_poly lv nv 1 m_out m_mod m_quo)) input 1) ->
    out = if in2 =? 0 then 0 else val input mod in2.
  Proof.
    intros input Hl Hd Li Hi H1 H2.
    destruct (modular_sound m_out m_mod m_quo input 0 Hl (read_length _ _ _) (read_length _ _ _) (read_length _ _ _) Li
      ltac:(unfold m_out; rr) ltac:(unfold m_mod; rr) ltac:(apply limb_absle; unfold m_quo; rr) Hi Hd (or_introl eq_refl) H1 H2)
      as (mz & B & Ez & E & RED).
    pose proof (reg_bounds OUTPUT_REGISTER ltac:(unfold OUTPUT_REGISTER; lia) ltac:(unfold OUTPUT_REGISTER; lia)) as BO.
    pose proof (reg_bounds INPUT_REGISTER_2 ltac:(unfold INPUT_REGISTER_2; lia) ltac:(unfold INPUT_REGISTER_2; lia)) as BM.
    rewrite !reg_val in *.
    exact (reduced_unique _ _ mz _ _ B Ez (proj1 BO) (proj1 BM) E (RED ltac:(lia))).
  Qed.

  Lemma submod_row : forall input, last = false -> lv IS_DIV + lv IS_SHR = 0 ->
    (length input <= 32)%nat -> Forall (absle (2^37)) input ->
    Forall (okr last) (fst (submod_constr_poly lv nv 1 m_out m_mod m_quo)) ->
    Forall (okr last) (poly_constraints (snd (submod_constr_poly lv nv 1 m_out m_mod m_quo)) input 1) ->
    out = if in2 =? 0 then 0 else val input mod in2.
  Proof.
    intros input Hl Hd Li Hi H1 H2. unfold submod_constr_poly in H1, H2. cbv zeta in H1, H2. cbn [fst snd] in H1, H2.
    change N_LIMBS with 16%nat in *.
    set (sign := hd 0 (skipn 16 m_quo)) in *. set (lo := map _ (firstn 16 m_quo)) in *.
    set (hi := skipn 16 m_quo) in *.
    apply Forall_cons_iff in H1. destruct H1 as [HS H1]. apply Forall_app in H1. destruct H1 as [HH H1].
    assert (Lq : length m_quo = 32%nat) by apply read_length.
    assert (Hq : Forall limb m_quo) by (unfold m_quo; rr).
    rewrite <- (firstn_skipn 16 m_quo) in Hq. apply Forall_app in Hq. destruct Hq as [Hqlo Hqhi]. fold hi in Hqhi.
    assert (Lhi : length hi = 16%nat) by (unfold hi; rewrite skipn_length; lia).
    assert (Llo : length lo = 16%nat) by (unfold lo; rewrite map_length, firstn_length; lia).
    assert (Hsign : limb sign).
    { unfold sign. destruct hi; [discriminate|]. apply Forall_cons_iff in Hqhi. tauto. }
    unfold okr, z in HS. cbn [fst snd] in HS. rewrite Z.mul_1_l in HS. unfold limb in Hsign.
    apply small_zero in HS; [|unfold P; nia]. assert (Bs : sign = 0 \/ sign = 1) by nia.
    assert (Lqq : length (lo ++ 0 :: tl hi) = 32%nat).
    { rewrite app_length. cbn [length]. destruct hi; cbn [tl length] in *; lia. }
    assert (Hqq : Forall (absle 65535) (lo ++ 0 :: tl hi)).
    { apply Forall_app. split.
      - unfold lo. apply Forall_forall. intros x Hx. apply in_map_iff in Hx. destruct Hx as (c & <- & Hc).
        rewrite Forall_forall in Hqlo. specialize (Hqlo c Hc). unfold limb in Hqlo. unfold absle. lia.
      - constructor; [unfold absle; lia|]. apply limb_absle. destruct hi; [discriminate|]. apply Forall_cons_iff in Hqhi. tauto. }
    destruct (modular_sound m_out m_mod (lo ++ 0 :: tl hi) input 0 Hl (read_length _ _ _) (read_length _ _ _) Lqq Li
      ltac:(unfold m_out; rr) ltac:(unfold m_mod; rr) Hqq Hi Hd (or_introl eq_refl) H1 H2)
      as (mz & B & Ez & E & RED).
    pose proof (reg_bounds OUTPUT_REGISTER ltac:(unfold OUTPUT_REGISTER; lia) ltac:(unfold OUTPUT_REGISTER; lia)) as BO.
    pose proof (reg_bounds INPUT_REGISTER_2 ltac:(unfold INPUT_REGISTER_2; lia) ltac:(unfold INPUT_REGISTER_2; lia)) as BM.
    rewrite !reg_val in *.
      exact (reduced_unique _ _ mz _ _ B Ez (proj1 BO) (proj1 BM) E (RED ltac:(lia))).
  Qed.

  Ltac flags HF := destruct HF as [F1 F0];
    pose proof (F0 IS_ADD); pose proof (F0 IS_MUL); pose proof (F0 IS_SUB); pose proof (F0 IS_DIV); pose proof (F0 IS_MOD);
    pose proof (F0 IS_ADDMOD); pose proof (F0 IS_MULMOD); pose proof (F0 IS_ADDFP254); pose proof (F0 IS_MULFP254);
    pose proof (F0 IS_SUBFP254); pose proof (F0 IS_SUBMOD); pose proof (F0 IS_LT); pose proof (F0 IS_GT); pose proof (F0 IS_BYTE);
    pose proof (F0 IS_SHL); pose proof (F0 IS_SHR);
    repeat match goal with
    | H : In _ op_flags -> _ <> _ -> lv _ = 0 |- _ => 
       first [ specialize (H ltac:(cbv; tauto) ltac:(discriminate)) | clear H ]
    end.

  Definition in_list (k : list Z) := Forall limb k /\ length k = 16%nat.
  Lemma r16 : forall s, (18 <= s)%nat -> (s + 16 <= 114)%nat -> in_list (read_value 16 lv s).
  Proof. intros. split; [apply reg_limbs; assumption|apply read_length]. Qed.

  Ltac parts H := unfold eval_modular in H; cbv zeta in H; change (2 * N_LIMBS)%nat with 32%nat in H; change N_LIMBS with 16%nat in H;
    fold m_out m_mod m_quo in H;
    cbn [app] in H.

  Lemma eval_modular_parts : Forall (okr last) (eval_modular lv nv) ->
    lv IS_ADDMOD + lv IS_SUBMOD + lv IS_MULMOD + (lv IS_ADDFP254 + lv IS_MULFP254 + lv IS_SUBFP254) = 1 ->
    last = false /\
    Forall (okr last) (map (fun p => (Transition, (lv IS_ADDFP254 + lv IS_MULFP254 + lv IS_SUBFP254) * (fst p - snd p))) (combine m_mod bn254_modulus_limbs)) /\
    (lv IS_SUBMOD + lv IS_SUBFP254 = 1 -> Forall (okr last) (fst (submod_constr_poly lv nv 1 m_out m_mod m_quo)) /\
       Forall (okr last) (poly_constraints (snd (submod_constr_poly lv nv 1 m_out m_mod m_quo)) (pol_sub (read_value 16 lv MODULAR_INPUT_0) (read_value 16 lv MODULAR_INPUT_1)) 1)) /\
    (lv IS_ADDMOD + lv IS_ADDFP254 + (lv IS_MULMOD + lv IS_MULFP254) = 1 ->
       Forall (okr last) (fst (modular_constr_poly lv nv 1 m_out m_mod m_quo)) /\
       (lv IS_ADDMOD + lv IS_ADDFP254 = 1 -> Forall (okr last) (poly_constraints (snd (modular_constr_poly lv nv 1 m_out m_mod m_quo)) (pol_add (read_value 16 lv MODULAR_INPUT_0) (read_value 16 lv MODULAR_INPUT_1)) 1)) /\
       (lv IS_MULMOD + lv IS_MULFP254 = 1 -> Forall (okr last) (poly_constraints (snd (modular_constr_poly lv nv 1 m_out m_mod m_quo)) (pol_mul_wide (read_value 16 lv MODULAR_INPUT_0) (read_value 16 lv MODULAR_INPUT_1)) 1))).
  Proof.
    intros H F. unfold eval_modular in H. cbv zeta in H. change (2 * N_LIMBS)%nat with 32%nat in H. change N_LIMBS with 16%nat in H.
    fold m_out m_mod m_quo in H.
    pose proof (last_row _ _ H F) as Hl. split; [exact Hl|].
    apply Forall_app in H. destruct H as [_ H]. apply Forall_app in H. destruct H as [HB H].
    apply Forall_app in H. destruct H as [HS H]. apply Forall_app in H. destruct H as [HM H].
    apply Forall_app in H. destruct H as [HPA H]. apply Forall_app in H. destruct H as [HPS HPM].
    split; [exact HB|]. split.
    - intros E. rewrite E in HS, HPS. split; assumption.
    - intros E. rewrite E in HM. split; [exact HM|].
      assert (SP : forall f, snd (modular_constr_poly lv nv f m_out m_mod m_quo) = snd (modular_constr_poly lv nv 1 m_out m_mod m_quo)) by reflexivity.
      rewrite SP in HPA, HPM. split; intros E'; [rewrite E' in HPA; exact HPA|rewrite E' in HPM; exact HPM].
  Qed.

  Lemma len31 : forall a b, (length (pol_add a b) <= 32)%nat /\ (length (pol_sub a b) <= 32)%nat /\ (length (pol_mul_wide a b) <= 32)%nat.
  Proof.
    intros. unfold pol_add, pol_sub, pol_mul_wide, pol_zero. rewrite ?sub_assign_length, ?add_assign_length, ?repeat_length, ?map_length, ?seq_length.
    cbn. lia.
  Qed.

  Lemma in_limbs : Forall limb (read_value 16 lv MODULAR_INPUT_0) /\ Forall limb (read_value 16 lv MODULAR_INPUT_1).
  Proof. split; rr. Qed.

  Lemma add_like : forall f, flagged lv f -> f = IS_ADDMOD \/ f = IS_ADDFP254 -> Forall (okr last) (eval_modular lv nv) ->
    out = evm_addmod in0 in1 in2.
  Proof.
    intros f HF Hf H. assert (G : lv IS_ADDMOD + lv IS_ADDFP254 = 1 /\ lv IS_MULMOD = 0 /\ lv IS_MULFP254 = 0 /\ lv IS_SUBMOD = 0 /\ lv IS_SUBFP254 = 0 /\ lv IS_DIV = 0 /\ lv IS_SHR = 0)
      by (destruct Hf; subst f; flags HF; lia).
    apply eval_modular_parts in H; [|lia]. destruct H as (Hl & _ & _ & H). destruct H as (H1 & H2 & _); [lia|].
    specialize (H2 ltac:(lia)). destruct in_limbs as [I0 I1].
    rewrite (modular_row (pol_add (read_value 16 lv MODULAR_INPUT_0) (read_value 16 lv MODULAR_INPUT_1)) Hl ltac:(lia) ltac:(apply len31) (pol_add_bound _ _ I0 I1) H1 H2).
    rewrite val_pol_add by apply read_length. rewrite !reg_val. reflexivity.
  Qed.

  Lemma sub_like : forall f, flagged lv f -> f = IS_SUBMOD \/ f = IS_SUBFP254 -> Forall (okr last) (eval_modular lv nv) ->
    out = kernel_submod in0 in1 in2.
  Proof.
    intros f HF Hf H. assert (G : lv IS_SUBMOD + lv IS_SUBFP254 = 1 /\ lv IS_MULMOD = 0 /\ lv IS_MULFP254 = 0 /\ lv IS_ADDMOD = 0 /\ lv IS_ADDFP254 = 0 /\ lv IS_DIV = 0 /\ lv IS_SHR = 0)
      by (destruct Hf; subst f; flags HF; lia).
    apply eval_modular_parts in H; [|lia]. destruct H as (Hl & _ & H & _). destruct H as (H1 & H2); [lia|].
    destruct in_limbs as [I0 I1].
    rewrite (submod_row (pol_sub (read_value 16 lv MODULAR_INPUT_0) (read_value 16 lv MODULAR_INPUT_1)) Hl ltac:(lia) ltac:(apply len31) (pol_sub_bound _ _ I0 I1) H1 H2).
    rewrite val_pol_sub by apply read_length. rewrite !reg_val. reflexivity.
  Qed.

  Lemma mul_like : forall f, flagged lv f -> f = IS_MULMOD \/ f = IS_MULFP254 -> Forall (okr last) (eval_modular lv nv) ->
    out = evm_mulmod in0 in1 in2.
  Proof.
    intros f HF Hf H. assert (G : lv IS_MULMOD + lv IS_MULFP254 = 1 /\ lv IS_SUBMOD = 0 /\ lv IS_SUBFP254 = 0 /\ lv IS_ADDMOD = 0 /\ lv IS_ADDFP254 = 0 /\ lv IS_DIV = 0 /\ lv IS_SHR = 0)
      by (destruct Hf; subst f; flags HF; lia).
    apply eval_modular_parts in H; [|lia]. destruct H as (Hl & _ & _ & H). destruct H as (H1 & _ & H2); [lia|].
    specialize (H2 ltac:(lia)). destruct in_limbs as [I0 I1].
    rewrite (modular_row (pol_mul_wide (read_value 16 lv MODULAR_INPUT_0) (read_value 16 lv MODULAR_INPUT_1)) Hl ltac:(lia) ltac:(apply len31) (pol_mul_wide_bound _ _ (read_length _ _ _) I0 I1) H1 H2).
    rewrite val_pol_mul_wide by apply read_length. rewrite !reg_val. reflexivity.
  Qed.

  (** The FP254 operations fix the modulus. *)
  Lemma limbs_eq : forall a b, length a = length b -> Forall limb a -> Forall limb b ->
    Forall z (map (fun p => fst p - snd p) (combine a b)) -> a = b.
  Proof.
    induction a as [|x a IH]; intros [|y b] L Ha Hb H; try discriminate; [reflexivity|].
    cbn [combine map] in H. apply Forall_cons_iff in Ha, Hb, H. cbn [fst snd] in H. unfold limb, z in *.
    destruct H as [H1 H2]. apply small_zero in H1; [|unfold P; lia]. f_equal; [lia|].
    apply IH; try tauto. cbn [length] in L. lia.
  Qed.

  Lemma fp_modulus : forall f, flagged lv f -> f = IS_ADDFP254 \/ f = IS_MULFP254 \/ f = IS_SUBFP254 ->
    Forall (okr last) (eval_modular lv nv) -> in2 = bn254_base.
  Proof.
    intros f HF Hf H. assert (G : lv IS_ADDFP254 + lv IS_MULFP254 + lv IS_SUBFP254 = 1 /\ lv IS_ADDMOD = 0 /\ lv IS_MULMOD = 0 /\ lv IS_SUBMOD = 0)
      by (destruct Hf as [Hf|[Hf|Hf]]; subst f; flags HF; lia).
    apply eval_modular_parts in H; [|lia]. destruct H as (Hl & H & _). destruct G as [G _]. rewrite G in H.
    rewrite <- (map_map (fun p : Z * Z => fst p - snd p) (fun c => (Transition, 1 * c))) in H.
    apply trans_filter_1 in H; [|exact Hl].
    apply limbs_eq in H; [|unfold m_mod; rewrite read_length; reflexivity|unfold m_mod; rr|apply u256_limbs].
    rewrite reg_val. change (read_value 16 lv INPUT_REGISTER_2) with m_mod. rewrite H.
    unfold bn254_modulus_limbs. rewrite u256_val; [reflexivity|]. unfold BN_BASE. lia.
  Qed.

  (** * Division *)

  Lemma divmod_row : forall sn sd sq sr d, Forall (fun s => 18 <= s /\ s + 16 <= 114)%nat [sn; sd; sq; sr] ->
    lv IS_DIV + lv IS_SHR = d -> d = 0 \/ d = 1 ->
    Forall (okr last) (eval_divmod_helper lv nv 1 sn sd sq sr) ->
    exists mz, (mz = 0 \/ mz = 1) /\ (mz = 1 -> R sd = 0) /\ R sq * (R sd + mz) + R sr = R sn /\ (d * mz = 0 -> R sr < R sd + mz).
  Proof.
    intros sn sd sq sr d HB Hd D01 H. unfold eval_divmod_helper in H. cbv zeta in H. change N_LIMBS with 16%nat in H.
    apply Forall_cons_iff in HB. destruct HB as [[] HB]. apply Forall_cons_iff in HB. destruct HB as [[] HB].
    apply Forall_cons_iff in HB. destruct HB as [[] HB]. apply Forall_cons_iff in HB. destruct HB as [[] _].
    pose proof (last_row _ _ H eq_refl) as Hl.
    apply Forall_app in H. destruct H as [_ H]. apply Forall_app in H. destruct H as [Hc1 Hc2].
    assert (Lz : length (read_value 16 lv sq ++ pol_zero 16) = 32%nat) by (rewrite app_length, read_length; reflexivity).
    destruct (modular_sound (read_value 16 lv sr) (read_value 16 lv sd) (read_value 16 lv sq ++ pol_zero 16) (read_value 16 lv sn) d)
      as (mz & B & Ez & E & RED); try assumption; try apply read_length; try (apply reg_limbs; assumption).
    - rewrite read_length. lia.
    - apply Forall_app. split; [apply limb_absle, reg_limbs; assumption|]. apply absle_weaken with 0; [lia|]. apply zeros_bound.
    - apply absle_weaken with 65535; [lia|]. apply limb_absle, reg_limbs; assumption.
    - exists mz. rewrite !reg_val. unfold pol_zero in E. rewrite val_app, val_zeros, Z.mul_0_r, Z.add_0_r in E.
      split; [exact B|]. split; [exact Ez|]. split; [exact E|exact RED].
  Qed.

  Lemma quotient : forall sn sd sq sr, Forall (fun s => 18 <= s /\ s + 16 <= 114)%nat [sn; sd; sq; sr] ->
    lv IS_DIV + lv IS_SHR = 1 -> Forall (okr last) (eval_divmod_helper lv nv 1 sn sd sq sr) ->
    (R sd <> 0 -> R sq = R sn / R sd) /\ (R sd = 0 -> R sq + R sr = R sn).
  Proof.
    intros sn sd sq sr HB Hd H. destruct (divmod_row _ _ _ _ 1 HB Hd (or_intror eq_refl) H) as (mz & B & Ez & E & RED).
    apply Forall_cons_iff in HB. destruct HB as [_ HB]. apply Forall_cons_iff in HB. destruct HB as [[] HB].
    apply Forall_cons_iff in HB. destruct HB as [[] HB]. apply Forall_cons_iff in HB. destruct HB as [[] _].
    pose proof (reg_bounds sr ltac:(assumption) ltac:(assumption)).
    split; intros N.
    - assert (mz = 0) by tauto. subst mz. rewrite Z.add_0_r in *. symmetry in E. rewrite Z.mul_comm in E.
      apply Z.div_unique_pos with (R sr); [lia|exact E].
    - destruct B as [-> | ->]; [|lia]. specialize (RED ltac:(lia)). lia.
  Qed.

  Lemma div_row : flagged lv IS_DIV -> Forall (okr last) (eval_divmod lv nv) ->
    (in1 <> 0 -> out = evm_div in0 in1) /\ (in1 = 0 -> out + R AUX_INPUT_REGISTER_0 = in0).
  Proof.
    intros HF H. flags HF. unfold eval_divmod in H. apply Forall_app in H. destruct H as [H _]. rewrite F1 in H.
    apply quotient in H; [|regs|lia]. destruct H as [HA HB]. split; [|exact HB].
    intros N. unfold evm_div. destruct (in1 =? 0) eqn:E; [lia|]. apply HA. exact N.
  Qed.

  Lemma shr_row : flagged lv IS_SHR -> Forall (okr last) (eval_shift lv nv) ->
    (in2 <> 0 -> out = in1 / in2) /\ (in2 = 0 -> out + R AUX_INPUT_REGISTER_0 = in1).
  Proof.
    intros HF H. flags HF. unfold eval_shift in H. apply Forall_app in H. destruct H as [_ H]. rewrite F1 in H.
    apply quotient in H; [|regs|lia]. exact H.
  Qed.

  Lemma mod_row : flagged lv IS_MOD -> Forall (okr last) (eval_divmod lv nv) -> out = evm_mod in0 in1.
  Proof.
    intros HF H. flags HF. unfold eval_divmod in H. apply Forall_app in H. destruct H as [_ H]. rewrite F1 in H.
    destruct (divmod_row INPUT_REGISTER_0 INPUT_REGISTER_1 AUX_INPUT_REGISTER_0 OUTPUT_REGISTER 0 ltac:(regs) ltac:(lia) (or_introl eq_refl) H) as (mz & B & Ez & E & RED).
    bnd OUTPUT_REGISTER. bnd INPUT_REGISTER_1.
    exact (reduced_unique (R AUX_INPUT_REGISTER_0) in1 mz out in0 B Ez ltac:(lia) ltac:(lia) E (RED ltac:(lia))).
  Qed.

  Lemma mul_row : lv IS_MUL = 1 -> Forall (okr last) (eval_mul lv) -> out = evm_mul in0 in1.
  Proof.
    intros F H. unfold eval_mul in H. rewrite F in H. apply mul_sound in H; [exact H| | | |]; unfold INPUT_REGISTER_0, INPUT_REGISTER_1; lia.
  Qed.

  Lemma shl_row : lv IS_SHL = 1 -> Forall (okr last) (eval_shift lv nv) -> out = evm_mul in1 in2.
  Proof.
    intros F H. unfold eval_shift in H. apply Forall_app in H. destruct H as [H _]. rewrite F in H.
    apply mul_sound in H; [exact H| | | |]; unfold INPUT_REGISTER_1, INPUT_REGISTER_2; lia.
  Qed.

  (** * BYTE *)

  Lemma nth_val : forall l k, Forall limb l -> nth k l 0 = (val l / Bn k) mod 65536.
  Proof.
    induction l as [|x l IH]; intros k H.
    - destruct k; cbn [nth val]; rewrite Zdiv_0_l; reflexivity.
    - apply Forall_cons_iff in H. destruct H as [Hx H]. unfold limb in Hx. destruct k as [|k]; cbn [nth val].
      + rewrite Bn_0, Z.div_1_r, Z.mul_comm, Z.mod_add by lia. symmetry. apply Z.mod_small. lia.
      + rewrite IH by exact H. rewrite Bn_S, <- Z.div_div by (try pose proof (Bn_pos k); lia).
        rewrite (Z.mul_comm 65536 (val l)), Z.div_add by lia. rewrite (Z.div_small x) by lia. reflexivity.
  Qed.

  Lemma byte_even : forall l k, Forall limb l -> (val l / 256 ^ (2 * Z.of_nat k)) mod 256 = nth k l 0 mod 256.
  Proof.
    intros l k H. rewrite nth_val by exact H. rewrite Z.pow_mul_r by lia. change (256 ^ 2) with 65536. fold (Bn k).
    change 65536 with (256 * 256). rewrite Z.rem_mul_r by lia. rewrite (Z.mul_comm 256), Z.mod_add by lia. symmetry. apply Z.mod_mod. lia.
  Qed.

  Lemma byte_odd : forall l k, Forall limb l -> (val l / 256 ^ (2 * Z.of_nat k + 1)) mod 256 = nth k l 0 / 256.
  Proof.
    intros l k H. rewrite nth_val by exact H. rewrite Z.pow_add_r, Z.pow_mul_r by lia. change (256 ^ 2) with 65536. change (256 ^ 1) with 256. fold (Bn k).
    rewrite <- Z.div_div by (pose proof (Bn_pos k); lia). change 65536 with (256 * 256) at 1. rewrite Z.rem_mul_r by lia.
    rewrite Z.mul_comm, Z.div_add by lia. rewrite (Z.div_small (_ mod 256)) by (apply Z.mod_pos_bound; lia). reflexivity.
  Qed.

  Lemma cell_bool : forall c, (18 <= c < 114)%nat -> z (lv c * lv c - lv c) -> lv c = 0 \/ lv c = 1.
  Proof.
    intros c Hc H. pose proof (limbs_lv c Hc) as L. unfold limb in L. unfold z in H. apply small_zero in H; [nia|]. unfold P. nia.
  Qed.

  Lemma mux_cell : forall b x y t, b = 0 \/ b = 1 -> limb x -> limb y -> limb t ->
    z (t - (b * x + (1 - b) * y)) -> t = if b =? 1 then x else y.
  Proof.
    unfold limb, z. intros b x y t [-> | ->] Hx Hy Ht H; cbn [Z.eqb Pos.eqb]; apply small_zero in H; try (unfold P); lia.
  Qed.

  Lemma high_limbs_zero : forall s n, (18 <= s)%nat -> (s + n <= 114)%nat -> (sum (map lv (seq s n)) = 0 <-> reg n lv s = 0) .
  Proof.
    intros s n H1 H2. rewrite reg_val. fold (read_value n lv s).
    assert (HL : Forall limb (read_value n lv s)) by (apply read_Forall; intros; apply limbs_lv; lia).
    split; [apply sum_limbs_zero; exact HL|].
    revert HL. generalize (read_value n lv s). induction l as [|x l IH]; intros HL E; [reflexivity|].
    apply Forall_cons_iff in HL. destruct HL as [Hx HL]. pose proof (val_limb_bounds l HL). unfold limb in Hx. cbn [val] in E.
    change (sum (x :: l)) with (x + sum l). rewrite IH; [lia|exact HL|lia].
  Qed.

  Lemma byte_split : forall lo hi t, limb lo -> limb hi -> limb t -> (lo + 2^8 * (2^8 * hi - t)) mod P = 0 ->
    hi = t / 256 /\ lo = 256 * (t mod 256).
  Proof.
    unfold limb. intros lo hi t Hlo Hhi Ht H. apply small_zero in H; [|unfold P; lia].
    assert (E : hi = t / 256) by (apply Z.div_unique_pos with (lo / 256); lia).
    split; [exact E|]. pose proof (Z.div_mod t 256). lia.
  Qed.

  Lemma byte_pick : forall x lo hi t t15, x = 0 \/ x = 1 -> limb t -> limb t15 -> hi = t / 256 -> lo = 256 * (t mod 256) ->
    (2^8 * t15 - (x * lo + (1 - x) * 2^8 * hi)) mod P = 0 -> t15 = if x =? 1 then t mod 256 else t / 256.
  Proof.
    unfold limb. intros x lo hi t t15 Bx Ht H15 -> -> H. pose proof (Z.mod_pos_bound t 256 ltac:(lia)).
    assert (0 <= t / 256 < 256) by (split; [apply Z.div_pos; lia|apply Z.div_lt_upper_bound; lia]).
    destruct Bx as [-> | ->]; cbn [Z.eqb Pos.eqb]; apply small_zero in H; unfold P; lia.
  Qed.

  Lemma byte_index : forall i x b1 b2 b3 b4 d, limb i -> limb d -> x = 0 \/ x = 1 -> b1 = 0 \/ b1 = 1 -> b2 = 0 \/ b2 = 1 ->
    b3 = 0 \/ b3 = 1 -> b4 = 0 \/ b4 = 1 -> (i - (x * 1 + (b1 * 2 + (b2 * 4 + (b3 * 8 + (b4 * 16 + 0)))) + d * 32)) mod P = 0 ->
    i = x + 2 * b1 + 4 * b2 + 8 * b3 + 16 * b4 + 32 * d /\ x + 2 * b1 + 4 * b2 + 8 * b3 + 16 * b4 < 32.
  Proof.
    unfold limb. intros i x b1 b2 b3 b4 d Hi Hd H0 H1 H2 H3 H4 H. apply small_zero in H; [|unfold P]; lia.
  Qed.

  Lemma byte_large : forall hs large inv, 0 <= hs <= 2^20 -> large = 0 \/ large = 1 -> (hs * (large - 1)) mod P = 0 ->
    (hs * inv - large) mod P = 0 -> (large = 0 -> hs = 0) /\ (large = 1 -> hs <> 0).
  Proof.
    intros hs large inv HB Bl M5 M6. apply small_zero in M5; [|unfold P; nia].
    split; [nia|]. intros E E'. subst. rewrite Z.mul_0_l in M6. discriminate.
  Qed.

  Lemma byte_out : forall o large t, limb o -> limb t -> large = 0 \/ large = 1 -> (o - (1 - large) * t) mod P = 0 -> o = (1 - large) * t.
  Proof.
    unfold limb. intros o large t Ho Ht Bl H. apply small_zero in H; [lia|]. destruct Bl as [-> | ->]; unfold P; lia.
  Qed.

  Lemma byte_row : lv IS_BYTE = 1 -> Forall (okr last) (eval_byte lv) -> out = evm_byte in0 in1.
  Proof.
    intros F H. unfold eval_byte in H. rewrite F in H. cbv zeta in H.
    assert (Y : forall l, Forall (okr last) (map (fun e => (All, 1 * e)) l) -> Forall z l) by exact all_filter_1.
    apply Forall_app in H. destruct H as [HB H]. apply Forall_app in H. destruct H as [HI H].
    apply Forall_app in H. destruct H as [HT3 H]. apply Forall_app in H. destruct H as [HT2 H].
    apply Forall_app in H. destruct H as [HT1 H]. apply Forall_app in H. destruct H as [HM HO].
    assert (Y' : forall (f : nat -> Z) l, Forall (okr last) (map (fun i => (All, 1 * f i)) l) -> forall i, In i l -> z (f i)).
    { intros f l Hl i Hi. rewrite Forall_map, Forall_forall in Hl. specialize (Hl i Hi). unfold okr in Hl. cbn [fst snd] in Hl.
      rewrite Z.mul_1_l in Hl. exact Hl. }
    assert (L : forall c, (18 <= c < 114)%nat -> limb (lv c)) by exact limbs_lv.
    assert (LA0 : forall i, (i < 16)%nat -> limb (lv (AUX_INPUT_REGISTER_0 + i)%nat)) by (intros; apply L; unfold AUX_INPUT_REGISTER_0; lia).
    assert (LA1 : forall i, (i < 16)%nat -> limb (lv (AUX_INPUT_REGISTER_1 + i)%nat)) by (intros; apply L; unfold AUX_INPUT_REGISTER_1; lia).
    assert (LV : forall i, (i < 16)%nat -> limb (lv (INPUT_REGISTER_1 + i)%nat)) by (intros; apply L; unfold INPUT_REGISTER_1; lia).
    assert (LI : forall i, (i < 16)%nat -> limb (lv (INPUT_REGISTER_0 + i)%nat)) by (intros; apply L; unfold INPUT_REGISTER_0; lia).
    assert (BB : forall i, (i < 5)%nat -> lv (AUX_INPUT_REGISTER_0 + i)%nat = 0 \/ lv (AUX_INPUT_REGISTER_0 + i)%nat = 1).
    { intros i Hi. apply cell_bool; [unfold AUX_INPUT_REGISTER_0; lia|].
      apply (Y' (fun i => lv (AUX_INPUT_REGISTER_0 + i)%nat * lv (AUX_INPUT_REGISTER_0 + i)%nat - lv (AUX_INPUT_REGISTER_0 + i)%nat) _ HB). apply in_seq. lia. }
    assert (T3 : forall i, (i < 8)%nat -> lv (AUX_INPUT_REGISTER_1 + i)%nat =
      if lv (AUX_INPUT_REGISTER_0 + 4)%nat =? 1 then lv (INPUT_REGISTER_1 + i)%nat else lv (INPUT_REGISTER_1 + (i + 8))%nat).
    { intros i Hi. apply mux_cell; [apply BB; lia|apply LV; lia|apply LV; lia|apply LA1; lia|].
      apply (Y' (fun i => lv (AUX_INPUT_REGISTER_1 + i)%nat - (lv (AUX_INPUT_REGISTER_0 + 4)%nat * lv (INPUT_REGISTER_1 + i)%nat + (1 - lv (AUX_INPUT_REGISTER_0 + 4)%nat) * lv (INPUT_REGISTER_1 + (i + 8))%nat)) _ HT3). apply in_seq. lia. }
    assert (T2 : forall i, (i < 4)%nat -> lv (AUX_INPUT_REGISTER_1 + (i + 8))%nat =
      if lv (AUX_INPUT_REGISTER_0 + 3)%nat =? 1 then lv (AUX_INPUT_REGISTER_1 + i)%nat else lv (AUX_INPUT_REGISTER_1 + (i + 4))%nat).
    { intros i Hi. apply mux_cell; [apply BB; lia|apply LA1; lia|apply LA1; lia|apply LA1; lia|].
      apply (Y' (fun i => lv (AUX_INPUT_REGISTER_1 + (i + 8))%nat - (lv (AUX_INPUT_REGISTER_0 + 3)%nat * lv (AUX_INPUT_REGISTER_1 + i)%nat + (1 - lv (AUX_INPUT_REGISTER_0 + 3)%nat) * lv (AUX_INPUT_REGISTER_1 + (i + 4))%nat)) _ HT2). apply in_seq. lia. }
    assert (T1 : forall i, (i < 2)%nat -> lv (AUX_INPUT_REGISTER_1 + (i + 12))%nat =
      if lv (AUX_INPUT_REGISTER_0 + 2)%nat =? 1 then lv (AUX_INPUT_REGISTER_1 + (i + 8))%nat else lv (AUX_INPUT_REGISTER_1 + (i + 10))%nat).
    { intros i Hi. apply mux_cell; [apply BB; lia|apply LA1; lia|apply LA1; lia|apply LA1; lia|].
      apply (Y' (fun i => lv (AUX_INPUT_REGISTER_1 + (i + 12))%nat - (lv (AUX_INPUT_REGISTER_0 + 2)%nat * lv (AUX_INPUT_REGISTER_1 + (i + 8))%nat + (1 - lv (AUX_INPUT_REGISTER_0 + 2)%nat) * lv (AUX_INPUT_REGISTER_1 + (i + 10))%nat)) _ HT1). apply in_seq. lia. }
    assert (OZ : forall i, (1 <= i < 16)%nat -> lv (OUTPUT_REGISTER + i)%nat = 0).
    { intros i Hi. pose proof (Y' (fun i => lv (OUTPUT_REGISTER + i)%nat) _ HO i ltac:(apply in_seq; lia)) as E.
      pose proof (L (OUTPUT_REGISTER + i)%nat ltac:(unfold OUTPUT_REGISTER; lia)) as G. unfold z, limb in *. apply small_zero in E; [exact E|unfold P; lia]. }
    assert (HM' : Forall (fun c => z (snd c)) (map (fun c => (All, snd c)) [(All, 0)])) by (repeat constructor). clear HM'.
    apply Forall_cons_iff in HI. destruct HI as [HI _].
    apply Forall_cons_iff in HM. destruct HM as [M1 HM]. apply Forall_cons_iff in HM. destruct HM as [M2 HM].
    apply Forall_cons_iff in HM. destruct HM as [M3 HM]. apply Forall_cons_iff in HM. destruct HM as [M4 HM].
    apply Forall_cons_iff in HM. destruct HM as [M5 HM]. apply Forall_cons_iff in HM. destruct HM as [M6 HM].
    apply Forall_cons_iff in HM. destruct HM as [M7 _].
    unfold okr in HI, M1, M2, M3, M4, M5, M6, M7. cbn [fst snd] in HI, M1, M2, M3, M4, M5, M6, M7.
    unfold z in HI, M1, M2, M3, M4, M5, M6, M7. rewrite Z.mul_1_l in HI, M1, M2, M3, M4, M5, M6, M7.
    (* the selected limb *)
    apply mux_cell in M1; [|apply BB; lia|apply LA1; lia|apply LA1; lia|apply LA1; lia].
    set (x := lv (AUX_INPUT_REGISTER_0 + 0)%nat) in *.
    set (t14 := lv (AUX_INPUT_REGISTER_1 + 14)%nat) in *.
    set (t15 := lv (AUX_INPUT_REGISTER_1 + 15)%nat) in *.
    assert (Emux : lv (AUX_INPUT_REGISTER_0 + 1)%nat * lv (AUX_INPUT_REGISTER_1 + 12)%nat + (1 - lv (AUX_INPUT_REGISTER_0 + 1)%nat) * lv (AUX_INPUT_REGISTER_1 + 13)%nat = t14).
    { rewrite M1. destruct (BB 1%nat ltac:(lia)) as [E|E]; rewrite E; cbn [Z.eqb Pos.eqb]; lia. }
    rewrite Emux in M2.
    pose proof (LA1 14%nat ltac:(lia)) as L14. pose proof (LA1 15%nat ltac:(lia)) as L15. fold t14 in L14. fold t15 in L15.
    pose proof (L BYTE_LAST_LIMB_LO ltac:(unfold BYTE_LAST_LIMB_LO; lia)) as Llo.
    pose proof (L BYTE_LAST_LIMB_HI ltac:(unfold BYTE_LAST_LIMB_HI; lia)) as Lhi.
    destruct (byte_split _ _ _ Llo Lhi L14 M2) as [Ehi Elo].
    assert (Bx : x = 0 \/ x = 1) by (apply BB; lia).
    pose proof (byte_pick _ _ _ _ _ Bx L14 L15 Ehi Elo M3) as E15. clear M2 M3 Ehi Elo Llo Lhi.
    (* index *)
    pose proof (LI 0%nat ltac:(lia)) as LI0. pose proof (LA0 5%nat ltac:(lia)) as LI5. 
    pose proof (BB 1%nat ltac:(lia)) as B1. pose proof (BB 2%nat ltac:(lia)) as B2. pose proof (BB 3%nat ltac:(lia)) as B3. pose proof (BB 4%nat ltac:(lia)) as B4.
    change (sum (map (fun i => lv (AUX_INPUT_REGISTER_0 + i)%nat * 2 ^ Z.of_nat i) (seq 0 5))) with
      (x * 1 + (lv (AUX_INPUT_REGISTER_0 + 1)%nat * 2 + (lv (AUX_INPUT_REGISTER_0 + 2)%nat * 4 + (lv (AUX_INPUT_REGISTER_0 + 3)%nat * 8 + (lv (AUX_INPUT_REGISTER_0 + 4)%nat * 16 + 0))))) in HI.
    destruct (byte_index _ _ _ _ _ _ _ LI0 LI5 Bx B1 B2 B3 B4 HI) as [EI EI32]. clear HI.
    (* large index *)
    set (hs := lv BYTE_IDX_DECOMP_HI + sum (map (fun i => lv (INPUT_REGISTER_0 + i)%nat) (seq 1 15))) in *.
    pose proof (cell_bool BYTE_IDX_IS_LARGE ltac:(unfold BYTE_IDX_IS_LARGE; lia) M4) as Blarge.
    set (large := lv BYTE_IDX_IS_LARGE) in *.
    assert (Ssum : sum (map (fun i => lv (INPUT_REGISTER_0 + i)%nat) (seq 1 15)) = sum (map lv (seq 19 15))).
    { rewrite <- (map_map (fun i => (INPUT_REGISTER_0 + i)%nat) lv). reflexivity. }
    assert (HSB : 0 <= sum (map lv (seq 19 15)) <= 65535 * 15).
    { pose proof (sum_limbs_bound (read_value 15 lv 19)) as G. rewrite read_length in G. apply G. apply read_Forall. intros c Hc. apply L. lia. }
    assert (Bhs : 0 <= hs <= 2^20).
    { unfold hs. rewrite Ssum. change (lv BYTE_IDX_DECOMP_HI) with (lv (AUX_INPUT_REGISTER_0 + 5)%nat). unfold limb in LI5. clear -LI5 HSB. lia. }
    pose proof (byte_large _ _ _ Bhs Blarge M5 M6) as Large. clear M4 M5 M6.
    assert (R0 : in0 = lv (INPUT_REGISTER_0 + 0)%nat + 65536 * reg 15 lv 19) by reflexivity.
    pose proof (reg_val 15 lv 19) as RV. 
    assert (Rpos : 0 <= reg 15 lv 19).
    { rewrite RV. apply val_limb_bounds. apply read_Forall. intros c Hc. apply L. lia. }
    pose proof (high_limbs_zero 19 15 ltac:(lia) ltac:(lia)) as HZ.
    pose proof (L OUTPUT_REGISTER ltac:(unfold OUTPUT_REGISTER; lia)) as LO.
    change (lv (OUTPUT_REGISTER + 0)%nat) with (lv OUTPUT_REGISTER) in M7.
    apply byte_out in M7; [|assumption|assumption|assumption]. unfold limb in LI0, LI5.
    assert (ROUT : out = lv OUTPUT_REGISTER).
    { rewrite reg_val. change (read_value 16 lv OUTPUT_REGISTER) with (lv OUTPUT_REGISTER :: read_value 15 lv 67). cbn [val].
      rewrite val_all_zero; [lia|]. apply read_Forall. intros c Hc. replace c with (OUTPUT_REGISTER + (c - 66))%nat by (unfold OUTPUT_REGISTER; lia). apply OZ. lia. }
    rewrite ROUT. unfold evm_byte.
    assert (Ehs : hs = lv (AUX_INPUT_REGISTER_0 + 5)%nat + sum (map lv (seq 19 15))) by (unfold hs; rewrite Ssum; reflexivity).
    destruct Blarge as [E|E]; rewrite E in *.
    - destruct Large as [Large _]. specialize (Large eq_refl).
      assert (D5 : lv (AUX_INPUT_REGISTER_0 + 5)%nat = 0) by lia.
      assert (Z15 : reg 15 lv 19 = 0) by (apply HZ; lia).
      rewrite Z15, D5 in *.
      assert (Ein0 : in0 = x + 2 * lv (AUX_INPUT_REGISTER_0 + 1)%nat + 4 * lv (AUX_INPUT_REGISTER_0 + 2)%nat + 8 * lv (AUX_INPUT_REGISTER_0 + 3)%nat + 16 * lv (AUX_INPUT_REGISTER_0 + 4)%nat) by lia.
      assert (Lt : (in0 <? 32) = true) by lia. rewrite Lt.
      replace (lv OUTPUT_REGISTER) with t15 by lia. rewrite Ein0, E15.
      assert (HV : Forall limb (read_value 16 lv INPUT_REGISTER_1)) by (apply reg_limbs; unfold INPUT_REGISTER_1; lia).
      assert (NV : forall k, (k < 16)%nat -> nth k (read_value 16 lv INPUT_REGISTER_1) 0 = lv (INPUT_REGISTER_1 + k)%nat).
      { intros k Hk. unfold read_value. rewrite nth_indep with (d' := lv 0%nat) by (rewrite map_length, seq_length; exact Hk).
        rewrite map_nth, seq_nth by exact Hk. reflexivity. }
      rewrite (reg_val 16 lv INPUT_REGISTER_1).
      assert (BYTE : forall k, (k < 16)%nat -> t14 = lv (INPUT_REGISTER_1 + k)%nat ->
        (if x =? 1 then t14 mod 256 else t14 / 256) = (val (read_value 16 lv INPUT_REGISTER_1) / 256 ^ (2 * Z.of_nat k + (1 - x))) mod 256).
      { intros k Hk Ek. rewrite Ek, <- NV by exact Hk. destruct Bx as [Ex|Ex]; rewrite Ex; cbn [Z.eqb Pos.eqb].
        - rewrite <- byte_odd by exact HV. reflexivity.
        - rewrite <- byte_even by exact HV. rewrite Z.sub_diag, Z.add_0_r. reflexivity. }
      pose proof (T1 0%nat ltac:(lia)) as T1_0. pose proof (T1 1%nat ltac:(lia)) as T1_1.
      pose proof (T2 0%nat ltac:(lia)) as T2_0. pose proof (T2 1%nat ltac:(lia)) as T2_1. pose proof (T2 2%nat ltac:(lia)) as T2_2. pose proof (T2 3%nat ltac:(lia)) as T2_3.
      cbn [Nat.add] in T1_0, T1_1, T2_0, T2_1, T2_2, T2_3.
      assert (K : exists k, (k < 16)%nat /\ t14 = lv (INPUT_REGISTER_1 + k)%nat /\
        2 * Z.of_nat k + (1 - x) = 31 - (x + 2 * lv (AUX_INPUT_REGISTER_0 + 1)%nat + 4 * lv (AUX_INPUT_REGISTER_0 + 2)%nat + 8 * lv (AUX_INPUT_REGISTER_0 + 3)%nat + 16 * lv (AUX_INPUT_REGISTER_0 + 4)%nat)).
      { destruct B1 as [E1|E1], B2 as [E2|E2], B3 as [E3|E3], B4 as [E4|E4]; rewrite E1, E2, E3, E4 in *; cbn [Z.eqb Pos.eqb] in *;
        [exists 15%nat|exists 7%nat|exists 11%nat|exists 3%nat|exists 13%nat|exists 5%nat|exists 9%nat|exists 1%nat|exists 14%nat|exists 6%nat|exists 10%nat|exists 2%nat|exists 12%nat|exists 4%nat|exists 8%nat|exists 0%nat];
        (split; [lia|split; [|lia]]); rewrite M1, ?T1_0, ?T1_1, ?T2_0, ?T2_1, ?T2_2, ?T2_3;
        match goal with |- lv (_ + ?i)%nat = _ => rewrite (T3 i) by lia end; reflexivity. }
      destruct K as (k & Hk & Ek & Ek2). rewrite <- Ek2. apply BYTE; assumption.
    - destruct Large as [_ Large]. specialize (Large eq_refl).
      assert (Lt : (in0 <? 32) = false).
      { destruct (Z.eq_dec (reg 15 lv 19) 0) as [Hz|Hz]; [|lia]. apply HZ in Hz. lia. }
      rewrite Lt. lia.
  Qed.
End Row.
