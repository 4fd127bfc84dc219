(** Trace generation satisfies the constraints: two-row operations. *)
From Coq Require Import ZArith Znumtheory List Lia Bool.
From Coq Require Import ZifyBool ZifyNat.
From Verif Require Import Stark.Field Stark.ArithModel Stark.ArithSpec Stark.PolyProofs Stark.ArithSound Stark.ArithTrace Stark.ArithEmbed Stark.ArithGen Stark.ArithGenByte Stark.ArithGenMod.
Import ListNotations.
Local Open Scope Z_scope.

(** What generation of a two-row operation has to achieve. *)
Definition good_pair (f : nat) (r nv : row) (a b c o : Z) : Prop :=
  op_row f r /\ cells_ok r /\ cells_ok nv /\ single_ok nv /\ flags_zero nv /\ Forall (okr false) (eval_ops r nv) /\
  input0 r = a /\ input1 r = b /\ input2 r = c /\ output r = o.

Lemma limb_from_noncanonical : forall l, Forall limb l -> map from_noncanonical l = l.
Proof.
  induction 1 as [|x l Hx H IH]; [reflexivity|]. cbn [map]. rewrite IH. f_equal. unfold from_noncanonical. apply Z.mod_small. unfold limb, P in *. lia.
Qed.

Lemma pol_add_nonneg : forall a b, Forall limb a -> Forall limb b -> Forall (fun x => 0 <= x <= 16 * (65535 * 65535)) (pol_add a b).
Proof.
  intros a b Ha Hb. apply Forall_forall. intros x Hx. apply (In_nth _ _ 0) in Hx. destruct Hx as (k & Hk & <-).
  assert (L31 : length (pol_add a b) = 31%nat) by (unfold pol_add; rewrite !add_assign_length; unfold pol_zero; rewrite repeat_length; reflexivity). rewrite L31 in Hk.
  unfold pol_add. rewrite !nth_add_assign by (rewrite ?add_assign_length; unfold pol_zero; rewrite repeat_length; exact Hk).
  unfold pol_zero. assert (Z0 : nth k (repeat 0 (2 * N_LIMBS - 1)) 0 = 0) by apply nth_repeat. rewrite Z0.
  pose proof (nth_Forall limb a k Ha ltac:(unfold limb; lia)). pose proof (nth_Forall limb b k Hb ltac:(unfold limb; lia)). unfold limb in *. lia.
Qed.

Lemma pol_sub_absle : forall a b, Forall limb a -> Forall limb b -> Forall (absle 65535) (pol_sub a b).
Proof.
  intros a b Ha Hb. apply Forall_forall. intros x Hx. apply (In_nth _ _ 0) in Hx. destruct Hx as (k & Hk & <-).
  assert (L31 : length (pol_sub a b) = 31%nat) by (unfold pol_sub; rewrite sub_assign_length, add_assign_length; unfold pol_zero; rewrite repeat_length; reflexivity). rewrite L31 in Hk.
  unfold pol_sub. rewrite nth_sub_assign by (rewrite ?add_assign_length; unfold pol_zero; rewrite repeat_length; exact Hk).
  rewrite nth_add_assign by (unfold pol_zero; rewrite repeat_length; exact Hk).
  unfold pol_zero. assert (Z0 : nth k (repeat 0 (2 * N_LIMBS - 1)) 0 = 0) by apply nth_repeat. rewrite Z0.
  pose proof (nth_Forall limb a k Ha ltac:(unfold limb; lia)). pose proof (nth_Forall limb b k Hb ltac:(unfold limb; lia)). unfold limb, absle in *. lia.
Qed.

Lemma pol_mul_wide_nonneg : forall a b, length a = 16%nat -> Forall limb a -> Forall limb b -> Forall (fun x => 0 <= x <= 16 * (65535 * 65535)) (pol_mul_wide a b).
Proof.
  intros a b La Ha Hb. unfold pol_mul_wide. apply Forall_forall. intros x Hx. apply in_map_iff in Hx. destruct Hx as (k & <- & _).
  pose proof (conv_bound a b 65535 65535 k ltac:(lia) ltac:(lia) (limb_absle _ Ha) (limb_absle _ Hb)) as C. rewrite La in C.
  assert (NN : forall l, Forall limb l -> Forall (fun x => 0 <= x) l) by (intros l Hl; eapply Forall_impl; [|exact Hl]; unfold limb; cbn; lia).
  pose proof (conv_nonneg a b k (NN _ Ha) (NN _ Hb)). unfold absle in C. lia.
Qed.

(** * The quotient register of the modular operations *)

Lemma cols_high_zero : forall x, Z.abs x < 2^256 -> skipn 16 (cols 32 x) = repeat 0 16.
Proof.
  intros x H. destruct (Z.le_ge_cases 0 x) as [G|G].
  - rewrite cols_32_u256 by (unfold word; lia). rewrite skipn_app, u256_length, skipn_all2 by (rewrite u256_length; lia). reflexivity.
  - assert (E : cols 32 x = map Z.opp (cols 32 (- x))).
    { unfold cols. rewrite map_map. apply map_ext. intros k. rewrite Z.sgn_opp, Z.abs_opp. ring. }
    rewrite E, cols_32_u256 by (unfold word; lia). rewrite map_app, skipn_app, map_length, u256_length, skipn_all2 by (rewrite map_length, u256_length; lia). reflexivity.
Qed.

Lemma firstn_exact : forall n (l r : list Z), length l = n -> firstn n (l ++ r) = l.
Proof. intros n l r <-. rewrite firstn_app, Nat.sub_diag, firstn_all. apply app_nil_r. Qed.

Lemma op_quot_sub : forall f m i, (f = IS_SUBMOD \/ f = IS_SUBFP254) -> Z.abs (i / eff m false) < 2^256 ->
  let q := op_quot f m i false in
  Forall limb q /\ length q = 32%nat /\ (hd 0 (skipn 16 q) = 0 \/ hd 0 (skipn 16 q) = 1) /\
  Forall (fun x => x = 0) (0 :: tl (skipn 16 q)) /\
  map (fun c => c - 65535 * hd 0 (skipn 16 q)) (firstn 16 q) ++ 0 :: tl (skipn 16 q) = cols 32 (i / eff m false).
Proof.
  intros f m i Hf Hq. cbv zeta. unfold op_quot. set (q := i / eff m false) in *.
  assert (EF : ((f =? IS_SUBMOD)%nat || (f =? IS_SUBFP254)%nat) = true) by (destruct Hf as [-> | ->]; reflexivity). rewrite EF.
  pose proof (cols_high_zero q Hq) as HZ. rewrite HZ.
  assert (L : length (firstn 16 (cols 32 q)) = 16%nat) by (rewrite firstn_length, cols_length; reflexivity).
  assert (EQ : firstn 16 (cols 32 q) ++ repeat 0 16 = cols 32 q) by (rewrite <- HZ; apply firstn_skipn).
  destruct (q <? 0) eqn:E.
  - assert (FL : firstn 16 (map (fun c => c + 65535) (firstn 16 (cols 32 q)) ++ 1 :: tl (repeat 0 16)) = map (fun c => c + 65535) (firstn 16 (cols 32 q))).
    { apply firstn_exact. rewrite map_length. exact L. }
    assert (SL : skipn 16 (map (fun c => c + 65535) (firstn 16 (cols 32 q)) ++ 1 :: tl (repeat 0 16)) = 1 :: repeat 0 15).
    { rewrite skipn_app, map_length, L, skipn_all2 by (rewrite map_length, L; lia). reflexivity. }
    rewrite FL, SL. cbn [hd tl]. split; [|split; [|split; [|split]]].
    + apply Forall_app. split; [|repeat constructor; unfold limb; lia].
      rewrite Forall_map. pose proof (cols_neg 32 q ltac:(lia)) as CN. rewrite <- (firstn_skipn 16 (cols 32 q)) in CN. apply Forall_app in CN. destruct CN as [CN _].
      eapply Forall_impl; [|exact CN]. unfold limb. cbn. lia.
    + rewrite app_length, map_length, L. reflexivity.
    + right. reflexivity.
    + exact (zeros_forall 16).
    + rewrite map_map. rewrite <- EQ at 2. f_equal. rewrite <- (map_id (firstn 16 (cols 32 q))) at 2. apply map_ext. intros c. ring.
  - assert (FL : firstn 16 (firstn 16 (cols 32 q) ++ 0 :: tl (repeat 0 16)) = firstn 16 (cols 32 q)).
    { apply firstn_exact. exact L. }
    assert (SL : skipn 16 (firstn 16 (cols 32 q) ++ 0 :: tl (repeat 0 16)) = repeat 0 16).
    { rewrite skipn_app, L, skipn_all2 by (rewrite L; lia). reflexivity. }
    rewrite FL, SL. cbn [hd tl repeat]. split; [|split; [|split; [|split]]].
    + apply Forall_app. split; [|repeat constructor; unfold limb; lia].
      pose proof (cols_limbs 32 q ltac:(lia)) as CN. rewrite <- (firstn_skipn 16 (cols 32 q)) in CN. apply Forall_app in CN. apply CN.
    + rewrite app_length, L. reflexivity.
    + left. reflexivity.
    + exact (zeros_forall 16).
    + rewrite <- EQ at 2. f_equal. rewrite <- (map_id (firstn 16 (cols 32 q))) at 2. apply map_ext. intros c. ring.
Qed.

Section Modular.
  Variables (f : nat) (a b m : Z) (inp : list Z).
  Hypothesis (Hf : In f [IS_ADDMOD; IS_ADDFP254; IS_SUBMOD; IS_SUBFP254; IS_MULMOD; IS_MULFP254]).
  Hypothesis (Ha : word a) (Hb : word b) (Hm : word m).
  Hypothesis Hfp : f = IS_ADDFP254 \/ f = IS_SUBFP254 \/ f = IS_MULFP254 -> m = BN_BASE.
  Hypothesis Hinp : inp = (if (f =? IS_ADDMOD)%nat || (f =? IS_ADDFP254)%nat then pol_add (u256_to_array a) (u256_to_array b)
    else if (f =? IS_SUBMOD)%nat || (f =? IS_SUBFP254)%nat then pol_sub (u256_to_array a) (u256_to_array b)
    else pol_mul_wide (u256_to_array a) (u256_to_array b)).
  Let i := val inp.
  Let d := false.
  Let quo := op_quot f m i d.
  Let o := i mod eff m d.
  Let nv := op_next m i inp d.
  Let r0 := write (write (write (set zero_row f 1) MODULAR_INPUT_0 (u256_to_array a)) MODULAR_INPUT_1 (u256_to_array b)) MODULAR_MODULUS (u256_to_array m).
  Let r := write (write r0 MODULAR_OUTPUT (u256_to_array o)) MODULAR_QUO_INPUT quo.

  Lemma f17 : (f < 17)%nat.
  Proof. repeat (destruct Hf as [<-|Hf']; [cbv; lia|clear Hf; rename Hf' into Hf]). destruct Hf. Qed.

  Lemma inp_facts : length inp = 31%nat /\ (- 2^256 < i < Bn 32) /\
    (Forall (fun x => 0 <= x <= 16 * (65535 * 65535)) inp /\ 0 <= i \/ Forall (absle 65535) inp /\ Z.abs i < 2^256 /\ (f = IS_SUBMOD \/ f = IS_SUBFP254)).
  Proof.
    unfold i. rewrite Bn32 in *. pose proof (u256_val a Ha) as Va. pose proof (u256_val b Hb) as Vb. unfold word in *.
    assert (PA : val (pol_add (u256_to_array a) (u256_to_array b)) = a + b) by (rewrite val_pol_add by apply u256_length; lia).
    assert (PS : val (pol_sub (u256_to_array a) (u256_to_array b)) = a - b) by (rewrite val_pol_sub by apply u256_length; lia).
    assert (PM : val (pol_mul_wide (u256_to_array a) (u256_to_array b)) = a * b) by (rewrite val_pol_mul_wide by apply u256_length; rewrite Va, Vb; reflexivity).
    assert (AB : 0 <= a * b < 2^256 * 2^256) by nia.
    rewrite Hinp. pose proof (pol_add_nonneg _ _ (u256_limbs a) (u256_limbs b)) as NA. pose proof (pol_sub_absle _ _ (u256_limbs a) (u256_limbs b)) as NS.
    pose proof (pol_mul_wide_nonneg _ _ (u256_length a) (u256_limbs a) (u256_limbs b)) as NM.
    destruct ((f =? IS_ADDMOD)%nat || (f =? IS_ADDFP254)%nat) eqn:E1; [|destruct ((f =? IS_SUBMOD)%nat || (f =? IS_SUBFP254)%nat) eqn:E2].
    - rewrite PA. split; [unfold pol_add; rewrite !add_assign_length; reflexivity|]. clear -Ha Hb NA. split; [lia|]. left. split; [exact NA|lia].
    - rewrite PS. split; [unfold pol_sub; rewrite sub_assign_length, add_assign_length; reflexivity|]. clear -Ha Hb NS E2. split; [lia|]. right. split; [exact NS|].
      split; [lia|]. apply orb_true_iff in E2. rewrite !Nat.eqb_eq in E2. exact E2.
    - rewrite PM. split; [unfold pol_mul_wide; rewrite map_length, seq_length; reflexivity|]. clear -AB NM. split; [lia|]. left. split; [exact NM|lia].
  Qed.

  Lemma not_div : d = ((f =? IS_DIV)%nat || (f =? IS_SHR)%nat).
  Proof. repeat (destruct Hf as [<-|Hf']; [reflexivity|clear Hf; rename Hf' into Hf]). destruct Hf. Qed.

  Lemma r0_op : op_row f r0 /\ cells_ok r0.
  Proof.
    destruct (op_row_set f f17) as [O C]. unfold r0. split.
    - repeat (apply op_row_write; [cbv; lia|]). exact O.
    - repeat (apply write_cells; [|apply u256_limbs]). exact C.
  Qed.

  Lemma off_div : forall r', op_row f r' -> r' IS_DIV + r' IS_SHR = b2z d.
  Proof.
    intros r' O. pose proof not_div as ND. unfold d in ND. symmetry in ND. apply orb_false_iff in ND. rewrite !Nat.eqb_neq in ND.
    rewrite !(op_row_off f r') by (try exact O; try (cbv; lia); destruct ND; congruence). reflexivity.
  Qed.

  Lemma inp_weak : Forall (fun x => 0 <= x <= 16 * (65535 * 65535)) inp /\ 0 <= i \/ Forall (absle 65535) inp.
  Proof. destruct inp_facts as (_ & _ & [H|H]); [left|right]; tauto. Qed.

  Lemma r0_mod : read_value 16 r0 MODULAR_MODULUS = u256_to_array m.
  Proof. unfold r0. apply read_write_same. apply u256_length. Qed.

  Lemma i_nonneg_q : 0 <= i -> 0 <= i / eff m d.
  Proof. intros H. unfold eff, d. unfold word in Hm. destruct (m =? 0) eqn:E; [rewrite Z.div_1_r; exact H|]. apply Z.div_pos; lia. Qed.

  Lemma quo_ok : Forall limb quo /\ length quo = 32%nat.
  Proof.
    destruct inp_facts as (_ & _ & [[H1 H2]|(H1 & H2 & H3)]).
    - unfold quo, op_quot. pose proof (i_nonneg_q H2) as Q.
      assert (QB : Forall limb (cols 32 (i / eff m d)) /\ length (cols 32 (i / eff m d)) = 32%nat) by (split; [apply cols_limbs; exact Q|apply cols_length]).
      destruct ((f =? IS_SUBMOD)%nat || (f =? IS_SUBFP254)%nat) eqn:E; [|exact QB].
      rewrite (proj2 (Z.ltb_ge _ _) Q).
      destruct QB as [Q1 Q2]. pose proof Q1 as Q3. rewrite <- (firstn_skipn 16 (cols 32 (i / eff m d))) in Q3. apply Forall_app in Q3. destruct Q3 as [Q3 Q4].
      split.
      + apply Forall_app. split; [exact Q3|]. constructor; [unfold limb; lia|]. destruct (skipn 16 (cols 32 (i / eff m d))); [constructor|]. apply Forall_cons_iff in Q4. apply Q4.
      + rewrite app_length, firstn_length, Q2. cbn [length]. pose proof (skipn_length 16 (cols 32 (i / eff m d))) as SL. rewrite Q2 in SL.
        destruct (skipn 16 (cols 32 (i / eff m d))); [discriminate|]. cbn [length tl] in *. lia.
    - destruct (op_quot_sub f m i H3) as (O1 & O2 & _).
      + unfold eff. unfold word in Hm. destruct (m =? 0) eqn:E; [rewrite Z.div_1_r; exact H2|].
        pose proof (Z.div_mod i m ltac:(lia)). pose proof (Z.mod_pos_bound i m ltac:(lia)). clear -H2 H H0 Hm E. nia.
      + split; assumption.
  Qed.

  Lemma o_w : word o.
  Proof.
    unfold o, eff, d. unfold word in *. destruct (m =? 0) eqn:E; [rewrite Z.mod_1_r; lia|].
    pose proof (Z.mod_pos_bound i m ltac:(lia)). lia.
  Qed.

  Lemma gen_eq : generate_modular (set zero_row f 1) zero_row f a b m = Some (r, nv).
  Proof.
    unfold generate_modular. cbv zeta. change N_LIMBS with 16%nat. fold r0.
    assert (R0 : read_value 16 r0 MODULAR_INPUT_0 = u256_to_array a) by (unfold r0, MODULAR_INPUT_0, MODULAR_INPUT_1, MODULAR_MODULUS; rdw; reflexivity).
    assert (R1 : read_value 16 r0 MODULAR_INPUT_1 = u256_to_array b) by (unfold r0, MODULAR_INPUT_0, MODULAR_INPUT_1, MODULAR_MODULUS; rdw; reflexivity).
    rewrite R0, R1.
    assert (EI : (if (f =? IS_ADDMOD)%nat || (f =? IS_ADDFP254)%nat then Some (pol_add (u256_to_array a) (u256_to_array b))
      else if (f =? IS_SUBMOD)%nat || (f =? IS_SUBFP254)%nat then Some (pol_sub (u256_to_array a) (u256_to_array b))
      else if (f =? IS_MULMOD)%nat || (f =? IS_MULFP254)%nat then Some (pol_mul_wide (u256_to_array a) (u256_to_array b)) else None) = Some inp).
    { rewrite Hinp. repeat (destruct Hf as [<-|Hf']; [reflexivity|clear Hf; rename Hf' into Hf]). destruct Hf. }
    rewrite EI. cbn [obind].
    destruct inp_facts as (L & B & _).
    rewrite (op_eq r0 f MODULAR_MODULUS m i inp d not_div (off_div r0 (proj1 r0_op)) Hm r0_mod L eq_refl B inp_weak) by discriminate.
    cbn [obind]. fold quo. rewrite limb_from_noncanonical by apply quo_ok. reflexivity.
  Qed.

  Lemma nv_ok : cells_ok nv /\ single_ok nv /\ flags_zero nv.
  Proof.
    destruct inp_facts as (L & B & _).
    destruct (op_next_ok r0 f MODULAR_MODULUS m i inp d not_div (off_div r0 (proj1 r0_op)) Hm r0_mod L eq_refl B inp_weak) as [N1 N2]; [discriminate|discriminate|].
    split; [exact N1|]. split; [exact N2|].
    exact (op_next_flags r0 f MODULAR_MODULUS m i inp d not_div (off_div r0 (proj1 r0_op)) Hm r0_mod L eq_refl B inp_weak ltac:(discriminate) ltac:(discriminate)).
  Qed.

  Lemma r_facts : op_row f r /\ cells_ok r /\ read_value 16 r INPUT_REGISTER_0 = u256_to_array a /\ read_value 16 r INPUT_REGISTER_1 = u256_to_array b /\
    read_value 16 r INPUT_REGISTER_2 = u256_to_array m /\ read_value 16 r OUTPUT_REGISTER = u256_to_array o /\ read_value 32 r MODULAR_QUO_INPUT = quo.
  Proof.
    destruct r0_op as [O C]. destruct quo_ok as [Q1 Q2].
    split; [unfold r; apply op_row_write; [cbv; lia|]; apply op_row_write; [cbv; lia|]; exact O|].
    split; [unfold r; apply write_cells; [apply write_cells; [exact C|apply u256_limbs]|exact Q1]|].
    split; [|split; [|split; [|split]]].
    - unfold r, r0. rewrite !(read_write_other 16) by (rewrite ?u256_length, ?Q2; cbv; lia). apply read_write_same, u256_length.
    - unfold r, r0. rewrite (read_write_other 16) by (rewrite ?u256_length, ?Q2; cbv; lia). rewrite (read_write_other 16) by (rewrite ?u256_length, ?Q2; cbv; lia).
      rewrite (read_write_other 16) by (rewrite ?u256_length, ?Q2; cbv; lia). apply read_write_same, u256_length.
    - unfold r. rewrite (read_write_other 16) by (rewrite ?u256_length, ?Q2; cbv; lia). rewrite (read_write_other 16) by (rewrite ?u256_length, ?Q2; cbv; lia). exact r0_mod.
    - unfold r. rewrite (read_write_other 16) by (rewrite ?u256_length, ?Q2; cbv; lia). apply read_write_same, u256_length.
    - unfold r. apply read_write_same. exact Q2.
  Qed.

  Lemma constr : forall F, Forall (okr false) (fst (modular_constr_poly r nv F (u256_to_array o) (u256_to_array m) (cols 32 (i / eff m d)))) /\
    Forall (okr false) (poly_constraints (snd (modular_constr_poly r nv F (u256_to_array o) (u256_to_array m) (cols 32 (i / eff m d)))) inp F).
  Proof.
    intros F. destruct inp_facts as (L & B & _).
    apply (op_constraints r0 f MODULAR_MODULUS m i inp d not_div (off_div r0 (proj1 r0_op)) Hm r0_mod L eq_refl B inp_weak); try discriminate.
    - apply off_div. apply r_facts.
    - reflexivity.
  Qed.

  Lemma eval_modular_ok : Forall (okr false) (eval_modular r nv).
  Proof.
    destruct r_facts as (O & C & R0 & R1 & R2 & RO & RQ). destruct quo_ok as [Q1 Q2].
    unfold eval_modular. cbv zeta. change (2 * N_LIMBS)%nat with 32%nat. change N_LIMBS with 16%nat.
    change (read_value 16 r MODULAR_MODULUS) with (read_value 16 r INPUT_REGISTER_2). change (read_value 16 r MODULAR_OUTPUT) with (read_value 16 r OUTPUT_REGISTER).
    change (read_value 16 r MODULAR_INPUT_0) with (read_value 16 r INPUT_REGISTER_0). change (read_value 16 r MODULAR_INPUT_1) with (read_value 16 r INPUT_REGISTER_1).
    rewrite R0, R1, R2, RO, RQ.
    apply Forall_app. split; [constructor; [intros G; discriminate|constructor]|].
    apply Forall_app. split.
    { apply map_zero. intros [x y] Hxy. cbn [fst snd].
      assert (G : r IS_ADDFP254 + r IS_MULFP254 + r IS_SUBFP254 = 0 \/ x = y).
      { rewrite !O by (cbv; lia).
        destruct (f =? IS_ADDFP254)%nat eqn:E1; [|destruct (f =? IS_SUBFP254)%nat eqn:E2; [|destruct (f =? IS_MULFP254)%nat eqn:E3]].
        4: { left. rewrite !(Nat.eqb_sym _ f), E1, E2, E3. reflexivity. }
        all: right; rewrite Hfp in Hxy by (rewrite <- !Nat.eqb_eq; tauto);
          unfold bn254_modulus_limbs in Hxy; clear -Hxy; induction (u256_to_array BN_BASE) as [|z l IH]; [destruct Hxy|];
          destruct Hxy as [Hxy|Hxy]; [congruence|apply IH; exact Hxy]. }
      destruct G as [-> | ->]; ring. }
    assert (QC : f = IS_SUBMOD \/ f = IS_SUBFP254 \/ quo = cols 32 (i / eff m d)).
    { destruct ((f =? IS_SUBMOD)%nat || (f =? IS_SUBFP254)%nat) eqn:E.
      - apply orb_true_iff in E. rewrite !Nat.eqb_eq in E. tauto.
      - right. right. unfold quo, op_quot. rewrite E. reflexivity. }
    assert (SUB : f = IS_SUBMOD \/ f = IS_SUBFP254 -> forall F,
       Forall (okr false) (fst (submod_constr_poly r nv F (u256_to_array o) (u256_to_array m) quo)) /\
       Forall (okr false) (poly_constraints (snd (submod_constr_poly r nv F (u256_to_array o) (u256_to_array m) quo)) (pol_sub (u256_to_array a) (u256_to_array b)) F)).
    { intros G F.
      assert (EI : inp = pol_sub (u256_to_array a) (u256_to_array b)) by (rewrite Hinp; destruct G as [-> | ->]; reflexivity).
      assert (BQ : Z.abs (i / eff m d) < 2^256).
      { assert (BI : Z.abs i < 2^256) by (unfold i; rewrite EI, val_pol_sub, !u256_val by (assumption || apply u256_length); unfold word in *; clear -Ha Hb; lia).
        unfold eff, d. unfold word in Hm. destruct (m =? 0) eqn:E; [rewrite Z.div_1_r; exact BI|].
        pose proof (Z.div_mod i m ltac:(lia)). pose proof (Z.mod_pos_bound i m ltac:(lia)). clear -BI H H0 Hm E. nia. }
      destruct (op_quot_sub f m i G BQ) as (_ & _ & S01 & SZ & SC). change (op_quot f m i false) with quo in S01, SZ, SC.
      unfold submod_constr_poly. cbv zeta. change N_LIMBS with 16%nat. rewrite SC. destruct (constr F) as [C1 C2].
      cbn [fst snd]. split.
      - constructor; [apply okr_z; destruct S01 as [-> | ->]; ring|].
        apply Forall_app. split; [|exact C1]. apply map_zero. intros x Hx. rewrite Forall_forall in SZ. cbn [snd]. rewrite (SZ x Hx). ring.
      - rewrite <- EI. exact C2. }
    assert (ADD : f = IS_ADDMOD \/ f = IS_ADDFP254 -> inp = pol_add (u256_to_array a) (u256_to_array b) /\ quo = cols 32 (i / eff m d)).
    { intros G. split; [rewrite Hinp; destruct G as [-> | ->]; reflexivity|]. destruct G as [G|G], QC as [QC|[QC|QC]]; try exact QC; exfalso; rewrite G in QC; discriminate. }
    assert (MUL : f = IS_MULMOD \/ f = IS_MULFP254 -> inp = pol_mul_wide (u256_to_array a) (u256_to_array b) /\ quo = cols 32 (i / eff m d)).
    { intros G. split; [rewrite Hinp; destruct G as [-> | ->]; reflexivity|]. destruct G as [G|G], QC as [QC|[QC|QC]]; try exact QC; exfalso; rewrite G in QC; discriminate. }
    destruct Hf as [E|[E|[E|[E|[E|[E|[]]]]]]];
      rewrite (O IS_ADDMOD), (O IS_ADDFP254), (O IS_SUBMOD), (O IS_SUBFP254), (O IS_MULMOD), (O IS_MULFP254) by (cbv; lia);
      rewrite <- E; cbn [Nat.eqb IS_ADDMOD IS_ADDFP254 IS_SUBMOD IS_SUBFP254 IS_MULMOD IS_MULFP254];
      rewrite ?Z.add_0_r, ?Z.add_0_l.
    - destruct (ADD (or_introl (eq_sym E))) as [EI EQ]. destruct (constr 1) as [C1 C2]. rewrite EQ, <- EI.
      apply Forall_app. split; [apply submod_poly_zero|]. apply Forall_app. split; [exact C1|].
      apply Forall_app. split; [exact C2|]. apply Forall_app. split; apply poly_zero.
    - destruct (ADD (or_intror (eq_sym E))) as [EI EQ]. destruct (constr 1) as [C1 C2]. rewrite EQ, <- EI.
      apply Forall_app. split; [apply submod_poly_zero|]. apply Forall_app. split; [exact C1|].
      apply Forall_app. split; [exact C2|]. apply Forall_app. split; apply poly_zero.
    - destruct (SUB (or_introl (eq_sym E)) 1) as [C1 C2].
      apply Forall_app. split; [exact C1|]. apply Forall_app. split; [apply modular_poly_zero|].
      apply Forall_app. split; [apply poly_zero|]. apply Forall_app. split; [exact C2|apply poly_zero].
    - destruct (SUB (or_intror (eq_sym E)) 1) as [C1 C2].
      apply Forall_app. split; [exact C1|]. apply Forall_app. split; [apply modular_poly_zero|].
      apply Forall_app. split; [apply poly_zero|]. apply Forall_app. split; [exact C2|apply poly_zero].
    - destruct (MUL (or_introl (eq_sym E))) as [EI EQ]. destruct (constr 1) as [C1 C2]. rewrite EQ, <- EI.
      apply Forall_app. split; [apply submod_poly_zero|]. apply Forall_app. split; [exact C1|].
      apply Forall_app. split; [apply poly_zero|]. apply Forall_app. split; [apply poly_zero|exact C2].
    - destruct (MUL (or_intror (eq_sym E))) as [EI EQ]. destruct (constr 1) as [C1 C2]. rewrite EQ, <- EI.
      apply Forall_app. split; [apply submod_poly_zero|]. apply Forall_app. split; [exact C1|].
      apply Forall_app. split; [apply poly_zero|]. apply Forall_app. split; [apply poly_zero|exact C2].
  Qed.

  Definition modular_result : Z :=
    let x := if (f =? IS_ADDMOD)%nat || (f =? IS_ADDFP254)%nat then a + b else if (f =? IS_SUBMOD)%nat || (f =? IS_SUBFP254)%nat then a - b else a * b in
    if m =? 0 then 0 else x mod m.

  Lemma modular_good : exists r nv, generate_modular (set zero_row f 1) zero_row f a b m = Some (r, nv) /\ good_pair f r nv a b m modular_result.
  Proof.
    exists r, nv. split; [exact gen_eq|]. destruct r_facts as (O & C & R0 & R1 & R2 & RO & RQ). destruct nv_ok as (N1 & N2 & N3).
    split; [exact O|]. split; [exact C|]. split; [exact N1|]. split; [exact N2|]. split; [exact N3|]. split.
    - rewrite eval_ops_eq. pose proof Hf as Hf'.
      assert (Foff : forall c, (c < 18)%nat -> (c =? f)%nat = false -> r c = 0) by (intros c Hc N; rewrite O by exact Hc; rewrite N; reflexivity).
      destruct Hf' as [E|[E|[E|[E|[E|[E|[]]]]]]];
      (apply Forall_app6; [apply eval_mul_zero|apply eval_addcy_zero|apply eval_divmod_zero|exact eval_modular_ok|apply byte_zero|apply eval_shift_zero];
        (apply Foff; [cbv; lia|rewrite <- E; reflexivity])).
    - split; [apply reg_u256; assumption|]. split; [apply reg_u256; assumption|]. split; [apply reg_u256; assumption|].
      unfold output. rewrite (reg_u256 r OUTPUT_REGISTER o o_w RO). unfold o, modular_result, eff, d.
      destruct (m =? 0); [apply Z.mod_1_r|]. f_equal. unfold i. rewrite Hinp.
      destruct ((f =? IS_ADDMOD)%nat || (f =? IS_ADDFP254)%nat); [|destruct ((f =? IS_SUBMOD)%nat || (f =? IS_SUBFP254)%nat)].
      + rewrite val_pol_add, !u256_val by (assumption || apply u256_length). reflexivity.
      + rewrite val_pol_sub, !u256_val by (assumption || apply u256_length). reflexivity.
      + rewrite val_pol_mul_wide, !u256_val by (assumption || apply u256_length). reflexivity.
  Qed.
End Modular.

(** * DIV, MOD and SHR *)

Lemma nth_pad : forall l n k, nth k (l ++ repeat 0 n) 0 = nth k l 0.
Proof.
  intros l n k. destruct (Nat.lt_ge_cases k (length l)) as [H|H]; [apply app_nth1; exact H|].
  rewrite app_nth2, (nth_overflow l) by exact H. apply nth_repeat.
Qed.

Section Div.
  Variables (f nr dr : nat) (a b : Z) (r0 : row).
  Hypothesis Hf : f = IS_DIV \/ f = IS_SHR \/ f = IS_MOD.
  Hypothesis (Ha : word a) (Hb : word b).
  Hypothesis (O0 : op_row f r0) (C0 : cells_ok r0).
  Hypothesis (Rn : read_value 16 r0 nr = u256_to_array a) (Rd : read_value 16 r0 dr = u256_to_array b).
  Hypothesis (Hn : (nr + 16 <= 82)%nat) (Hdr : (dr + 16 <= 82)%nat).
  Let d := (f =? IS_DIV)%nat || (f =? IS_SHR)%nat.
  Let q := a / eff b d.
  Let o := a mod eff b d.
  Hypothesis Rres : read_value 16 r0 OUTPUT_REGISTER = u256_to_array (if d then q else o).
  Let inp := u256_to_array a ++ repeat 0 15.
  Let nv := op_next b a inp d.
  Let aux := u256_to_array (if d then o else q).
  Let r := write (write r0 MODULAR_QUO_INPUT (pol_zero 32)) AUX_INPUT_REGISTER_0 aux.

  Lemma d_eff : 0 < eff b d.
  Proof. unfold eff, W. unfold word in Hb. destruct (b =? 0) eqn:E; [destruct d; reflexivity|lia]. Qed.

  Lemma d_words : word q /\ word o.
  Proof.
    pose proof d_eff as E. unfold q, o, word in *. pose proof (Z.div_mod a (eff b d) ltac:(lia)). pose proof (Z.mod_pos_bound a (eff b d) E).
    pose proof (Z.div_pos a (eff b d) ltac:(lia) E). split; nia.
  Qed.

  Lemma d_off : forall r', op_row f r' -> r' IS_DIV + r' IS_SHR = b2z d.
  Proof. intros r' O. rewrite !O by (cbv; lia). unfold d. destruct Hf as [-> | [-> | ->]]; reflexivity. Qed.

  Lemma d_inp : length inp = 31%nat /\ val inp = a /\ (- 2^256 < a < Bn 32) /\
    (Forall (fun x => 0 <= x <= 16 * (65535 * 65535)) inp /\ 0 <= a \/ Forall (absle 65535) inp).
  Proof.
    unfold inp. split; [rewrite app_length, u256_length; reflexivity|]. split.
    - rewrite val_app, val_zeros, u256_val by exact Ha. lia.
    - rewrite Bn32. unfold word in Ha. split; [lia|]. right. apply Forall_app. split; [apply limb_absle, u256_limbs|].
      eapply Forall_impl; [|apply zeros_forall]. unfold absle. cbn. lia.
  Qed.

  Lemma d_quot : op_quot f b a d = u256_to_array q ++ repeat 0 16.
  Proof.
    unfold op_quot. assert (E : ((f =? IS_SUBMOD)%nat || (f =? IS_SUBFP254)%nat) = false) by (destruct Hf as [-> | [-> | ->]]; reflexivity).
    rewrite E. apply cols_32_u256. apply d_words.
  Qed.

  Lemma div_gen : generate_divmod r0 zero_row f nr dr = Some (r, nv).
  Proof.
    unfold generate_divmod. change N_LIMBS with 16%nat. rewrite Rn.
    assert (EI : pol_extend (u256_to_array a) = inp) by reflexivity. rewrite EI. destruct d_inp as (L & V & B & W').
    rewrite (op_eq r0 f dr b a inp d eq_refl (d_off r0 O0) Hb Rd L V B W' (fun _ => Ha) (fun _ => eq_refl)). cbn [obind].
    change (2 * 16)%nat with 32%nat.
    assert (QL : map from_noncanonical (op_quot f b a d) = u256_to_array q ++ repeat 0 16).
    { rewrite d_quot. apply limb_from_noncanonical. apply Forall_app. split; [apply u256_limbs|]. repeat constructor; unfold limb; lia. }
    rewrite QL, firstn_exact by apply u256_length. fold nv o. unfold r, aux. fold d.
    destruct Hf as [E|[E|E]]; unfold d; rewrite E; reflexivity.
  Qed.

  Lemma div_reads : op_row f r /\ cells_ok r /\ read_value 16 r nr = u256_to_array a /\ read_value 16 r dr = u256_to_array b /\
    read_value 16 r OUTPUT_REGISTER = u256_to_array (if d then q else o) /\ read_value 16 r AUX_INPUT_REGISTER_0 = aux /\
    forall s, (s + 16 <= 82)%nat -> read_value 16 r s = read_value 16 r0 s.
  Proof.
    assert (LZ : length (pol_zero 32) = 32%nat) by reflexivity. assert (LA : length aux = 16%nat) by apply u256_length.
    assert (G : forall s, (s + 16 <= 82)%nat -> read_value 16 r s = read_value 16 r0 s).
    { intros s Hs. unfold r. rewrite !(read_write_other 16) by (rewrite ?LZ, ?LA; unfold AUX_INPUT_REGISTER_0, MODULAR_QUO_INPUT, AUX_INPUT_REGISTER_DBL; lia). reflexivity. }
    split; [unfold r; apply op_row_write; [cbv; lia|]; apply op_row_write; [cbv; lia|]; exact O0|].
    split. { unfold r. apply write_cells; [apply write_cells; [exact C0|]|apply u256_limbs]. unfold pol_zero. apply Forall_forall. intros x Hx. apply repeat_spec in Hx. subst x. unfold limb. lia. }
    split; [rewrite G by exact Hn; exact Rn|]. split; [rewrite G by exact Hdr; exact Rd|].
    split; [rewrite G by (cbv; lia); exact Rres|]. split; [|exact G].
    unfold r. apply read_write_same. exact LA.
  Qed.

  Lemma div_nv : cells_ok nv /\ single_ok nv /\ flags_zero nv.
  Proof.
    destruct d_inp as (L & V & B & W').
    destruct (op_next_ok r0 f dr b a inp d eq_refl (d_off r0 O0) Hb Rd L V B W' (fun _ => Ha) (fun _ => eq_refl)) as [N1 N2].
    split; [exact N1|]. split; [exact N2|].
    exact (op_next_flags r0 f dr b a inp d eq_refl (d_off r0 O0) Hb Rd L V B W' (fun _ => Ha) (fun _ => eq_refl)).
  Qed.

  Lemma div_helper : forall F, Forall (okr false)
    (eval_divmod_helper r nv F nr dr (if d then OUTPUT_REGISTER else AUX_INPUT_REGISTER_0) (if d then AUX_INPUT_REGISTER_0 else OUTPUT_REGISTER)).
  Proof.
    intros F. destruct div_reads as (O & C & R1 & R2 & R3 & R4 & _). destruct d_inp as (L & V & B & W').
    destruct (op_constraints r0 f dr b a inp d eq_refl (d_off r0 O0) Hb Rd L V B W' (fun _ => Ha) (fun _ => eq_refl) false r F (u256_to_array a) (d_off r O)) as [K1 K2].
    { intros k _. unfold inp. symmetry. apply nth_pad. }
    fold nv o q in K1, K2. rewrite (cols_32_u256 q) in K1, K2 by apply d_words.
    unfold eval_divmod_helper. cbv zeta. change N_LIMBS with 16%nat. change (pol_zero 16) with (repeat 0 16). rewrite R1, R2.
    assert (E1 : read_value 16 r (if d then OUTPUT_REGISTER else AUX_INPUT_REGISTER_0) = u256_to_array q).
    { unfold aux in R4. destruct d; [exact R3|exact R4]. }
    assert (E2 : read_value 16 r (if d then AUX_INPUT_REGISTER_0 else OUTPUT_REGISTER) = u256_to_array o).
    { unfold aux in R4. destruct d; [exact R4|exact R3]. }
    rewrite E1, E2. apply Forall_app. split; [constructor; [intros G; discriminate|constructor]|].
    apply Forall_app. split; assumption.
  Qed.
End Div.

Ltac feed H := repeat match type of H with ?A -> _ => let X := fresh in assert (X : A) by assumption; specialize (H X); clear X end.

Lemma quo_div : forall a b, word a -> word b -> a / eff b true = evm_div a b.
Proof.
  intros a b Ha Hb. unfold eff, evm_div, W, word in *. destruct (b =? 0) eqn:E; [|reflexivity]. apply Z.div_small. lia.
Qed.

Lemma rem_mod : forall a b, a mod eff b false = evm_mod a b.
Proof. intros a b. unfold eff, evm_mod. destruct (b =? 0); [apply Z.mod_1_r|reflexivity]. Qed.

Lemma reg_zero : forall r s, read_value 16 r s = repeat 0 16 -> reg 16 r s = 0.
Proof. intros r s E. rewrite reg_val, E. reflexivity. Qed.

Lemma divmod_good : forall f a b, word a -> word b -> f = IS_DIV \/ f = IS_MOD ->
  exists r nv, generate_divmod_op (set zero_row f 1) zero_row f a b (if (f =? IS_DIV)%nat then evm_div a b else evm_mod a b) = Some (r, nv) /\
    good_pair f r nv a b 0 (if (f =? IS_DIV)%nat then evm_div a b else evm_mod a b).
Proof.
  intros f a b Ha Hb Hf. unfold generate_divmod_op. cbv zeta.
  set (res := if (f =? IS_DIV)%nat then evm_div a b else evm_mod a b).
  set (r0 := write (write (write (set zero_row f 1) INPUT_REGISTER_0 (u256_to_array a)) INPUT_REGISTER_1 (u256_to_array b)) OUTPUT_REGISTER (u256_to_array res)).
  assert (H17 : (f < 17)%nat) by (destruct Hf as [-> | ->]; cbv; lia).
  destruct (op_row_set f H17) as [O C].
  assert (O0 : op_row f r0) by (unfold r0; repeat (apply op_row_write; [cbv; lia|]); exact O).
  assert (C0 : cells_ok r0) by (unfold r0; repeat (apply write_cells; [|apply u256_limbs]); exact C).
  assert (R0 : read_value 16 r0 INPUT_REGISTER_0 = u256_to_array a) by (unfold r0; rdw; reflexivity).
  assert (R1 : read_value 16 r0 INPUT_REGISTER_1 = u256_to_array b) by (unfold r0; rdw; reflexivity).
  assert (RO : read_value 16 r0 OUTPUT_REGISTER = u256_to_array res) by (unfold r0; rdw; reflexivity).
  assert (R2 : read_value 16 r0 INPUT_REGISTER_2 = repeat 0 16).
  { unfold r0. rdw. unfold set. rewrite (read_write_other 16) by (destruct Hf as [-> | ->]; cbv; lia). reflexivity. }
  clearbody r0.
  set (d := (f =? IS_DIV)%nat || (f =? IS_SHR)%nat).
  assert (ER : res = if d then a / eff b d else a mod eff b d).
  { unfold res, d. destruct Hf as [-> | ->]; cbn [Nat.eqb IS_DIV IS_SHR IS_MOD orb]; symmetry; [apply quo_div; assumption|apply rem_mod]. }
  rewrite ER in RO.
  assert (Hf3 : f = IS_DIV \/ f = IS_SHR \/ f = IS_MOD) by tauto.
  assert (B0 : (INPUT_REGISTER_0 + 16 <= 82)%nat) by (cbv; lia). assert (B1 : (INPUT_REGISTER_1 + 16 <= 82)%nat) by (cbv; lia).
  pose proof (div_gen f INPUT_REGISTER_0 INPUT_REGISTER_1 a b r0) as G. feed G.
  pose proof (div_reads f INPUT_REGISTER_0 INPUT_REGISTER_1 a b r0) as X. feed X. destruct X as (D1 & D2 & D3 & D4 & D5 & D6 & D7).
  pose proof (div_nv f INPUT_REGISTER_0 INPUT_REGISTER_1 a b r0) as X. feed X. destruct X as (N1 & N2 & N3).
  pose proof (div_helper f INPUT_REGISTER_0 INPUT_REGISTER_1 a b r0) as K. feed K.
  pose proof (d_words f INPUT_REGISTER_0 INPUT_REGISTER_1 a b r0) as X. feed X. destruct X as [W1 W2]. 
  fold d in G, D1, D2, D3, D4, D5, D6, D7, N1, N2, N3, K, W1, W2. rewrite <- ER in *.
  match type of G with _ = Some (?x, ?y) => set (r := x) in *; set (nv := y) in *; exists x, y; fold r nv end.
  split; [exact G|]. split; [exact D1|]. split; [exact D2|]. split; [exact N1|]. split; [exact N2|]. split; [exact N3|]. split.
  - rewrite eval_ops_eq. apply Forall_app6.
    + apply eval_mul_zero. rewrite D1 by (cbv; lia). destruct Hf as [-> | ->]; reflexivity.
    + apply eval_addcy_zero; (rewrite D1 by (cbv; lia); destruct Hf as [-> | ->]; reflexivity).
    + unfold eval_divmod. apply Forall_app. split.
      * destruct Hf as [E|E].
        { specialize (K (r IS_DIV)). subst f. exact K. }
        { rewrite (D1 IS_DIV) by (cbv; lia). rewrite E. apply helper_zero. }
      * destruct Hf as [E|E].
        { rewrite (D1 IS_MOD) by (cbv; lia). rewrite E. apply helper_zero. }
        { specialize (K (r IS_MOD)). subst f. exact K. }
    + apply eval_modular_zero; (rewrite D1 by (cbv; lia); destruct Hf as [-> | ->]; reflexivity).
    + apply byte_zero; (rewrite D1 by (cbv; lia); destruct Hf as [-> | ->]; reflexivity).
    + apply eval_shift_zero; (rewrite D1 by (cbv; lia); destruct Hf as [-> | ->]; reflexivity).
  - split; [apply reg_u256; assumption|]. split; [apply reg_u256; assumption|]. split.
    + apply reg_zero. rewrite D7 by (cbv; lia). exact R2.
    + apply reg_u256; [|exact D5]. rewrite ER. destruct d; assumption.
Qed.

Lemma shr_displacement : forall s x, word s -> word x -> x / eff (displacement s) true = evm_shr s x.
Proof.
  intros s x Hs Hx. rewrite quo_div by (assumption || (apply word_displacement; exact Hs)). unfold evm_div, displacement, evm_shr, word in *.
  destruct (255 <? s) eqn:E1, (s <? 256) eqn:E2; try lia; [reflexivity|].
  pose proof (Z.pow_pos_nonneg 2 s ltac:(lia) ltac:(lia)). rewrite (proj2 (Z.eqb_neq (2 ^ s) 0)) by lia. reflexivity.
Qed.

Lemma shr_good : forall s x, word s -> word x ->
  exists r nv, generate_shift (set zero_row IS_SHR 1) zero_row false s x (evm_shr s x) = Some (r, nv) /\
    good_pair IS_SHR r nv s x (displacement s) (evm_shr s x).
Proof.
  intros s x Hs Hx. unfold generate_shift. cbv zeta. fold (displacement s). pose proof (word_displacement s Hs) as Hb.
  set (r0 := write (write (write (write (set zero_row IS_SHR 1) INPUT_REGISTER_0 (u256_to_array s)) INPUT_REGISTER_1 (u256_to_array x)) OUTPUT_REGISTER (u256_to_array (evm_shr s x))) INPUT_REGISTER_2 (u256_to_array (displacement s))).
  destruct (op_row_set IS_SHR ltac:(cbv; lia)) as [O C].
  assert (O0 : op_row IS_SHR r0) by (unfold r0; repeat (apply op_row_write; [cbv; lia|]); exact O).
  assert (C0 : cells_ok r0) by (unfold r0; repeat (apply write_cells; [|apply u256_limbs]); exact C).
  assert (R0 : read_value 16 r0 INPUT_REGISTER_0 = u256_to_array s) by (unfold r0; rdw; reflexivity).
  assert (R1 : read_value 16 r0 INPUT_REGISTER_1 = u256_to_array x) by (unfold r0; rdw; reflexivity).
  assert (R2 : read_value 16 r0 INPUT_REGISTER_2 = u256_to_array (displacement s)) by (unfold r0; rdw; reflexivity).
  assert (RO : read_value 16 r0 OUTPUT_REGISTER = u256_to_array (evm_shr s x)) by (unfold r0; rdw; reflexivity).
  clearbody r0.
  assert (ER : evm_shr s x = if (IS_SHR =? IS_DIV)%nat || (IS_SHR =? IS_SHR)%nat then x / eff (displacement s) ((IS_SHR =? IS_DIV)%nat || (IS_SHR =? IS_SHR)%nat) else x mod eff (displacement s) ((IS_SHR =? IS_DIV)%nat || (IS_SHR =? IS_SHR)%nat)).
  { symmetry. exact (shr_displacement s x Hs Hx). }
  rewrite ER in RO.
  assert (Hf3 : IS_SHR = IS_DIV \/ IS_SHR = IS_SHR \/ IS_SHR = IS_MOD) by tauto.
  assert (B0 : (INPUT_REGISTER_2 + 16 <= 82)%nat) by (cbv; lia). assert (B1 : (INPUT_REGISTER_1 + 16 <= 82)%nat) by (cbv; lia).
  pose proof (div_gen IS_SHR INPUT_REGISTER_1 INPUT_REGISTER_2 x (displacement s) r0) as G. feed G.
  pose proof (div_reads IS_SHR INPUT_REGISTER_1 INPUT_REGISTER_2 x (displacement s) r0) as X. feed X. destruct X as (D1 & D2 & D3 & D4 & D5 & D6 & D7).
  pose proof (div_nv IS_SHR INPUT_REGISTER_1 INPUT_REGISTER_2 x (displacement s) r0) as X. feed X. destruct X as (N1 & N2 & N3).
  pose proof (div_helper IS_SHR INPUT_REGISTER_1 INPUT_REGISTER_2 x (displacement s) r0) as K. feed K.
  rewrite <- ER in D5.
  match type of G with _ = Some (?x, ?y) => set (r := x) in *; set (nv := y) in *; exists x, y; fold r nv end.
  split; [exact G|]. split; [exact D1|]. split; [exact D2|]. split; [exact N1|]. split; [exact N2|]. split; [exact N3|]. split.
  - rewrite eval_ops_eq. apply Forall_app6; try (others D1).
    unfold eval_shift. apply Forall_app. split; [rewrite (D1 IS_SHL) by (cbv; lia); apply mul_zero|]. exact (K (r IS_SHR)).
  - split; [apply reg_u256; [assumption|rewrite D7 by (cbv; lia); exact R0]|]. split; [apply reg_u256; assumption|]. split; [apply reg_u256; assumption|].
    apply reg_u256; [|exact D5]. pose proof (d_words IS_SHR INPUT_REGISTER_1 INPUT_REGISTER_2 x (displacement s) r0) as X. feed X. destruct X as [W1 _]. rewrite ER. exact W1.
Qed.
