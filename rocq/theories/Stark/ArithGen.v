(** Trace generation satisfies the constraints: one-row operations. *)
From Coq Require Import ZArith Znumtheory List Lia Bool.
From Coq Require Import ZifyBool ZifyNat.
From Verif Require Import Stark.Field Stark.ArithModel Stark.ArithSpec Stark.PolyProofs Stark.ArithSound Stark.ArithTrace Stark.ArithEmbed.
Import ListNotations.
Local Open Scope Z_scope.

(** * Reading what was written *)

Lemma write_in : forall lv s vs c, (s <= c < s + length vs)%nat -> write lv s vs c = nth (c - s) vs 0.
Proof.
  intros lv s vs c H. unfold write. rewrite (proj2 (Nat.leb_le s c)), (proj2 (Nat.ltb_lt c (s + length vs))) by lia. reflexivity.
Qed.

Lemma write_out : forall lv s vs c, (c < s \/ s + length vs <= c)%nat -> write lv s vs c = lv c.
Proof.
  intros lv s vs c H. unfold write. destruct (s <=? c)%nat eqn:E1, (c <? s + length vs)%nat eqn:E2; cbn [andb]; try reflexivity. lia.
Qed.

Lemma read_ext : forall n r r' s, (forall c, (s <= c < s + n)%nat -> r c = r' c) -> read_value n r s = read_value n r' s.
Proof. intros n r r' s H. unfold read_value. apply map_ext_in. intros c Hc. apply in_seq in Hc. apply H. lia. Qed.

Lemma read_write_same : forall n lv s vs, length vs = n -> read_value n (write lv s vs) s = vs.
Proof.
  intros n lv s vs L. apply nth_ext with (d := 0) (d' := 0); [rewrite read_length; symmetry; exact L|].
  intros i Hi. rewrite read_length in Hi. unfold read_value.
  rewrite nth_indep with (d' := write lv s vs 0%nat) by (rewrite map_length, seq_length; exact Hi).
  rewrite map_nth, seq_nth by exact Hi. rewrite write_in by lia. f_equal. lia.
Qed.

Lemma read_write_other : forall n lv s s' vs, (s + n <= s' \/ s' + length vs <= s)%nat -> read_value n (write lv s' vs) s = read_value n lv s.
Proof. intros n lv s s' vs H. apply read_ext. intros c Hc. apply write_out. lia. Qed.

(** Reading a prefix of what was written. *)
Lemma nth_read : forall n r s i, (i < n)%nat -> nth i (read_value n r s) 0 = r (s + i)%nat.
Proof.
  intros n r s i H. unfold read_value. rewrite nth_indep with (d' := r 0%nat) by (rewrite map_length, seq_length; exact H).
  rewrite map_nth, seq_nth by exact H. reflexivity.
Qed.

Lemma limb_canonical : forall x, limb x -> canonical x.
Proof. unfold limb, canonical, P. lia. Qed.

Lemma write_cells : forall lv s vs, cells_ok lv -> Forall limb vs -> cells_ok (write lv s vs).
Proof.
  intros lv s vs [C L] H.
  assert (G : forall c, write lv s vs c = lv c \/ limb (write lv s vs c)).
  { intros c. destruct (Nat.lt_ge_cases c s) as [G|G]; [left; apply write_out; lia|].
    destruct (Nat.lt_ge_cases c (s + length vs)) as [G'|G']; [right|left; apply write_out; lia].
    rewrite write_in by lia. rewrite Forall_forall in H. apply H. apply nth_In. lia. }
  split.
  - intros c. destruct (G c) as [->|G']; [apply C|apply limb_canonical; exact G'].
  - intros c Hc. destruct (G c) as [->|G']; [apply L; exact Hc|exact G'].
Qed.

(** * The flags of a generated row *)

Definition op_row (f : nat) (r : row) : Prop := forall c, (c < 18)%nat -> r c = if (c =? f)%nat then 1 else 0.

Lemma op_row_set : forall f, (f < 17)%nat -> op_row f (set zero_row f 1) /\ cells_ok (set zero_row f 1).
Proof.
  intros f Hf. split.
  - intros c Hc. unfold set, write. cbn [length].
    destruct (f <=? c)%nat eqn:E1, (c <? f + 1)%nat eqn:E2, (c =? f)%nat eqn:E3; cbn [andb]; try lia; try reflexivity.
    replace (c - f)%nat with 0%nat by lia. reflexivity.
  - apply write_cells; [apply zero_row_ok|]. repeat constructor; unfold limb; lia.
Qed.

Lemma op_row_write : forall f r s vs, (18 <= s)%nat -> op_row f r -> op_row f (write r s vs).
Proof. intros f r s vs Hs H c Hc. rewrite write_out by lia. apply H. exact Hc. Qed.

Lemma op_row_flags : forall f r last, (f < 17)%nat -> op_row f r -> Forall (okr last) (eval_flags r).
Proof.
  intros f r last Hf H. unfold eval_flags.
  assert (E : map r op_flags = map (fun c => if (c =? f)%nat then 1 else 0) op_flags).
  { apply map_ext_in. intros c Hc. apply in_seq in Hc. apply H. unfold IS_ADD, IS_RANGE_CHECK in Hc. lia. }
  rewrite E, (H OPCODE_COL), (H IS_RANGE_CHECK) by (unfold OPCODE_COL, IS_RANGE_CHECK; lia).
  do 17 (destruct f as [|f]; [repeat constructor|]). lia.
Qed.

Lemma op_row_off : forall f r c, op_row f r -> (c < 18)%nat -> c <> f -> r c = 0.
Proof. intros f r c H Hc N. rewrite H by exact Hc. rewrite (proj2 (Nat.eqb_neq c f) N). reflexivity. Qed.

Ltac others H := first
  [ apply eval_mul_zero | apply eval_addcy_zero | apply eval_divmod_zero | apply eval_modular_zero | apply byte_zero | apply eval_shift_zero ];
  (rewrite H; [reflexivity|unfold IS_ADD, IS_MUL, IS_SUB, IS_DIV, IS_MOD, IS_ADDMOD, IS_MULMOD, IS_ADDFP254, IS_MULFP254, IS_SUBFP254, IS_SUBMOD, IS_LT, IS_GT, IS_BYTE, IS_SHL, IS_SHR; lia]).

Ltac flag H := rewrite H; [reflexivity|unfold IS_ADD, IS_MUL, IS_SUB, IS_DIV, IS_MOD, IS_ADDMOD, IS_MULMOD, IS_ADDFP254, IS_MULFP254, IS_SUBFP254, IS_SUBMOD, IS_LT, IS_GT, IS_BYTE, IS_SHL, IS_SHR; lia].

(** * addcy *)

Lemma addcy_limbs_complete : forall x y w cy c, length y = length x -> length w = length x ->
  Forall limb x -> Forall limb y -> Forall limb w -> cy = 0 \/ cy = 1 -> c = 0 \/ c = 1 ->
  val x + val y + cy = val w + Bn (length x) * c ->
  Forall (fun t => t = 0 \/ t = 65536) (fst (addcy_limbs x y w cy)) /\ snd (addcy_limbs x y w cy) = c.
Proof.
  induction x as [|a x IH]; intros [|b y] [|d w] cy c Ly Lw Hx Hy Hw Hcy Hc V; try discriminate.
  - cbn [val length addcy_limbs fst snd] in *. rewrite Bn_0 in V. split; [constructor|lia].
  - cbn [length] in Ly, Lw. apply Forall_cons_iff in Hx, Hy, Hw. destruct Hx as [Ha Hx], Hy as [Hb Hy], Hw as [Hd Hw].
    unfold limb in Ha, Hb, Hd. cbn [val length] in V. rewrite Bn_S in V. cbn [addcy_limbs fst snd].
    assert (T : cy + a + b - d = 0 \/ cy + a + b - d = 65536) by lia.
    set (t := cy + a + b - d) in *.
    assert (E : 65536 * fmul t GOLDILOCKS_INVERSE_65536 = t) by (destruct T as [-> | ->]; reflexivity).
    pose proof (carry_inverse t T) as Hf.
    destruct (IH y w (fmul t GOLDILOCKS_INVERSE_65536) c) as [I1 I2]; try assumption; try lia.
    split; [constructor; assumption|exact I2].
Qed.

Lemma addcy_okr : forall last two f x y w g c,
  Forall (fun t => t = 0 \/ t = 65536) (fst (addcy_limbs x y w 0)) -> snd (addcy_limbs x y w 0) = c ->
  c = 0 \/ c = 1 -> hd 0 g = c -> Forall (fun v => v = 0) (tl g) ->
  Forall (okr last) (eval_packed_generic_addcy f x y w g two).
Proof.
  intros last two f x y w g c HT HC Hc Hg Htl. unfold eval_packed_generic_addcy.
  apply Forall_app. split.
  { apply map_zero. intros t Ht. rewrite Forall_forall in HT. cbn [snd]. destruct (HT t Ht) as [-> | ->]; [|change (2^16 - 65536) with 0]; ring. }
  apply Forall_app. split.
  { destruct two; constructor; [|constructor]. apply okr_z. rewrite Hg. destruct Hc as [-> | ->]; ring. }
  apply Forall_app. split.
  { constructor; [|constructor]. apply okr_z. rewrite HC, Hg. ring. }
  apply map_zero. intros v Hv. rewrite Forall_forall in Htl. cbn [snd]. rewrite (Htl v Hv). ring.
Qed.

Lemma u256_b2z : forall b, u256_to_array (b2z b) = b2z b :: repeat 0 15.
Proof. intros [|]; reflexivity. Qed.

Lemma u256_0 : u256_to_array 0 = repeat 0 16.
Proof. reflexivity. Qed.

Lemma zeros_forall : forall n, Forall (fun v => v = 0) (repeat 0 n).
Proof. intros n. apply Forall_forall. intros x Hx. exact (repeat_spec _ _ _ Hx). Qed.

Definition word (x : Z) : Prop := 0 <= x < 2^256.

Lemma addcy_words : forall last f x y w b, word x -> word y -> word w ->
  x + y = w + 2^256 * b2z b ->
  Forall (okr last) (eval_packed_generic_addcy f (u256_to_array x) (u256_to_array y) (u256_to_array w) (u256_to_array (b2z b)) false).
Proof.
  intros last f x y w b Hx Hy Hw V.
  destruct (addcy_limbs_complete (u256_to_array x) (u256_to_array y) (u256_to_array w) 0 (b2z b)) as [HT HC];
    try apply u256_limbs; try (rewrite !u256_length; reflexivity); try (left; reflexivity).
  - unfold b2z. destruct b; lia.
  - rewrite !u256_val by assumption. rewrite u256_length, Bn_16. lia.
  - apply addcy_okr with (b2z b); try assumption.
    + destruct b; cbn; lia.
    + rewrite u256_b2z. reflexivity.
    + rewrite u256_b2z. apply zeros_forall.
Qed.

Definition input0 (r : row) : Z := reg 16 r INPUT_REGISTER_0.
Definition input1 (r : row) : Z := reg 16 r INPUT_REGISTER_1.
Definition input2 (r : row) : Z := reg 16 r INPUT_REGISTER_2.
Definition output (r : row) : Z := reg 16 r OUTPUT_REGISTER.

Ltac rdw := rewrite ?(read_write_same 16), ?(read_write_other 16) by (rewrite ?u256_length; unfold INPUT_REGISTER_0, INPUT_REGISTER_1, INPUT_REGISTER_2, OUTPUT_REGISTER, AUX_INPUT_REGISTER_0, AUX_INPUT_REGISTER_1; lia || reflexivity).

(** What generation of a one-row operation has to achieve. *)
Definition good_row (f : nat) (r : row) (a b o : Z) : Prop :=
  op_row f r /\ cells_ok r /\ (forall last nv, Forall (okr last) (eval_ops r nv)) /\
  input0 r = a /\ input1 r = b /\ output r = o.

Lemma reg_u256 : forall r s x, word x -> read_value 16 r s = u256_to_array x -> reg 16 r s = x.
Proof. intros r s x Hx E. rewrite reg_val, E. apply u256_val. exact Hx. Qed.

Lemma word_mod : forall x, word (x mod 2^256).
Proof. intros x. apply Z.mod_pos_bound. reflexivity. Qed.
Lemma word_b2z : forall b, word (b2z b).
Proof. intros [|]; split; (discriminate || reflexivity). Qed.
Lemma word_0 : word 0.
Proof. split; (discriminate || reflexivity). Qed.

Section Addcy.
  Variables (f : nat) (aux out a b : Z).
  Hypothesis (Hf : (f < 17)%nat) (Ha : word a) (Hb : word b) (Hout : word out) .
  Let r := write (write (write (write (write (set zero_row f 1) INPUT_REGISTER_0 (u256_to_array a)) INPUT_REGISTER_1 (u256_to_array b))
             INPUT_REGISTER_2 (u256_to_array 0)) AUX_INPUT_REGISTER_0 (u256_to_array aux)) OUTPUT_REGISTER (u256_to_array out).

  Lemma addcy_row_reads : op_row f r /\ cells_ok r /\
    read_value 16 r INPUT_REGISTER_0 = u256_to_array a /\ read_value 16 r INPUT_REGISTER_1 = u256_to_array b /\
    read_value 16 r OUTPUT_REGISTER = u256_to_array out /\ read_value 16 r AUX_INPUT_REGISTER_0 = u256_to_array aux.
  Proof.
    destruct (op_row_set f Hf) as [O C]. unfold r.
    split; [repeat (apply op_row_write; [unfold INPUT_REGISTER_0, INPUT_REGISTER_1, INPUT_REGISTER_2, OUTPUT_REGISTER, AUX_INPUT_REGISTER_0; lia|]); exact O|].
    split; [repeat (apply write_cells; [|apply u256_limbs]); exact C|].
    repeat split; rdw; reflexivity.
  Qed.
End Addcy.

Lemma addcy_good : forall f a b r, word a -> word b -> In f [IS_ADD; IS_SUB; IS_LT; IS_GT] ->
  generate_addcy (set zero_row f 1) f a b = Some r ->
  good_row f r a b (if (f =? IS_ADD)%nat then evm_add a b else if (f =? IS_SUB)%nat then evm_sub a b else if (f =? IS_LT)%nat then evm_lt a b else evm_gt a b).
Proof.
  intros f a b r Ha Hb Hf. unfold generate_addcy. cbv zeta. intros E.
  assert (Ww : W = 2^256) by reflexivity.
  assert (HA : a + b = (a + b) mod 2^256 + 2^256 * b2z (W <=? a + b)).
  { rewrite Ww. unfold word in *. destruct (2^256 <=? a + b) eqn:E1; cbn [b2z].
    - replace (a + b) with (a + b - 2^256 + 1 * 2^256) at 2 by lia. rewrite Z.mod_add by lia. rewrite Z.mod_small by lia. lia.
    - rewrite Z.mod_small by lia. lia. }
  assert (HS : forall u v, word u -> word v -> v + (u - v) mod 2^256 = u + 2^256 * b2z (u <? v)).
  { intros u v Hu Hv. unfold word in *. destruct (u <? v) eqn:E1; cbn [b2z].
    - replace (u - v) with (u - v + 2^256 + (-1) * 2^256) by lia. rewrite Z.mod_add by lia. rewrite Z.mod_small by lia. lia.
    - rewrite Z.mod_small by lia. lia. }
  destruct Hf as [<-|[<-|[<-|[<-|[]]]]]; cbn [Nat.eqb IS_ADD IS_SUB IS_LT IS_GT] in *; injection E as <-.
  - destruct (addcy_row_reads IS_ADD (b2z (W <=? a + b)) ((a + b) mod W) a b ltac:(unfold IS_ADD; lia)) as (O & C & R0 & R1 & RO & RA).
    split; [exact O|]. split; [exact C|]. split.
    + intros last nv. rewrite eval_ops_eq. apply Forall_app6; try (others O).
      rewrite eval_addcy_eq. rewrite R0, R1, RO, RA.
      apply Forall_app. split; [|apply Forall_app; split; [|apply Forall_app; split]].
      * apply addcy_words; [assumption|assumption|apply word_mod|exact HA].
      * rewrite (op_row_off _ _ IS_SUB O) by (cbv; (lia || discriminate)). apply addcy_zero.
      * rewrite (op_row_off _ _ IS_LT O) by (cbv; (lia || discriminate)). apply addcy_zero.
      * rewrite (op_row_off _ _ IS_GT O) by (cbv; (lia || discriminate)). apply addcy_zero.
    + split; [apply reg_u256; assumption|]. split; [apply reg_u256; assumption|]. apply reg_u256; [apply word_mod|exact RO].
  - destruct (addcy_row_reads IS_SUB (b2z (a <? b)) ((a - b) mod W) a b ltac:(unfold IS_SUB; lia)) as (O & C & R0 & R1 & RO & RA).
    split; [exact O|]. split; [exact C|]. split.
    + intros last nv. rewrite eval_ops_eq. apply Forall_app6; try (others O).
      rewrite eval_addcy_eq. rewrite R0, R1, RO, RA.
      apply Forall_app. split; [|apply Forall_app; split; [|apply Forall_app; split]].
      * rewrite (op_row_off _ _ IS_ADD O) by (cbv; (lia || discriminate)). apply addcy_zero.
      * apply addcy_words; [assumption|apply word_mod|assumption|apply HS; assumption].
      * rewrite (op_row_off _ _ IS_LT O) by (cbv; (lia || discriminate)). apply addcy_zero.
      * rewrite (op_row_off _ _ IS_GT O) by (cbv; (lia || discriminate)). apply addcy_zero.
    + split; [apply reg_u256; assumption|]. split; [apply reg_u256; assumption|]. apply reg_u256; [apply word_mod|exact RO].
  - destruct (addcy_row_reads IS_LT ((a - b) mod W) (b2z (a <? b)) a b ltac:(unfold IS_LT; lia)) as (O & C & R0 & R1 & RO & RA).
    split; [exact O|]. split; [exact C|]. split.
    + intros last nv. rewrite eval_ops_eq. apply Forall_app6; try (others O).
      rewrite eval_addcy_eq. rewrite R0, R1, RO, RA.
      apply Forall_app. split; [|apply Forall_app; split; [|apply Forall_app; split]].
      * rewrite (op_row_off _ _ IS_ADD O) by (cbv; (lia || discriminate)). apply addcy_zero.
      * rewrite (op_row_off _ _ IS_SUB O) by (cbv; (lia || discriminate)). apply addcy_zero.
      * apply addcy_words; [assumption|apply word_mod|assumption|apply HS; assumption].
      * rewrite (op_row_off _ _ IS_GT O) by (cbv; (lia || discriminate)). apply addcy_zero.
    + split; [apply reg_u256; assumption|]. split; [apply reg_u256; assumption|]. apply reg_u256; [apply word_b2z|exact RO].
  - destruct (addcy_row_reads IS_GT ((b - a) mod W) (b2z (b <? a)) a b ltac:(unfold IS_GT; lia)) as (O & C & R0 & R1 & RO & RA).
    split; [exact O|]. split; [exact C|]. split.
    + intros last nv. rewrite eval_ops_eq. apply Forall_app6; try (others O).
      rewrite eval_addcy_eq. rewrite R0, R1, RO, RA.
      apply Forall_app. split; [|apply Forall_app; split; [|apply Forall_app; split]].
      * rewrite (op_row_off _ _ IS_ADD O) by (cbv; (lia || discriminate)). apply addcy_zero.
      * rewrite (op_row_off _ _ IS_SUB O) by (cbv; (lia || discriminate)). apply addcy_zero.
      * rewrite (op_row_off _ _ IS_LT O) by (cbv; (lia || discriminate)). apply addcy_zero.
      * apply addcy_words; [assumption|apply word_mod|assumption|apply HS; assumption].
    + split; [apply reg_u256; assumption|]. split; [apply reg_u256; assumption|]. apply reg_u256; [apply word_b2z|exact RO].
Qed.

(** * Multiplication *)

Lemma carry_limbs_spec : forall A C l cy, 0 <= C -> A + C <= 65536 * C -> Forall (fun x => 0 <= x <= A) l -> 0 <= cy <= C ->
  Forall limb (fst (carry_limbs l cy)) /\ length (fst (carry_limbs l cy)) = length l /\
  0 <= snd (carry_limbs l cy) <= C /\ val l + cy = val (fst (carry_limbs l cy)) + Bn (length l) * snd (carry_limbs l cy).
Proof.
  intros A C l cy HC HA H. revert cy. induction H as [|x l Hx H IH]; intros cy Hcy.
  - cbn [carry_limbs fst snd val length]. rewrite Bn_0. repeat split; try constructor; lia.
  - cbn [carry_limbs fst snd]. set (t := x + cy).
    assert (T : 0 <= t <= 65536 * C) by (unfold t; lia).
    assert (S : 0 <= Z.shiftr t 16 <= C).
    { rewrite Z.shiftr_div_pow2 by lia. change (2^16) with 65536. split; [apply Z.div_pos; lia|]. apply Z.div_le_upper_bound; lia. }
    destruct (IH _ S) as (I1 & I2 & I3 & I4).
    assert (L : Z.land t (2^16 - 1) = t mod 65536) by (change (2^16 - 1) with (Z.ones 16); rewrite Z.land_ones by lia; reflexivity).
    rewrite L. repeat split.
    + constructor; [unfold limb; apply Z.mod_pos_bound; lia|exact I1].
    + cbn [length]. rewrite I2. reflexivity.
    + lia.
    + lia.
    + cbn [val length]. rewrite Bn_S. rewrite Z.shiftr_div_pow2 in * by lia. change (2^16) with 65536 in *.
      pose proof (Z.div_mod t 65536 ltac:(lia)) as DM. unfold t in DM at 1.
      set (v := val (fst (carry_limbs l (t / 65536)))) in *. set (c := snd (carry_limbs l (t / 65536))) in *.
      replace (65536 * Bn (length l) * c) with (65536 * (Bn (length l) * c)) by ring. lia.
Qed.

Lemma split_aux : forall c, absle (2^20) c -> limb (lo16 (c + AUX_COEFF_ABS_MAX)) /\ limb (hi16 (c + AUX_COEFF_ABS_MAX)) /\
  unbias (lo16 (c + AUX_COEFF_ABS_MAX)) (hi16 (c + AUX_COEFF_ABS_MAX)) = c.
Proof.
  unfold absle, lo16, hi16, unbias, limb, AUX_COEFF_ABS_MAX. intros c Hc. set (x := c + 2^20).
  assert (0 <= x <= 2^21) by (unfold x; lia). rewrite Z.shiftr_div_pow2 by lia. change (2^16) with 65536.
  assert (0 <= x / 65536 < 65536) by (split; [apply Z.div_pos; lia|apply Z.div_lt_upper_bound; lia]).
  rewrite (Z.mod_small (x / 65536)) by lia. pose proof (Z.mod_pos_bound x 65536 ltac:(lia)).
  pose proof (Z.div_mod x 65536 ltac:(lia)) as DM. unfold x in DM at 1. repeat split; lia.
Qed.

Lemma split_limbs : forall l, Forall (absle (2^20)) l ->
  Forall limb (map lo16 (map (fun c => c + AUX_COEFF_ABS_MAX) l)) /\ Forall limb (map hi16 (map (fun c => c + AUX_COEFF_ABS_MAX) l)).
Proof.
  intros l H. rewrite !Forall_map. split; (eapply Forall_impl; [|exact H]); intros c Hc; apply split_aux; exact Hc.
Qed.

Lemma unsplit : forall l, Forall (absle (2^20)) l ->
  map (fun p => unbias (fst p) (snd p)) (combine (map lo16 (map (fun c => c + AUX_COEFF_ABS_MAX) l)) (map hi16 (map (fun c => c + AUX_COEFF_ABS_MAX) l))) = l.
Proof.
  induction 1 as [|c l Hc H IH]; [reflexivity|]. cbn [map combine fst snd]. rewrite IH. f_equal. apply split_aux. exact Hc.
Qed.

Lemma sub_self : forall a, Forall (fun x => x = 0) (pol_sub_assign a a).
Proof. induction a as [|x a IH]; cbn [pol_sub_assign]; constructor; [lia|exact IH]. Qed.

Lemma Forall_removelast : forall (Q : Z -> Prop) l, Forall Q l -> Forall Q (removelast l).
Proof.
  intros Q l H. rewrite Forall_forall in *. intros x Hx. apply H. clear H. induction l as [|y l IH]; [destruct Hx|].
  destruct l as [|y' l]; [destruct Hx|]. destruct Hx as [->|Hx]; [left; reflexivity|right; apply IH; exact Hx].
Qed.

Lemma set_last_length : forall l v, l <> [] -> length (set_last l v) = length l.
Proof.
  intros l v N. unfold set_last. rewrite app_length. cbn [length]. rewrite (app_removelast_last 0 N) at 2. rewrite app_length. reflexivity.
Qed.

(** The products of limbs. *)
Lemma mul_lo_bound : forall a b, length a = 16%nat -> Forall limb a -> Forall limb b ->
  Forall (fun x => 0 <= x <= 16 * (65535 * 65535)) (pol_mul_lo a b).
Proof.
  intros a b La Ha Hb. unfold pol_mul_lo. apply Forall_forall. intros x Hx. apply in_map_iff in Hx. destruct Hx as (k & <- & _).
  pose proof (conv_bound a b 65535 65535 k ltac:(lia) ltac:(lia) (limb_absle _ Ha) (limb_absle _ Hb)) as C. rewrite La in C.
  assert (NN : forall l, Forall limb l -> Forall (fun x => 0 <= x) l) by (intros l Hl; eapply Forall_impl; [|exact Hl]; unfold limb; cbn; lia).
  pose proof (conv_nonneg a b k (NN _ Ha) (NN _ Hb)). unfold absle in C. lia.
Qed.

Lemma Forall_tighten : forall (Q R : Z -> Prop) l, (forall x, Q x -> R x) -> Forall Q l -> Forall R l.
Proof. intros Q R l H. apply Forall_impl. exact H. Qed.

(** Multiplication on a row: the output and aux registers are filled so that
    the constraints hold. *)
Lemma generate_mul_spec : forall r a b, Forall limb a -> Forall limb b -> length a = 16%nat -> length b = 16%nat ->
  exists o lo hi, generate_mul r a b = write (write (write r OUTPUT_REGISTER o) MUL_AUX_INPUT_LO lo) MUL_AUX_INPUT_HI hi /\
    Forall limb o /\ Forall limb lo /\ Forall limb hi /\ length o = 16%nat /\ length lo = 16%nat /\ length hi = 16%nat /\
    val o = evm_mul (val a) (val b) /\
    forall last lv f, read_value 16 lv OUTPUT_REGISTER = o -> read_value 16 lv MUL_AUX_INPUT_LO = lo -> read_value 16 lv MUL_AUX_INPUT_HI = hi ->
      Forall (okr last) (eval_packed_generic_mul lv f a b).
Proof.
  intros r a b Ha Hb La Lb. unfold generate_mul. cbv zeta.
  set (u := pol_mul_lo a b). set (c := carry_limbs u 0).
  pose proof (mul_lo_bound a b La Ha Hb) as UB. fold u in UB.
  assert (Lu : length u = 16%nat) by (unfold u, pol_mul_lo; rewrite map_length, seq_length; reflexivity).
  destruct (carry_limbs_spec (16 * (65535 * 65535)) (2^20) u 0 ltac:(lia) ltac:(lia) UB ltac:(lia)) as (C1 & C2 & C3 & C4).
  fold c in C1, C2, C3, C4. rewrite Lu in C2, C4.
  set (d := pol_sub_assign u (fst c)).
  assert (Ld : length d = 16%nat) by (unfold d; rewrite sub_assign_length; exact Lu).
  assert (Vd : val d = snd c * Bn (length d)) by (rewrite Ld; unfold d; rewrite val_sub_assign by lia; lia).
  pose proof (remove_root_exact d (snd c) ltac:(lia) Vd) as EX.
  set (aux := set_last (pol_remove_root_2exp d) (- snd c)) in *.
  assert (Db : Forall (absle (16 * (65535 * 65535) + 65535)) d).
  { apply sub_assign_bound; [lia| |apply limb_absle; exact C1]. eapply Forall_impl; [|exact UB]. unfold absle. cbn. lia. }
  assert (Hr : pol_remove_root_2exp d <> []).
  { intros E. apply (f_equal (@length Z)) in E. rewrite pol_remove_root_length, Ld in E. discriminate. }
  assert (Ab : Forall (absle (2^20)) aux).
  { unfold aux, set_last. apply Forall_app. split.
    - apply Forall_removelast. eapply remove_root_bound; [lia| |exact Db]. lia.
    - repeat constructor; unfold absle; lia. }
  assert (La' : length aux = 16%nat) by (unfold aux; rewrite set_last_length by exact Hr; rewrite pol_remove_root_length; exact Ld).
  destruct (split_limbs aux Ab) as [SL SH].
  exists (fst c), (map lo16 (map (fun c => c + AUX_COEFF_ABS_MAX) aux)), (map hi16 (map (fun c => c + AUX_COEFF_ABS_MAX) aux)).
  split; [reflexivity|]. split; [exact C1|]. split; [exact SL|]. split; [exact SH|].
  split; [exact C2|]. split; [rewrite !map_length; exact La'|]. split; [rewrite !map_length; exact La'|]. split.
  - destruct (val_conv_mod a b 16) as [k Hk]. change (map (conv a b) (seq 0 16)) with u in Hk.
    rewrite Bn_16 in *. unfold evm_mul. pose proof (val_limb_bounds (fst c) C1) as VB. rewrite C2, Bn_16 in VB.
    replace (val a * val b) with (val (fst c) + (snd c + k) * 2^256) by lia. rewrite Z.mod_add by lia. symmetry. apply Z.mod_small. lia.
  - intros last lv f R1 R2 R3. unfold eval_packed_generic_mul. cbv zeta. change N_LIMBS with 16%nat. rewrite R1, R2, R3.
    rewrite unsplit by exact Ab. change (2^16) with 65536. rewrite EX. fold u. fold d.
    apply map_zero. intros x Hx. pose proof (sub_self d) as SS. rewrite Forall_forall in SS. cbn [snd]. rewrite (SS x Hx). ring.
Qed.

Lemma mul_good : forall a b, word a -> word b -> good_row IS_MUL (generate_mul_op (set zero_row IS_MUL 1) a b) a b (evm_mul a b).
Proof.
  intros a b Ha Hb. unfold generate_mul_op. cbv zeta. change N_LIMBS with 16%nat.
  set (r0 := write (write (write (set zero_row IS_MUL 1) INPUT_REGISTER_0 (u256_to_array a)) INPUT_REGISTER_1 (u256_to_array b)) INPUT_REGISTER_2 (u256_to_array 0)).
  assert (R0 : read_value 16 r0 INPUT_REGISTER_0 = u256_to_array a) by (unfold r0; rdw; reflexivity).
  assert (R1 : read_value 16 r0 INPUT_REGISTER_1 = u256_to_array b) by (unfold r0; rdw; reflexivity).
  rewrite R0, R1.
  destruct (generate_mul_spec r0 (u256_to_array a) (u256_to_array b)) as (o & lo & hi & E & Ho & Hlo & Hhi & Lo & Llo & Lhi & V & K);
    try apply u256_limbs; try apply u256_length. rewrite E.
  destruct (op_row_set IS_MUL ltac:(unfold IS_MUL; lia)) as [O C].
  assert (O' : op_row IS_MUL (write (write (write r0 OUTPUT_REGISTER o) MUL_AUX_INPUT_LO lo) MUL_AUX_INPUT_HI hi)).
  { unfold r0. repeat (apply op_row_write; [cbv; lia|]). exact O. }
  assert (C' : cells_ok (write (write (write r0 OUTPUT_REGISTER o) MUL_AUX_INPUT_LO lo) MUL_AUX_INPUT_HI hi)).
  { unfold r0. repeat (apply write_cells; [|first [assumption | apply u256_limbs]]). exact C. }
  clear E. set (r := write (write (write r0 OUTPUT_REGISTER o) MUL_AUX_INPUT_LO lo) MUL_AUX_INPUT_HI hi) in *.
  assert (RO : read_value 16 r OUTPUT_REGISTER = o).
  { unfold r. rewrite !(read_write_other 16) by (rewrite ?Llo, ?Lhi; cbv; lia). apply read_write_same. exact Lo. }
  assert (RI0 : read_value 16 r INPUT_REGISTER_0 = u256_to_array a).
  { unfold r. rewrite !(read_write_other 16) by (rewrite ?Lo, ?Llo, ?Lhi; cbv; lia). exact R0. }
  assert (RI1 : read_value 16 r INPUT_REGISTER_1 = u256_to_array b).
  { unfold r. rewrite !(read_write_other 16) by (rewrite ?Lo, ?Llo, ?Lhi; cbv; lia). exact R1. }
  split; [exact O'|]. split; [exact C'|]. split.
  - intros last nv. rewrite eval_ops_eq. apply Forall_app6; try (others O').
    unfold eval_mul. change N_LIMBS with 16%nat. rewrite RI0, RI1. apply K.
    + exact RO.
    + unfold r. rewrite (read_write_other 16) by (rewrite ?Llo, ?Lhi; cbv; lia). apply read_write_same. exact Llo.
    + unfold r. apply read_write_same. exact Lhi.
  - split; [apply reg_u256; assumption|]. split; [apply reg_u256; assumption|]. unfold output. rewrite reg_val, RO, V, !u256_val by assumption. reflexivity.
Qed.

(** * SHL *)

Definition displacement (s : Z) : Z := if 255 <? s then 0 else 2 ^ s.

Lemma word_displacement : forall s, word s -> word (displacement s).
Proof.
  intros s Hs. unfold word, displacement in *. destruct (255 <? s) eqn:E; [split; (discriminate || reflexivity)|].
  split; [apply Z.pow_nonneg; lia|]. apply Z.pow_lt_mono_r; lia.
Qed.

Lemma shl_displacement : forall s x, word s -> word x -> evm_mul x (displacement s) = evm_shl s x.
Proof.
  intros s x Hs Hx. unfold evm_mul, evm_shl, displacement, word in *. destruct (255 <? s) eqn:E1, (s <? 256) eqn:E2; try lia.
Qed.

Lemma shl_good : forall s x res p, word s -> word x ->
  generate_shift (set zero_row IS_SHL 1) zero_row true s x res = Some p ->
  good_row IS_SHL (fst p) s x (evm_shl s x) /\ input2 (fst p) = displacement s.
Proof.
  intros s x res p Hs Hx E. unfold generate_shift in E. cbv zeta in E. change N_LIMBS with 16%nat in E. fold (displacement s) in E.
  injection E as <-. cbn [fst].
  set (r0 := write (write (write (write (set zero_row IS_SHL 1) INPUT_REGISTER_0 (u256_to_array s)) INPUT_REGISTER_1 (u256_to_array x)) OUTPUT_REGISTER (u256_to_array res)) INPUT_REGISTER_2 (u256_to_array (displacement s))).
  assert (R0 : read_value 16 r0 INPUT_REGISTER_0 = u256_to_array s) by (unfold r0; rdw; reflexivity).
  assert (R1 : read_value 16 r0 INPUT_REGISTER_1 = u256_to_array x) by (unfold r0; rdw; reflexivity).
  assert (R2 : read_value 16 r0 INPUT_REGISTER_2 = u256_to_array (displacement s)) by (unfold r0; rdw; reflexivity).
  rewrite R1, R2.
  destruct (generate_mul_spec r0 (u256_to_array x) (u256_to_array (displacement s))) as (o & lo & hi & E & Ho & Hlo & Hhi & Lo & Llo & Lhi & V & K);
    try apply u256_limbs; try apply u256_length. rewrite E. clear E.
  destruct (op_row_set IS_SHL ltac:(unfold IS_SHL; lia)) as [O C].
  assert (O' : op_row IS_SHL (write (write (write r0 OUTPUT_REGISTER o) MUL_AUX_INPUT_LO lo) MUL_AUX_INPUT_HI hi)).
  { unfold r0. repeat (apply op_row_write; [cbv; lia|]). exact O. }
  assert (C' : cells_ok (write (write (write r0 OUTPUT_REGISTER o) MUL_AUX_INPUT_LO lo) MUL_AUX_INPUT_HI hi)).
  { unfold r0. repeat (apply write_cells; [|first [assumption | apply u256_limbs]]). exact C. }
  set (r := write (write (write r0 OUTPUT_REGISTER o) MUL_AUX_INPUT_LO lo) MUL_AUX_INPUT_HI hi) in *.
  assert (RO : read_value 16 r OUTPUT_REGISTER = o).
  { unfold r. rewrite !(read_write_other 16) by (rewrite ?Llo, ?Lhi; cbv; lia). apply read_write_same. exact Lo. }
  assert (RI0 : read_value 16 r INPUT_REGISTER_0 = u256_to_array s).
  { unfold r. rewrite !(read_write_other 16) by (rewrite ?Lo, ?Llo, ?Lhi; cbv; lia). exact R0. }
  assert (RI1 : read_value 16 r INPUT_REGISTER_1 = u256_to_array x).
  { unfold r. rewrite !(read_write_other 16) by (rewrite ?Lo, ?Llo, ?Lhi; cbv; lia). exact R1. }
  assert (RI2 : read_value 16 r INPUT_REGISTER_2 = u256_to_array (displacement s)).
  { unfold r. rewrite !(read_write_other 16) by (rewrite ?Lo, ?Llo, ?Lhi; cbv; lia). exact R2. }
  split; [|apply reg_u256; [apply word_displacement|]; assumption].
  split; [exact O'|]. split; [exact C'|]. split.
  - intros last nv. rewrite eval_ops_eq. apply Forall_app6; try (others O').
    unfold eval_shift. change N_LIMBS with 16%nat. rewrite RI1, RI2. apply Forall_app. split.
    + apply K.
      * exact RO.
      * unfold r. rewrite (read_write_other 16) by (rewrite ?Llo, ?Lhi; cbv; lia). apply read_write_same. exact Llo.
      * unfold r. apply read_write_same. exact Lhi.
    + rewrite (op_row_off _ _ IS_SHR O') by (cbv; (lia || discriminate)). apply helper_zero.
  - split; [apply reg_u256; assumption|]. split; [apply reg_u256; assumption|]. unfold output. rewrite reg_val, RO, V, !u256_val by (try apply word_displacement; assumption).
    apply shl_displacement; assumption.
Qed.

(** * Range checks *)

Lemma range_good : forall a b c opcode o p, word a -> word b -> word c -> word o -> 0 <= opcode ->
  range_check_to_rows a b c opcode o = Some p ->
  snd p = None /\ single_ok (fst p) /\ cells_ok (fst p) /\ input0 (fst p) = a /\ input1 (fst p) = b /\ input2 (fst p) = c /\ output (fst p) = o /\
  fst p OPCODE_COL = opcode /\ forall f, (f < 17)%nat -> fst p f = if (f =? IS_RANGE_CHECK)%nat then 1 else 0.
Proof.
  intros a b c opcode o p Ha Hb Hc Ho Hop E. unfold range_check_to_rows in E. destruct (opcode <? P) eqn:EP; [|discriminate].
  injection E as <-. cbn [fst snd one_row].
  destruct (op_row_set IS_RANGE_CHECK ltac:(unfold IS_RANGE_CHECK; lia)) as [O C].
  set (r0 := set (set zero_row IS_RANGE_CHECK 1) OPCODE_COL opcode).
  assert (C0 : cells_ok r0).
  { destruct C as [C1 C2]. unfold r0, set at 1. split.
    - intros k. destruct (Nat.eq_dec k OPCODE_COL) as [->|N].
      + rewrite write_in by (cbn [length]; lia). rewrite Nat.sub_diag. cbn [nth]. unfold canonical. lia.
      + rewrite write_out by (cbn [length]; lia). apply C1.
    - intros k Hk. rewrite write_out by (cbn [length]; unfold OPCODE_COL; lia). apply C2. exact Hk. }
  assert (F0 : forall f, (f < 17)%nat -> r0 f = if (f =? IS_RANGE_CHECK)%nat then 1 else 0).
  { intros f Hf. unfold r0, set at 1. rewrite write_out by (cbn [length]; unfold OPCODE_COL; lia). apply O. lia. }
  assert (P0 : r0 OPCODE_COL = opcode) by (unfold r0, set at 1; rewrite write_in by (cbn [length]; lia); reflexivity).
  match goal with |- _ /\ single_ok ?x /\ _ => set (r := x) end.
  assert (F : forall f, (f < 17)%nat -> r f = if (f =? IS_RANGE_CHECK)%nat then 1 else 0).
  { intros f Hf. unfold r. rewrite !write_out by (cbv [INPUT_REGISTER_0 INPUT_REGISTER_1 INPUT_REGISTER_2 OUTPUT_REGISTER]; lia). apply F0. exact Hf. }
  assert (PC : r OPCODE_COL = opcode).
  { unfold r. rewrite !write_out by (cbv [INPUT_REGISTER_0 INPUT_REGISTER_1 INPUT_REGISTER_2 OUTPUT_REGISTER OPCODE_COL]; lia). exact P0. }
  split; [reflexivity|]. split; [|split].
  - intros last nv. split.
    + unfold eval_flags.
      assert (E : map r op_flags = map (fun c => if (c =? IS_RANGE_CHECK)%nat then 1 else 0) op_flags).
      { apply map_ext_in. intros k Hk. apply in_seq in Hk. apply F. unfold IS_ADD, IS_RANGE_CHECK in Hk. lia. }
      rewrite E, (F IS_RANGE_CHECK) by (unfold IS_RANGE_CHECK; lia). apply Forall_app. split; [repeat constructor|].
      constructor; [reflexivity|]. constructor; [apply okr_z; reflexivity|constructor].
    + rewrite eval_ops_eq. apply Forall_app6; others F.
  - unfold r. repeat (apply write_cells; [|apply u256_limbs]). exact C0.
  - split; [|split; [|split; [|split; [|split; [exact PC|exact F]]]]]; (apply reg_u256; [assumption|]; unfold r; rdw; reflexivity).
Qed.
