(** Groups of rows that satisfy the constraints make an accepted table when
    padded as [generate_trace] does. *)
From Coq Require Import ZArith Znumtheory List Lia Bool.
From Coq Require Import ZifyBool ZifyNat.
From Verif Require Import Stark.Field Stark.ArithModel Stark.ArithSpec Stark.PolyProofs Stark.ArithSound Stark.ArithTrace.
Import ListNotations.
Local Open Scope Z_scope.

Lemma eval_ops_eq : forall lv nv, eval_ops lv nv =
  eval_mul lv ++ eval_addcy lv ++ eval_divmod lv nv ++ eval_modular lv nv ++ eval_byte lv ++ eval_shift lv nv.
Proof. intros. reflexivity. Qed.

Lemma Forall_app6 : forall {A} (Q : A -> Prop) a b c d e f, Forall Q a -> Forall Q b -> Forall Q c -> Forall Q d -> Forall Q e -> Forall Q f ->
  Forall Q (a ++ b ++ c ++ d ++ e ++ f).
Proof. intros. repeat (apply Forall_app; split); assumption. Qed.

Definition row_ok (last : bool) (lv nv : row) : Prop :=
  Forall (okr last) (eval_flags lv) /\ Forall (okr last) (eval_ops lv nv).

(** Cells are field elements, shared cells are 16-bit. *)
Definition cells_ok (r : row) : Prop := (forall c, canonical (r c)) /\ limbs_ok r.

(** A row that needs no particular successor. *)
Definition single_ok (r : row) : Prop := forall last nv, row_ok last r nv.

(** The blocks a trace is made of. *)
Inductive blocks : list row -> Prop :=
| blocks_nil : blocks []
| blocks_one : forall r rs, single_ok r -> cells_ok r -> blocks rs -> blocks (r :: rs)
| blocks_two : forall r r' rs, row_ok false r r' -> single_ok r' -> cells_ok r -> cells_ok r' -> blocks rs -> blocks (r :: r' :: rs).

Lemma blocks_app : forall a b, blocks a -> blocks b -> blocks (a ++ b).
Proof.
  induction 1 as [|r rs S C H IH|r r' rs R S C C' H IH]; intros Hb; cbn [app].
  - exact Hb.
  - apply blocks_one; auto.
  - apply blocks_two; auto.
Qed.

Lemma blocks_cells : forall rs, blocks rs -> Forall cells_ok rs.
Proof. induction 1 as [|r rs S C H IH|r r' rs R S C C' H IH]; [constructor| |]; auto using Forall_cons. Qed.

Lemma blocks_rows : forall rs, blocks rs -> forall i, (i < length rs)%nat ->
  single_ok (nth i rs zero_row) \/ ((S i < length rs)%nat /\ row_ok false (nth i rs zero_row) (nth (S i) rs zero_row)).
Proof.
  induction 1 as [|r rs S C H IH|r r' rs R S C C' H IH]; intros i L; cbn [length] in *; [lia| |].
  - destruct i as [|i]; [left; exact S|]. destruct (IH i ltac:(lia)) as [G|[G1 G2]]; [left; exact G|right].
    split; [lia|exact G2].
  - destruct i as [|[|i]]; [right; split; [lia|exact R]|left; exact S|].
    destruct (IH i ltac:(lia)) as [G|[G1 G2]]; [left; exact G|right]. split; [lia|exact G2].
Qed.

(** * Rows without an operation *)

Lemma z0 : z 0.
Proof. reflexivity. Qed.

Lemma okr_z : forall last k e, e = 0 -> okr last (k, e).
Proof. intros last k e ->. unfold okr. destruct k; cbn [fst snd]; auto using z0. Qed.

Lemma map_zero : forall {A} last (f : A -> constr) l, (forall x, In x l -> snd (f x) = 0) -> Forall (okr last) (map f l).
Proof.
  intros A last f l H. rewrite Forall_map. apply Forall_forall. intros x Hx. specialize (H x Hx). destruct (f x) as [k e]. apply okr_z. exact H.
Qed.

Lemma addcy_zero : forall last x y w g two, Forall (okr last) (eval_packed_generic_addcy 0 x y w g two).
Proof.
  intros. unfold eval_packed_generic_addcy. apply Forall_app. split; [apply map_zero; intros; cbn [snd]; lia|].
  apply Forall_app. split; [destruct two; constructor; [apply okr_z; lia|constructor]|].
  apply Forall_app. split; [constructor; [apply okr_z; lia|constructor]|].
  apply map_zero; intros; cbn [snd]; lia.
Qed.

Lemma mul_zero : forall last lv a b, Forall (okr last) (eval_packed_generic_mul lv 0 a b).
Proof. intros. unfold eval_packed_generic_mul. apply map_zero. intros; cbn [snd]; lia. Qed.

Lemma poly_zero : forall last p i, Forall (okr last) (poly_constraints p i 0).
Proof. intros. unfold poly_constraints. apply map_zero. intros; cbn [snd]; lia. Qed.

Lemma modular_poly_zero : forall last lv nv o m q, Forall (okr last) (fst (modular_constr_poly lv nv 0 o m q)).
Proof.
  intros. unfold modular_constr_poly. cbv zeta. cbn [fst].
  apply Forall_app. split; [repeat (constructor; [apply okr_z; lia|]); constructor|].
  apply Forall_app. split; [apply addcy_zero|]. apply map_zero. intros; cbn [snd]; lia.
Qed.

Lemma submod_poly_zero : forall last lv nv o m q, Forall (okr last) (fst (submod_constr_poly lv nv 0 o m q)).
Proof.
  intros. unfold submod_constr_poly. cbv zeta. cbn [fst]. constructor; [apply okr_z; lia|].
  apply Forall_app. split; [apply map_zero; intros; cbn [snd]; lia|]. apply modular_poly_zero.
Qed.

Lemma helper_zero : forall last lv nv a b c d, Forall (okr last) (eval_divmod_helper lv nv 0 a b c d).
Proof.
  intros. unfold eval_divmod_helper. cbv zeta. apply Forall_app. split; [constructor; [apply okr_z; lia|constructor]|].
  apply Forall_app. split; [apply modular_poly_zero|apply poly_zero].
Qed.

Lemma byte_zero : forall last lv, lv IS_BYTE = 0 -> Forall (okr last) (eval_byte lv).
Proof.
  intros last lv E. unfold eval_byte. rewrite E. cbv zeta.
  repeat (apply Forall_app; split); try (apply map_zero; intros; cbn [snd]; reflexivity);
  repeat (constructor; [apply okr_z; reflexivity|]); constructor.
Qed.

Lemma eval_modular_zero : forall last lv nv, lv IS_ADDMOD = 0 -> lv IS_SUBMOD = 0 -> lv IS_MULMOD = 0 ->
  lv IS_ADDFP254 = 0 -> lv IS_MULFP254 = 0 -> lv IS_SUBFP254 = 0 -> Forall (okr last) (eval_modular lv nv).
Proof.
  intros last lv nv E1 E2 E3 E4 E5 E6. unfold eval_modular. cbv zeta. rewrite E1, E2, E3, E4, E5, E6.
  change (0 + 0 + 0 + (0 + 0 + 0)) with 0. change (0 + 0 + 0) with 0. change (0 + 0 + (0 + 0)) with 0. change (0 + 0) with 0.
  apply Forall_app. split; [constructor; [apply okr_z; lia|constructor]|].
  apply Forall_app. split; [apply map_zero; intros; cbn [snd]; lia|].
  apply Forall_app. split; [apply submod_poly_zero|].
  apply Forall_app. split; [apply modular_poly_zero|].
  apply Forall_app. split; [apply poly_zero|].
  apply Forall_app. split; apply poly_zero.
Qed.

Lemma eval_addcy_zero : forall last lv, lv IS_ADD = 0 -> lv IS_SUB = 0 -> lv IS_LT = 0 -> lv IS_GT = 0 -> Forall (okr last) (eval_addcy lv).
Proof.
  intros last lv E1 E2 E3 E4. rewrite eval_addcy_eq, E1, E2, E3, E4.
  do 3 (apply Forall_app; split; [apply addcy_zero|]). apply addcy_zero.
Qed.

Lemma eval_mul_zero : forall last lv, lv IS_MUL = 0 -> Forall (okr last) (eval_mul lv).
Proof. intros last lv E. unfold eval_mul. rewrite E. apply mul_zero. Qed.

Lemma eval_divmod_zero : forall last lv nv, lv IS_DIV = 0 -> lv IS_MOD = 0 -> Forall (okr last) (eval_divmod lv nv).
Proof. intros last lv nv E1 E2. unfold eval_divmod. rewrite E1, E2. apply Forall_app. split; apply helper_zero. Qed.

Lemma eval_shift_zero : forall last lv nv, lv IS_SHL = 0 -> lv IS_SHR = 0 -> Forall (okr last) (eval_shift lv nv).
Proof. intros last lv nv E1 E2. unfold eval_shift. rewrite E1, E2. apply Forall_app. split; [apply mul_zero|apply helper_zero]. Qed.

Definition flags_zero (r : row) : Prop := forall c, (c < 18)%nat -> r c = 0.

Lemma flags_zero_ok : forall r, flags_zero r -> single_ok r.
Proof.
  intros r F last nv. split.
  - unfold eval_flags. apply Forall_app. split.
    + apply map_zero. intros x Hx. apply in_map_iff in Hx. destruct Hx as (c & <- & Hc). cbn [snd].
      unfold op_flags in Hc. apply in_seq in Hc. rewrite F; [lia|]. unfold IS_ADD, IS_RANGE_CHECK in Hc. lia.
    + assert (E : map r op_flags = repeat 0 17).
      { change (repeat 0 17) with (map (fun _ : nat => 0) op_flags). apply map_ext_in. intros c Hc. apply in_seq in Hc. apply F. unfold IS_ADD, IS_RANGE_CHECK in Hc. lia. }
      rewrite E. rewrite (F OPCODE_COL) by (unfold OPCODE_COL; lia). rewrite Z.mul_0_r.
      constructor; [apply okr_z; reflexivity|]. constructor; [apply okr_z; reflexivity|constructor].
  - rewrite eval_ops_eq. apply Forall_app6.
    + apply eval_mul_zero. apply F. unfold IS_MUL. lia.
    + apply eval_addcy_zero; apply F; unfold IS_ADD, IS_SUB, IS_LT, IS_GT; lia.
    + apply eval_divmod_zero; apply F; unfold IS_DIV, IS_MOD; lia.
    + apply eval_modular_zero; apply F; unfold IS_ADDMOD, IS_SUBMOD, IS_MULMOD, IS_ADDFP254, IS_MULFP254, IS_SUBFP254; lia.
    + apply byte_zero. apply F. unfold IS_BYTE. lia.
    + apply eval_shift_zero; apply F; unfold IS_SHL, IS_SHR; lia.
Qed.

Lemma zero_row_ok : single_ok zero_row /\ cells_ok zero_row.
Proof.
  split; [apply flags_zero_ok; intros c _; reflexivity|].
  split; [intros c|intros c _]; split; (discriminate || reflexivity).
Qed.

Lemma blocks_repeat : forall n, blocks (repeat zero_row n).
Proof. induction n as [|n IH]; cbn [repeat]; [constructor|]. destruct zero_row_ok. apply blocks_one; assumption. Qed.

(** * The table *)

Definition to_trow (rs : list row) (p : nat * row) : trow :=
  let i := Z.of_nat (fst p) in
  {| cells := snd p; range_counter := Z.min i (RANGE_MAX - 1);
     rc_frequency := if i <? RANGE_MAX then count_cells rs i mod P else 0 |}.

Definition mk_table (rs : list row) : list trow := map (to_trow rs) (combine (seq 0 (length rs)) rs).

Lemma combine_length_eq : forall rs : list row, length (combine (seq 0 (length rs)) rs) = length rs.
Proof. intros. rewrite combine_length, seq_length. lia. Qed.

Lemma mk_table_length : forall rs, length (mk_table rs) = length rs.
Proof. intros. unfold mk_table. rewrite map_length. apply combine_length_eq. Qed.

Lemma mk_table_nth : forall rs i, (i < length rs)%nat -> nth i (mk_table rs) zero_trow = to_trow rs (i, nth i rs zero_row).
Proof.
  intros rs i L. unfold mk_table. rewrite nth_indep with (d' := to_trow rs (0%nat, zero_row)) by (rewrite map_length, combine_length_eq; exact L).
  rewrite map_nth, combine_nth by (rewrite seq_length; reflexivity). rewrite seq_nth by exact L. reflexivity.
Qed.

Lemma sum_app : forall a b, sum (a ++ b) = sum a + sum b.
Proof. induction a as [|x a IH]; intros b; [reflexivity|]. cbn [app]. change (x + sum (a ++ b) = x + sum a + sum b). rewrite IH. lia. Qed.

Lemma sum_zero : forall {A} (f : A -> Z) l, (forall x, In x l -> f x = 0) -> sum (map f l) = 0.
Proof.
  intros A f l H. induction l as [|x l IH]; [reflexivity|]. cbn [map]. change (f x + sum (map f l) = 0).
  rewrite H by (left; reflexivity). rewrite IH by (intros; apply H; right; assumption). reflexivity.
Qed.

Lemma map_combine_seq : forall {B} (g : nat -> B) (rs : list row) s, map (fun p => g (fst p)) (combine (seq s (length rs)) rs) = map g (seq s (length rs)).
Proof. induction rs as [|r rs IH]; intros s; [reflexivity|]. cbn [length seq combine map fst]. rewrite IH. reflexivity. Qed.

Lemma map_combine_snd : forall {B} (g : row -> B) (rs : list row) s, map (fun p => g (snd p)) (combine (seq s (length rs)) rs) = map g rs.
Proof. induction rs as [|r rs IH]; intros s; [reflexivity|]. cbn [length seq combine map snd]. rewrite IH. reflexivity. Qed.

Lemma occurrences_mk : forall rs v, occurrences (mk_table rs) v = count_cells rs v.
Proof.
  intros. unfold occurrences, mk_table. rewrite map_map. unfold count_cells. f_equal.
  exact (map_combine_snd (fun r : row => sum (map (fun c => b2z (r c =? v)) SHARED_COLS)) rs 0).
Qed.

Lemma multiplicity_mk : forall rs v, 65536 <= Z.of_nat (length rs) ->
  multiplicity (mk_table rs) v = if (0 <=? v) && (v <? 65536) then count_cells rs v mod P else 0.
Proof.
  intros rs v L. unfold multiplicity, mk_table. rewrite map_map.
  set (g := fun i : nat => if Z.min (Z.of_nat i) (RANGE_MAX - 1) =? v then (if Z.of_nat i <? RANGE_MAX then count_cells rs (Z.of_nat i) mod P else 0) else 0).
  transitivity (sum (map g (seq 0 (length rs)))).
  { rewrite <- (map_combine_seq g rs 0). reflexivity. }
  destruct ((0 <=? v) && (v <? 65536)) eqn:E.
  - set (k := Z.to_nat v). assert (Hk : Z.of_nat k = v) by (unfold k; lia).
    replace (length rs) with (k + (1 + (length rs - k - 1)))%nat by lia.
    rewrite seq_app, map_app, sum_app. rewrite seq_app, map_app, sum_app.
    rewrite (sum_zero g (seq 0 k)).
    2: { intros i Hi. apply in_seq in Hi. unfold g, RANGE_MAX. destruct (Z.min (Z.of_nat i) (2 ^ 16 - 1) =? v) eqn:E1; [lia|reflexivity]. }
    rewrite (sum_zero g (seq (0 + k + 1) _)).
    2: { intros i Hi. apply in_seq in Hi. unfold g, RANGE_MAX. destruct (Z.min (Z.of_nat i) (2 ^ 16 - 1) =? v) eqn:E1; [|reflexivity].
         destruct (Z.of_nat i <? 2 ^ 16) eqn:E2; [lia|reflexivity]. }
    cbn [seq map sum fold_right Nat.add]. unfold g, RANGE_MAX. rewrite Hk.
    assert (E1 : (Z.min v (2 ^ 16 - 1) =? v) = true) by lia. assert (E2 : (v <? 2^16) = true) by lia. rewrite E1, E2. lia.
  - apply sum_zero. intros i Hi. unfold g, RANGE_MAX. destruct (Z.min (Z.of_nat i) (2 ^ 16 - 1) =? v) eqn:E1; [lia|reflexivity].
Qed.

Lemma count_outside : forall rs v, Forall cells_ok rs -> v < 0 \/ 65536 <= v -> count_cells rs v = 0.
Proof.
  intros rs v H Hv. unfold count_cells. apply sum_zero. intros r Hr. rewrite Forall_forall in H. destruct (H r Hr) as [_ HL].
  apply sum_zero. intros c Hc. unfold SHARED_COLS in Hc. apply in_seq in Hc.
  assert (limb (r c)) as B by (apply HL; unfold START_SHARED_COLS, NUM_SHARED_COLS, N_LIMBS in Hc; lia). unfold limb in B.
  destruct (r c =? v) eqn:E; [lia|reflexivity].
Qed.

Theorem table_of_blocks : forall rs, blocks rs -> 65536 <= Z.of_nat (length rs) -> table_ok (mk_table rs).
Proof.
  intros rs B L. pose proof (blocks_cells rs B) as C. unfold table_ok. split; [|split].
  - intros i Hi. rewrite mk_table_length in *.
    pose proof (Nat.mod_upper_bound (S i) (length rs) ltac:(lia)) as HM.
    rewrite !mk_table_nth by assumption.
    assert (G : forall last l, (last = (S i =? length rs)%nat) -> Forall (okr last) l -> Forall (fun c : kind * Z => fst c <> First) l ->
              Forall (fun c : kind * Z => applies (fst c) i (length rs) = true -> snd c mod P = 0) l).
    { intros last l El Hl Hf. rewrite Forall_forall in *. intros [k e] Hin Ha. specialize (Hl _ Hin). specialize (Hf _ Hin).
      unfold okr in Hl. cbn [fst snd] in *.
      destruct k; cbn [applies] in Ha.
      - exact Hl.
      - apply Hl. destruct last; [rewrite <- El in Ha; discriminate|reflexivity].
      - congruence.
      - apply Hl. congruence. }
    assert (NF : forall lv nv, Forall (fun c : kind * Z => fst c <> First) (eval_flags lv) /\ Forall (fun c : kind * Z => fst c <> First) (eval_ops lv nv)).
    { clear. intros lv nv.
      assert (MP : forall A (f : A -> constr) l, (forall x, fst (f x) <> First) -> Forall (fun c : kind * Z => fst c <> First) (map f l)).
      { intros A f l Hf. rewrite Forall_map. apply Forall_forall. intros; apply Hf. }
      assert (AD : forall f x y w g two, Forall (fun c : kind * Z => fst c <> First) (eval_packed_generic_addcy f x y w g two)).
      { intros. unfold eval_packed_generic_addcy. repeat (apply Forall_app; split); try (apply MP; intros; cbn [fst]; destruct two; discriminate).
        - destruct two; repeat constructor; discriminate.
        - repeat constructor. destruct two; discriminate. }
      assert (MO : forall f o m q, Forall (fun c : kind * Z => fst c <> First) (fst (modular_constr_poly lv nv f o m q))).
      { intros. unfold modular_constr_poly. cbv zeta. cbn [fst]. apply Forall_app. split; [repeat constructor; discriminate|].
        apply Forall_app. split; [apply AD|apply MP; discriminate]. }
      assert (HE : forall f a b c d, Forall (fun c : kind * Z => fst c <> First) (eval_divmod_helper lv nv f a b c d)).
      { intros. unfold eval_divmod_helper. cbv zeta. apply Forall_app. split; [repeat constructor; discriminate|].
        apply Forall_app. split; [apply MO|apply MP; discriminate]. }
      split.
      - unfold eval_flags. apply Forall_app. split; [apply MP; discriminate|repeat constructor; discriminate].
      - rewrite eval_ops_eq. apply Forall_app6.
        + apply MP. discriminate.
        + rewrite eval_addcy_eq. do 3 (apply Forall_app; split; [apply AD|]). apply AD.
        + unfold eval_divmod. apply Forall_app. split; apply HE.
        + unfold eval_modular. cbv zeta. apply Forall_app. split; [repeat constructor; discriminate|].
          apply Forall_app. split; [apply MP; discriminate|]. apply Forall_app. split.
          * unfold submod_constr_poly. cbv zeta. cbn [fst]. constructor; [discriminate|]. apply Forall_app. split; [apply MP; discriminate|apply MO].
          * apply Forall_app. split; [apply MO|]. repeat (apply Forall_app; split); apply MP; discriminate.
        + unfold eval_byte. cbv zeta. repeat (apply Forall_app; split); try (apply MP; discriminate); repeat constructor; discriminate.
        + unfold eval_shift. apply Forall_app. split; [apply MP; discriminate|apply HE]. }
    assert (R : row_ok (S i =? length rs)%nat (nth i rs zero_row) (nth (S i mod length rs) rs zero_row)).
    { destruct (blocks_rows rs B i Hi) as [S1|[L1 R1]]; [apply S1|].
      rewrite (Nat.mod_small (S i)) by exact L1. rewrite (proj2 (Nat.eqb_neq (S i) (length rs))) by lia. exact R1. }
    destruct R as [R1 R2]. unfold eval_packed_generic. cbn [to_trow cells range_counter fst snd].
    apply Forall_app. split; [exact (G _ _ eq_refl R1 (proj1 (NF _ zero_row)))|].
    apply Forall_app. split; [|exact (G _ _ eq_refl R2 (proj2 (NF _ _)))].
    unfold eval_range, RANGE_MAX. constructor; [|constructor; [|constructor; [|constructor]]]; cbn [fst snd applies]; intros Ha.
    + assert (i = 0%nat) by (apply Nat.eqb_eq; exact Ha). subst i. reflexivity.
    + assert (S i < length rs)%nat by (apply negb_true_iff, Nat.eqb_neq in Ha; lia).
      rewrite (Nat.mod_small (S i)) by assumption.
      set (d := Z.min (Z.of_nat (S i)) (2 ^ 16 - 1) - Z.min (Z.of_nat i) (2 ^ 16 - 1)).
      assert (D : d = 0 \/ d = 1) by (unfold d; lia). destruct D as [-> | ->]; reflexivity.
    + apply Nat.eqb_eq in Ha. replace (Z.min (Z.of_nat i) (2 ^ 16 - 1)) with (2^16 - 1) by lia. reflexivity.
  - intros v. rewrite occurrences_mk, multiplicity_mk by exact L.
    destruct ((0 <=? v) && (v <? 65536)) eqn:E.
    + rewrite Zminus_mod, Z.mod_mod, Z.sub_diag by discriminate. reflexivity.
    + rewrite count_outside; [reflexivity|exact C|lia].
  - unfold all_canonical, mk_table. rewrite Forall_map. apply Forall_forall. intros [i r] Hin.
    apply in_combine_r in Hin. rewrite Forall_forall in C. destruct (C r Hin) as [C1 _]. cbn [to_trow cells range_counter rc_frequency fst snd].
    split; [exact C1|]. split; [unfold canonical, RANGE_MAX, P; lia|].
    destruct (Z.of_nat i <? RANGE_MAX); [apply Z.mod_pos_bound; reflexivity|split; [discriminate|reflexivity]].
Qed.

(** Any group of rows can be completed to an accepted table. *)
Theorem embed : forall rs, blocks rs -> Z.of_nat (length rs) <= 2^32 -> table_ok (mk_table (padded rs)) /\ Z.of_nat (length (mk_table (padded rs))) <= 2^32 /\
  forall i, (i < length rs)%nat -> (i < length (mk_table (padded rs)))%nat /\ row_at (mk_table (padded rs)) i = nth i rs zero_row.
Proof.
  intros rs B L.
  assert (NP : next_power_of_two (length rs) = Z.to_nat (2 ^ Z.of_nat (Nat.log2_up (length rs)))).
  { unfold next_power_of_two. rewrite <- (Nat2Z.id (2 ^ Nat.log2_up (length rs))), Nat2Z.inj_pow. reflexivity. }
  assert (NB : Z.of_nat (next_power_of_two (length rs)) <= 2^32 /\ (length rs <= next_power_of_two (length rs))%nat).
  { split.
    - rewrite NP. rewrite Z2Nat.id by (apply Z.pow_nonneg; lia). apply Z.pow_le_mono_r; [lia|].
      destruct (Nat.le_gt_cases (length rs) 1) as [L1|L1].
      + assert (Nat.log2_up (length rs) = 0)%nat by (apply Nat.log2_up_eqn0; exact L1). lia.
      + assert (Nat.log2_up (length rs) <= 32)%nat; [|lia].
        destruct (Nat.le_gt_cases (Nat.log2_up (length rs)) 32) as [G|G]; [exact G|exfalso].
        pose proof (proj1 (Nat.log2_up_spec (length rs) L1)) as S1.
        assert (S2 : (2 ^ 32 <= 2 ^ Nat.pred (Nat.log2_up (length rs)))%nat) by (apply Nat.pow_le_mono_r; lia).
        assert (S3 : Z.of_nat (2 ^ 32) < Z.of_nat (length rs)) by lia.
        rewrite Nat2Z.inj_pow in S3. change (Z.of_nat 2 ^ Z.of_nat 32) with (2^32) in S3. lia.
    - unfold next_power_of_two. destruct (Nat.le_gt_cases (length rs) 1) as [L1|L1].
      + pose proof (Nat.pow_nonzero 2 (Nat.log2_up (length rs))). lia.
      + apply Nat.log2_up_spec. exact L1. }
  assert (LP : length (padded rs) = Nat.max (next_power_of_two (length rs)) (Z.to_nat RANGE_MAX)).
  { unfold padded. rewrite app_length, repeat_length. lia. }
  assert (BP : blocks (padded rs)) by (apply blocks_app; [exact B|apply blocks_repeat]).
  unfold RANGE_MAX in LP. 
  split; [|split].
  - apply table_of_blocks; [exact BP|]. rewrite LP. lia.
  - rewrite mk_table_length, LP. lia.
  - intros i Hi. rewrite mk_table_length, LP. split; [lia|].
    unfold row_at. rewrite mk_table_nth by (rewrite LP; lia). cbn [to_trow cells fst snd]. unfold padded. apply app_nth1. exact Hi.
Qed.
