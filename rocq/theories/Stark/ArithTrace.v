(** Trace-level facts: the range check, and rows of an accepted table. *)
From Coq Require Import ZArith Znumtheory List Lia Bool.
From Coq Require Import ZifyBool ZifyNat.
From Verif Require Import Stark.Field Stark.ArithModel Stark.ArithSpec Stark.PolyProofs Stark.ArithSound.
Import ListNotations.
Local Open Scope Z_scope.

Definition row_at (t : list trow) (i : nat) : row := cells (nth i t zero_trow).

Section Table.
  Variable t : list trow.
  Hypothesis OK : table_ok t.
  Hypothesis LEN : Z.of_nat (length t) <= 2^32.

  Definition is_last (i : nat) : bool := (S i =? length t)%nat.

  Lemma row_constraints : forall i, (i < length t)%nat ->
    Forall (okr (is_last i)) (eval_flags (row_at t i)) /\
    Forall (okr (is_last i)) (eval_ops (row_at t i) (row_at t (S i mod length t))).
  Proof.
    intros i Hi. destruct OK as [HC _]. specialize (HC i Hi). unfold eval_packed_generic in HC.
    assert (G : forall l, Forall (fun c : kind * Z => applies (fst c) i (length t) = true -> snd c mod P = 0) l -> Forall (okr (is_last i)) l).
    { intros l Hl. eapply Forall_impl; [|exact Hl]. intros [k e] Hk. unfold okr, is_last, z. cbn [fst snd applies] in *.
      destruct k; cbn [applies] in Hk; auto. intros E. apply Hk. rewrite E. reflexivity. }
    apply Forall_app in HC. destruct HC as [H1 H2]. apply Forall_app in H2. destruct H2 as [_ H3].
    split; apply G; assumption.
  Qed.

  Lemma row_canonical : forall i c, canonical (row_at t i c).
  Proof.
    intros i c. unfold row_at. destruct (Nat.lt_ge_cases i (length t)) as [L|L].
    - destruct OK as (_ & _ & HA). unfold all_canonical in HA. rewrite Forall_forall in HA. apply HA. apply nth_In. exact L.
    - rewrite nth_overflow by exact L. split; [discriminate|reflexivity].
  Qed.

  Definition counter (i : nat) : Z := range_counter (nth i t zero_trow).

  Lemma counter_canonical : forall i, canonical (counter i).
  Proof.
    intros i. unfold counter. destruct (Nat.lt_ge_cases i (length t)) as [L|L].
    - destruct OK as (_ & _ & HA). unfold all_canonical in HA. rewrite Forall_forall in HA. apply HA. apply nth_In. exact L.
    - rewrite nth_overflow by exact L. split; [discriminate|reflexivity].
  Qed.

  Lemma counter_constraints : forall i, (i < length t)%nat ->
    Forall (fun c => applies (fst c) i (length t) = true -> snd c mod P = 0) (eval_range (counter i) (counter (S i mod length t))).
  Proof.
    intros i Hi. destruct OK as [HC _]. specialize (HC i Hi). unfold eval_packed_generic in HC.
    apply Forall_app in HC. destruct HC as [_ H2]. apply Forall_app in H2. destruct H2 as [H2 _]. exact H2.
  Qed.

  Lemma counter_first : (0 < length t)%nat -> counter 0 = 0.
  Proof.
    intros L. pose proof (counter_constraints 0 L) as H. unfold eval_range in H.
    apply Forall_cons_iff in H. destruct H as [H _]. specialize (H eq_refl). cbn [snd] in H.
    apply canonical_zero; [apply counter_canonical|exact H].
  Qed.

  Lemma counter_step : forall i, (S i < length t)%nat -> counter i < P - 1 -> counter (S i) = counter i \/ counter (S i) = counter i + 1.
  Proof.
    intros i L Hlt. pose proof (counter_constraints i ltac:(lia)) as H. unfold eval_range in H.
    apply Forall_cons_iff in H. destruct H as [_ H]. apply Forall_cons_iff in H. destruct H as [H _].
    cbn [fst snd applies] in H. rewrite (Nat.mod_small (S i)) in H by exact L.
    assert (E : (S i =? length t)%nat = false) by (apply Nat.eqb_neq; lia). rewrite E in H. specialize (H eq_refl).
    set (x := counter i) in *. set (y := counter (S i)) in *.
    assert (F : ((y - x) * (y - x - 1)) mod P = 0) by (rewrite <- H; f_equal; ring).
    pose proof (counter_canonical i) as Cx. pose proof (counter_canonical (S i)) as Cy. fold x in Cx. fold y in Cy. unfold canonical in *.
    apply field_integral in F. destruct F as [F|F]; apply small_zero in F; lia.
  Qed.

  Lemma counter_le : forall i, (i < length t)%nat -> 0 <= counter i <= Z.of_nat i.
  Proof.
    induction i as [|i IH]; intros L.
    - rewrite counter_first by exact L. lia.
    - specialize (IH ltac:(lia)). destruct (counter_step i L) as [E|E]; [unfold P; lia|lia|lia].
  Qed.

  Lemma counter_mono : forall i k, (i + k < length t)%nat -> counter i <= counter (i + k).
  Proof.
    intros i k. induction k as [|k IH]; intros L; [rewrite Nat.add_0_r; lia|].
    rewrite Nat.add_succ_r in *. specialize (IH ltac:(lia)).
    pose proof (counter_le (i + k) ltac:(lia)). destruct (counter_step (i + k) L) as [E|E]; [unfold P; lia|lia|lia].
  Qed.

  Lemma counter_range : forall i, (i < length t)%nat -> 0 <= counter i <= 65535.
  Proof.
    intros i L. split; [apply counter_le; exact L|].
    pose proof (counter_constraints (length t - 1) ltac:(lia)) as H. unfold eval_range in H.
    apply Forall_cons_iff in H. destruct H as [_ H]. apply Forall_cons_iff in H. destruct H as [_ H].
    apply Forall_cons_iff in H. destruct H as [H _]. cbn [fst snd applies] in H.
    assert (E : (S (length t - 1) =? length t)%nat = true) by (apply Nat.eqb_eq; lia). specialize (H E).
    pose proof (counter_canonical (length t - 1)) as C. unfold canonical in C.
    apply small_zero in H; [|unfold P, RANGE_MAX in *; lia]. unfold RANGE_MAX in H.
    pose proof (counter_mono i (length t - 1 - i) ltac:(lia)) as M. replace (i + (length t - 1 - i))%nat with (length t - 1)%nat in M by lia. lia.
  Qed.

  Lemma count_pos : forall (r : row) v c l, In c l -> r c = v -> 1 <= sum (map (fun c => b2z (r c =? v)) l).
  Proof.
    intros r v c l. induction l as [|a l IH]; intros Hin E; [destruct Hin|].
    assert (N : 0 <= sum (map (fun c => b2z (r c =? v)) l)).
    { clear. induction l as [|a l IH]; [cbn; lia|]. cbn [map]. change (sum (?x :: ?y)) with (x + sum y).
      unfold b2z at 1. destruct (r a =? v); fold (sum (map (fun c => b2z (r c =? v)) l)); cbn [sum fold_right] in *; unfold sum in *; lia. }
    cbn [map]. change (sum (b2z (r a =? v) :: map (fun c => b2z (r c =? v)) l)) with (b2z (r a =? v) + sum (map (fun c => b2z (r c =? v)) l)).
    destruct Hin as [->|Hin].
    - rewrite (proj2 (Z.eqb_eq _ _) E). cbn [b2z]. lia.
    - specialize (IH Hin E). unfold b2z at 1. destruct (r a =? v); lia.
  Qed.

  Lemma count_bound : forall (r : row) v l, 0 <= sum (map (fun c => b2z (r c =? v)) l) <= Z.of_nat (length l).
  Proof.
    intros r v. induction l as [|a l IH]; [cbn; lia|]. cbn [map length].
    change (sum (b2z (r a =? v) :: map (fun c => b2z (r c =? v)) l)) with (b2z (r a =? v) + sum (map (fun c => b2z (r c =? v)) l)).
    unfold b2z at 1 3. destruct (r a =? v); lia.
  Qed.

  Lemma occurrences_bound : forall l v, 0 <= occurrences l v <= 96 * Z.of_nat (length l).
  Proof.
    intros l v. unfold occurrences. induction l as [|a l IH]; [cbn; lia|]. cbn [map length].
    match goal with |- 0 <= sum (?x :: ?y) <= _ => change (sum (x :: y)) with (x + sum y) end.
    pose proof (count_bound (cells a) v SHARED_COLS) as B. change (length SHARED_COLS) with 96%nat in B. lia.
  Qed.

  Lemma occurrences_pos : forall l v r c, In r l -> In c SHARED_COLS -> cells r c = v -> 1 <= occurrences l v.
  Proof.
    intros l v r c. induction l as [|a l IH]; intros Hr Hc E; [destruct Hr|].
    pose proof (occurrences_bound l v) as B. unfold occurrences in *. cbn [map].
    match goal with |- 1 <= sum (?x :: ?y) => change (sum (x :: y)) with (x + sum y) end.
    pose proof (count_bound (cells a) v SHARED_COLS) as B2.
    destruct Hr as [->|Hr]; [pose proof (count_pos (cells r) v c SHARED_COLS Hc E); lia|]. specialize (IH Hr Hc E). lia.
  Qed.

  Lemma multiplicity_zero : forall l v, (forall r, In r l -> range_counter r <> v) -> multiplicity l v = 0.
  Proof.
    intros l v. unfold multiplicity. induction l as [|a l IH]; intros H; [reflexivity|]. cbn [map].
    match goal with |- sum (?x :: ?y) = _ => change (sum (x :: y)) with (x + sum y) end.
    rewrite IH by (intros; apply H; right; assumption).
    rewrite (proj2 (Z.eqb_neq _ _) (H a (or_introl eq_refl))). reflexivity.
  Qed.

  (** Every shared cell of an accepted table holds a 16-bit value. *)
  Theorem range_checked : forall i, limbs_ok (row_at t i).
  Proof.
    intros i c Hc. unfold row_at. destruct (Nat.lt_ge_cases i (length t)) as [L|L].
    2: { rewrite nth_overflow by exact L. split; [discriminate|reflexivity]. }
    set (v := cells (nth i t zero_trow) c). unfold limb.
    destruct (in_dec Z.eq_dec v (map range_counter t)) as [Hin|Hn].
    - apply in_map_iff in Hin. destruct Hin as (r & Er & Hr). apply (In_nth _ _ zero_trow) in Hr. destruct Hr as (j & Hj & Ej).
      pose proof (counter_range j Hj) as B. unfold counter in B. rewrite Ej, Er in B. lia.
    - exfalso. destruct OK as (_ & HL & _). specialize (HL v).
      rewrite multiplicity_zero in HL by (intros r Hr E; apply Hn; rewrite <- E; apply in_map; exact Hr).
      pose proof (occurrences_bound t v) as B.
      assert (1 <= occurrences t v).
      { apply occurrences_pos with (nth i t zero_trow) c; [apply nth_In; exact L| |reflexivity].
        unfold SHARED_COLS. apply in_seq. unfold START_SHARED_COLS, NUM_SHARED_COLS, N_LIMBS. lia. }
      apply small_zero in HL; [lia|]. unfold P. lia.
  Qed.

  (** The constraints of one operation on one row. *)
  Theorem row_facts : forall i f, (i < length t)%nat -> In f op_flags -> row_at t i f = 1 ->
    flagged (row_at t i) f /\ Forall (okr (is_last i)) (eval_ops (row_at t i) (row_at t (S i mod length t))).
  Proof.
    intros i f Hi Hf E. destruct (row_constraints i Hi) as [H1 H2]. split; [|exact H2].
    exact (flags_sound _ _ _ (row_canonical i) H1 Hf E).
  Qed.
End Table.
