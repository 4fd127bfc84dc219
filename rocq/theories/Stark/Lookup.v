(** Range checks by logUp lookups on tables whose rows are functions. *)
From Coq Require Import ZArith List Lia Bool Arith Znumtheory.
From Coq Require Import ZifyBool ZifyNat.
From Verif Require Import Stark.Field Stark.ArithModel Stark.MemSound.
Import ListNotations.
Local Open Scope Z_scope.

(** starky's Lookup with unfiltered columns: for every value, the number of
    its occurrences in the looking columns is, in the field, the sum of the
    frequencies of the table rows holding it. *)
Definition col_count (cols : list nat) (t : list row) (v : Z) : Z :=
  sum (map (fun r => sum (map (fun c => b2z (r c =? v)) cols)) t).
Definition freq_count (cnt freq : nat) (t : list row) (v : Z) : Z :=
  sum (map (fun r : row => r freq * b2z (r cnt =? v)) t).
Definition logup (cols : list nat) (cnt freq : nat) (t : list row) : Prop :=
  forall v, (col_count cols t v - freq_count cnt freq t v) mod P = 0.

Definition trow_at (t : list row) (i : nat) : row := nth i t zero_row.
Definition tnext (t : list row) (i : nat) : row := trow_at t (S i mod length t).
Definition rows_hold (ev : row -> row -> list constr) (t : list row) : Prop :=
  forall i, (i < length t)%nat ->
    Forall (fun c => applies (fst c) i (length t) = true -> snd c mod P = 0) (ev (trow_at t i) (tnext t i)).
Definition canonical_rows (t : list row) : Prop := Forall (fun r => forall c, canonical (r c)) t.

Lemma b2z_bounds : forall b, 0 <= b2z b <= 1.
Proof. intros [|]; cbn; lia. Qed.

Section Range.
  Variable t : list row.
  Variables (cols : list nat) (cnt freq : nat) (M : Z).
  Hypothesis CAN : canonical_rows t.
  Hypothesis LOOK : logup cols cnt freq t.
  Hypothesis SMALL : Z.of_nat (length cols) * Z.of_nat (length t) < P.
  Hypothesis Mpos : 0 <= M < P - 1.
  Hypothesis LENP : Z.of_nat (length t) < P.
  Hypothesis FIRST : (0 < length t)%nat -> trow_at t 0 cnt mod P = 0.
  Hypothesis STEP : forall i, (S i < length t)%nat -> ((trow_at t (S i) cnt - trow_at t i cnt) * (trow_at t (S i) cnt - trow_at t i cnt) - (trow_at t (S i) cnt - trow_at t i cnt)) mod P = 0.
  Hypothesis LAST : (0 < length t)%nat -> (trow_at t (length t - 1) cnt - M) mod P = 0.

  Lemma at_canonical : forall i c, canonical (trow_at t i c).
  Proof.
    intros i c. unfold trow_at. destruct (Nat.lt_ge_cases i (length t)) as [L|L].
    - unfold canonical_rows in CAN. rewrite Forall_forall in CAN. apply CAN. apply nth_In. exact L.
    - rewrite nth_overflow by exact L. split; [discriminate|reflexivity].
  Qed.

  Lemma cnt_le : forall i, (i < length t)%nat -> 0 <= trow_at t i cnt <= Z.of_nat i.
  Proof.
    induction i as [|i IH]; intros L.
    - rewrite (canonical_zero _ (at_canonical 0 cnt) (FIRST L)). lia.
    - specialize (IH ltac:(lia)). pose proof (STEP i L) as S1. pose proof (at_canonical (S i) cnt) as C1.
      set (x := trow_at t i cnt) in *. set (y := trow_at t (S i) cnt) in *.
      assert (F : ((y - x) * (y - x - 1)) mod P = 0) by (rewrite <- S1; f_equal; ring). unfold canonical in C1. clearbody x y.
      apply field_integral in F. clear -F IH C1 L LENP. destruct F as [F|F]; apply small_zero in F; lia.
  Qed.

  Lemma cnt_mono : forall i k, (i + k < length t)%nat -> trow_at t i cnt <= trow_at t (i + k) cnt.
  Proof.
    intros i. induction k as [|k IH]; intros L; [rewrite Nat.add_0_r; lia|]. specialize (IH ltac:(lia)). rewrite Nat.add_succ_r in *.
    pose proof (STEP (i + k) L) as S1. pose proof (cnt_le (i + k) ltac:(lia)) as B. pose proof (at_canonical (S (i + k)) cnt) as C1.
    set (x := trow_at t (i + k) cnt) in *. set (y := trow_at t (S (i + k)) cnt) in *.
    assert (F : ((y - x) * (y - x - 1)) mod P = 0) by (rewrite <- S1; f_equal; ring). unfold canonical in C1. clearbody x y.
    apply field_integral in F. clear -F IH C1 B L LENP. destruct F as [F|F]; apply small_zero in F; lia.
  Qed.

  Lemma cnt_range : forall i, (i < length t)%nat -> 0 <= trow_at t i cnt <= M.
  Proof.
    intros i L. split; [apply cnt_le; exact L|].
    pose proof (cnt_mono i (length t - 1 - i) ltac:(lia)) as B. replace (i + (length t - 1 - i))%nat with (length t - 1)%nat in B by lia.
    pose proof (LAST ltac:(lia)) as E. pose proof (at_canonical (length t - 1) cnt) as C. unfold canonical in C.
    clear -B E C Mpos. apply small_zero in E; lia.
  Qed.

  Theorem logup_range : forall r c, In r t -> In c cols -> 0 <= r c <= M.
  Proof.
    intros r c Hr Hc. destruct (in_dec Z.eq_dec (r c) (map (fun q : row => q cnt) t)) as [I|N].
    - apply in_map_iff in I. destruct I as (q & E & Hq). rewrite <- E. apply (In_nth _ _ zero_row) in Hq. destruct Hq as (i & Hi & <-). apply cnt_range. exact Hi.
    - exfalso. specialize (LOOK (r c)). unfold freq_count in LOOK. rewrite sum_all_zero in LOOK.
      2: { intros q Hq. destruct (Z.eqb_spec (q cnt) (r c)) as [E|]; [|cbn [b2z]; ring]. exfalso. apply N. rewrite <- E. apply (in_map (fun q : row => q cnt)). exact Hq. }
      rewrite Z.sub_0_r in LOOK. unfold col_count in LOOK.
      set (g := fun q : row => sum (map (fun k => b2z (q k =? r c)) cols)) in *.
      assert (G : forall q, In q t -> 0 <= g q <= Z.of_nat (length cols)).
      { intros q _. unfold g. pose proof (sum_bounds (fun k => b2z (q k =? r c)) 1 cols (fun k _ => b2z_bounds _)). lia. }
      pose proof (sum_bounds g _ t G) as B. pose proof (sum_pos g t r (fun q Hq => proj1 (G q Hq)) Hr) as B2.
      assert (1 <= g r).
      { unfold g. pose proof (sum_pos (fun k => b2z (r k =? r c)) cols c (fun k _ => proj1 (b2z_bounds _)) Hc) as B3. cbv beta in B3. rewrite Z.eqb_refl in B3. exact B3. }
      change (sum (map g t) mod P = 0) in LOOK. clearbody g. clear -LOOK B B2 H SMALL. apply small_zero in LOOK; lia.
  Qed.
End Range.

(** * Honest frequencies *)

Definition cells_in (cols : list nat) (t : list row) : list Z := flat_map (fun r : row => map r cols) t.
Definition count (v : Z) (l : list Z) : Z := sum (map (fun x => b2z (x =? v)) l).

Lemma count_app : forall v a b, count v (a ++ b) = count v a + count v b.
Proof. intros v a b. unfold count. induction a as [|x a IH]; [reflexivity|]. cbn [app map]. rewrite !sum_cons, IH. ring. Qed.

Lemma col_count_eq : forall cols t v, col_count cols t v = count v (cells_in cols t).
Proof.
  intros cols t v. unfold col_count, cells_in. induction t as [|r t IH]; [reflexivity|]. cbn [map flat_map]. rewrite sum_cons, count_app, IH. f_equal.
  unfold count. rewrite map_map. reflexivity.
Qed.

Lemma count_none : forall v l, ~ In v l -> count v l = 0.
Proof. intros v l H. apply sum_all_zero. intros x Hx. destruct (Z.eqb_spec x v) as [->|]; [contradiction|reflexivity]. Qed.

(** A table whose counter column is 0, 1, ..., M, M, M, ... and whose
    frequencies are the counts satisfies the lookup, if all cells are in
    range and the table has all the counters. *)
Lemma honest_logup : forall cols cnt freq (M : nat) (g : nat -> row) n,
  (M < n)%nat ->
  (forall i, (i < n)%nat -> g i cnt = Z.of_nat (Nat.min i M)) ->
  (forall i, (i < n)%nat -> (g i freq - (if (i <=? M)%nat then count (Z.of_nat i) (cells_in cols (map g (seq 0 n))) else 0)) mod P = 0) ->
  (forall i c, (i < n)%nat -> In c cols -> 0 <= g i c <= Z.of_nat M) ->
  logup cols cnt freq (map g (seq 0 n)).
Proof.
  intros cols cnt freq M g n HM HC HF HR v. rewrite col_count_eq. set (L := cells_in cols (map g (seq 0 n))) in *.
  assert (RNG : forall x, In x L -> 0 <= x <= Z.of_nat M).
  { intros x Hx. unfold L, cells_in in Hx. apply in_flat_map in Hx. destruct Hx as (r & Hr & Hx). apply in_map_iff in Hr. destruct Hr as (i & <- & Hi). apply in_seq in Hi.
    apply in_map_iff in Hx. destruct Hx as (c & <- & Hc). apply HR; [lia|exact Hc]. }
  assert (FC : exists q, freq_count cnt freq (map g (seq 0 n)) v = (if (0 <=? v) && (v <=? Z.of_nat M) then count v L else 0) + q * P).
  { unfold freq_count. rewrite map_map.
    assert (G : forall k, (k <= n)%nat -> exists q, sum (map (fun i => g i freq * b2z (g i cnt =? v)) (seq 0 k)) =
      (if (0 <=? v) && (v <=? Z.of_nat M) && (v <? Z.of_nat k) then count v L else 0) + q * P).
    { induction k as [|k IH]; intros Hk.
      - exists 0. cbn [seq map sum fold_right]. destruct (Z.ltb_spec v (Z.of_nat 0)); [|rewrite andb_false_r; ring]. replace (0 <=? v) with false by lia. reflexivity.
      - destruct (IH ltac:(lia)) as [q Hq]. rewrite seq_S, map_app. cbn [Nat.add map].
        assert (SA : forall a x, sum (a ++ [x]) = sum a + x) by (induction a as [|y a IHa]; intros x; [cbn [app]; rewrite sum_cons; cbn [sum fold_right]; ring|cbn [app]; rewrite !sum_cons, IHa; ring]).
        rewrite SA, Hq. rewrite HC by lia. pose proof (HF k ltac:(lia)) as F. apply Zmod_divide in F; [|discriminate]. destruct F as [w F].
        destruct (Nat.leb_spec k M) as [Le|Gt].
        + rewrite Nat.min_l by lia. destruct (Z.eqb_spec (Z.of_nat k) v) as [<-|Ne].
          * exists (q + w). replace ((0 <=? Z.of_nat k) && (Z.of_nat k <=? Z.of_nat M) && (Z.of_nat k <? Z.of_nat k)) with false by lia.
            replace ((0 <=? Z.of_nat k) && (Z.of_nat k <=? Z.of_nat M) && (Z.of_nat k <? Z.of_nat (S k))) with true by lia. cbn [b2z].
            replace (g k freq) with (count (Z.of_nat k) L + w * P) by lia. ring.
          * exists q. cbn [b2z]. replace (v <? Z.of_nat (S k)) with (v <? Z.of_nat k) by lia. ring.
        + rewrite Nat.min_r by lia. exists (q + w * b2z (Z.of_nat M =? v)).
          replace ((0 <=? v) && (v <=? Z.of_nat M) && (v <? Z.of_nat (S k))) with ((0 <=? v) && (v <=? Z.of_nat M) && (v <? Z.of_nat k)) by lia.
          replace (g k freq) with (w * P) by lia. ring. }
    destruct (G n (le_n n)) as [q Hq]. exists q. rewrite Hq. f_equal.
    replace ((0 <=? v) && (v <=? Z.of_nat M) && (v <? Z.of_nat n)) with ((0 <=? v) && (v <=? Z.of_nat M)) by lia. reflexivity. }
  destruct FC as [q FC]. rewrite FC.
  destruct ((0 <=? v) && (v <=? Z.of_nat M)) eqn:E.
  - replace (count v L - (count v L + q * P)) with (- q * P) by ring. apply Z.mod_mul. discriminate.
  - rewrite count_none by (intros I; apply RNG in I; lia). replace (0 - (0 + q * P)) with (- q * P) by ring. apply Z.mod_mul. discriminate.
Qed.
