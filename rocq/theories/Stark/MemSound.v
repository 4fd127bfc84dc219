(** Consequences of the constraints of the memory table. *)
From Coq Require Import ZArith Znumtheory List Lia Bool Permutation.
From Coq Require Import ZifyBool ZifyNat.
From Verif Require Import Stark.Field Stark.ArithModel Stark.LogicModel Stark.MemModel Stark.MemSpec.
Import ListNotations.
Local Open Scope Z_scope.

(** * Sums *)

Lemma sum_cons : forall x l, sum (x :: l) = x + sum l.
Proof. reflexivity. Qed.

Lemma sum_bounds : forall {A} (f : A -> Z) B l, (forall x, In x l -> 0 <= f x <= B) -> 0 <= sum (map f l) <= B * Z.of_nat (length l).
Proof.
  induction l as [|a l IH]; intros H; [cbn; lia|]. cbn [map length]. rewrite sum_cons.
  pose proof (H a (or_introl eq_refl)). specialize (IH (fun x Hx => H x (or_intror Hx))). nia.
Qed.

Lemma sum_pos : forall {A} (f : A -> Z) l x, (forall x, In x l -> 0 <= f x) -> In x l -> f x <= sum (map f l).
Proof.
  induction l as [|a l IH]; intros x H Hin; [destruct Hin|]. cbn [map]. rewrite sum_cons.
  assert (N : 0 <= sum (map f l)).
  { assert (H' : forall x, In x l -> 0 <= f x) by (intros; apply H; right; assumption). clear -H'. induction l as [|b l IH]; [cbn; lia|]. cbn [map]. rewrite sum_cons.
    pose proof (H' b (or_introl eq_refl)). specialize (IH (fun x Hx => H' x (or_intror Hx))). lia. }
  pose proof (H a (or_introl eq_refl)).
  destruct Hin as [->|Hin]; [lia|]. specialize (IH x (fun x Hx => H x (or_intror Hx)) Hin). lia.
Qed.

Lemma sum_all_zero : forall {A} (f : A -> Z) l, (forall x, In x l -> f x = 0) -> sum (map f l) = 0.
Proof.
  induction l as [|a l IH]; intros H; [reflexivity|]. cbn [map]. rewrite sum_cons, (H a (or_introl eq_refl)), IH by (intros; apply H; right; assumption). reflexivity.
Qed.

(** * Increasing sequences modulo P *)

Section Steps.
  Variable x : nat -> Z.
  Variable d : nat -> Z.
  Variable B : Z.
  Variable lo : nat.

  Fixpoint total (k : nat) : Z := match k with O => 0 | S k => total k + d (lo + k) end.

  Lemma total_bounds : forall k, (forall i, (lo <= i < lo + k)%nat -> 0 <= d i <= B) -> 0 <= total k <= B * Z.of_nat k.
  Proof.
    induction k as [|k IH]; intros H; [cbn; lia|]. cbn [total]. pose proof (H (lo + k)%nat ltac:(lia)).
    specialize (IH (fun i Hi => H i ltac:(lia))). clear -IH H0. nia.
  Qed.

  Lemma total_mod : forall k, (forall i, (lo <= i < lo + k)%nat -> (x (S i) - x i - d i) mod P = 0) -> (x (lo + k)%nat - x lo - total k) mod P = 0.
  Proof.
    induction k as [|k IH]; intros H.
    - rewrite Nat.add_0_r. cbn [total]. rewrite Z.sub_diag. reflexivity.
    - specialize (IH (fun i Hi => H i ltac:(lia))). pose proof (H (lo + k)%nat ltac:(lia)) as E. cbn [total]. rewrite Nat.add_succ_r.
      replace (x (S (lo + k)) - x lo - (total k + d (lo + k)%nat)) with ((x (lo + k)%nat - x lo - total k) + (x (S (lo + k)) - x (lo + k)%nat - d (lo + k)%nat)) by ring.
      rewrite Z.add_mod, IH, E by (unfold P; lia). reflexivity.
  Qed.

  Lemma total_zero : forall k, (forall i, (lo <= i < lo + k)%nat -> 0 <= d i <= B) -> total k = 0 -> forall i, (lo <= i < lo + k)%nat -> d i = 0.
  Proof.
    induction k as [|k IH]; intros H E i Hi; [lia|]. cbn [total] in E.
    pose proof (H (lo + k)%nat ltac:(lia)) as Hk. pose proof (total_bounds k (fun i Hi => H i ltac:(lia))) as T.
    destruct (Nat.eq_dec i (lo + k)) as [->|N]; [lia|]. apply IH; [intros j Hj; apply H; lia|lia|lia].
  Qed.

  (** If the sequence returns to its start, no step was taken. *)
  Lemma no_return : forall k, (forall i, (lo <= i < lo + k)%nat -> 0 <= d i <= B /\ (x (S i) - x i - d i) mod P = 0) ->
    B * Z.of_nat k < P -> x (lo + k)%nat = x lo -> forall i, (lo <= i < lo + k)%nat -> d i = 0.
  Proof.
    intros k H L E. assert (H1 : forall i, (lo <= i < lo + k)%nat -> 0 <= d i <= B) by (intros i Hi; apply H; exact Hi).
    apply total_zero; [exact H1|]. pose proof (total_bounds k H1) as T.
    pose proof (total_mod k (fun i Hi => proj2 (H i Hi))) as M. rewrite E in M.
    assert (F : total k mod P = 0).
    { apply Zmod_divide in M; [|unfold P; lia]. destruct M as [q Hq]. apply Zdivide_mod. exists (- q). lia. }
    apply small_zero in F; lia.
  Qed.
End Steps.

(** * One transition *)

(** The facts one transition gives. *)
Definition segment_ok (n : Z) (lv nv : row) : Prop := 0 <= nv M_VIRTUAL < n.
Definition differ (x d y : Z) : Prop := (y - x - d) mod P = 0.
Inductive mstep (n : Z) (lv nv : row) : Prop :=
| step_context : lv M_CONTEXT_FIRST_CHANGE = 1 -> lv M_SEGMENT_FIRST_CHANGE = 0 -> lv M_VIRTUAL_FIRST_CHANGE = 0 ->
    differ (lv M_CONTEXT) (lv M_RANGE_CHECK + 1) (nv M_CONTEXT) -> 0 <= nv M_VIRTUAL < n -> mstep n lv nv
| step_segment : lv M_CONTEXT_FIRST_CHANGE = 0 -> lv M_SEGMENT_FIRST_CHANGE = 1 -> lv M_VIRTUAL_FIRST_CHANGE = 0 ->
    nv M_CONTEXT = lv M_CONTEXT ->
    differ (lv M_SEGMENT) (lv M_RANGE_CHECK + 1) (nv M_SEGMENT) -> 0 <= nv M_VIRTUAL < n -> mstep n lv nv
| step_virtual : lv M_CONTEXT_FIRST_CHANGE = 0 -> lv M_SEGMENT_FIRST_CHANGE = 0 -> lv M_VIRTUAL_FIRST_CHANGE = 1 ->
    nv M_CONTEXT = lv M_CONTEXT -> nv M_SEGMENT = lv M_SEGMENT ->
    differ (lv M_VIRTUAL) (lv M_RANGE_CHECK + 1) (nv M_VIRTUAL) -> mstep n lv nv
| step_same : lv M_CONTEXT_FIRST_CHANGE = 0 -> lv M_SEGMENT_FIRST_CHANGE = 0 -> lv M_VIRTUAL_FIRST_CHANGE = 0 ->
    nv M_CONTEXT = lv M_CONTEXT -> nv M_SEGMENT = lv M_SEGMENT -> nv M_VIRTUAL = lv M_VIRTUAL ->
    differ (lv M_TIMESTAMP) (lv M_RANGE_CHECK) (nv M_TIMESTAMP) -> (nv M_IS_READ = 1 -> m_value nv = m_value lv) -> mstep n lv nv.

Lemma canonical_eq : forall a b, canonical a -> canonical b -> (a - b) mod P = 0 -> a = b.
Proof. unfold canonical. intros a b A B H. apply small_zero in H; lia. Qed.

Section Table.
  Variable t : list row.
  Hypothesis OK : mem_table_ok t.
  Hypothesis LEN : Z.of_nat (length t) <= 2^31.
  Let n := length t.
  Let R (i : nat) : row := mrow_at t i.

  Lemma cell_canonical : forall i c, canonical (R i c).
  Proof.
    intros i c. unfold R, mrow_at. destruct (Nat.lt_ge_cases i (length t)) as [L|L].
    - destruct OK as (_ & _ & _ & C). unfold mem_canonical in C. rewrite Forall_forall in C. apply C. apply nth_In. exact L.
    - rewrite nth_overflow by exact L. split; [discriminate|reflexivity].
  Qed.

  Lemma next_row : forall i, (S i < n)%nat -> mnext t i = R (S i).
  Proof. intros i Hi. unfold mnext. fold n. rewrite Nat.mod_small by exact Hi. reflexivity. Qed.

  (** A constraint of the list, at a row where it applies. *)
  Lemma holds : forall i c, (i < n)%nat -> In c (eval_memory (R i) (mnext t i)) -> applies (fst c) i n = true -> snd c mod P = 0.
  Proof. intros i c Hi Hc A. destruct OK as (C & _). specialize (C i Hi). rewrite Forall_forall in C. apply (C c Hc A). Qed.

  Lemma holds_all : forall i e, (i < n)%nat -> In (All, e) (eval_memory (R i) (mnext t i)) -> e mod P = 0.
  Proof. intros i e Hi Hc. apply (holds i (All, e) Hi Hc). reflexivity. Qed.
  Lemma holds_tr : forall i e, (S i < n)%nat -> In (Transition, e) (eval_memory (R i) (R (S i))) -> e mod P = 0.
  Proof.
    intros i e Hi Hc. apply (holds i (Transition, e)); [lia|rewrite next_row by exact Hi; exact Hc|]. cbn [fst applies].
    destruct (Nat.eqb_spec (S i) n); [lia|reflexivity].
  Qed.

  (** Position in the list. *)
  Tactic Notation "at_" integer(k) := unfold eval_memory; cbv zeta; cbn [app flat_map map seq VALUE_LIMBS]; do k right; left; reflexivity.

  Lemma boolean_cell : forall i c, (R i c * (1 - R i c)) mod P = 0 -> R i c = 0 \/ R i c = 1.
  Proof.
    intros i c H. apply bool_of_constraint; [apply cell_canonical|].
    apply Zmod_divide in H; [|unfold P; lia]. destruct H as [q Hq]. apply Zdivide_mod. exists (- q).
    replace (R i c * (R i c - 1)) with (- (R i c * (1 - R i c))) by ring. lia.
  Qed.

  Lemma filter_bool : forall i, (i < n)%nat -> R i M_FILTER = 0 \/ R i M_FILTER = 1.
  Proof. intros i Hi. apply bool_of_constraint; [apply cell_canonical|]. apply (holds_all i _ Hi). at_ 0. Qed.

  Lemma dummy_reads : forall i, (i < n)%nat -> R i M_FILTER = 0 -> R i M_IS_READ = 1.
  Proof.
    intros i Hi F. pose proof (holds_all i ((1 - R i M_FILTER) * (1 - R i M_IS_READ)) Hi ltac:(at_ 1)) as H. rewrite F in H.
    pose proof (cell_canonical i M_IS_READ) as C. unfold canonical in C. apply small_zero in H; unfold P in *; lia.
  Qed.

  Definition cfc i := R i M_CONTEXT_FIRST_CHANGE.
  Definition sfc i := R i M_SEGMENT_FIRST_CHANGE.
  Definition vfc i := R i M_VIRTUAL_FIRST_CHANGE.

  Lemma flags : forall i, (i < n)%nat ->
    (cfc i = 1 /\ sfc i = 0 /\ vfc i = 0) \/ (cfc i = 0 /\ sfc i = 1 /\ vfc i = 0) \/
    (cfc i = 0 /\ sfc i = 0 /\ vfc i = 1) \/ (cfc i = 0 /\ sfc i = 0 /\ vfc i = 0).
  Proof.
    intros i Hi.
    assert (A : cfc i = 0 \/ cfc i = 1) by (apply boolean_cell; apply (holds_all i _ Hi); at_ 2).
    assert (B : sfc i = 0 \/ sfc i = 1) by (apply boolean_cell; apply (holds_all i _ Hi); at_ 3).
    assert (C : vfc i = 0 \/ vfc i = 1) by (apply boolean_cell; apply (holds_all i _ Hi); at_ 4).
    assert (D : ((1 - cfc i - sfc i - vfc i) * (1 - (1 - cfc i - sfc i - vfc i))) mod P = 0) by (apply (holds_all i _ Hi); at_ 5).
    destruct A as [A|A], B as [B|B], C as [C|C]; rewrite A, B, C in D |- *; try (exfalso; vm_compute in D; discriminate D); tauto.
  Qed.

  (** ** The range check *)

  Lemma counter_is : forall i, (i < n)%nat -> R i M_COUNTER = Z.of_nat i.
  Proof.
    induction i as [|i IH]; intros Hi.
    - pose proof (holds 0 (First, R 0 M_COUNTER) Hi) as H. cbn [fst snd applies] in H.
      apply canonical_zero; [apply cell_canonical|]. apply H; [at_ 43|reflexivity].
    - specialize (IH ltac:(lia)).
      pose proof (holds_tr i (R (S i) M_COUNTER - R i M_COUNTER - 1) Hi ltac:(at_ 44)) as H. rewrite IH in H.
      pose proof (cell_canonical (S i) M_COUNTER) as C. unfold canonical in C. apply small_zero in H; unfold P in *; lia.
  Qed.

  Lemma range_filter_bool : forall i, (i < n)%nat -> range_filter (R i) = 0 \/ range_filter (R i) = 1.
  Proof. intros i Hi. unfold range_filter. fold (cfc i) (sfc i). destruct (flags i Hi) as [(A & B & _)|[(A & B & _)|[(A & B & _)|(A & B & _)]]]; rewrite A, B; auto. Qed.

  Let looked v i := b2z (R i M_RANGE_CHECK =? v) + range_filter (R i) * b2z (mnext t i M_VIRTUAL =? v).

  Lemma looked_bounds : forall v i, In i (seq 0 n) -> 0 <= looked v i <= 2.
  Proof.
    intros v i Hi. apply in_seq in Hi. unfold looked. destruct (range_filter_bool i ltac:(lia)) as [E|E]; rewrite E;
      unfold b2z; destruct (_ =? v); destruct (_ =? v); lia.
  Qed.

  Lemma looked_small : forall v i, (i < n)%nat -> 1 <= looked v i -> 0 <= v < Z.of_nat n.
  Proof.
    intros v i Hi H1. destruct OK as (_ & L & _). specialize (L v). change (map (fun i => b2z _ + _) _) with (map (looked v) (seq 0 n)) in L. fold n in L.
    destruct (Z_lt_le_dec v 0) as [Lt|Ge]; [|destruct (Z_lt_le_dec v (Z.of_nat n)) as [Lt'|Ge']; [lia|]]; exfalso;
    (assert (Z0 : sum (map (fun i => mrow_at t i M_FREQUENCIES * b2z (mrow_at t i M_COUNTER =? v)) (seq 0 n)) = 0);
     [apply sum_all_zero; intros j Hj; apply in_seq in Hj; pose proof (counter_is j ltac:(lia)) as C; unfold R in C; rewrite C;
      destruct (Z.eqb_spec (Z.of_nat j) v); [lia|]; cbn [b2z]; ring|];
     rewrite Z0, Z.sub_0_r in L;
     pose proof (sum_bounds (looked v) 2 (seq 0 n) (looked_bounds v)) as B;
     pose proof (sum_pos (looked v) (seq 0 n) i (fun j Hj => proj1 (looked_bounds v j Hj)) ltac:(apply in_seq; lia)) as S1;
     rewrite seq_length in B; fold n in LEN; clear -L B S1 H1 LEN; apply small_zero in L; [lia|unfold P; lia]).
  Qed.

  Lemma range_check_small : forall i, (i < n)%nat -> 0 <= R i M_RANGE_CHECK < Z.of_nat n.
  Proof.
    intros i Hi. apply (looked_small _ i Hi). unfold looked. rewrite Z.eqb_refl. cbn [b2z].
    destruct (range_filter_bool i Hi) as [E|E]; rewrite E; unfold b2z; destruct (_ =? _); lia.
  Qed.

  Lemma virtual_small : forall i, (S i < n)%nat -> cfc i = 1 \/ sfc i = 1 -> 0 <= R (S i) M_VIRTUAL < Z.of_nat n.
  Proof.
    intros i Hi F. apply (looked_small _ i ltac:(lia)). unfold looked. rewrite next_row by exact Hi. rewrite Z.eqb_refl. cbn [b2z].
    assert (range_filter (R i) = 1).
    { unfold range_filter. fold (cfc i) (sfc i). destruct (flags i ltac:(lia)) as [(A & B & _)|[(A & B & _)|[(A & B & _)|(A & B & _)]]]; rewrite A, B in *; lia. }
    rewrite H. unfold b2z; destruct (_ =? _); lia.
  Qed.

  (** ** Steps *)

  Lemma cell_eq : forall i j c, (R i c - R j c) mod P = 0 -> R i c = R j c.
  Proof. intros i j c H. apply canonical_eq; [apply cell_canonical|apply cell_canonical|exact H]. Qed.

  Lemma value_eq : forall i j, (forall k, (k < 8)%nat -> R i (M_VALUE + k)%nat = R j (M_VALUE + k)%nat) -> m_value (R i) = m_value (R j).
  Proof.
    intros i j H. unfold m_value, read_value. apply map_ext_in. intros c Hc. apply in_seq in Hc. unfold VALUE_LIMBS in Hc.
    replace c with (M_VALUE + (c - M_VALUE))%nat by lia. apply H. lia.
  Qed.

  Lemma step : forall i, (S i < n)%nat -> mstep (Z.of_nat n) (R i) (R (S i)).
  Proof.
    intros i Hi. assert (Hi' : (i < n)%nat) by lia.
    assert (NEG : forall a b, (a - b) mod P = 0 -> (b - a) mod P = 0).
    { intros a b H. apply Zmod_divide in H; [|unfold P; lia]. destruct H as [q Hq]. apply Zdivide_mod. exists (- q). lia. }
    assert (D1 : forall a b c, (c - (b - a - 1)) mod P = 0 -> differ a (c + 1) b).
    { intros a b c H. unfold differ. replace (b - a - (c + 1)) with ((b - a - 1) - c) by ring. apply NEG. exact H. }
    pose proof (flags i Hi') as FL.
    pose proof (holds_tr i (sfc i * (R (S i) M_CONTEXT - R i M_CONTEXT)) Hi ltac:(at_ 6)) as T6.
    pose proof (holds_tr i (vfc i * (R (S i) M_CONTEXT - R i M_CONTEXT)) Hi ltac:(at_ 7)) as T7.
    pose proof (holds_tr i (vfc i * (R (S i) M_SEGMENT - R i M_SEGMENT)) Hi ltac:(at_ 8)) as T8.
    pose proof (holds_tr i ((1 - cfc i - sfc i - vfc i) * (R (S i) M_CONTEXT - R i M_CONTEXT)) Hi ltac:(at_ 9)) as T9.
    pose proof (holds_tr i ((1 - cfc i - sfc i - vfc i) * (R (S i) M_SEGMENT - R i M_SEGMENT)) Hi ltac:(at_ 10)) as T10.
    pose proof (holds_tr i ((1 - cfc i - sfc i - vfc i) * (R (S i) M_VIRTUAL - R i M_VIRTUAL)) Hi ltac:(at_ 11)) as T11.
    pose proof (holds_tr i (R i M_RANGE_CHECK - (cfc i * (R (S i) M_CONTEXT - R i M_CONTEXT - 1) + sfc i * (R (S i) M_SEGMENT - R i M_SEGMENT - 1)
       + vfc i * (R (S i) M_VIRTUAL - R i M_VIRTUAL - 1) + (1 - cfc i - sfc i - vfc i) * (R (S i) M_TIMESTAMP - R i M_TIMESTAMP))) Hi ltac:(at_ 12)) as T12.
    pose proof (virtual_small i Hi) as V.
    assert (VAL : forall k, (k < 8)%nat -> (R (S i) M_IS_READ * (1 - cfc i - sfc i - vfc i) * (R (S i) (M_VALUE + k)%nat - R i (M_VALUE + k)%nat)) mod P = 0).
    { intros k Hk. apply (holds_tr i _ Hi).
      do 8 (destruct k as [|k]; [first [at_ 16|at_ 18|at_ 20|at_ 22|at_ 24|at_ 26|at_ 28|at_ 30]|]). exfalso. clear -Hk. lia. }
    destruct FL as [(A & B & C)|[(A & B & C)|[(A & B & C)|(A & B & C)]]]; rewrite A, B, C in *.
    - apply step_context; [exact A|exact B|exact C| |apply V; left; reflexivity].
      apply D1. rewrite <- T12. f_equal. ring.
    - apply step_segment; [exact A|exact B|exact C| | |apply V; right; reflexivity].
      + apply cell_eq. rewrite <- T6. f_equal. ring.
      + apply D1. rewrite <- T12. f_equal. ring.
    - apply step_virtual; [exact A|exact B|exact C| | |].
      + apply cell_eq. rewrite <- T7. f_equal. ring.
      + apply cell_eq. rewrite <- T8. f_equal. ring.
      + apply D1. rewrite <- T12. f_equal. ring.
    - apply step_same; [exact A|exact B|exact C| | | | |].
      + apply cell_eq. rewrite <- T9. f_equal. ring.
      + apply cell_eq. rewrite <- T10. f_equal. ring.
      + apply cell_eq. rewrite <- T11. f_equal. ring.
      + unfold differ. apply NEG. rewrite <- T12. f_equal. ring.
      + intros E. rewrite E in VAL. apply value_eq. intros k Hk. apply cell_eq. rewrite <- (VAL k Hk). f_equal. ring.
  Qed.

  (** ** Blocks of equal addresses *)

  Definition addr i := m_address (R i).

  Lemma addr_eq : forall i j, addr i = addr j <-> R i M_CONTEXT = R j M_CONTEXT /\ R i M_SEGMENT = R j M_SEGMENT /\ R i M_VIRTUAL = R j M_VIRTUAL.
  Proof. intros i j. unfold addr, m_address. split; [intros E; injection E; auto|intros (-> & -> & ->); reflexivity]. Qed.

  Lemma product_bound : forall k, (k <= n)%nat -> Z.of_nat n * Z.of_nat k <= 2^62.
  Proof. intros k Hk. fold n in LEN. clear -LEN Hk. nia. Qed.

  Lemma flag_zero : forall f i, (i < n)%nat -> f = 0 \/ f = 1 -> f * (R i M_RANGE_CHECK + 1) = 0 -> f = 0.
  Proof. intros f i Hi [F|F] E; [exact F|]. pose proof (range_check_small i Hi). rewrite F in E. lia. Qed.

  Lemma flag_bound : forall f i, (i < n)%nat -> f = 0 \/ f = 1 -> 0 <= f * (R i M_RANGE_CHECK + 1) <= Z.of_nat n.
  Proof. intros f i Hi [->| ->]; pose proof (range_check_small i Hi); lia. Qed.

  Lemma zero_diff : forall a, (a - a - 0) mod P = 0.
  Proof. intros a. replace (a - a - 0) with 0 by ring. reflexivity. Qed.

  Lemma block : forall i j, (i <= j)%nat -> (j < n)%nat -> addr i = addr j ->
    forall k, (i <= k < j)%nat -> cfc k = 0 /\ sfc k = 0 /\ vfc k = 0.
  Proof.
    intros i j Hij Hj E. apply addr_eq in E. destruct E as (E1 & E2 & E3).
    assert (FB : forall k, (k < n)%nat -> (cfc k = 0 \/ cfc k = 1) /\ (sfc k = 0 \/ sfc k = 1) /\ (vfc k = 0 \/ vfc k = 1)).
    { intros k Hk. destruct (flags k Hk) as [(A & B & C)|[(A & B & C)|[(A & B & C)|(A & B & C)]]]; rewrite A, B, C; auto. }
    replace j with (i + (j - i))%nat in * by lia. set (w := (j - i)%nat) in *. clearbody w.
    pose proof (product_bound w ltac:(lia)) as PB.
    assert (PB' : Z.of_nat n * Z.of_nat w < P) by (clear -PB; unfold P; lia). clear PB.
    assert (C0 : forall k, (i <= k < i + w)%nat -> cfc k = 0).
    { intros k Hk. apply (flag_zero _ k); [lia|apply FB; lia|].
      apply (no_return (fun i => R i M_CONTEXT) (fun k => cfc k * (R k M_RANGE_CHECK + 1)) (Z.of_nat n) i w); [|exact PB'|symmetry; exact E1|exact Hk].
      clear k Hk. intros k Hk. split; [apply flag_bound; [lia|apply FB; lia]|].
      destruct (step k ltac:(lia)) as [A B C D _|A B C D _ _|A B C D _ _|A B C D _ _ _ _]; fold (cfc k) in A; rewrite A.
      - rewrite Z.mul_1_l. exact D.
      - rewrite D, Z.mul_0_l. apply zero_diff.
      - rewrite D, Z.mul_0_l. apply zero_diff.
      - rewrite D, Z.mul_0_l. apply zero_diff. }
    assert (S0 : forall k, (i <= k < i + w)%nat -> sfc k = 0).
    { intros k Hk. apply (flag_zero _ k); [lia|apply FB; lia|].
      apply (no_return (fun i => R i M_SEGMENT) (fun k => sfc k * (R k M_RANGE_CHECK + 1)) (Z.of_nat n) i w); [|exact PB'|symmetry; exact E2|exact Hk].
      clear k Hk. intros k Hk. split; [apply flag_bound; [lia|apply FB; lia]|].
      destruct (step k ltac:(lia)) as [A B C _ _|A B C _ D _|A B C _ D _|A B C _ D _ _ _]; fold (cfc k) in A; fold (sfc k) in B; rewrite B.
      - rewrite (C0 k Hk) in A. discriminate A.
      - rewrite Z.mul_1_l. exact D.
      - rewrite D, Z.mul_0_l. apply zero_diff.
      - rewrite D, Z.mul_0_l. apply zero_diff. }
    assert (V0 : forall k, (i <= k < i + w)%nat -> vfc k = 0).
    { intros k Hk. apply (flag_zero _ k); [lia|apply FB; lia|].
      apply (no_return (fun i => R i M_VIRTUAL) (fun k => vfc k * (R k M_RANGE_CHECK + 1)) (Z.of_nat n) i w); [|exact PB'|symmetry; exact E3|exact Hk].
      clear k Hk. intros k Hk. split; [apply flag_bound; [lia|apply FB; lia]|].
      destruct (step k ltac:(lia)) as [A B C _ _|A B C _ _ _|A B C _ _ D|A B C _ _ D _ _]; fold (cfc k) in A; fold (sfc k) in B; fold (vfc k) in C; rewrite C.
      - rewrite (C0 k Hk) in A. discriminate A.
      - rewrite (S0 k Hk) in B. discriminate B.
      - rewrite Z.mul_1_l. exact D.
      - rewrite D, Z.mul_0_l. apply zero_diff. }
    intros k Hk. auto.
  Qed.

  Lemma block_addr : forall i j, (i <= j)%nat -> (j < n)%nat -> addr i = addr j -> forall k, (i <= k <= j)%nat -> addr k = addr i.
  Proof.
    intros i j Hij Hj E k [Hk1 Hk2]. pose proof (block i j Hij Hj E) as B. clear E.
    induction k as [|k IH]; [replace i with 0%nat by lia; reflexivity|].
    destruct (Nat.eq_dec i (S k)) as [->|N]; [reflexivity|].
    rewrite <- IH by lia. destruct (B k ltac:(lia)) as (F1 & F2 & F3). unfold cfc, sfc, vfc in *. apply addr_eq.
    destruct (step k ltac:(lia)) as [A _ _ _ _|_ A _ _ _ _|_ _ A _ _ _|_ _ _ A C D _ _]; try (rewrite A in *; discriminate); auto.
  Qed.

  Lemma block_time : forall i j, (i <= j)%nat -> (j < n)%nat -> addr i = addr j -> R i M_TIMESTAMP < 2^62 -> R j M_TIMESTAMP < 2^62 ->
    R i M_TIMESTAMP <= R j M_TIMESTAMP.
  Proof.
    intros i j Hij Hj E Ti Tj. pose proof (block i j Hij Hj E) as B. clear E.
    replace j with (i + (j - i))%nat in * by lia. set (w := (j - i)%nat) in *. clearbody w.
    pose proof (product_bound w ltac:(lia)) as PB.
    pose proof (total_bounds (fun k => R k M_TIMESTAMP) (fun k => R k M_RANGE_CHECK) (Z.of_nat n) i w) as TB.
    pose proof (total_mod (fun k => R k M_TIMESTAMP) (fun k => R k M_RANGE_CHECK) i w) as TM. cbv beta in *.
    assert (H : forall k, (i <= k < i + w)%nat -> (R (S k) M_TIMESTAMP - R k M_TIMESTAMP - R k M_RANGE_CHECK) mod P = 0).
    { intros k Hk. destruct (B k Hk) as (F1 & F2 & F3). unfold cfc, sfc, vfc in *.
      destruct (step k ltac:(lia)) as [A _ _ _ _|_ A _ _ _ _|_ _ A _ _ _|_ _ _ _ _ _ D _]; try (rewrite A in *; discriminate). exact D. }
    specialize (TM H). clear H.
    assert (H : forall k, (i <= k < i + w)%nat -> 0 <= R k M_RANGE_CHECK <= Z.of_nat n).
    { intros k Hk. pose proof (range_check_small k ltac:(lia)). lia. }
    specialize (TB H). clear H B.
    pose proof (cell_canonical i M_TIMESTAMP) as C1. pose proof (cell_canonical (i + w) M_TIMESTAMP) as C2. unfold canonical in *.
    clear -TB TM PB Ti Tj C1 C2. apply small_zero in TM; [lia|]. unfold P. lia.
  Qed.

  (** ** Values *)

  Lemma read_same : forall i, (S i < n)%nat -> addr i = addr (S i) -> R (S i) M_IS_READ = 1 -> m_value (R (S i)) = m_value (R i).
  Proof.
    intros i Hi E RD. destruct (block i (S i) ltac:(lia) Hi E i ltac:(lia)) as (F1 & F2 & F3). unfold cfc, sfc, vfc in *.
    destruct (step i Hi) as [A _ _ _ _|_ A _ _ _ _|_ _ A _ _ _|_ _ _ _ _ _ _ D]; try (rewrite A in *; discriminate). exact (D RD).
  Qed.

  Lemma not_preinitialized : forall s, canonical s -> ~ In s [0; 12; 34; 35] -> (s * (s - 12) * ((s - 34) * (s - 35))) mod P <> 0.
  Proof.
    intros s C N E. unfold canonical in C. apply field_integral in E. destruct E as [E|E]; apply field_integral in E; destruct E as [E|E]; apply small_zero in E; try (unfold P in *; lia);
    apply N; cbn [In]; lia.
  Qed.

  Lemma first_read_zero : forall i, (S i < n)%nat -> addr i <> addr (S i) -> R (S i) M_IS_READ = 1 -> ~ preinitialized (addr (S i)) ->
    m_value (R (S i)) = zero_value.
  Proof.
    intros i Hi E RD NP. pose proof (cell_canonical (S i) M_SEGMENT) as CS. pose proof (not_preinitialized _ CS NP) as NZ.
    assert (F : cfc i + sfc i + vfc i = 1).
    { pose proof (flags i ltac:(lia)) as FL. pose proof (step i Hi) as ST.
      destruct FL as [(A & B & C)|[(A & B & C)|[(A & B & C)|(A & B & C)]]]; rewrite A, B, C; try reflexivity. exfalso.
      unfold cfc, sfc, vfc in *. destruct ST as [D _ _ _ _|_ D _ _ _ _|_ _ D _ _ _|_ _ _ D1 D2 D3 _ _]; try (rewrite D in *; discriminate).
      apply E. apply addr_eq. auto. }
    pose proof (holds_tr i (R i M_PREINITIALIZED_SEGMENTS_AUX - (R (S i) M_SEGMENT - 34) * (R (S i) M_SEGMENT - 35)) Hi ltac:(at_ 13)) as T1.
    pose proof (holds_tr i (R i M_PREINITIALIZED_SEGMENTS - (R (S i) M_SEGMENT - 0) * (R (S i) M_SEGMENT - 12) * R i M_PREINITIALIZED_SEGMENTS_AUX) Hi ltac:(at_ 14)) as T2.
    pose proof (holds_tr i (R i M_INITIALIZE_AUX - R i M_PREINITIALIZED_SEGMENTS * (1 - (1 - cfc i - sfc i - vfc i)) * R (S i) M_IS_READ) Hi ltac:(at_ 15)) as T3.
    assert (VAL : forall k, (k < 8)%nat -> (R i M_INITIALIZE_AUX * R (S i) (M_VALUE + k)%nat) mod P = 0).
    { intros k Hk. apply (holds_tr i _ Hi).
      do 8 (destruct k as [|k]; [first [at_ 17|at_ 19|at_ 21|at_ 23|at_ 25|at_ 27|at_ 29|at_ 31]|]). exfalso. clear -Hk. lia. }
    assert (IA : R i M_INITIALIZE_AUX mod P <> 0).
    { intros Z0. apply NZ. rewrite RD in T3. assert (F1 : 1 - (1 - cfc i - sfc i - vfc i) = 1) by (clear -F; lia); rewrite F1 in T3.
      apply Zmod_divide in T1; [|discriminate]. apply Zmod_divide in T2; [|discriminate]. apply Zmod_divide in T3; [|discriminate]. apply Zmod_divide in Z0; [|discriminate].
      destruct T1 as [q1 T1], T2 as [q2 T2], T3 as [q3 T3], Z0 as [q0 Z0]. apply Zdivide_mod.
      set (s := R (S i) M_SEGMENT) in *. set (pa := R i M_PREINITIALIZED_SEGMENTS_AUX) in *. set (p := R i M_PREINITIALIZED_SEGMENTS) in *.
      exists (q0 - q3 - q2 - s * (s - 12) * q1).
      replace ((q0 - q3 - q2 - s * (s - 12) * q1) * P) with (q0 * P - q3 * P - q2 * P - s * (s - 12) * (q1 * P)) by ring.
      rewrite <- T1, <- T2, <- T3, <- Z0. ring. }
    unfold m_value, read_value, zero_value. replace (repeat 0 8) with (map (fun _ : nat => 0) (seq M_VALUE VALUE_LIMBS)) by reflexivity.
    apply map_ext_in. intros c Hc. apply in_seq in Hc. unfold VALUE_LIMBS in Hc. assert (Hk : (c - M_VALUE < 8)%nat) by (clear -Hc; lia). assert (Ec : c = (M_VALUE + (c - M_VALUE))%nat) by (clear -Hc; lia). rewrite Ec.
    apply canonical_zero; [apply cell_canonical|]. destruct (field_integral _ _ (VAL (c - M_VALUE)%nat Hk)) as [X|X]; [destruct (IA X)|exact X].
  Qed.

  (** ** The columns of the export *)

  Lemma pre_aux_eq : forall i, (S i < n)%nat -> (R i M_PREINITIALIZED_SEGMENTS_AUX - (R (S i) M_SEGMENT - 34) * (R (S i) M_SEGMENT - 35)) mod P = 0.
  Proof. intros i Hi. apply (holds_tr i _ Hi). at_ 13. Qed.
  Lemma pre_eq : forall i, (S i < n)%nat -> (R i M_PREINITIALIZED_SEGMENTS - (R (S i) M_SEGMENT - 0) * (R (S i) M_SEGMENT - 12) * R i M_PREINITIALIZED_SEGMENTS_AUX) mod P = 0.
  Proof. intros i Hi. apply (holds_tr i _ Hi). at_ 14. Qed.
  Lemma maybe_eq : forall i, (S i < n)%nat -> (R i M_MAYBE_IN_MEM_AFTER + R i M_FILTER * (1 - (1 - cfc i - sfc i - vfc i)) * (R i M_IS_STALE - 1)) mod P = 0.
  Proof. intros i Hi. apply (holds_tr i _ Hi). at_ 32. Qed.
  Inductive after_cases (i : nat) : Prop :=
  | after_same : R i M_MEM_AFTER_FILTER = R i M_MAYBE_IN_MEM_AFTER -> after_cases i
  | after_pre : R i M_PREINITIALIZED_SEGMENTS mod P = 0 -> after_cases i
  | after_zero : m_value (R i) = zero_value -> after_cases i.
  Lemma after_eq : forall i, (i < n)%nat -> after_cases i.
  Proof.
    intros i Hi.
    assert (VAL : forall k, (k < 8)%nat -> ((R i M_MEM_AFTER_FILTER - R i M_MAYBE_IN_MEM_AFTER) * R i M_PREINITIALIZED_SEGMENTS * R i (M_VALUE + k)%nat) mod P = 0).
    { intros k Hk. apply (holds_all i _ Hi).
      do 8 (destruct k as [|k]; [first [at_ 34|at_ 35|at_ 36|at_ 37|at_ 38|at_ 39|at_ 40|at_ 41]|]). exfalso. clear -Hk. lia. }
    destruct (Z.eq_dec ((R i M_MEM_AFTER_FILTER - R i M_MAYBE_IN_MEM_AFTER) mod P) 0) as [E|N].
    { apply after_same. apply canonical_eq; [apply cell_canonical|apply cell_canonical|exact E]. }
    destruct (Z.eq_dec (R i M_PREINITIALIZED_SEGMENTS mod P) 0) as [E2|N2]; [apply after_pre; exact E2|].
    apply after_zero. unfold m_value, read_value, zero_value. replace (repeat 0 8) with (map (fun _ : nat => 0) (seq M_VALUE VALUE_LIMBS)) by reflexivity.
    apply map_ext_in. intros c Hc. apply in_seq in Hc. unfold VALUE_LIMBS in Hc.
    assert (Hk : (c - M_VALUE < 8)%nat) by (clear -Hc; lia). assert (Ec : c = (M_VALUE + (c - M_VALUE))%nat) by (clear -Hc; lia). rewrite Ec.
    apply canonical_zero; [apply cell_canonical|]. destruct (field_integral _ _ (VAL _ Hk)) as [X|X]; [|exact X].
    destruct (field_integral _ _ X) as [Y|Y]; [destruct (N Y)|destruct (N2 Y)].
  Qed.
End Table.
