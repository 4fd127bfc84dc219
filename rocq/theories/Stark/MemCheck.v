(** A decision procedure for accepted memory tables, used for witnesses. *)
From Coq Require Import ZArith List Lia Bool.
From Coq Require Import ZifyBool ZifyNat.
From Verif Require Import Stark.Field Stark.ArithModel Stark.MemModel Stark.MemSound.
Import ListNotations.
Local Open Scope Z_scope.

Definition row_of (l : list Z) : row := fun c => nth c l 0.
Definition cells_of (r : row) : list Z := map r (seq 0 M_NUM_COLUMNS).

Definition candidates (t : list row) : list Z :=
  flat_map (fun r => [r M_RANGE_CHECK; r M_VIRTUAL; r M_COUNTER; (r M_CONTEXT + 1) mod P; r M_STALE_CONTEXTS]) t.

Definition mem_okb (ls : list (list Z)) : bool :=
  let t := map row_of ls in
  forallb (fun i => forallb (fun c => negb (applies (fst c) i (length t)) || (snd c mod P =? 0)) (eval_memory (mrow_at t i) (mnext t i))) (seq 0 (length t)) &&
  forallb (fun v =>
    ((sum (map (fun i => b2z (mrow_at t i M_RANGE_CHECK =? v)
                        + range_filter (mrow_at t i) * b2z (mnext t i M_VIRTUAL =? v)) (seq 0 (length t)))
     - sum (map (fun i => mrow_at t i M_FREQUENCIES * b2z (mrow_at t i M_COUNTER =? v)) (seq 0 (length t)))) mod P =? 0) &&
    ((sum (map (fun i => mrow_at t i M_IS_STALE * b2z ((mrow_at t i M_CONTEXT + 1) mod P =? v)) (seq 0 (length t)))
     - sum (map (fun i => mrow_at t i M_STALE_CONTEXT_FREQUENCIES * b2z (mrow_at t i M_STALE_CONTEXTS =? v)) (seq 0 (length t)))) mod P =? 0)) (candidates t) &&
  forallb (forallb (fun x => (0 <=? x) && (x <? P))) ls.

Lemma neqb : forall x v, x <> v -> b2z (x =? v) = 0.
Proof. intros x v H. rewrite (proj2 (Z.eqb_neq x v) H). reflexivity. Qed.

Lemma mem_okb_ok : forall ls, mem_okb ls = true -> mem_table_ok (map row_of ls).
Proof.
  intros ls H. unfold mem_okb in H. cbv zeta in H. set (t := map row_of ls) in *.
  apply andb_prop in H. destruct H as [H H3]. apply andb_prop in H. destruct H as [H1 H2].
  rewrite forallb_forall in H1, H2.
  assert (AT : forall i, (i < length t)%nat -> In (mrow_at t i) t) by (intros i Hi; apply nth_In; exact Hi).
  assert (NX : forall i, (i < length t)%nat -> In (mnext t i) t) by (intros i Hi; apply nth_In; apply Nat.mod_upper_bound; lia).
  assert (CAND : forall v, ~ In v (candidates t) -> forall r, In r t -> r M_RANGE_CHECK <> v /\ r M_VIRTUAL <> v /\ r M_COUNTER <> v /\ (r M_CONTEXT + 1) mod P <> v /\ r M_STALE_CONTEXTS <> v).
  { intros v N r Hr. assert (G : forall x, In x [r M_RANGE_CHECK; r M_VIRTUAL; r M_COUNTER; (r M_CONTEXT + 1) mod P; r M_STALE_CONTEXTS] -> x <> v).
    { intros x Hx ->. apply N. unfold candidates. apply in_flat_map. exists r. split; [exact Hr|exact Hx]. }
    repeat split; apply G; cbn [In]; tauto. }
  split; [|split; [|split]].
  - intros i Hi. specialize (H1 i ltac:(apply in_seq; lia)). rewrite forallb_forall in H1. apply Forall_forall. intros c Hc A. specialize (H1 c Hc). rewrite A in H1. cbn [negb orb] in H1. apply Z.eqb_eq. exact H1.
  - intros v. destruct (in_dec Z.eq_dec v (candidates t)) as [I|N].
    + specialize (H2 v I). apply andb_prop in H2. destruct H2 as [H2 _]. apply Z.eqb_eq. exact H2.
    + specialize (CAND v N). rewrite (sum_all_zero _ (seq 0 (length t))), (sum_all_zero _ (seq 0 (length t))); [reflexivity| |].
      * intros i Hi. apply in_seq in Hi. destruct (CAND _ (AT i ltac:(lia))) as (_ & _ & C & _). rewrite neqb by exact C. ring.
      * intros i Hi. apply in_seq in Hi. destruct (CAND _ (AT i ltac:(lia))) as (C & _). destruct (CAND _ (NX i ltac:(lia))) as (_ & C2 & _). rewrite !neqb by assumption. ring.
  - intros v. destruct (in_dec Z.eq_dec v (candidates t)) as [I|N].
    + specialize (H2 v I). apply andb_prop in H2. destruct H2 as [_ H2]. apply Z.eqb_eq. exact H2.
    + specialize (CAND v N). rewrite (sum_all_zero _ (seq 0 (length t))), (sum_all_zero _ (seq 0 (length t))); [reflexivity| |].
      * intros i Hi. apply in_seq in Hi. destruct (CAND _ (AT i ltac:(lia))) as (_ & _ & _ & _ & C). rewrite neqb by exact C. ring.
      * intros i Hi. apply in_seq in Hi. destruct (CAND _ (AT i ltac:(lia))) as (_ & _ & _ & C & _). rewrite neqb by exact C. ring.
  - unfold mem_canonical, t. apply Forall_forall. intros r Hr. apply in_map_iff in Hr. destruct Hr as (l & <- & Hl). intros c. unfold row_of.
    rewrite forallb_forall in H3. specialize (H3 l Hl). rewrite forallb_forall in H3.
    destruct (Nat.lt_ge_cases c (length l)) as [L|L].
    + specialize (H3 (nth c l 0) (nth_In _ _ L)). unfold canonical. lia.
    + rewrite nth_overflow by exact L. split; [discriminate|reflexivity].
Qed.

(** Changing one cell of a table. *)
Definition tamper (i c : nat) (v : Z) (t : list row) : list row :=
  map (fun p : nat * row => let (j, r) := p in if (j =? i)%nat then set r c v else r) (combine (seq 0 (length t)) t).
