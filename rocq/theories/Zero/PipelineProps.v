(** C72: the proof of a block. C73: the proofs of an interval. *)
From Coq Require Import ZArith List Bool Lia Permutation Sorted ZifyBool ZifyNat.
From Verif Require Import Zero.IntervalModel Zero.PipelineModel.
Import ListNotations.

(** * Sorting by an index *)
Section Sort.
  Variable A : Type.
  Notation lt_key := (fun a b : nat * A => (fst a < fst b)%nat).
  Notation le_key := (fun a b : nat * A => (fst a <= fst b)%nat).
  Lemma insert_perm : forall (x : nat * A) l, Permutation (insert x l) (x :: l).
  Proof. intros x. induction l as [|y l IH]; [reflexivity|]. cbn [insert]. destruct (fst x <=? fst y)%nat; [reflexivity|]. rewrite IH. apply perm_swap. Qed.
  Lemma sort_perm : forall l : list (nat * A), Permutation (sort_by l) l.
  Proof. induction l as [|x l IH]; [reflexivity|]. cbn [sort_by fold_right]. rewrite insert_perm. constructor. exact IH. Qed.
  Lemma insert_sorted : forall (x : nat * A) l, StronglySorted le_key l -> StronglySorted le_key (insert x l).
  Proof.
    intros x. induction l as [|y l IH]; intros S; [repeat constructor|]. inversion S as [|? ? S' F]; subst. cbn [insert]. destruct (fst x <=? fst y)%nat eqn:E.
    - constructor; [exact S|]. constructor; [lia|]. rewrite Forall_forall in *. intros z Z. specialize (F z Z). cbv beta in F. lia.
    - constructor; [apply IH, S'|]. rewrite Forall_forall in *. intros z Z. apply (Permutation_in _ (insert_perm x l)) in Z. destruct Z as [<-|Z]; [lia|apply F, Z].
  Qed.
  Lemma sort_sorted : forall l : list (nat * A), StronglySorted le_key (sort_by l).
  Proof. induction l as [|x l IH]; [constructor|]. cbn [sort_by fold_right]. apply insert_sorted, IH. Qed.
  Lemma sorted_unique : forall l m : list (nat * A), StronglySorted le_key l -> StronglySorted lt_key m -> Permutation l m -> l = m.
  Proof.
    induction l as [|x l IH]; intros m S T P; [apply Permutation_nil in P; congruence|]. destruct m as [|y m]; [symmetry in P; apply Permutation_nil in P; discriminate P|].
    inversion S as [|? ? S' F]; inversion T as [|? ? T' G]; subst. rewrite Forall_forall in F, G.
    assert (E : x = y).
    { assert (X : In x (y :: m)) by (apply (Permutation_in _ P); left; reflexivity). assert (Y : In y (x :: l)) by (apply (Permutation_in _ (Permutation_sym P)); left; reflexivity).
      destruct X as [X|X]; [congruence|]. destruct Y as [Y|Y]; [exact Y|]. specialize (G x X). specialize (F y Y). cbv beta in F, G. lia. }
    subst y. f_equal. apply IH; [assumption|assumption|]. eapply Permutation_cons_inv. exact P.
  Qed.
  (** Whatever the order of arrival, the sorted list is the indexed list. *)
  Lemma sort_restores : forall arrived l : list (nat * A), StronglySorted lt_key l -> Permutation arrived l -> sort_by arrived = l.
  Proof. intros a l S P. apply sorted_unique; [apply sort_sorted|exact S|]. rewrite sort_perm. exact P. Qed.
  Lemma combine_sorted : forall (l : list A) k, StronglySorted lt_key (combine (seq k (length l)) l).
  Proof.
    induction l as [|x l IH]; intros k; [constructor|]. cbn [length seq combine]. constructor; [apply IH|]. rewrite Forall_forall. intros [i y] I. apply in_combine_l in I. apply in_seq in I. cbn. lia.
  Qed.
  Lemma combine_snd : forall (l : list A) k, map snd (combine (seq k (length l)) l) = l.
  Proof. induction l as [|x l IH]; intros k; [reflexivity|]. cbn [length seq combine map snd]. rewrite IH. reflexivity. Qed.
End Sort.

(** * One block *)
Section Block.
  Variables Segment Proof BlockProof : Type.
  Variable prove_segment : Segment -> option Proof.
  Variable prove_segment_aggregation : bool -> Proof -> bool -> bool -> Proof -> option Proof.
  Variable prove_batch_aggregation : bool -> Proof -> bool -> Proof -> option Proof.
  Variable prove_block : option BlockProof -> Proof -> option BlockProof.

  (** ** Specification: proofs that cover segments, in order *)
  (** [covers_segments l agg p]: [p] is the proof of the one segment of [l]
      ([agg] = false), or aggregates the proofs of [l] from left to right. *)
  Inductive covers_segments : list Segment -> bool -> Proof -> Prop :=
  | cover_segment : forall s p, prove_segment s = Some p -> covers_segments [s] false p
  | cover_join : forall l r a b p q t, covers_segments l a p -> covers_segments r b q -> prove_segment_aggregation a p b false q = Some t -> covers_segments (l ++ r) true t.
  (** The proof of a batch, ready to be aggregated with other batches: a lone
      segment is aggregated with itself as a dummy. *)
  Inductive covers_batch : list Segment -> Proof -> Prop :=
  | cover_lone : forall s p t, prove_segment s = Some p -> prove_segment_aggregation false p false true p = Some t -> covers_batch [s] t
  | cover_many : forall l t, covers_segments l true t -> covers_batch l t.
  Inductive covers_batches : list (list Segment) -> bool -> Proof -> Prop :=
  | cover_batch : forall l t, covers_batch l t -> covers_batches [l] false t
  | cover_batches : forall l r a b p q t, covers_batches l a p -> covers_batches r b q -> prove_batch_aggregation a p b q = Some t -> covers_batches (l ++ r) true t.

  Notation segment_proof := (segment_proof Proof).
  Notation batch_proof := (batch_proof Proof).
  Notation seg_combine := (seg_combine Proof prove_segment_aggregation).
  Notation batch_combine := (batch_combine Proof prove_segment_aggregation prove_batch_aggregation).
  Notation wrap := (wrap Proof prove_segment_aggregation).
  Notation batch_task := (batch_task Segment Proof prove_segment prove_segment_aggregation).
  Notation batches_task := (batches_task Segment Proof prove_segment prove_segment_aggregation).
  Notation run_block := (run_block Segment Proof BlockProof prove_segment prove_segment_aggregation prove_batch_aggregation prove_block).
  Notation proved_segments := (proved_segments Segment Proof prove_segment).
  Notation seg_is_agg := (seg_is_agg Proof).
  Notation seg_pvs := (seg_pvs Proof).
  Notation batch_is_agg := (batch_is_agg Proof).
  Notation batch_pvs := (batch_pvs Proof).
  Notation from := (from Proof).
  Arguments Segment_ {Proof}. Arguments Agg {Proof}. Arguments BSegment {Proof}. Arguments BSegmentAgg {Proof}. Arguments BatchAgg {Proof}.

  Definition seg_covers (l : list Segment) (a : segment_proof) : Prop := covers_segments l (seg_is_agg a) (seg_pvs a).
  Definition batch_covers (l : list (list Segment)) (a : batch_proof) : Prop :=
    match a with BSegment p => exists s, l = [[s]] /\ prove_segment s = Some p | BSegmentAgg p => exists m, l = [m] /\ covers_segments m true p | BatchAgg p => covers_batches l true p end.

  Lemma proved_all : forall segments k, Forall (fun s => prove_segment s <> None) segments -> exists proofs,
    flat_map (fun p => match prove_segment (snd p) with Some q => [(fst p, Segment_ q)] | None => [] end) (combine (seq k (length segments)) segments) = combine (seq k (length proofs)) proofs /\
    Forall2 (fun s a => seg_covers [s] a) segments proofs.
  Proof.
    induction segments as [|s segments IH]; intros k F; [exists []; split; [reflexivity|constructor]|]. inversion F as [|? ? N F']; subst. destruct (IH (S k) F') as (proofs & E & C).
    destruct (prove_segment s) as [p|] eqn:P; [|contradiction]. exists (Segment_ p :: proofs). cbn [length seq combine flat_map snd fst]. rewrite P, E. split; [reflexivity|]. constructor; [constructor; exact P|exact C].
  Qed.
  Lemma folds_seg : forall l r, folds seg_combine l r -> forall segs, Forall2 seg_covers segs l -> forall a, r = Some a -> seg_covers (concat segs) a.
  Proof.
    intros l r F. induction F as [|a|l r a b L0 R0 F1 IH1 F2 IH2|l r a b L0 R0 F1 IH1 F2 IH2 N]; intros segs C x E; try discriminate E.
    - inversion C as [|s ? segs' ? C1 C2]; subst. inversion C2; subst. cbn [concat]. rewrite app_nil_r. congruence.
    - apply Forall2_app_inv_r in C. destruct C as (s1 & s2 & C1 & C2 & ->). rewrite concat_app. specialize (IH1 s1 C1 a eq_refl). specialize (IH2 s2 C2 b eq_refl).
      unfold PipelineModel.seg_combine, generate_segment_agg_proof in E. cbn [andb] in E. destruct (prove_segment_aggregation _ _ _ _ _) as [t|] eqn:T in E; [|discriminate E]. cbn [option_map] in E. assert (x = Agg t) as -> by congruence.
      eapply cover_join; [exact IH1|exact IH2|exact T].
  Qed.
  Lemma concat_singletons : forall (l : list Segment), concat (map (fun s => [s]) l) = l.
  Proof. induction l as [|s l IH]; [reflexivity|]. cbn. congruence. Qed.
  Lemma from_covers : forall m a, seg_covers m a -> batch_covers [m] (from a).
  Proof.
    intros m [p|p] C; unfold seg_covers in C; cbn in C.
    - inversion C; subst. exists s. split; [reflexivity|assumption].
    - exists m. split; [reflexivity|exact C].
  Qed.
  Lemma batch_task_covers : forall segments r a, Forall (fun s => prove_segment s <> None) segments -> batch_task segments r -> r = Some a -> batch_covers [segments] a.
  Proof.
    intros segments r a F B E. destruct (proved_all segments 0 F) as (proofs & P & C).
    assert (S : forall arrived, Permutation arrived (proved_segments segments) -> sort_by arrived = combine (seq 0 (length proofs)) proofs).
    { intros arrived X. apply sort_restores; [apply combine_sorted|]. unfold PipelineModel.proved_segments, enumerate in X. rewrite P in X. exact X. }
    assert (C' : Forall2 seg_covers (map (fun s => [s]) segments) proofs).
    { clear -C. induction C; constructor; assumption. }
    destruct B as [segments arrived i p X Y|segments arrived r X N Y].
    - rewrite (S arrived X) in Y. destruct proofs as [|p' [|? ?]]; try discriminate Y. assert (p' = p) as -> by (cbn in Y; congruence). assert (a = from p) as -> by congruence. apply from_covers.
      inversion C as [|s ? segs' ? C1 C2]; subst. inversion C2; subst. exact C1.
    - rewrite (S arrived X), combine_snd in Y. destruct r as [q|]; [|discriminate E]. cbn [option_map] in E. assert (a = from q) as -> by congruence. apply from_covers. rewrite <- (concat_singletons segments). eapply folds_seg; [exact Y|exact C'|reflexivity].
  Qed.
  Lemma succeeded_all : forall results k, Forall (fun r => r <> None) results -> exists proofs,
    flat_map (fun p => match snd p with Some q => [(fst p, q)] | None => [] end) (combine (seq k (length results)) (results : list (option batch_proof))) = combine (seq k (length proofs)) proofs /\ results = map Some proofs.
  Proof.
    induction results as [|[q|] results IH]; intros k F; [exists []; split; reflexivity| |inversion F; congruence]. inversion F as [|? ? N F']; subst. destruct (IH (S k) F') as (proofs & E & ->). exists (q :: proofs). cbn [length seq combine flat_map snd fst]. rewrite E. split; reflexivity.
  Qed.
  Lemma wrap_covers : forall l a b, batch_covers l a -> wrap a = Some b -> covers_batches l (batch_is_agg b) (batch_pvs b).
  Proof.
    intros l [p|p|p] b C W; cbn in C, W.
    - destruct C as (s & -> & P). unfold generate_segment_agg_proof in W. cbn in W. destruct (prove_segment_aggregation false p false true p) as [t|] eqn:T; [|discriminate W]. cbn in W. assert (b = BSegmentAgg t) as -> by congruence.
      cbn. constructor. eapply cover_lone; eassumption.
    - destruct C as (m & -> & C). assert (b = BSegmentAgg p) as -> by congruence. constructor. constructor. exact C.
    - assert (b = BatchAgg p) as -> by congruence. exact C.
  Qed.
  Lemma folds_batch : forall l r, folds batch_combine l r -> forall ms, Forall2 batch_covers ms l -> forall a, r = Some a -> batch_covers (concat ms) a.
  Proof.
    intros l r F. induction F as [|a|l r a b L0 R0 F1 IH1 F2 IH2|l r a b L0 R0 F1 IH1 F2 IH2 N]; intros ms C x E; try discriminate E.
    - inversion C as [|s ? ms' ? C1 C2]; subst. inversion C2; subst. cbn [concat]. rewrite app_nil_r. congruence.
    - apply Forall2_app_inv_r in C. destruct C as (s1 & s2 & C1 & C2 & ->). rewrite concat_app. specialize (IH1 s1 C1 a eq_refl). specialize (IH2 s2 C2 b eq_refl).
      unfold PipelineModel.batch_combine in E. destruct (wrap a) as [a'|] eqn:WA; [|discriminate E]. destruct (wrap b) as [b'|] eqn:WB; [|discriminate E].
      pose proof (wrap_covers _ _ _ IH1 WA) as CA. pose proof (wrap_covers _ _ _ IH2 WB) as CB.
      destruct (prove_batch_aggregation _ _ _ _) as [t|] eqn:T in E; [|discriminate E]. cbn [option_map] in E. assert (x = BatchAgg t) as -> by congruence. eapply cover_batches; [exact CA|exact CB|exact T].
  Qed.
  Lemma concat_batches : forall (l : list (list Segment)), concat (map (fun b => [b]) l) = l.
  Proof. induction l as [|s l IH]; [reflexivity|]. cbn. congruence. Qed.

  Lemma batches_cover : forall batches arrived, Forall (Forall (fun s => prove_segment s <> None)) batches -> (forall segments, In segments batches -> ~ batch_task segments None) -> batches_task batches arrived ->
    Forall2 batch_covers (map (fun b => [b]) batches) (map snd (sort_by arrived)).
  Proof.
    intros batches arrived F NN B. destruct B as [results arrived R A P|results kept arrived R N K P].
    - destruct (succeeded_all results 0 A) as (proofs & E & ->). rewrite (sort_restores _ arrived (combine (seq 0 (length proofs)) proofs)); [|apply combine_sorted|unfold succeeded, enumerate in P; rewrite E in P; exact P].
      rewrite combine_snd. clear P E A arrived NN. revert proofs R. induction F as [|b batches Fb F IH]; intros [|p proofs] R; cbn [map] in R; inversion R; subst; [constructor|]. cbn [map]. constructor; [|apply IH; assumption].
      eapply batch_task_covers; [exact Fb|eassumption|reflexivity].
    - exfalso. assert (X : exists b, In b batches /\ batch_task b None).
      { clear -R N. induction R; [destruct N|]. destruct N as [->|N]; [exists x; split; [left; reflexivity|assumption]|]. destruct (IHR N) as (b & I & T). exists b. split; [right; exact I|exact T]. }
      destruct X as (b & I & T). exact (NN b I T).
  Qed.

  (** If no segment fails and no batch fails, a block proof made in any order of
      events covers all the segments of all the batches in order. *)
  Theorem C72_block : forall previous batches p,
    Forall (Forall (fun s => prove_segment s <> None)) batches -> (forall segments, In segments batches -> ~ batch_task segments None) ->
    run_block previous batches (Some p) -> exists q, covers_batches batches true q /\ prove_block previous q = Some p.
  Proof.
    intros previous batches p F NN R. inversion R as [arrived q B D E| |]; subst. exists q. split; [|reflexivity].
    pose proof (folds_batch _ _ D _ (batches_cover _ _ F NN B) _ eq_refl) as C. rewrite concat_batches in C. exact C.
  Qed.

  Lemma Forall2_len : forall (A B : Type) (R : A -> B -> Prop) l m, Forall2 R l m -> length l = length m.
  Proof. intros A B R l m F. induction F; cbn; congruence. Qed.
  (** If nothing at all fails, two or more batches of at least one segment give
      a block proof. *)
  Lemma folds_some : forall (A : Type) (f : A -> A -> option A), (forall a b, f a b <> None) -> forall l r, folds f l r -> l <> [] -> r <> None.
  Proof.
    intros A f T l r F. induction F as [|a|l r a b L0 R0 F1 IH1 F2 IH2|l r a b L0 R0 F1 IH1 F2 IH2 N]; intros X; [contradiction|discriminate|apply T|]. destruct N as [->| ->]; [apply IH1|apply IH2]; try reflexivity; assumption.
  Qed.
  Lemma folds_many : forall l a, folds batch_combine l (Some a) -> (2 <= length l)%nat -> batch_is_agg a = true.
  Proof.
    intros l a F L. remember (Some a) as r eqn:X. destruct F as [|z|l1 l2 x y X1 X2 F1 F2|]; try discriminate X; [cbn in L; lia|]. unfold PipelineModel.batch_combine in X. destruct (wrap x); [|discriminate X]. destruct (wrap y); [|discriminate X].
    destruct (prove_batch_aggregation _ _ _ _) in X; [|discriminate X]. cbn in X. assert (a = BatchAgg p) as -> by congruence. reflexivity.
  Qed.
  Theorem C72_complete : forall previous batches r,
    (forall s, prove_segment s <> None) -> (forall a p b d q, prove_segment_aggregation a p b d q <> None) -> (forall a p b q, prove_batch_aggregation a p b q <> None) -> (forall q p, prove_block q p <> None) ->
    (2 <= length batches)%nat -> Forall (fun b => b <> []) batches -> run_block previous batches r -> r <> None.
  Proof.
    intros previous batches r T1 T2 T3 T4 L F R.
    assert (F1 : Forall (Forall (fun s => prove_segment s <> None)) batches) by (apply Forall_forall; intros b _; apply Forall_forall; intros s _; apply T1).
    assert (W : forall a, wrap a <> None).
    { intros [p|p|p]; cbn; try discriminate. unfold generate_segment_agg_proof. cbn. destruct (prove_segment_aggregation _ _ _ _ _) eqn:X; [discriminate|]. apply T2 in X. destruct X. }
    assert (TB : forall a b, batch_combine a b <> None).
    { intros a b. unfold PipelineModel.batch_combine. destruct (wrap a) eqn:A; [|apply W in A; destruct A]. destruct (wrap b) eqn:B; [|apply W in B; destruct B]. destruct (prove_batch_aggregation _ _ _ _) eqn:X; [discriminate|]. apply T3 in X. destruct X. }
    assert (TS : forall a b, seg_combine a b <> None).
    { intros a b. unfold PipelineModel.seg_combine, generate_segment_agg_proof. cbn [andb]. destruct (prove_segment_aggregation _ _ _ _ _) eqn:X; [discriminate|]. apply T2 in X. destruct X. }
    assert (NN : forall segments, In segments batches -> ~ batch_task segments None).
    { intros segments I B. rewrite Forall_forall in F. specialize (F segments I). rewrite Forall_forall in F1. destruct (proved_all segments 0 (F1 segments I)) as (proofs & P & C).
      remember None as z eqn:Z in B. destruct B as [segments arrived i p X Y|segments arrived q X N Y]; [discriminate Z|]. destruct q; [discriminate Z|]. eapply folds_some in Y; [apply Y; reflexivity|exact TS|].
      rewrite (sort_restores _ arrived (combine (seq 0 (length proofs)) proofs)); [|apply combine_sorted|unfold PipelineModel.proved_segments, enumerate in X; rewrite P in X; exact X].
      rewrite combine_snd. intros ->. inversion C; subst. contradiction. }
    assert (LL : forall arrived, batches_task batches arrived -> (2 <= length (map snd (sort_by arrived)))%nat).
    { intros arrived B. pose proof (Forall2_len _ _ _ _ _ (batches_cover _ _ F1 NN B)) as X. rewrite map_length in X. lia. }
    inversion R as [arrived q B D E|arrived q B D E|arrived B D]; subst.
    - apply T4.
    - pose proof (folds_many _ _ D (LL arrived B)). congruence.
    - eapply folds_some in D; [congruence|exact TB|]. specialize (LL arrived B). destruct (map snd (sort_by arrived)); [cbn in LL; lia|discriminate].
  Qed.
  (** A single batch never gives a block proof (C36: the batches are padded to
      two). *)
  Theorem C72_single_batch : forall previous segments r, run_block previous [segments] r -> r = None.
  Proof.
    assert (X : forall segments arrived, batches_task [segments] arrived -> (length (sort_by arrived) <= 1)%nat /\ forall a, In a (map snd (sort_by arrived)) -> batch_is_agg a = false).
    { intros segments arrived B.
      assert (Y : exists r l, batch_task segments r /\ Permutation arrived l /\ sublist l (succeeded Proof [r])).
      { destruct B as [results arrived R A P|results kept arrived R N K P]; inversion R as [|? r ? ? R1 R2]; subst; inversion R2; subst; exists r.
        - eexists; split; [exact R1|]; split; [exact P|]. destruct r; [apply sub_take, sub_nil|apply sub_nil].
        - exists kept. split; [exact R1|]. split; [exact P|exact K]. }
      destruct Y as (r & l & T & P & K).
      assert (Q : batch_task segments r -> forall a, r = Some a -> batch_is_agg a = false).
      { intros [? ? ? [?|?] ? ?|? ? [[?|?]|] ? ? ?] a E; cbn in E; try discriminate E; assert (E' := E); clear E; [assert (a = BSegment p) as -> by congruence|assert (a = BSegmentAgg p) as -> by congruence|assert (a = BSegment p) as -> by congruence|assert (a = BSegmentAgg p) as -> by congruence]; reflexivity. }
      specialize (Q T). destruct r as [a|].
      - cbn in K. assert (L : l = [] \/ l = [(0%nat, a)]) by (inversion K as [|? ? ? K1|? ? ? K1]; subst; inversion K1; subst; auto).
        destruct L as [-> | ->]; [apply Permutation_sym, Permutation_nil in P|apply Permutation_sym, Permutation_length_1_inv in P]; subst; cbn; (split; [lia|]); [intros ? []|intros b [<-|[]]; apply Q; reflexivity].
      - cbn in K. inversion K; subst. apply Permutation_sym, Permutation_nil in P. subst. cbn. split; [lia|intros ? []]. }
    intros previous segments r R. inversion R as [arrived q B D E|arrived q B D E|arrived B D]; subst; try reflexivity. exfalso.
    destruct (X _ _ B) as [L Q]. destruct (sort_by arrived) as [|x [|y l]]; [| |cbn in L; lia].
    { cbn [map] in D. remember [] as z eqn:Z in D. remember (Some (BatchAgg q)) as w eqn:W in D. destruct D as [|? |l1 l2 ? ? N1 N2 D1 D2|]; try discriminate Z; try discriminate W. destruct l1; [contradiction|discriminate Z]. }
    cbn [map] in D. assert (E : snd x = BatchAgg q).
    { remember [snd x] as z eqn:Z in D. remember (Some (BatchAgg q)) as w eqn:W in D. destruct D as [|? |l1 l2 ? ? N1 N2 D1 D2|]; try discriminate Z; try discriminate W; [congruence|]. destruct l1 as [|? [|? ?]]; [contradiction| |discriminate Z]. destruct l2; [contradiction|discriminate Z]. }
    specialize (Q (snd x) ltac:(left; reflexivity)). rewrite E in Q. discriminate Q.
  Qed.
End Block.
Print Assumptions C72_block.
Print Assumptions C72_complete.
Print Assumptions C72_single_batch.

(** ** Examples: a proof is the list of the segments it covers; the segments
    are numbers, 0 cannot be proved. *)
Definition demo_segment (s : nat) : option (list nat) := if (s =? 0)%nat then None else Some [s].
Notation demo_run := (run_block nat (list nat) (list nat) demo_segment (fun _ p _ d q => Some (if d then p else p ++ q)) (fun _ p _ q => Some (p ++ q)) (fun prev p => Some (match prev with Some l => l | None => [] end ++ p))).
Notation demo_batch := (batch_task nat (list nat) demo_segment (fun _ p _ d q => Some (if d then p else p ++ q))).
(** The batches [1; 2; 3] and [4]; the second segment proof arrives first. *)
Lemma demo_first : demo_batch [1; 2; 3]%nat (Some (BSegmentAgg _ [1; 2; 3]%nat)).
Proof.
  change (Some (BSegmentAgg _ [1; 2; 3]%nat)) with (option_map (from (list nat)) (Some (Agg _ [1; 2; 3]%nat))).
  apply (batch_task_fold _ _ _ _ _ [(1, Segment_ _ [2]); (0, Segment_ _ [1]); (2, Segment_ _ [3])]%nat); [apply perm_swap|discriminate|].
  apply (folds_join (seg_combine (list nat) (fun _ p _ d q => Some (if d then p else p ++ q))) [Segment_ _ [1]; Segment_ _ [2]]%nat [Segment_ _ [3]]%nat (Agg _ [1; 2]%nat) (Segment_ _ [3]%nat)); try discriminate; [|constructor].
  apply (folds_join (seg_combine (list nat) (fun _ p _ d q => Some (if d then p else p ++ q))) [Segment_ _ [1]]%nat [Segment_ _ [2]]%nat (Segment_ _ [1]%nat) (Segment_ _ [2]%nat)); try discriminate; constructor.
Qed.
Lemma demo_second : demo_batch [4]%nat (Some (BSegment _ [4]%nat)).
Proof. change (Some (BSegment _ [4]%nat)) with (Some (from (list nat) (Segment_ _ [4]%nat))). eapply (batch_task_one _ _ _ _ _ [(0, Segment_ _ [4])]%nat 0%nat); [apply Permutation_refl|reflexivity]. Qed.
Example C72_example : demo_run (Some [9]%nat) [[1; 2; 3]; [4]]%nat (Some [9; 1; 2; 3; 4]%nat).
Proof.
  apply (run_block_ok _ _ _ _ _ _ (fun prev p => Some (match prev with Some l => l | None => [] end ++ p)) (Some [9]%nat) _ [(1, BSegment _ [4]); (0, BSegmentAgg _ [1; 2; 3])]%nat [1; 2; 3; 4]%nat).
  - eapply (batches_all _ _ _ _ _ [Some (BSegmentAgg _ [1; 2; 3]%nat); Some (BSegment _ [4]%nat)]); [constructor; [exact demo_first|constructor; [exact demo_second|constructor]]|repeat constructor; discriminate|apply perm_swap].
  - apply (folds_join (batch_combine (list nat) (fun _ p _ d q => Some (if d then p else p ++ q)) (fun _ p _ q => Some (p ++ q))) [BSegmentAgg _ [1; 2; 3]]%nat [BSegment _ [4]]%nat (BSegmentAgg _ [1; 2; 3]%nat) (BSegment _ [4]%nat)); try discriminate; constructor.
Qed.
(** A segment that fails is left out: the pipeline reports nothing and hands the
    rest to the aggregation. With provers that accept any two proofs, a block
    proof comes out that does not cover the segment 0. *)
Theorem C72_failed_segment_refuted : exists batches p, ~ Forall (Forall (fun s => demo_segment s <> None)) batches /\ demo_run None batches (Some p) /\ p = [4; 5]%nat.
Proof.
  exists [[4; 0]; [5]]%nat, [4; 5]%nat. split; [|split; [|reflexivity]].
  - intros F. inversion F as [|? ? F1 _]; subst. inversion F1 as [|? ? _ F2]; subst. inversion F2 as [|? ? N _]; subst. apply N. reflexivity.
  - apply (run_block_ok _ _ _ _ _ _ (fun prev p => Some (match prev with Some l => l | None => [] end ++ p)) None _ [(0, BSegment _ [4]); (1, BSegment _ [5])]%nat [4; 5]%nat).
    + eapply (batches_all _ _ _ _ _ [Some (BSegment _ [4]%nat); Some (BSegment _ [5]%nat)]); [|repeat constructor; discriminate|apply Permutation_refl]. constructor; [|constructor; [|constructor]].
      * change (Some (BSegment _ [4]%nat)) with (Some (from (list nat) (Segment_ _ [4]%nat))). eapply (batch_task_one _ _ _ _ _ [(0, Segment_ _ [4])]%nat 0%nat); [apply Permutation_refl|reflexivity].
      * change (Some (BSegment _ [5]%nat)) with (Some (from (list nat) (Segment_ _ [5]%nat))). eapply (batch_task_one _ _ _ _ _ [(0, Segment_ _ [5])]%nat 0%nat); [apply Permutation_refl|reflexivity].
    + apply (folds_join (batch_combine (list nat) (fun _ p _ d q => Some (if d then p else p ++ q)) (fun _ p _ q => Some (p ++ q))) [BSegment _ [4]]%nat [BSegment _ [5]]%nat (BSegment _ [4]%nat) (BSegment _ [5]%nat)); try discriminate; constructor.
Qed.
Print Assumptions C72_failed_segment_refuted.

(** * The blocks of an interval *)
Section Interval.
  Variables Aggregate BlockProof : Type.
  Variable blocks : nat.
  Variable aggregate : nat -> option Aggregate.
  Variable prove_block : option BlockProof -> Aggregate -> option BlockProof.
  Variable checkpoint_proof : option BlockProof.
  Variables pool block_batch_size : nat.
  Variables test_only keep_intermediate_proofs : bool.
  Notation pipeline := (pipeline Aggregate BlockProof).
  Notation status := (status Aggregate BlockProof).
  Notation initial := (initial Aggregate BlockProof pool).
  Notation due := (due blocks block_batch_size test_only keep_intermediate_proofs).
  Notation step := (step Aggregate BlockProof blocks aggregate prove_block checkpoint_proof block_batch_size test_only keep_intermediate_proofs).
  Notation steps := (steps Aggregate BlockProof blocks aggregate prove_block checkpoint_proof block_batch_size test_only keep_intermediate_proofs).
  Notation succeeds := (succeeds Aggregate BlockProof blocks).
  Notation tasks := (tasks Aggregate BlockProof).
  Notation permits := (permits Aggregate BlockProof).
  Notation files := (files Aggregate BlockProof).
  Notation stopped := (stopped Aggregate BlockProof).
  Notation set_task := (set_task Aggregate BlockProof).
  Notation finish := (finish Aggregate BlockProof blocks block_batch_size test_only keep_intermediate_proofs).
  Arguments Working {Aggregate BlockProof}. Arguments Waiting {Aggregate BlockProof}. Arguments Sent {Aggregate BlockProof}. Arguments Failed {Aggregate BlockProof}.

  (** ** Specification *)
  (** The proof of block [i]: made from its own work and the proof of the block
      before, or the checkpoint. *)
  Fixpoint chain (i : nat) : option BlockProof :=
    match aggregate i with
    | None => None
    | Some a => match i with 0%nat => prove_block checkpoint_proof a | S j => match chain j with Some p => prove_block (Some p) a | None => None end end
    end.
  (** The blocks whose proofs are kept: the last, every [block_batch_size]-th,
      all if asked for. *)
  Definition kept (i : nat) : Prop := test_only = false /\ (S i = blocks \/ keep_intermediate_proofs = true \/ Nat.divide block_batch_size (S i)).
  Lemma due_kept : forall i, due i = Some true <-> kept i /\ block_batch_size <> 0%nat.
  Proof.
    intros i. unfold PipelineModel.due, kept. destruct (block_batch_size =? 0)%nat eqn:E; [split; [discriminate|lia]|].
    rewrite <- Nat.mod_divide by lia. generalize (S i mod block_batch_size)%nat as m. intros m. destruct test_only, keep_intermediate_proofs; cbn [negb andb]; split; intros H; try discriminate H; try (destruct H as [[X _] _]; discriminate X).
    - split; [split; [reflexivity|right; left; reflexivity]|lia].
    - f_equal. rewrite orb_true_r. reflexivity.
    - assert (X : (S i =? blocks)%nat || false || (m =? 0)%nat = true) by congruence. split; [split; [reflexivity|]|]; lia.
    - f_equal. lia.
  Qed.

  Definition held (s : status) : nat := match s with Working | Waiting _ => 1 | _ => 0 end.
  Definition total (f : status -> nat) (l : list status) : nat := fold_right (fun s n => (f s + n)%nat) 0%nat l.
  Lemma total_app : forall f l m, total f (l ++ m) = (total f l + total f m)%nat.
  Proof. intros f l m. induction l as [|x l IH]; [reflexivity|]. cbn [app total fold_right]. fold (total f (l ++ m)). fold (total f l). lia. Qed.
  Lemma total_set : forall f l i x y, nth_error l i = Some x -> (total f (set_task i y l) + f x = total f l + f y)%nat.
  Proof.
    intros f. induction l as [|z l IH]; intros [|i] x y N; try discriminate N; cbn [nth_error] in N; cbn [PipelineModel.set_task total fold_right]; fold (total f l).
    - assert (z = x) as -> by congruence. lia.
    - fold (total f (set_task i y l)). specialize (IH i x y N). lia.
  Qed.
  Lemma set_length : forall l i y, length (set_task i y l) = length l.
  Proof. induction l as [|z l IH]; intros [|i] y; cbn; congruence. Qed.
  Lemma nth_set : forall l i j y, nth_error (set_task i y l) j = if (j =? i)%nat then option_map (fun _ => y) (nth_error l j) else nth_error l j.
  Proof. induction l as [|z l IH]; intros [|i] [|j] y; cbn [PipelineModel.set_task nth_error Nat.eqb option_map]; try reflexivity; [destruct (j =? i)%nat; reflexivity|apply IH]. Qed.

  Record inv (s : pipeline) : Prop := {
    in_length : (length (tasks s) <= blocks)%nat;
    in_waiting : forall i a, nth_error (tasks s) i = Some (Waiting a) -> aggregate i = Some a;
    in_sent : forall i p, nth_error (tasks s) i = Some (Sent p) -> chain i = Some p /\ block_batch_size <> 0%nat;
    in_permits : (permits s + total held (tasks s) = pool)%nat;
    in_files : forall i p, In (i, p) (files s) -> chain i = Some p /\ kept i /\ (nth_error (tasks s) i = Some (Sent p) \/ nth_error (tasks s) i = Some Failed);
    in_once : NoDup (map fst (files s));
    in_written : forall i p, nth_error (tasks s) i = Some (Sent p) -> kept i -> In (i, p) (files s) }.

  Lemma inv_initial : inv initial.
  Proof. constructor; cbn; try lia; try (intros [|i]; discriminate); try (intros i p []); constructor. Qed.

  (** A task in place of a task that held its permit. *)
  Lemma inv_set : forall s i old new n fs, inv s -> nth_error (tasks s) i = Some old -> held old = 1%nat ->
    (forall a, new = Waiting a -> aggregate i = Some a) -> (forall p, new = Sent p -> chain i = Some p /\ block_batch_size <> 0%nat /\ (kept i -> In (i, p) fs)) ->
    (n + held new = permits s + 1)%nat -> (fs = files s \/ exists p, fs = (i, p) :: files s /\ chain i = Some p /\ kept i /\ (new = Sent p \/ new = Failed)) ->
    inv (mk_pipeline _ _ (set_task i new (tasks s)) n fs false).
  Proof.
    intros s i old new n fs I N H W S P F. destruct I as [I1 I2 I3 I4 I5 I6 I7].
    assert (NF : forall j p, In (j, p) (files s) -> j <> i).
    { intros j p X ->. destruct (I5 i p X) as (_ & _ & [Y|Y]); rewrite N in Y; assert (old = Sent p \/ old = Failed) as [-> | ->] by (first [left; congruence|right; congruence]); discriminate H. }
    assert (FS : forall x, In x (files s) -> In x fs) by (intros x X; destruct F as [->|(p & -> & _)]; [exact X|right; exact X]).
    constructor; cbn [PipelineModel.tasks PipelineModel.permits PipelineModel.files].
    - rewrite set_length. exact I1.
    - intros j a E. rewrite nth_set in E. destruct (j =? i)%nat eqn:J; [|exact (I2 j a E)]. assert (j = i) as -> by lia. rewrite N in E. cbn in E. apply W. congruence.
    - intros j p E. rewrite nth_set in E. destruct (j =? i)%nat eqn:J; [|exact (I3 j p E)]. assert (j = i) as -> by lia. rewrite N in E. cbn in E. destruct (S p ltac:(congruence)) as (X & Y & _). split; assumption.
    - pose proof (total_set held (tasks s) i old new N). lia.
    - intros j p X. destruct F as [->|(q & -> & C & K & D)].
      + destruct (I5 j p X) as (C & K & D). split; [exact C|]. split; [exact K|]. rewrite nth_set. replace (j =? i)%nat with false by (specialize (NF j p X); lia). exact D.
      + destruct X as [X|X].
        * assert (j = i /\ p = q) as [-> ->] by (split; congruence). split; [exact C|]. split; [exact K|]. rewrite nth_set, Nat.eqb_refl, N. cbn. destruct D as [-> | ->]; [left|right]; reflexivity.
        * destruct (I5 j p X) as (C' & K' & D'). split; [exact C'|]. split; [exact K'|]. rewrite nth_set. replace (j =? i)%nat with false by (specialize (NF j p X); lia). exact D'.
    - destruct F as [->|(q & -> & _)]; [exact I6|]. cbn [map fst]. constructor; [|exact I6]. intros X. apply in_map_iff in X. destruct X as ([j p] & E & X). cbn in E. subst j. exact (NF i p X eq_refl).
    - intros j p E K. rewrite nth_set in E. destruct (j =? i)%nat eqn:J; [|apply FS; exact (I7 j p E K)]. assert (j = i) as -> by lia. rewrite N in E. cbn in E. destruct (S p ltac:(congruence)) as (_ & _ & X). exact (X K).
  Qed.
  Lemma inv_finish : forall s i a q, inv s -> nth_error (tasks s) i = Some (Waiting a) -> (forall p, q = Some p -> chain i = Some p) -> inv (finish i q s).
  Proof.
    intros s i a q I N C. unfold PipelineModel.finish. destruct q as [p|]; [|eapply inv_set; try eassumption; try reflexivity; try discriminate; [cbn; lia|left; reflexivity]].
    specialize (C p eq_refl). destruct (due i) as [d|] eqn:D; [|eapply inv_set; try eassumption; try reflexivity; try discriminate; [cbn; lia|left; reflexivity]].
    assert (B : block_batch_size <> 0%nat) by (unfold PipelineModel.due in D; destruct (block_batch_size =? 0)%nat eqn:E; [discriminate D|lia]).
    assert (K : kept i <-> d = true) by (split; [intros K; pose proof (proj2 (due_kept i) (conj K B)); congruence|intros ->; apply due_kept, D]).
    eapply inv_set; try eassumption; try reflexivity.
    - intros a'. destruct (is_failed _ _ _ _); discriminate.
    - intros p'. destruct (is_failed _ _ _ _); [discriminate|]. intros E. assert (p' = p) as -> by congruence. split; [exact C|]. split; [exact B|]. intros X. apply K in X. subst d. left. reflexivity.
    - destruct (is_failed _ _ _ _); cbn; lia.
    - destruct d; [|left; reflexivity]. right. exists p. split; [reflexivity|]. split; [exact C|]. split; [apply K; reflexivity|]. destruct (is_failed _ _ _ _); auto.
  Qed.
  Lemma inv_step : forall s t, inv s -> step s t -> inv t.
  Proof.
    intros s t I T. destruct T as [s n E L P|s i a E N A|s i E N A|s i a p E N P|s i a E N F|s E L F].
    - destruct I as [I1 I2 I3 I4 I5 I6 I7].
      assert (X : forall i x, nth_error (tasks s ++ [Working]) i = Some x -> x <> Working -> nth_error (tasks s) i = Some x).
      { intros i x Y Z. destruct (Nat.lt_ge_cases i (length (tasks s))) as [C|C]; [rewrite nth_error_app1 in Y by lia; exact Y|]. rewrite nth_error_app2 in Y by lia. destruct (i - length (tasks s))%nat as [|[|k]]; cbn in Y; congruence. }
      constructor; cbn [PipelineModel.tasks PipelineModel.permits PipelineModel.files].
      + rewrite app_length. cbn. lia.
      + intros i a Y. apply I2, X; [exact Y|discriminate].
      + intros i p Y. apply I3, X; [exact Y|discriminate].
      + rewrite total_app. cbn. lia.
      + intros i p Y. destruct (I5 i p Y) as (C & K & D). split; [exact C|]. split; [exact K|]. rewrite nth_error_app1; [exact D|]. apply nth_error_Some. destruct D as [D|D]; congruence.
      + exact I6.
      + intros i p Y. apply I7, X; [exact Y|discriminate].
    - eapply inv_set; try eassumption; try reflexivity; try discriminate; [intros a' X; assert (a' = a) by congruence; subst; assumption|left; reflexivity].
    - eapply inv_set; try eassumption; try reflexivity; try discriminate; [cbn; lia|left; reflexivity].
    - eapply inv_finish; try eassumption. intros q Q. pose proof (in_waiting _ I i a N) as A. destruct i as [|j]; cbn [chain]; rewrite A; cbn [previous] in P.
      + assert (p = checkpoint_proof) by congruence. subst p. exact Q.
      + destruct (nth_error (tasks s) j) as [x|] eqn:X; [|discriminate P]. destruct x as [| |r|]; try discriminate P. destruct (in_sent _ I j r X) as [C _]. rewrite C. assert (p = Some r) as -> by congruence. exact Q.
    - eapply inv_finish; try eassumption. discriminate.
    - destruct I as [I1 I2 I3 I4 I5 I6 I7]. constructor; assumption.
  Qed.
  Lemma inv_steps : forall s t, steps s t -> inv s -> inv t.
  Proof. intros s t T. induction T as [s|s t u T1 IH T2]; intros I; [exact I|]. eapply inv_step; [apply IH, I|exact T2]. Qed.

  (** At every moment: no more tasks at work than the pool allows; a proof that
      is sent or written is the one specified, and written at most once, only
      if it is to be kept. *)
  Theorem C73_safe : forall s, steps initial s -> (total held (tasks s) <= pool)%nat /\
    (forall i p, nth_error (tasks s) i = Some (Sent p) -> chain i = Some p) /\
    (forall i p, In (i, p) (files s) -> chain i = Some p /\ kept i /\ (i < blocks)%nat) /\ NoDup (map fst (files s)).
  Proof.
    intros s T. pose proof (inv_steps _ _ T inv_initial) as I. destruct I as [I1 I2 I3 I4 I5 I6 I7]. split; [lia|]. split; [intros i p N; apply I3, N|]. split; [|exact I6].
    intros i p X. destruct (I5 i p X) as (C & K & D). split; [exact C|]. split; [exact K|]. assert (nth_error (tasks s) i <> None) as Y by (destruct D; congruence). apply nth_error_Some in Y. lia.
  Qed.

  (** Every run is finite. *)
  Definition weight (s : status) : nat := match s with Working => 2 | Waiting _ => 1 | _ => 0 end.
  Definition measure (s : pipeline) : nat := (3 * (blocks - length (tasks s)) + total weight (tasks s) + if stopped s then 0 else 1)%nat.
  Theorem C73_finite : forall s t, step s t -> (measure t < measure s)%nat.
  Proof.
    assert (X : forall s i old new n fs, stopped s = false -> nth_error (tasks s) i = Some old -> (weight new < weight old)%nat -> (measure (mk_pipeline _ _ (set_task i new (tasks s)) n fs false) < measure s)%nat).
    { intros s i old new n fs E N W. unfold measure. cbn [PipelineModel.tasks PipelineModel.stopped]. rewrite E, set_length. pose proof (total_set weight (tasks s) i old new N). lia. }
    assert (Y : forall s i a q, stopped s = false -> nth_error (tasks s) i = Some (Waiting a) -> (measure (finish i q s) < measure s)%nat).
    { intros s i a q E N. unfold PipelineModel.finish. destruct q as [p|]; [destruct (due i)|]; (eapply X; [exact E|exact N|]); try destruct (is_failed _ _ _ _); cbn; lia. }
    intros s t T. destruct T as [s n E L P|s i a E N A|s i E N A|s i a p E N P|s i a E N F|s E L F]; try (eapply Y; eassumption); try (eapply X; [exact E|exact N|cbn; lia]); unfold measure; cbn [PipelineModel.tasks PipelineModel.stopped]; rewrite E.
    - rewrite app_length, total_app. cbn. lia.
    - lia.
  Qed.

  (** With at least one permit no run is stuck before [prove] returns. *)
  Lemma first_held : forall l, total held l <> 0%nat -> exists i x, nth_error l i = Some x /\ held x = 1%nat /\ forall j y, (j < i)%nat -> nth_error l j = Some y -> held y = 0%nat.
  Proof.
    induction l as [|x l IH]; intros T; [contradiction|]. destruct (held x) as [|h] eqn:H.
    - destruct IH as (i & y & N & Hy & M). { cbn [total fold_right] in T. fold (total held l) in T. lia. } exists (S i), y. split; [exact N|]. split; [exact Hy|]. intros [|j] z J Z; [cbn in Z; congruence|]. cbn in Z. apply (M j z); [lia|exact Z].
    - exists 0%nat, x. split; [reflexivity|]. split; [destruct x; cbn in *; congruence|]. intros j y J. lia.
  Qed.
  Theorem C73_progress : (1 <= pool)%nat -> forall s, steps initial s -> stopped s = false -> succeeds s \/ exists t, step s t.
  Proof.
    intros PO s T E. pose proof (inv_steps _ _ T inv_initial) as I. destruct (Nat.eq_dec (total held (tasks s)) 0) as [Z|Z].
    - destruct (Nat.eq_dec (length (tasks s)) blocks) as [L|L].
      + destruct (existsb (fun x => match x with Failed => true | _ => false end) (tasks s)) eqn:F.
        * right. apply existsb_exists in F. destruct F as (x & X & F). destruct x; try discriminate F. eexists. apply step_abort; assumption.
        * left. split; [exact L|]. apply Forall_forall. intros x X. assert (H : held x = 0%nat).
          { apply In_nth_error in X. destruct X as (i & X). clear -X Z. revert i X Z. induction (tasks s) as [|y l IH]; intros [|i] X Z; try discriminate X; cbn [total fold_right] in Z; fold (total held l) in Z; cbn in X; [assert (y = x) as -> by congruence; lia|apply (IH i X); lia]. }
          assert (NF : x <> Failed). { intros ->. apply not_true_iff_false in F. apply F. apply existsb_exists. exists Failed. split; [exact X|reflexivity]. }
          destruct x as [|a|p|]; cbn in H; try discriminate H; [exists p; reflexivity|contradiction].
      + right. pose proof (in_length _ I). pose proof (in_permits _ I). destruct (permits s) as [|n] eqn:P; [lia|]. eexists. eapply step_spawn; [exact E|lia|exact P].
    - right. destruct (first_held _ Z) as (i & x & N & H & M). destruct x as [|a|p|]; try discriminate H.
      + destruct (aggregate i) as [a|] eqn:A; eexists; [eapply step_work|eapply step_work_fails]; eassumption.
      + destruct i as [|j]; [eexists; eapply step_block; [exact E|exact N|reflexivity]|].
        assert (X : exists y, nth_error (tasks s) j = Some y). { destruct (nth_error (tasks s) j) as [y|] eqn:Y; [exists y; reflexivity|]. apply nth_error_None in Y. assert (nth_error (tasks s) (S j) <> None) as W by congruence. apply nth_error_Some in W. lia. }
        destruct X as (y & Y). specialize (M j y ltac:(lia) Y). destruct y as [| |q|]; try discriminate M.
        * eexists. eapply step_block; [exact E|exact N|]. cbn [previous]. rewrite Y. reflexivity.
        * eexists. eapply step_previous_failed; eassumption.
  Qed.

  (** If every block can be proved, every run that has come to its end has
      succeeded, and the files are exactly the proofs to keep. *)
  Lemma no_failure : block_batch_size <> 0%nat -> (forall i, (i < blocks)%nat -> chain i <> None) -> forall s, steps initial s -> ~ In Failed (tasks s) /\ stopped s = false.
  Proof.
    intros B G s T. remember initial as s0 eqn:S0. induction T as [s|s t u T1 IH T2]; [subst; cbn; auto|]. specialize (IH S0). destruct IH as [NF ST]. subst s. pose proof (inv_steps _ _ T1 inv_initial) as I.
    assert (SET : forall i x, x <> Failed -> ~ In Failed (set_task i x (tasks t))).
    { intros i x X Y. apply NF. clear -X Y. revert i Y. induction (tasks t) as [|z l IH]; intros [|i] Y; cbn in Y; try contradiction; destruct Y as [Y|Y]; try congruence; [right; exact Y|left; exact Y|right; eapply IH; exact Y]. }
    assert (NTH : forall j, nth_error (tasks t) j <> Some Failed) by (intros j X; apply NF; eapply nth_error_In; exact X).
    assert (CH : forall i x, nth_error (tasks t) i = Some x -> chain i <> None).
    { intros i x X. apply G. assert (nth_error (tasks t) i <> None) as Y by congruence. apply nth_error_Some in Y. pose proof (in_length _ I). lia. }
    destruct T2 as [s n E L P|s i a E N A|s i E N A|s i a p E N P|s i a E N F|s E L F]; cbn [PipelineModel.tasks PipelineModel.stopped]; (split; [|reflexivity]) || idtac.
    - intros X. apply in_app_or in X. destruct X as [X|[X|[]]]; [exact (NF X)|discriminate X].
    - apply SET. discriminate.
    - exfalso. apply (CH i _ N). destruct i; cbn [chain]; rewrite A; reflexivity.
    - assert (Q : exists q, prove_block p a = Some q).
      { specialize (CH i _ N). pose proof (in_waiting _ I i a N) as A. destruct i as [|j]; cbn [chain] in CH; rewrite A in CH; cbn [previous] in P.
        - assert (p = checkpoint_proof) by congruence. subst p. destruct (prove_block checkpoint_proof a) as [q|]; [exists q; reflexivity|contradiction].
        - destruct (nth_error (tasks s) j) as [x|] eqn:X; [|discriminate P]. destruct x as [| |r|]; try discriminate P. destruct (in_sent _ I j r X) as [C _]. rewrite C in CH. assert (p = Some r) as -> by congruence. destruct (prove_block (Some r) a) as [q|]; [exists q; reflexivity|contradiction]. }
      destruct Q as (q & ->). unfold PipelineModel.finish. assert (D : exists d, due i = Some d) by (unfold PipelineModel.due; destruct (block_batch_size =? 0)%nat eqn:X; [lia|eexists; reflexivity]). destruct D as (d & ->).
      cbn [PipelineModel.tasks PipelineModel.stopped]. split; [|reflexivity]. apply SET. unfold is_failed. destruct (nth_error (tasks s) (S i)) as [x|] eqn:X; [|discriminate]. destruct x; try discriminate. apply NTH in X. destruct X.
    - exfalso. exact (NTH i F).
    - exfalso. exact (NF F).
  Qed.
  Theorem C73_complete : (1 <= pool)%nat -> block_batch_size <> 0%nat -> (forall i, (i < blocks)%nat -> chain i <> None) -> forall s, steps initial s -> (forall t, ~ step s t) ->
    succeeds s /\ forall i p, In (i, p) (files s) <-> (i < blocks)%nat /\ kept i /\ chain i = Some p.
  Proof.
    intros PO B G s T E. destruct (no_failure B G s T) as [NF ST]. destruct (C73_progress PO s T ST) as [S|[t X]]; [|exfalso; exact (E t X)]. split; [exact S|].
    destruct (C73_safe s T) as (_ & _ & F & _). intros i p. split; [intros X; destruct (F i p X) as (C & K & L); auto|]. intros (L & K & C). pose proof (inv_steps _ _ T inv_initial) as I.
    destruct S as [SL SF]. assert (X : exists x, nth_error (tasks s) i = Some x) by (destruct (nth_error (tasks s) i) as [x|] eqn:X; [exists x; reflexivity|apply nth_error_None in X; lia]). destruct X as (x & X).
    rewrite Forall_forall in SF. destruct (SF x (nth_error_In _ _ X)) as (q & ->). destruct (in_sent _ I i q X) as [C' _]. assert (q = p) as -> by congruence. exact (in_written _ I i p X K).
  Qed.
  (** If some block cannot be proved, no run succeeds. *)
  Theorem C73_failure : forall i, (i < blocks)%nat -> chain i = None -> forall s, steps initial s -> ~ succeeds s.
  Proof.
    intros i L C s T [SL SF]. pose proof (inv_steps _ _ T inv_initial) as I. destruct (nth_error (tasks s) i) as [x|] eqn:X; [|apply nth_error_None in X; lia].
    rewrite Forall_forall in SF. destruct (SF x (nth_error_In _ _ X)) as (q & ->). destruct (in_sent _ I i q X) as [C' _]. congruence.
  Qed.
End Interval.
Print Assumptions C73_safe.
Print Assumptions C73_finite.
Print Assumptions C73_progress.
Print Assumptions C73_complete.
Print Assumptions C73_failure.

(** ** Examples: three blocks, two permits; the proof of a block is the list of
    the blocks it goes back to. *)
Notation demo_steps pool size := (steps nat (list nat) 3 (fun i => Some i) (fun p a => Some (a :: match p with Some l => l | None => [] end)) None size false false (initial nat (list nat) pool)).
(** The second block is ready before the first; with a block batch of two the
    proofs of the blocks 1 and 2 are kept. *)
Example C73_example : exists s, demo_steps 2%nat 2%nat s /\ succeeds nat (list nat) 3 s /\ files _ _ s = [(2, [2; 1; 0]); (1, [1; 0])]%nat.
Proof.
  eexists. split; [|split; [|]].
  - eapply steps_step; [|apply (step_block _ _ 3 (fun i => Some i) (fun p a => Some (a :: match p with Some l => l | None => [] end)) None 2 false false (mk_pipeline _ _ [Sent _ _ [0]; Sent _ _ [1; 0]; Waiting _ _ 2] 1 [(1, [1; 0])] false) 2 2 (Some [1; 0]) eq_refl eq_refl eq_refl)].
    eapply steps_step; [|apply (step_work _ _ 3 (fun i => Some i) (fun p a => Some (a :: match p with Some l => l | None => [] end)) None 2 false false (mk_pipeline _ _ [Sent _ _ [0]; Sent _ _ [1; 0]; Working _ _] 1 [(1, [1; 0])] false) 2 2 eq_refl eq_refl eq_refl)].
    eapply steps_step; [|apply (step_block _ _ 3 (fun i => Some i) (fun p a => Some (a :: match p with Some l => l | None => [] end)) None 2 false false (mk_pipeline _ _ [Sent _ _ [0]; Waiting _ _ 1; Working _ _] 0 [] false) 1 1 (Some [0]) eq_refl eq_refl eq_refl)].
    eapply steps_step; [|apply (step_spawn _ _ 3 (fun i => Some i) (fun p a => Some (a :: match p with Some l => l | None => [] end)) None 2 false false (mk_pipeline _ _ [Sent _ _ [0]; Waiting _ _ 1] 1 [] false) 0 eq_refl ltac:(cbn; lia) eq_refl)].
    eapply steps_step; [|apply (step_block _ _ 3 (fun i => Some i) (fun p a => Some (a :: match p with Some l => l | None => [] end)) None 2 false false (mk_pipeline _ _ [Waiting _ _ 0; Waiting _ _ 1] 0 [] false) 0 0 None eq_refl eq_refl eq_refl)].
    eapply steps_step; [|apply (step_work _ _ 3 (fun i => Some i) (fun p a => Some (a :: match p with Some l => l | None => [] end)) None 2 false false (mk_pipeline _ _ [Working _ _; Waiting _ _ 1] 0 [] false) 0 0 eq_refl eq_refl eq_refl)].
    eapply steps_step; [|apply (step_work _ _ 3 (fun i => Some i) (fun p a => Some (a :: match p with Some l => l | None => [] end)) None 2 false false (mk_pipeline _ _ [Working _ _; Working _ _] 0 [] false) 1 1 eq_refl eq_refl eq_refl)].
    eapply steps_step; [|apply (step_spawn _ _ 3 (fun i => Some i) (fun p a => Some (a :: match p with Some l => l | None => [] end)) None 2 false false (mk_pipeline _ _ [Working _ _] 1 [] false) 0 eq_refl ltac:(cbn; lia) eq_refl)].
    eapply steps_step; [|apply (step_spawn _ _ 3 (fun i => Some i) (fun p a => Some (a :: match p with Some l => l | None => [] end)) None 2 false false (mk_pipeline _ _ [] 2 [] false) 1 eq_refl ltac:(cbn; lia) eq_refl)].
    apply steps_refl.
  - split; [reflexivity|]. repeat constructor; eexists; reflexivity.
  - reflexivity.
Qed.
(** Without a permit the pipeline waits for ever; nothing refuses such a
    configuration. *)
Theorem C73_empty_pool_refuted : exists pool, forall s, demo_steps pool 2%nat s -> s = initial _ _ pool /\ ~ succeeds nat (list nat) 3 s.
Proof.
  exists 0. intros s T. assert (E : s = initial _ _ 0).
  { assert (G : forall s t, steps nat (list nat) 3 (fun i => Some i) (fun p a => Some (a :: match p with Some l => l | None => [] end)) None 2 false false s t -> s = initial _ _ 0 -> t = initial _ _ 0); [|exact (G _ _ T eq_refl)].
    clear s T. intros s t T S0. induction T as [s|s t u T1 IH T2]; [exact S0|]. rewrite (IH S0) in T2. clear IH T1 S0 s t. exfalso. remember (initial nat (list nat) 0) as s eqn:E.
    destruct T2 as [s n X L P|s i a X N A|s i X N A|s i a p X N P|s i a X N F|s X L F]; subst s; try discriminate; try (cbn in N; destruct i; discriminate N). }
  subst s. split; [reflexivity|]. intros [L _]. discriminate L.
Qed.
Print Assumptions C73_empty_pool_refuted.
(** A block batch of size zero makes every block fail: no run succeeds. *)
Theorem C73_zero_batch_refuted : exists size, forall s, demo_steps 2%nat size s -> ~ succeeds nat (list nat) 3 s.
Proof.
  exists 0. intros s T [L F]. pose proof (inv_steps _ _ _ _ _ _ 2 _ _ _ _ _ T (inv_initial _ _ _ _ _ _ _ _ _ _)) as I. destruct (tasks _ _ s) as [|x l] eqn:E; [discriminate L|].
  inversion F as [|? ? [p ->] _]; subst. pose proof (in_sent _ _ _ _ _ _ _ _ _ _ _ I 0%nat p ltac:(rewrite E; reflexivity)) as [_ X]. apply X. reflexivity.
Qed.
Print Assumptions C73_zero_batch_refuted.
