(** The proving pipeline: zero/src/prover.rs:85-330 (one block) and 424-512
    (the blocks of an interval), with zero/src/ops.rs.

    Tasks run concurrently: the order in which proofs arrive and the way a
    fold is split are not determined, so the pipeline is a relation. Proofs are
    abstract, each proving function may fail. Not modelled: the abort signal,
    paladin's workers, failing sends and the writing of a file itself, which
    succeeds here. *)
From Coq Require Import ZArith List Bool Permutation.
From Verif Require Import Zero.IntervalModel.
Import ListNotations.

(** * One block *)
Section Block.
  Variables Segment Proof BlockProof : Type.
  (** ops.rs:30-69 *)
  Variable prove_segment : Segment -> option Proof.
  (** [prove_segment_aggregation]: left is_agg and proof, right is_agg, is_dummy
      and proof *)
  Variable prove_segment_aggregation : bool -> Proof -> bool -> bool -> Proof -> option Proof.
  Variable prove_batch_aggregation : bool -> Proof -> bool -> Proof -> option Proof.
  Variable prove_block : option BlockProof -> Proof -> option BlockProof.

  (** proof_types.rs:34-58, 74-101 *)
  Inductive segment_proof : Type := Segment_ (p : Proof) | Agg (p : Proof).
  Inductive batch_proof : Type := BSegment (p : Proof) | BSegmentAgg (p : Proof) | BatchAgg (p : Proof).
  Definition seg_is_agg (a : segment_proof) : bool := match a with Segment_ _ => false | Agg _ => true end.
  Definition seg_pvs (a : segment_proof) : Proof := match a with Segment_ p | Agg p => p end.
  Definition batch_is_agg (a : batch_proof) : bool := match a with BatchAgg _ => true | _ => false end.
  Definition batch_pvs (a : batch_proof) : Proof := match a with BSegment p | BSegmentAgg p | BatchAgg p => p end.
  (** proof_types.rs:112-119 *)
  Definition from (a : segment_proof) : batch_proof := match a with Agg p => BSegmentAgg p | Segment_ p => BSegment p end.

  (** ops.rs:219-251; the assertion on a dummy beside an aggregation fails *)
  Definition generate_segment_agg_proof (a b : segment_proof) (has_dummy : bool) : option Proof :=
    if has_dummy && seg_is_agg a then None else prove_segment_aggregation (seg_is_agg a) (seg_pvs a) (seg_is_agg b) has_dummy (seg_pvs b).
  (** ops.rs:256-277 *)
  Definition seg_combine (a b : segment_proof) : option segment_proof := option_map Agg (generate_segment_agg_proof a b false).
  (** ops.rs:299-353 *)
  Definition wrap (a : batch_proof) : option batch_proof :=
    match a with BSegment p => option_map BSegmentAgg (generate_segment_agg_proof (Segment_ p) (Segment_ p) true) | _ => Some a end.
  Definition batch_combine (a b : batch_proof) : option batch_proof :=
    match wrap a, wrap b with
    | Some a, Some b => option_map BatchAgg (prove_batch_aggregation (batch_is_agg a) (batch_pvs a) (batch_is_agg b) (batch_pvs b))
    | _, _ => None
    end.

  (** [Directive::fold]: neighbours are combined in any order; an empty stream
      is [empty()], which is unimplemented in both monoids (ops.rs:279-282,
      355-358); one element is itself. *)
  Inductive folds {A : Type} (combine : A -> A -> option A) : list A -> option A -> Prop :=
  | folds_empty : folds combine [] None
  | folds_one : forall a, folds combine [a] (Some a)
  | folds_join : forall l r a b, l <> [] -> r <> [] -> folds combine l (Some a) -> folds combine r (Some b) -> folds combine (l ++ r) (combine a b)
  | folds_fail : forall l r a b, l <> [] -> r <> [] -> folds combine l a -> folds combine r b -> a = None \/ b = None -> folds combine (l ++ r) None.

  (** [sort_by] on the index *)
  Fixpoint insert {A} (x : nat * A) (l : list (nat * A)) : list (nat * A) :=
    match l with [] => [x] | y :: l => if (fst x <=? fst y)%nat then x :: y :: l else y :: insert x l end.
  Definition sort_by {A} (l : list (nat * A)) : list (nat * A) := fold_right insert [] l.

  Definition enumerate {A} (l : list A) : list (nat * A) := combine (seq 0 (length l)) l.
  (** The segment proofs of a batch that reach the channel: a task that fails
      sends nothing, and its error stays inside the joined result
      (prover.rs:201-243: [try_join_all(..).await?] looks at panics only). *)
  Definition proved_segments (segments : list Segment) : list (nat * segment_proof) :=
    flat_map (fun p => match prove_segment (snd p) with Some q => [(fst p, Segment_ q)] | None => [] end) (enumerate segments).
  (** prover.rs:196-277 *)
  Inductive batch_task : list Segment -> option batch_proof -> Prop :=
  | batch_task_one : forall segments arrived i p, Permutation arrived (proved_segments segments) -> sort_by arrived = [(i, p)] -> batch_task segments (Some (from p))
  | batch_task_fold : forall segments arrived r, Permutation arrived (proved_segments segments) -> length arrived <> 1%nat ->
      folds seg_combine (map snd (sort_by arrived)) r -> batch_task segments (option_map from r).
  (** The batch proofs that reach the channel. If a batch fails, the loop over
      the batches stops and the batches not finished are dropped; the error
      stays inside the result of the joined task (prover.rs:279-296). *)
  Inductive sublist {A} : list A -> list A -> Prop :=
  | sub_nil : sublist [] []
  | sub_skip : forall x l m, sublist l m -> sublist l (x :: m)
  | sub_take : forall x l m, sublist l m -> sublist (x :: l) (x :: m).
  Definition succeeded (results : list (option batch_proof)) : list (nat * batch_proof) :=
    flat_map (fun p => match snd p with Some q => [(fst p, q)] | None => [] end) (enumerate results).
  Inductive batches_task (batches : list (list Segment)) : list (nat * batch_proof) -> Prop :=
  | batches_all : forall results arrived, Forall2 batch_task batches results -> Forall (fun r => r <> None) results -> Permutation arrived (succeeded results) -> batches_task batches arrived
  | batches_some : forall results kept arrived, Forall2 batch_task batches results -> In None results -> sublist kept (succeeded results) -> Permutation arrived kept -> batches_task batches arrived.
  (** prover.rs:284-330 *)
  Inductive run_block (previous : option BlockProof) (batches : list (list Segment)) : option BlockProof -> Prop :=
  | run_block_ok : forall arrived p, batches_task batches arrived -> folds batch_combine (map snd (sort_by arrived)) (Some (BatchAgg p)) -> run_block previous batches (prove_block previous p)
  | run_block_not_agg : forall arrived q, batches_task batches arrived -> folds batch_combine (map snd (sort_by arrived)) (Some q) -> batch_is_agg q = false -> run_block previous batches None
  | run_block_fail : forall arrived, batches_task batches arrived -> folds batch_combine (map snd (sort_by arrived)) None -> run_block previous batches None.
End Block.

(** * The blocks of an interval *)
Section Interval.
  Variables Aggregate BlockProof : Type.
  (** The number of blocks the channel delivers, up to and with the last one *)
  Variable blocks : nat.
  (** The work on block [i] before it needs the previous proof, and after *)
  Variable aggregate : nat -> option Aggregate.
  Variable prove_block : option BlockProof -> Aggregate -> option BlockProof.
  Variable checkpoint_proof : option BlockProof.
  Variables pool block_batch_size : nat.
  Variables test_only keep_intermediate_proofs : bool.

  (** A task: proving, waiting for the previous proof, the proof sent, or an
      error. The permit is held in the first two. *)
  Inductive status : Type := Working | Waiting (a : Aggregate) | Sent (p : BlockProof) | Failed.
  Record pipeline : Type := mk_pipeline { tasks : list status; permits : nat; files : list (nat * BlockProof); stopped : bool }.
  Definition initial : pipeline := mk_pipeline [] pool [] false.

  (** prover.rs:474-484; the counter starts at 1 and the remainder panics for a
      batch size of zero *)
  Definition due (i : nat) : option bool :=
    if (block_batch_size =? 0)%nat then None
    else Some (negb test_only && ((S i =? blocks)%nat || keep_intermediate_proofs || (S i mod block_batch_size =? 0)%nat)).
  Fixpoint set_task (i : nat) (s : status) (l : list status) : list status :=
    match l, i with [], _ => [] | _ :: l, 0%nat => s :: l | x :: l, S i => x :: set_task i s l end.
  (** The proof of the previous block: [None] while it is not there *)
  Definition previous (l : list status) (i : nat) : option (option BlockProof) :=
    match i with 0%nat => Some checkpoint_proof | S j => match nth_error l j with Some (Sent p) => Some (Some p) | _ => None end end.
  Definition is_failed (l : list status) (i : nat) : bool := match nth_error l i with Some Failed => true | _ => false end.
  (** A finished proof: written if due, then sent, which fails if the task of
      the next block is gone (prover.rs:467-505). *)
  Definition finish (i : nat) (q : option BlockProof) (s : pipeline) : pipeline :=
    match q, due i with
    | Some p, Some d =>
        mk_pipeline (set_task i (if is_failed (tasks s) (S i) then Failed else Sent p) (tasks s)) (S (permits s)) (if d then (i, p) :: files s else files s) false
    | _, _ => mk_pipeline (set_task i Failed (tasks s)) (S (permits s)) (files s) false
    end.

  Inductive step : pipeline -> pipeline -> Prop :=
  (** the loop of [prove] acquires a permit and spawns the next task, 446-460 *)
  | step_spawn : forall s n, stopped s = false -> (length (tasks s) < blocks)%nat -> permits s = S n ->
      step s (mk_pipeline (tasks s ++ [Working]) n (files s) false)
  (** the segments and batches are proved, or fail *)
  | step_work : forall s i a, stopped s = false -> nth_error (tasks s) i = Some Working -> aggregate i = Some a ->
      step s (mk_pipeline (set_task i (Waiting a) (tasks s)) (permits s) (files s) false)
  | step_work_fails : forall s i, stopped s = false -> nth_error (tasks s) i = Some Working -> aggregate i = None ->
      step s (mk_pipeline (set_task i Failed (tasks s)) (S (permits s)) (files s) false)
  (** the previous proof is there *)
  | step_block : forall s i a p, stopped s = false -> nth_error (tasks s) i = Some (Waiting a) -> previous (tasks s) i = Some p ->
      step s (finish i (prove_block p a) s)
  (** the previous proof will never come *)
  | step_previous_failed : forall s i a, stopped s = false -> nth_error (tasks s) (S i) = Some (Waiting a) -> nth_error (tasks s) i = Some Failed ->
      step s (finish (S i) None s)
  (** all are spawned and one has failed: [join_next] returns the error, the
      other tasks are aborted, 507-509 *)
  | step_abort : forall s, stopped s = false -> length (tasks s) = blocks -> In Failed (tasks s) -> step s (mk_pipeline (tasks s) (permits s) (files s) true).

  Inductive steps : pipeline -> pipeline -> Prop :=
  | steps_refl : forall s, steps s s
  | steps_step : forall s t u, steps s t -> step t u -> steps s u.
  (** [prove] returns Ok *)
  Definition succeeds (s : pipeline) : Prop := length (tasks s) = blocks /\ Forall (fun t => exists p, t = Sent p) (tasks s).
End Interval.
