(** C38: block intervals.  C39: retries.  C68: parsing of ranges.  C69: the
    checks before proving. *)
From Coq Require Import ZArith List Bool Lia ZifyBool ZifyNat.
From Verif Require Import Zero.IntervalModel.
Import ListNotations.
Local Open Scope Z_scope.

(** * C38 *)

(** The blocks a, a+1, ..., b, once each and in order, the last one flagged. *)
Definition enumerates (l : list (Z * bool)) (a b : Z) : Prop :=
  forall k : nat, nth_error l k = if a + Z.of_nat k <=? b then Some (a + Z.of_nat k, a + Z.of_nat k =? b) else None.

Lemma nth_seq : forall n k, nth_error (seq 0 n) k = if (k <? n)%nat then Some k else None.
Proof.
  intros n k. destruct (Nat.ltb_spec k n) as [H|H].
  - rewrite (nth_error_nth' _ 0%nat) by (rewrite seq_length; exact H). rewrite seq_nth by exact H. reflexivity.
  - apply nth_error_None. rewrite seq_length. exact H.
Qed.
Lemma nth_range : forall a b k, nth_error (range a b) k = if a + Z.of_nat k <? b then Some (a + Z.of_nat k) else None.
Proof.
  intros a b k. unfold range. rewrite nth_error_map, nth_seq. destruct (Nat.ltb_spec k (Z.to_nat (b - a))); destruct (Z.ltb_spec (a + Z.of_nat k) b); cbn; (reflexivity || lia).
Qed.
Lemma nth_mark_last : forall l k, nth_error (mark_last l) k = match nth_error l k with Some (n, f) => Some (n, f || (S k =? length l)%nat) | None => None end.
Proof.
  induction l as [|[n f] l IH]; intros k; [destruct k; reflexivity|]. destruct l as [|y l].
  - destruct k as [|[|k]]; cbn; [rewrite orb_true_r|..]; reflexivity.
  - change (mark_last ((n, f) :: y :: l)) with ((n, f) :: mark_last (y :: l)). destruct k as [|k]; [cbn; rewrite orb_false_r; reflexivity|].
    change (nth_error ((n, f) :: mark_last (y :: l)) (S k)) with (nth_error (mark_last (y :: l)) k). rewrite IH. reflexivity.
Qed.

Section Interval.
  Variable checked : bool.
  Variable Node : Type.
  Variable by_hash : Node -> Z -> option bool -> option (option Z) * Node.
  Notation block_to_num := (block_to_num Node by_hash).
  Notation interval_new := (interval_new checked Node by_hash).
  Notation into_bounded_stream := (into_bounded_stream checked).
  Notation into_unbounded_stream := (into_unbounded_stream checked).

  (** Two different ids of blocks a and b. *)
  Theorem C38_closed : forall node node1 node2 s e a b, block_to_num node s = (Fine a, node1) -> block_to_num node1 e = (Fine b, node2) -> id_eqb e s = false ->
    0 <= a -> b < 2^64 - 1 ->
    if a <? b
    then exists i l, interval_new node s (Some e) = (Fine i, node2) /\ get_start_block i = a /\ into_bounded_stream i = Fine l /\ enumerates l a b
    else interval_new node s (Some e) = (Fails, node2).
  Proof.
    intros node node1 node2 s e a b S E D A B. unfold IntervalModel.interval_new. rewrite S, D, E. cbn [bind].
    destruct (Z.ltb_spec a b) as [L|L]; [|replace (b <=? a) with true by lia; reflexivity].
    replace (b <=? a) with false by lia. unfold u64_succ. replace (b + 1 <? 2^64) with true by lia. cbn [bind].
    do 2 eexists. split; [reflexivity|]. split; [reflexivity|]. split; [reflexivity|].
    intros k. rewrite nth_mark_last, nth_error_map, nth_range, map_length. replace (length (range a (b + 1))) with (Z.to_nat (b + 1 - a)) by (unfold range; rewrite map_length, seq_length; reflexivity).
    destruct (Z.ltb_spec (a + Z.of_nat k) (b + 1)); destruct (Z.leb_spec (a + Z.of_nat k) b); cbn [option_map orb]; try lia; [|reflexivity].
    do 2 f_equal. lia.
  Qed.
  (** Twice the same id. *)
  Theorem C38_single : forall node node1 s a, block_to_num node s = (Fine a, node1) -> 0 <= a < 2^64 - 1 ->
    exists i l, interval_new node s (Some s) = (Fine i, node1) /\ get_start_block i = a /\ into_bounded_stream i = Fine l /\ enumerates l a a.
  Proof.
    intros node node1 s a S A. unfold IntervalModel.interval_new. rewrite S.
    assert (R : id_eqb s s = true) by (destruct s as [n|t|h [c|]]; cbn [id_eqb opt_bool_eqb]; rewrite ?Z.eqb_refl; try reflexivity; destruct c; reflexivity).
    rewrite R. do 2 eexists. split; [reflexivity|]. split; [reflexivity|]. cbn [IntervalModel.into_bounded_stream]. unfold u64_succ. replace (a + 1 <? 2^64) with true by lia. cbn [bind]. split; [reflexivity|].
    intros k. rewrite nth_error_map, nth_range. destruct (Z.ltb_spec (a + Z.of_nat k) (a + 1)); destruct (Z.leb_spec (a + Z.of_nat k) a); cbn [option_map]; try lia; [|reflexivity]. do 2 f_equal. lia.
  Qed.
  (** An id that is no number and that the node does not know is refused. *)
  Theorem C38_unknown : forall node node1 s e, block_to_num node s = (Fails, node1) -> interval_new node s e = (Fails, node1).
  Proof. intros node node1 s e S. unfold IntervalModel.interval_new. rewrite S. reflexivity. Qed.

  (** The last block yielded after some answers of the node. *)
  Definition reached (first : Z) (answers : list Z) : Z := fold_left (fun c latest => if c <? latest then c + 1 else c) answers first.
  Lemma reached_le : forall answers c, c <= reached c answers.
  Proof. induction answers as [|l answers IH]; intros c; cbn; [lia|]. specialize (IH (if c <? l then c + 1 else c)). unfold reached in IH. destruct (c <? l); lia. Qed.
  Lemma reached_max : forall answers c m, c <= m -> Forall (fun l => l <= m) answers -> reached c answers <= m.
  Proof. induction answers as [|l answers IH]; intros c m C F; cbn; [exact C|]. inversion F; subst. apply IH; [|assumption]. destruct (Z.ltb_spec c l); lia. Qed.
  Lemma reached_progress : forall answers c m, Forall (fun l => m <= l) answers -> Z.min m (c + Z.of_nat (length answers)) <= reached c answers.
  Proof.
    induction answers as [|l answers IH]; intros c m F; [cbn; lia|]. inversion F; subst. cbn [reached fold_left length]. specialize (IH (if c <? l then c + 1 else c) m H2). unfold reached in IH.
    destruct (Z.ltb_spec c l) as [X|X]; [lia|]. pose proof (reached_le answers c) as Y. unfold reached in Y. lia.
  Qed.

  (** The stream of an open interval: the blocks from the first on, none
      skipped or repeated, none flagged; a block after the first appears only
      once the node has reported it, each answer yields at most one block,
      and with answers of at least m, block m appears after m - first of them.
      An error of the node ends the stream with an error. *)
  Theorem C38_follow : forall first answers rest, 0 <= first < 2^64 - 1 -> Forall (fun l => 0 <= l < 2^64 - 1) answers ->
    exists more, into_unbounded_stream (FollowFrom first) (map Some answers ++ rest) =
        Fine (map (fun n => Yield n false) (range first (reached first answers + 1)) ++ more) /\
      (rest = [] -> more = []) /\ (forall rest', rest = None :: rest' -> more = [Failed]) /\
      (forall m, first <= m -> Forall (fun l => l <= m) answers -> reached first answers <= m) /\
      (forall m, Forall (fun l => m <= l) answers -> m - first <= Z.of_nat (length answers) -> m <= reached first answers) /\
      reached first answers <= first + Z.of_nat (length answers).
  Proof.
    intros first answers rest F A. cbn [IntervalModel.into_unbounded_stream].
    assert (G : exists more, follow checked first (map Some answers ++ rest) = map (fun n => Yield n false) (range (first + 1) (reached first answers + 1)) ++ more /\
      (rest = [] -> more = []) /\ (forall rest', rest = None :: rest' -> more = [Failed]) /\ reached first answers <= first + Z.of_nat (length answers)).
    { revert first F A. induction answers as [|l answers IH]; intros first F A; cbn [map app reached fold_left].
      - exists (follow checked first rest). split; [unfold range; replace (Z.to_nat _) with 0%nat by lia; reflexivity|]. split; [intros ->; reflexivity|]. split; [intros rest' ->; reflexivity|cbn; lia].
      - inversion A; subst. cbn [follow]. destruct (Z.ltb_spec first l) as [L|L].
        + destruct (IH (first + 1)) as (more & E & M1 & M2 & M3); [lia|assumption|]. exists more. split; [|split; [exact M1|split; [exact M2|cbn [length]; unfold reached in M3; lia]]].
          rewrite E. fold (reached (first + 1) answers). pose proof (reached_le answers (first + 1)).
          replace (range (first + 1) (reached (first + 1) answers + 1)) with (first + 1 :: range (first + 1 + 1) (reached (first + 1) answers + 1)); [reflexivity|].
          unfold range. replace (Z.to_nat (reached (first + 1) answers + 1 - (first + 1))) with (S (Z.to_nat (reached (first + 1) answers + 1 - (first + 1 + 1)))) by lia.
          cbn [seq map]. f_equal; [lia|]. rewrite <- seq_shift, map_map. apply map_ext. intros k. lia.
        + unfold u64_succ. replace (first + 1 <? 2^64) with true by lia. destruct (IH first) as (more & E & M1 & M2 & M3); [lia|assumption|]. exists more. split; [exact E|]. split; [exact M1|]. split; [exact M2|]. cbn [length]. unfold reached in M3. lia. }
    destruct G as (more & E & M1 & M2 & M3). exists more. split; [|split; [exact M1|split; [exact M2|split; [|split; [|exact M3]]]]].
    - rewrite E. pose proof (reached_le answers first). f_equal.
      replace (range first (reached first answers + 1)) with (first :: range (first + 1) (reached first answers + 1)); [reflexivity|].
      unfold range. replace (Z.to_nat (reached first answers + 1 - first)) with (S (Z.to_nat (reached first answers + 1 - (first + 1)))) by lia.
      cbn [seq map]. f_equal; [lia|]. rewrite <- seq_shift, map_map. apply map_ext. intros k. lia.
    - intros m FM AM. apply reached_max; assumption.
    - intros m AM L. pose proof (reached_progress answers first m AM). lia.
  Qed.
End Interval.
Print Assumptions C38_closed.
Print Assumptions C38_follow.

(** A node that knows block 7 by its hash 99. *)
Definition demo_node (u : unit) (h : Z) (c : option bool) : option (option Z) * unit := (if h =? 99 then Some (Some 7) else Some None, u).
Example C38_closed_example : into_bounded_stream true (Range 5 9) = Fine [(5, false); (6, false); (7, false); (8, true)] /\
  fst (interval_new true unit demo_node tt (IdNumber 5) (Some (IdHash 99 None))) = Fine (Range 5 8).
Proof. split; reflexivity. Qed.
Example C38_follow_example : into_unbounded_stream true (FollowFrom 5) [Some 5; Some 7; Some 7; Some 7; None] = Fine [Yield 5 false; Yield 6 false; Yield 7 false; Failed].
Proof. reflexivity. Qed.
(** The documentation promises a single block if both ids name the same block;
    with its number and its hash there is an error. *)
Theorem C38_same_block_refuted : exists s e, fst (block_to_num unit demo_node tt s) = Fine 7 /\ fst (block_to_num unit demo_node tt e) = Fine 7 /\
  fst (interval_new true unit demo_node tt s (Some e)) = Fails.
Proof. exists (IdNumber 7), (IdHash 99 None). repeat split. Qed.
(** The last block of u64: a panic with overflow checks, no block at all
    without. *)
Theorem C38_overflow_refuted : exists s e, bind (fst (interval_new true unit demo_node tt s (Some e))) (into_bounded_stream true) = Panics /\
  bind (fst (interval_new false unit demo_node tt s (Some e))) (into_bounded_stream false) = Fine [].
Proof. exists (IdNumber (2^64 - 3)), (IdNumber (2^64 - 1)). split; reflexivity. Qed.

(** * C39 *)
Section Retry.
  Variables Response Error : Type.
  Variable answer : nat -> Response + Error.
  Definition failed (r : Response + Error) : Prop := exists e, r = inr e.

  (** At most [max_retries] + 1 calls; the result is the answer to the last
      call, all earlier answers are errors, and an error is only returned
      after [max_retries] + 1 calls. *)
  Theorem C39_retry : forall max_retries, 0 <= max_retries ->
    exists r n, call Response Error answer (Z.to_nat max_retries) max_retries = Some (r, S n) /\
      Z.of_nat n <= max_retries /\ r = answer n /\ (forall k, (k < n)%nat -> failed (answer k)) /\
      (failed r -> Z.of_nat n = max_retries).
  Proof.
    intros m M. unfold call.
    assert (G : forall fuel calls retries, Z.of_nat calls = retries -> retries <= m -> (Z.to_nat (m - retries) <= fuel)%nat -> (forall k, (k < calls)%nat -> failed (answer k)) ->
      exists r n, retry_loop Response Error answer fuel calls retries m = Some (r, S n) /\ Z.of_nat n <= m /\ r = answer n /\ (forall k, (k < n)%nat -> failed (answer k)) /\ (failed r -> Z.of_nat n = m)).
    { induction fuel as [|fuel IH]; intros calls retries C R F E.
      - cbn [retry_loop]. unfold retry. replace (retries <? m) with false by lia. rewrite andb_false_r. exists (answer calls), calls. repeat split; (assumption || reflexivity || lia).
      - cbn [retry_loop]. unfold retry. destruct (answer calls) as [x|x] eqn:AC; cbn [is_err andb].
        + exists (answer calls), calls. rewrite AC. split; [reflexivity|]. split; [lia|]. split; [reflexivity|]. split; [exact E|]. intros [e X]. discriminate X.
        + destruct (Z.ltb_spec retries m) as [L|L].
          * apply IH; [lia|lia|lia|]. intros k K. destruct (Nat.eq_dec k calls) as [->|N]; [exists x; exact AC|apply E; lia].
          * exists (answer calls), calls. rewrite AC. split; [reflexivity|]. split; [lia|]. split; [reflexivity|]. split; [exact E|]. intros _. lia. }
    apply G; [reflexivity|exact M|lia|]. intros k K. lia.
  Qed.
End Retry.
Print Assumptions C39_retry.
Example C39_example : call Z Z (fun k => if (k <? 2)%nat then inr 500 else inl 42) 5 5 = Some (inl 42, 3%nat) /\ call Z Z (fun k => inr (Z.of_nat k)) 5 5 = Some (inr 5, 6%nat).
Proof. split; reflexivity. Qed.

(** * C69: the checks before proving *)

(** The first block follows the previous proof, or the checkpoint if there is
    none; with a previous proof the checkpoint is older than the first block. *)
Theorem C69_checks : forall checked checkpoint previous start, 0 < start < 2^64 -> 0 <= checkpoint < 2^64 ->
  (forall h, previous = Some h -> 0 <= h < 2^64 - 1) ->
  check_previous_proof_and_checkpoint checked checkpoint previous start = Fine tt <->
  match previous with Some h => start = h + 1 /\ checkpoint < start | None => start = checkpoint + 1 end.
Proof.
  intros checked checkpoint [h|] start S C H; unfold check_previous_proof_and_checkpoint.
  - specialize (H h eq_refl). unfold u64_succ. replace (h + 1 <? 2^64) with true by lia. cbn [bind].
    destruct (Z.eqb_spec (h + 1) start); cbn [negb]; [|split; [discriminate|lia]]. destruct (Z.leb_spec start checkpoint); (split; [intros X; try discriminate X; lia|intros X; try reflexivity; lia]).
  - replace (start =? 0) with false by lia. destruct (Z.eqb_spec checkpoint (start - 1)); cbn [negb]; (split; [intros X; try discriminate X; lia|intros X; try reflexivity; lia]).
Qed.
Print Assumptions C69_checks.
Example C69_example : check_previous_proof_and_checkpoint true 9 None 10 = Fine tt /\ check_previous_proof_and_checkpoint true 4 (Some 9) 10 = Fine tt /\ check_previous_proof_and_checkpoint true 10 (Some 9) 10 = Fails.
Proof. repeat split. Qed.
(** The genesis block without a previous proof: a panic with overflow checks,
    accepted without if the checkpoint is the last block of u64. *)
Theorem C69_genesis_refuted : check_previous_proof_and_checkpoint true 0 None 0 = Panics /\ check_previous_proof_and_checkpoint false (2^64 - 1) None 0 = Fine tt.
Proof. split; reflexivity. Qed.
