(** C71: the previous block hashes. *)
From Coq Require Import ZArith List Bool Lia ZifyBool ZifyNat.
From Verif Require Import Zero.IntervalModel Zero.HashesModel.
Import ListNotations.
Local Open Scope Z_scope.

(** * Specification *)
(** What a block at height [target] may see (yellow paper, BLOCKHASH): entry
    256 - d is the hash of the block [target - d], zero before the genesis. *)
Definition sees {Hash} (zero : Hash) (chain : Z -> Hash) (target : Z) (l : list Hash) : Prop :=
  List.length l = 256%nat /\ forall d, 1 <= d <= 256 -> nth_error l (Z.to_nat (256 - d)) = Some (if d <=? target then chain (target - d) else zero).

Section Props.
  Variable Hash : Type.
  Variable zero : Hash.
  Variable hash_eqb : Hash -> Hash -> bool.
  Variable get_block : Z -> option (Hash * Hash).
  Variable chain : Z -> Hash.
  Notation from_block := (from_block Hash zero get_block).
  Notation collect := (collect Hash get_block).
  Notation fill := (fill Hash).
  Notation store := (store Hash).

  Lemma store_spec : forall l i h, (i < List.length l)%nat -> exists l', store i h l = Fine l' /\ List.length l' = List.length l /\ forall k, nth_error l' k = if (k =? i)%nat then Some h else nth_error l k.
  Proof.
    induction l as [|x l IH]; intros i h L; [cbn in L; lia|]. destruct i as [|i].
    - exists (h :: l). repeat split. intros [|k]; reflexivity.
    - destruct (IH i h ltac:(cbn in L; lia)) as (l' & E & L' & N). exists (x :: l'). cbn [HashesModel.store bind]. rewrite E. repeat split; [cbn; congruence|]. intros [|k]; [reflexivity|]. cbn [nth_error Nat.eqb]. apply N.
  Qed.
  (** The numbers counting down from [a], as many as [n]. *)
  Fixpoint down (a : Z) (n : nat) : list Z := match n with 0%nat => [] | S n => a :: down (a - 1) n end.
  Lemma down_seq : forall n a k, map (fun i => a - Z.of_nat i) (seq k n) = down (a - Z.of_nat k) n.
  Proof. induction n as [|n IH]; intros a k; [reflexivity|]. cbn [seq map down]. f_equal. rewrite IH. f_equal. lia. Qed.
  Lemma down_filter : forall n a, -1 <= a -> filter (fun i => 0 <=? i) (down a n) = down a (Nat.min n (Z.to_nat (a + 1))).
  Proof.
    induction n as [|n IH]; intros a A; [reflexivity|]. cbn [down filter]. destruct (0 <=? a) eqn:E.
    - rewrite IH by lia. replace (Nat.min (S n) (Z.to_nat (a + 1))) with (S (Nat.min n (Z.to_nat (a - 1 + 1)))) by lia. reflexivity.
    - replace (Nat.min (S n) (Z.to_nat (a + 1))) with 0%nat by lia. cbn [down].
      clear IH. assert (forall m b, b < 0 -> filter (fun i => 0 <=? i) (down b m) = []) as X.
      { induction m as [|m IHm]; intros b B; [reflexivity|]. cbn [down filter]. replace (0 <=? b) with false by lia. apply IHm. lia. }
      apply X. lia.
  Qed.
  (** Pairs of block number and hash, as the loop meets them. *)
  Lemma collect_down : forall n a, (forall k, a - Z.of_nat n < k <= a -> exists h, get_block k = Some (h, chain (k - 1)) /\ h = chain k) ->
    exists r tail, collect (chunks2 (down a n)) = Fine r /\ concat r = map (fun k => (chain k, Some k)) (down a n) ++ tail /\ Forall (fun p => snd p = None) tail.
  Proof.
    intros n. induction n as [n IH] using lt_wf_ind. intros a G. destruct n as [|[|n]].
    - exists [], []. repeat split; constructor.
    - destruct (G a ltac:(lia)) as (h & E & ->). cbn [down chunks2 HashesModel.collect]. rewrite E. cbn [bind]. eexists; exists [(chain (a - 1), None)]. repeat split. constructor; [reflexivity|constructor].
    - destruct (G a ltac:(lia)) as (h & E & ->). cbn [down chunks2 HashesModel.collect]. rewrite E.
      destruct (IH n ltac:(lia) (a - 1 - 1) ltac:(intros k K; apply G; lia)) as (r & tail & C & R & F). rewrite C. cbn [bind]. eexists; exists tail. split; [reflexivity|]. split; [|exact F].
      cbn [concat app map]. rewrite R. reflexivity.
  Qed.
  Lemma fill_tail : forall t l acc, Forall (fun p => snd p = None) l -> fold_left (fill t) l acc = acc.
  Proof. intros t l. induction l as [|p l IH]; intros acc F; [reflexivity|]. inversion F; subst. cbn [fold_left]. unfold HashesModel.fill at 2. rewrite H1. apply IH. assumption. Qed.
  Lemma fill_down : forall t n a acc, List.length acc = 256%nat -> a < t -> t - 256 < a - Z.of_nat n + 2 ->
    exists acc', fold_left (fill t) (map (fun k => (chain k, Some k)) (down a n)) (Fine acc) = Fine acc' /\ List.length acc' = 256%nat /\
      forall d, 1 <= d <= 256 -> nth_error acc' (Z.to_nat (256 - d)) = if (a - Z.of_nat n <? t - d) && (t - d <=? a) then Some (chain (t - d)) else nth_error acc (Z.to_nat (256 - d)).
  Proof.
    intros t. induction n as [|n IH]; intros a acc L A B.
    - exists acc. split; [reflexivity|]. split; [exact L|]. intros d D. replace ((a - Z.of_nat 0 <? t - d) && (t - d <=? a)) with false by lia. reflexivity.
    - cbn [down map fold_left]. unfold HashesModel.fill at 2. cbn [snd fst bind]. unfold PREVIOUS_HASHES_COUNT. replace ((t - a <? 0) || (Z.of_nat 256 <? t - a)) with false by lia.
      destruct (store_spec acc (256 - Z.to_nat (t - a))%nat (chain a) ltac:(lia)) as (acc1 & E & L1 & N). rewrite E.
      destruct (IH (a - 1) acc1 ltac:(congruence) ltac:(lia) ltac:(lia)) as (acc' & F & L' & N'). exists acc'. split; [exact F|]. split; [exact L'|]. intros d D. rewrite N' by exact D. rewrite N.
      destruct (Z.eq_dec (t - d) a) as [<-|X].
      + replace ((t - d - 1 - Z.of_nat n <? t - d) && (t - d <=? t - d - 1)) with false by lia. replace ((t - d - Z.of_nat (S n) <? t - d) && (t - d <=? t - d)) with true by lia.
        replace (Z.to_nat (256 - d) =? 256 - Z.to_nat (t - (t - d)))%nat with true by lia. reflexivity.
      + replace (Z.to_nat (256 - d) =? 256 - Z.to_nat (t - a))%nat with false by lia. replace ((a - 1 - Z.of_nat n <? t - d) && (t - d <=? a - 1)) with ((a - Z.of_nat (S n) <? t - d) && (t - d <=? a)) by lia. reflexivity.
  Qed.
  Lemma firstn_down : forall n m a, firstn m (down a n) = down a (Nat.min m n).
  Proof. induction n as [|n IH]; intros [|m] a; try reflexivity. cbn [down firstn Nat.min]. rewrite IH. reflexivity. Qed.
  Lemma down_length : forall n a, List.length (down a n) = n.
  Proof. induction n as [|n IH]; intros a; cbn; congruence. Qed.
  Lemma forall_firstn : forall (A : Type) (P : A -> Prop) n l, Forall P l -> Forall P (firstn n l).
  Proof. intros A P n. induction n as [|n IH]; intros [|x l] F; cbn; try constructor; inversion F; auto. Qed.

  (** From a node that knows the blocks, with parent hashes that are the
      hashes of the parents, the hashes are those of the chain. *)
  Theorem C71_from_block : forall target, 1 <= target < 2^64 -> (forall k, 0 <= k <= target -> get_block k = Some (chain k, chain (k - 1))) ->
    exists l, from_block target = Fine l /\ sees zero chain target l.
  Proof.
    intros t T G. unfold HashesModel.from_block, previous_block_numbers. set (o := odd_offset t). assert (O : o = 0 \/ o = 1) by (unfold o, odd_offset; pose proof (Z.mod_pos_bound t 2); lia).
    rewrite down_seq, down_filter by lia. replace (t - 1 + o - Z.of_nat 0) with (t - 1 + o) by lia. unfold PREVIOUS_HASHES_COUNT. set (n := Nat.min (256 + 1) (Z.to_nat (t - 1 + o + 1))).
    destruct (collect_down n (t - 1 + o)) as (r & tail & C & R & F).
    { intros k K. exists (chain k). split; [apply G; lia|reflexivity]. }
    rewrite C. cbn [bind]. rewrite R.
    assert (S1 : skipn (Z.to_nat o) (map (fun k => (chain k, Some k)) (down (t - 1 + o) n) ++ tail) = map (fun k => (chain k, Some k)) (down (t - 1) (n - Z.to_nat o)) ++ tail).
    { destruct O as [-> | ->]; [cbn [Z.to_nat skipn]; rewrite Nat.sub_0_r; replace (t - 1 + 0) with (t - 1) by lia; reflexivity|]. destruct n as [|n'] eqn:N; [lia|]. change (Z.to_nat 1) with 1%nat. cbn [down map app skipn]. replace (t - 1 + 1 - 1) with (t - 1) by lia. replace (S n' - 1)%nat with n' by lia. reflexivity. }
    rewrite S1, firstn_app, fold_left_app, firstn_map, firstn_down.
    destruct (fill_down t (Nat.min 256 (n - Z.to_nat o)) (t - 1) (repeat zero 256) ltac:(apply repeat_length) ltac:(lia) ltac:(lia)) as (acc & E & L & N).
    rewrite E, fill_tail by (apply forall_firstn, F). exists acc. split; [reflexivity|]. split; [exact L|]. intros d D. rewrite N by exact D. destruct (d <=? t) eqn:DT.
    - replace ((t - 1 - Z.of_nat (Nat.min 256 (n - Z.to_nat o)) <? t - d) && (t - d <=? t - 1)) with true by lia. reflexivity.
    - replace ((t - 1 - Z.of_nat (Nat.min 256 (n - Z.to_nat o)) <? t - d) && (t - d <=? t - 1)) with false by lia. apply nth_error_repeat. lia.
  Qed.

  (** A missing block is an error, never a zero hash. *)
  Theorem C71_missing : forall target k, 1 <= target < 2^64 -> 0 <= k -> target - 256 <= k < target -> (k - target) mod 2 = 1 -> odd_offset target = 0 -> get_block k = None ->
    from_block target = Fails.
  Proof.
    intros t k T K0 K KO O G. unfold HashesModel.from_block, previous_block_numbers. rewrite O. rewrite down_seq, down_filter by lia. replace (t - 1 + 0 - Z.of_nat 0) with (t - 1) by lia.
    assert (X : forall n a, (exists j, (2 * j < n)%nat /\ a - 2 * Z.of_nat j = k) -> collect (chunks2 (down a n)) = Fails).
    { induction n as [n IH] using lt_wf_ind. intros a (j & J & E). destruct n as [|[|n]]; [lia| |].
      - assert (j = 0)%nat by lia. subst j. cbn [down chunks2 HashesModel.collect]. replace a with k by lia. rewrite G. reflexivity.
      - cbn [down chunks2 HashesModel.collect]. destruct (Nat.eq_dec j 0) as [->|D]; [replace a with k by lia; rewrite G; reflexivity|].
        rewrite (IH n ltac:(lia) (a - 1 - 1) ltac:(exists (j - 1)%nat; lia)). destruct (get_block a) as [[]|]; reflexivity. }
    rewrite X; [reflexivity|]. exists (Z.to_nat ((t - 1 - k) / 2)). unfold PREVIOUS_HASHES_COUNT.
    assert ((t - 1 - k) mod 2 = 0) by (pose proof (Z.div_mod (k - t) 2); pose proof (Z.div_mod (t - 1 - k) 2); pose proof (Z.mod_pos_bound (t - 1 - k) 2); lia).
    pose proof (Z.div_mod (t - 1 - k) 2). pose proof (Z.div_pos (t - 1 - k) 2). lia.
  Qed.

  (** The answers of the call that are handled: none, the hashes of the chain
      from the target down, zeros, or something of another shape. *)
  Definition good_answer (target : Z) (answer : option (list (option Hash))) : Prop :=
    match answer with
    | None => True
    | Some chunks => (exists current, chunks = current :: map (fun d => Some (if d <=? target then chain (target - d) else zero)) (map Z.of_nat (seq 1 256))) \/
        (exists current, chunks = current :: repeat (Some zero) 256) \/ List.length chunks <> 257%nat \/ In None (skipn 1 chunks)
    end.
  Lemma from_call_spec : forall target current, exists l, from_call Hash zero (Some (current :: map (fun d => Some (if d <=? target then chain (target - d) else zero)) (map Z.of_nat (seq 1 256)))) = Fine l /\ sees zero chain target l.
  Proof.
    intros t cur. unfold from_call. cbn [skipn]. set (f := fun d => if d <=? t then chain (t - d) else zero).
    change (map (fun d => Some (if d <=? t then chain (t - d) else zero)) (map Z.of_nat (seq 1 256))) with (map (fun d => Some (f d)) (map Z.of_nat (seq 1 256))).
    rewrite <- map_rev. assert (X : forallb (fun c : option Hash => match c with Some _ => true | None => false end) (map (fun d => Some (f d)) (rev (map Z.of_nat (seq 1 256)))) = true).
    { apply forallb_forall. intros c C. apply in_map_iff in C. destruct C as (d & <- & _). reflexivity. }
    rewrite X. rewrite map_length, rev_length, map_length, seq_length. unfold PREVIOUS_HASHES_COUNT. cbn [Nat.eqb andb]. rewrite map_map. eexists. split; [reflexivity|]. split; [rewrite map_length, rev_length, map_length, seq_length; reflexivity|].
    intros d D. erewrite map_nth_error; [reflexivity|]. rewrite nth_error_nth' with (d := 0) by (rewrite rev_length, map_length, seq_length; lia).
    f_equal. rewrite rev_nth by (rewrite map_length, seq_length; lia). rewrite map_length, seq_length. change 0 with (Z.of_nat 0). rewrite map_nth. rewrite seq_nth by lia. lia.
  Qed.
  Theorem C71_fetch : (forall a b, hash_eqb a b = true <-> a = b) -> forall answer target, 1 <= target < 2^64 -> (forall k, 0 <= k <= target -> get_block k = Some (chain k, chain (k - 1))) -> good_answer target answer ->
    exists l, fetch_previous_block_hashes Hash zero hash_eqb get_block answer target = Fine l /\ sees zero chain target l.
  Proof.
    intros HE answer t T G A. unfold fetch_previous_block_hashes. destruct answer as [chunks|]; [|apply C71_from_block; assumption]. cbn [good_answer] in A.
    destruct A as [(cur & ->)|[(cur & ->)|X]].
    - destruct (from_call_spec t cur) as (l & E & S). rewrite E. destruct (negb _); [exists l; split; [reflexivity|exact S]|apply C71_from_block; assumption].
    - destruct (from_call Hash zero (Some (cur :: repeat (Some zero) 256))) as [l| |] eqn:E; [|apply C71_from_block; assumption|apply C71_from_block; assumption].
      unfold from_call in E. destruct (forallb _ _ && _) in E; [|discriminate E]. assert (Z : forallb (fun h => hash_eqb h zero) l = true).
      { assert (El : l = map (fun c => match c with Some h => h | None => zero end) (rev (skipn 1 (cur :: repeat (Some zero) 256)))) by congruence. rewrite El. apply forallb_forall. intros h H. apply HE. apply in_map_iff in H. destruct H as (c & <- & H). apply in_rev in H. cbn [skipn] in H. apply repeat_spec in H. subst c. reflexivity. }
      rewrite Z. apply C71_from_block; assumption.
    - assert (E : from_call Hash zero (Some chunks) = Fails); [|rewrite E; apply C71_from_block; assumption]. unfold from_call. destruct X as [X|X].
      + replace (List.length (rev (skipn 1 chunks)) =? PREVIOUS_HASHES_COUNT)%nat with false; [rewrite andb_false_r; reflexivity|]. rewrite rev_length, skipn_length. unfold PREVIOUS_HASHES_COUNT. lia.
      + replace (forallb (fun c : option Hash => match c with Some _ => true | None => false end) (rev (skipn 1 chunks))) with false; [reflexivity|]. symmetry. apply not_true_iff_false. intros F. rewrite forallb_forall in F. specialize (F None ltac:(apply in_rev in X; exact X)). discriminate F.
  Qed.
End Props.
Print Assumptions C71_from_block.
Print Assumptions C71_missing.
Print Assumptions C71_fetch.

(** * Examples *)
(** Block 3 of a chain whose k-th hash is 100 + k. *)
Definition demo_get (k : Z) : option (Z * Z) := if (0 <=? k) && (k <=? 400) then Some (100 + k, 99 + k) else None.
Example C71_example : from_block Z 0 demo_get 3 = Fine (repeat 0 253 ++ [100; 101; 102]) /\ from_block Z 0 demo_get 300 = Fine (map (fun i => 144 + Z.of_nat i) (seq 0 256)) /\
  from_block Z 0 demo_get 301 = Fine (map (fun i => 145 + Z.of_nat i) (seq 0 256)) /\ from_block Z 0 demo_get 402 = Fails.
Proof. vm_compute. repeat split. Qed.
(** A call that answers with anything but zeros is believed: a node that only
    keeps the last two hashes gives a vector that is wrong, and the blocks are
    not asked for. *)
Theorem C71_short_answer_refuted : exists answer target l, fetch_previous_block_hashes Z 0 Z.eqb demo_get answer target = Fine l /\ ~ sees 0 (fun k => 100 + k) target l.
Proof.
  exists (Some (Some 400 :: Some 399 :: Some 398 :: repeat (Some 0) 254)), 300. eexists. split; [vm_compute; reflexivity|]. intros [_ S]. specialize (S 100 ltac:(lia)). vm_compute in S. discriminate S.
Qed.
Print Assumptions C71_short_answer_refuted.
(** For an odd height the block itself is asked for too: a node that does not
    have it yet cannot serve the hashes before it. *)
Theorem C71_odd_needs_target_refuted : exists target, (forall k, 0 <= k < target -> demo_get k = Some (100 + k, 99 + k)) /\ from_block Z 0 demo_get target = Fails.
Proof. exists 401. split; [|vm_compute; reflexivity]. intros k K. unfold demo_get. replace ((0 <=? k) && (k <=? 400)) with true by lia. reflexivity. Qed.
Print Assumptions C71_odd_needs_target_refuted.
