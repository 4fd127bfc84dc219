(** * C74: what an accepted proof of a chain of blocks guarantees *)

From Coq Require Import ZArith List Bool Lia.
Import ListNotations.
Require Import Verif.Recursion.AggregateModel Verif.Recursion.AggregateSpec
  Verif.Recursion.AggregateLemmas.
Open Scope Z_scope.

Lemma same_batch_refl : forall a, same_batch a a.
Proof. intro a. repeat split; reflexivity. Qed.
Lemma same_batch_sym : forall a b, same_batch a b -> same_batch b a.
Proof. intros a b (A & B & C & D & E). repeat split; congruence. Qed.
Lemma same_batch_trans : forall a b c, same_batch a b -> same_batch b c -> same_batch a c.
Proof. intros a b c (A & B & C & D & E) (F & G & I & J & K). repeat split; congruence. Qed.

Lemma opening_app : forall l r x, opening l = Some x -> opening (l ++ r) = Some x.
Proof. intros [|a l] r x E; [discriminate | exact E]. Qed.
Lemma closing_app : forall l r x, closing r = Some x -> closing (l ++ r) = Some x.
Proof.
  intros l r x E. unfold closing in *. destruct (final r) as [b|] eqn:F; [|discriminate].
  rewrite (final_app _ l r b F). exact E.
Qed.

Section Soundness.
  Variable cdk : bool.
  Variable H : list Z -> list Z.
  Variable main halt : Z.
  Variable cap empty_trie : list Z.
  Variable root : pis -> Prop.
  Variable foreign : nat -> pis -> Prop.

  Definition proved_segment (s : pv) : Prop :=
    exists i, shaped (PV_SIZE cdk) i /\ root i /\ pub cdk i = s.

  Notation valid := (valid cdk H main halt cap empty_trie root foreign).
  Notation good_batch := (good_batch main halt cap proved_segment).
  Notation good_block := (good_block main halt cap empty_trie proved_segment).
  Notation good_chain := (good_chain main halt cap empty_trie proved_segment).

  Definition segments_of (s : pv) (segs : list pv) (a z : pv) : Prop :=
    Forall proved_segment segs /\
    linked (fun x y => resumes x y /\ same_batch x y) segs /\
    first segs = Some a /\ final segs = Some z /\
    same_batch s a /\ same_batch s z /\ block_metadata s = block_metadata a /\
    registers_before s = registers_before a /\ mem_before s = mem_before a /\
    registers_after s = registers_after z /\ mem_after s = mem_after z.

  Lemma segment_tree : forall p, valid p -> own_keys p ->
    key_of p = VSegment \/ key_of p = VRoot ->
    exists segs a z, segments_of (pub cdk (inputs_of p)) segs a z.
  Proof.
    induction p as [n i|i|i la_ ra_ d la lb ra rb lp IHl rp IHr| | | | | ];
      intros V K C; cbn [key_of] in C; try (destruct C; discriminate).
    - destruct V as [S R]. cbn [inputs_of].
      exists [pub cdk i], (pub cdk i), (pub cdk i).
      split; [constructor; [exists i; auto | constructor]|].
      split; [exact I|]. split; [reflexivity|]. split; [reflexivity|].
      split; [apply same_batch_refl|]. split; [apply same_batch_refl|].
      repeat split; reflexivity.
    - destruct V as (S & [Sl [Kl Il]] & [Sr [Kr Ir]] & Vl & Vr & G).
      destruct K as (Ki & Ol & Or). rewrite Ki in *.
      repeat match goal with F : Forall _ (_ :: _) |- _ => inversion_clear F end.
      rewrite !pv_select_if in G by (apply pub_wf; assumption).
      assert (Wl : pv_wf cdk (if la_ then pub cdk la else pub cdk lb))
        by (destruct la_; apply pub_wf; assumption).
      assert (Wr : pv_wf cdk (if ra_ then pub cdk ra else pub cdk rb))
        by (destruct ra_; apply pub_wf; assumption).
      apply segment_agg_facts in G; [|apply pub_wf; assumption | exact Wl | exact Wr].
      destruct G as (F1 & F2 & F3 & F4 & F5 & F6 & F7 & G).
      destruct (IHl Vl Ol) as (segs & a & z & L1 & L2 & L3 & L4 & L5 & L6 & L7 & L8 & L9 & L10 & L11).
      { rewrite Kl. destruct la_; auto. }
      rewrite Il in L5, L6, L7, L8, L9, L10, L11. cbn [inputs_of].
      replace (pub cdk (if la_ then la else lb)) with (if la_ then pub cdk la else pub cdk lb)
        in L5, L6, L7, L8, L9, L10, L11 by (destruct la_; reflexivity).
      set (l := if la_ then pub cdk la else pub cdk lb) in *.
      set (r := if ra_ then pub cdk ra else pub cdk rb) in *.
      assert (SL : same_batch (pub cdk i) l) by (repeat split; congruence).
      destruct d.
      + destruct G as (_ & G1 & G2).
        exists segs, a, z. repeat (split; [assumption|]).
        split; [apply (same_batch_trans _ l); assumption|].
        split; [apply (same_batch_trans _ l); assumption|].
        repeat split; congruence.
      + destruct G as (G1 & [G2 G3] & G4 & G5).
        destruct (IHr Vr Or) as (segs' & a' & z' & R1 & R2 & R3 & R4 & R5 & R6 & R7 & R8 & R9 & R10 & R11).
        { rewrite Kr. destruct ra_; auto. }
        rewrite Ir in R5, R6, R7, R8, R9, R10, R11.
        replace (pub cdk (if ra_ then ra else rb)) with r
          in R5, R6, R7, R8, R9, R10, R11 by (unfold r; destruct ra_; reflexivity).
        exists (segs ++ segs'), a, z'.
        split; [apply Forall_app; split; assumption|].
        split.
        { apply linked_app with (x := z) (y := a'); try assumption. split.
          - split; congruence.
          - apply (same_batch_trans _ l); [apply same_batch_sym; exact L6|].
            apply (same_batch_trans _ (pub cdk i)); [apply same_batch_sym; exact SL|].
            apply (same_batch_trans _ r); assumption. }
        split; [apply first_app; assumption|]. split; [apply final_app; assumption|].
        split; [apply (same_batch_trans _ l); assumption|].
        split; [apply (same_batch_trans _ r); assumption|].
        repeat split; congruence.
  Qed.

  Definition batches_of (s : pv) (bs : list (list pv)) (a z : pv) : Prop :=
    Forall good_batch bs /\ linked (on_batches next_batch) bs /\
    opening bs = Some a /\ closing bs = Some z /\
    block_hashes s = block_hashes a /\ block_hashes s = block_hashes z /\
    block_metadata s = block_metadata a /\ block_metadata s = block_metadata z /\
    trie_roots_before s = trie_roots_before a /\ trie_roots_after s = trie_roots_after z /\
    checkpoint_state_trie_root (extra_block_data s) = checkpoint_state_trie_root (extra_block_data a) /\
    checkpoint_state_trie_root (extra_block_data s) = checkpoint_state_trie_root (extra_block_data z) /\
    txn_number_before (extra_block_data s) = txn_number_before (extra_block_data a) /\
    txn_number_after (extra_block_data s) = txn_number_after (extra_block_data z) /\
    gas_used_before (extra_block_data s) = gas_used_before (extra_block_data a) /\
    gas_used_after (extra_block_data s) = gas_used_after (extra_block_data z).

  (** One batch on its own, once it is known to run from [main] to [halt]. *)
  Lemma segments_batch : forall s segs a z, segments_of s segs a z ->
    starts main cap s -> stops halt s -> batches_of s [segs] a a.
  Proof.
    intros s segs a z (L1 & L2 & L3 & L4 & (A1 & A2 & A3 & A4 & A5) & L6 & L7 & L8 & L9 & L10 & L11)
      (S1 & S2 & S3 & S4 & S5 & S6) (T1 & T2 & T3 & T4).
    split.
    { constructor; [|constructor]. split; [exact L1|]. split; [exact L2|]. split.
      - exists a. split; [exact L3|]. unfold starts. rewrite <- L8, <- L9. auto 10.
      - exists z. split; [exact L4|]. unfold stops. rewrite <- L10. auto. }
    split; [exact I|]. split; [exact L3|]. split; [exact L3|].
    repeat split; congruence.
  Qed.

  Hypothesis cap_len : length cap = MC_SIZE.

  Lemma batch_tree : forall p, valid p -> own_keys p -> key_of p = VBatch ->
    exists bs a z, batches_of (pub cdk (inputs_of p)) bs a z.
  Proof.
    induction p as [n i|i| |i la_ ra_ la lb ra rb lp IHl rp IHr| | | | ];
      intros V K C; cbn [key_of] in C; try discriminate.
    destruct V as (S & [Sl [Kl Il]] & [Sr [Kr Ir]] & Vl & Vr & G).
    destruct K as (Ki & Ol & Or). rewrite Ki in *.
    repeat match goal with F : Forall _ (_ :: _) |- _ => inversion_clear F end.
    rewrite !pv_select_if in G by (apply pub_wf; assumption).
    assert (Wl : pv_wf cdk (if la_ then pub cdk la else pub cdk lb))
      by (destruct la_; apply pub_wf; assumption).
    assert (Wr : pv_wf cdk (if ra_ then pub cdk ra else pub cdk rb))
      by (destruct ra_; apply pub_wf; assumption).
    apply batch_agg_facts in G; [|apply pub_wf; assumption | exact Wl | exact Wr | exact cap_len].
    cbv zeta in G. cbn [inputs_of].
    assert (BL : exists bs a z,
              batches_of (if la_ then pub cdk la else pub cdk lb) bs a z).
    { destruct G as (_ & _ & _ & _ & _ & _ & _ & _ & [G1 G2] & _).
      destruct la_.
      - destruct (IHl Vl Ol Kl) as (bs & a & z & X). rewrite Il in X. eauto.
      - destruct (segment_tree lp Vl Ol (or_introl Kl)) as (segs & a & z & X).
        rewrite Il in X. eauto using segments_batch. }
    assert (BR : exists bs a z,
              batches_of (if ra_ then pub cdk ra else pub cdk rb) bs a z).
    { destruct G as (_ & _ & _ & _ & _ & _ & _ & _ & _ & [G1 G2]).
      destruct ra_.
      - destruct (IHr Vr Or Kr) as (bs & a & z & X). rewrite Ir in X. eauto.
      - destruct (segment_tree rp Vr Or (or_introl Kr)) as (segs & a & z & X).
        rewrite Ir in X. eauto using segments_batch. }
    destruct G as (G1 & G2 & G3 & G4 & G5 & G6 & G7 & (G8 & G9 & G10 & G11 & G12 & G13 & G14 & G15) & _ & _).
    set (l := if la_ then pub cdk la else pub cdk lb) in *.
    set (r := if ra_ then pub cdk ra else pub cdk rb) in *.
    destruct BL as (bs & a & z & L1 & L2 & L3 & L4 & L5 & L6 & L7 & L8 & L9 & L10 & L11 & L12 & L13 & L14 & L15 & L16).
    destruct BR as (bs' & a' & z' & R1 & R2 & R3 & R4 & R5 & R6 & R7 & R8 & R9 & R10 & R11 & R12 & R13 & R14 & R15 & R16).
    exists (bs ++ bs'), a, z'.
    split; [apply Forall_app; split; assumption|].
    split.
    { unfold closing in L4. unfold opening in R3.
      destruct (final bs) as [b|] eqn:Fb; [|discriminate].
      destruct (first bs') as [b'|] eqn:Fb'; [|discriminate].
      apply linked_app with (x := b) (y := b'); try assumption.
      exists z, a'. split; [assumption|]. split; [assumption|].
      repeat split; congruence. }
    split; [apply opening_app; assumption|]. split; [apply closing_app; assumption|].
    repeat split; congruence.
  Qed.

  Definition chain_of (s : pv) (c : list (list (list pv))) (a z : pv) : Prop :=
    good_chain c (checkpoint_state_trie_root (extra_block_data s)) a z /\
    trie_roots_after s = trie_roots_after z /\
    block_metadata s = block_metadata z /\ block_hashes s = block_hashes z /\
    checkpoint_state_trie_root (extra_block_data s) = checkpoint_state_trie_root (extra_block_data a) /\
    checkpoint_state_trie_root (extra_block_data s) = checkpoint_state_trie_root (extra_block_data z) /\
    (length c = 1%nat ->
     checkpoint_consolidated_hash (extra_block_data s) = H (prev_hashes (block_hashes a))).

  Hypothesis empty_len : length empty_trie = 8%nat.
  Hypothesis H_len : forall x, length (H x) = 4%nat.

  Lemma in_field : forall i k o n, shaped (PV_SIZE cdk) i ->
    0 <= at_ k (slice o n (vals i)) < P.
  Proof.
    intros i k o n [_ F]. unfold at_, slice.
    destruct (nth_in_or_default k (firstn n (skipn o (vals i))) 0) as [I|I].
    - rewrite Forall_forall in F. apply F. revert I.
      generalize (nth k (firstn n (skipn o (vals i))) 0). intros v I.
      rewrite <- (firstn_skipn o (vals i)). apply in_or_app. right.
      rewrite <- (firstn_skipn n (skipn o (vals i))). apply in_or_app. left. exact I.
    - rewrite I. unfold P. lia.
  Qed.

  Lemma batches_block : forall s bs a z, batches_of s bs a z ->
    txn_number_before (extra_block_data s) = 0 ->
    gas_used_before (extra_block_data s) = 0 ->
    transactions_root (trie_roots_before s) = empty_trie ->
    receipts_root (trie_roots_before s) = empty_trie ->
    gas_used_after (extra_block_data s) = block_gas_used (block_metadata s) ->
    good_block bs.
  Proof.
    intros s bs a z (L1 & L2 & L3 & L4 & L5 & L6 & L7 & L8 & L9 & L10 & L11 & L12 & L13 & L14 & L15 & L16)
      X1 X2 X3 X4 X5.
    split; [assumption|]. split; [assumption|]. split.
    - exists a. repeat split; congruence.
    - exists z. split; [assumption | congruence].
  Qed.

  Lemma block_tree : forall p, valid p -> own_keys p -> key_of p = VBlock ->
    exists c a z, chain_of (pub cdk (inputs_of p)) c a z.
  Proof.
    induction p as [n i|i| | |i parent agg ap _|i parent agg pp IHp ap _| | ];
      intros V K C; cbn [key_of] in C; try discriminate; cbn [inputs_of].
    - destruct V as (S & Sp & [Ka Ia] & Va & G). destruct K as [Ki Oa].
      repeat match goal with F : Forall _ (_ :: _) |- _ => inversion_clear F end.
      apply block_facts in G; try assumption; try (apply pub_wf; assumption);
        try (apply in_field; assumption).
      destruct G as (G1 & G2 & G3 & G4 & G5 & (G6 & G7 & G8 & G9) & G10 & G11 & G12).
      destruct (G12 eq_refl) as [G13 G14].
      destruct (batch_tree ap Va Oa Ka) as (bs & a & z & B). rewrite Ia in B.
      assert (GB := batches_block _ _ _ _ B G6 G7 G8 G9 G10).
      destruct B as (L1 & L2 & L3 & L4 & L5 & L6 & L7 & L8 & L9 & L10 & L11 & L12 & L13 & L14 & L15 & L16).
      exists [bs], a, z. split.
      { split; [constructor; [exact GB | constructor]|]. split; [exact I|].
        split; [exists bs; split; [reflexivity | assumption]|].
        split; [exists bs; split; [reflexivity | assumption]|]. congruence. }
      repeat split; congruence.
    - destruct V as (S & Sp & [Kp Ip] & Vp & [Ka Ia] & Va & G). destruct K as (Ki & Op & Oa).
      rewrite Ki in *.
      repeat match goal with F : Forall _ (_ :: _) |- _ => inversion_clear F end.
      apply block_facts in G; try assumption; try (apply pub_wf; assumption);
        try (apply in_field; assumption).
      destruct G as (G1 & G2 & G3 & G4 & G5 & (G6 & G7 & G8 & G9) & G10 & G11 & _).
      destruct (batch_tree ap Va Oa Ka) as (bs & a & z & B). rewrite Ia in B.
      assert (GB := batches_block _ _ _ _ B G6 G7 G8 G9 G10).
      destruct B as (L1 & L2 & L3 & L4 & L5 & L6 & L7 & L8 & L9 & L10 & L11 & L12 & L13 & L14 & L15 & L16).
      destruct (IHp Vp Op Kp) as (c & a0 & z0 & (C1 & C2 & (b0 & C3 & C3') & (bl & C4 & C4') & C5) & P1 & P2 & P3 & P4 & P5 & P6).
      rewrite Ip in *.
      destruct G11 as (N1 & N2 & (dt & N3 & N3') & N4 & N5 & N6).
      exists (c ++ [bs]), a0, z. split.
      { split; [apply Forall_app; split; [assumption | constructor; [exact GB | constructor]]|].
        split.
        { apply linked_app with (x := bl) (y := bs);
            [assumption | exact I | assumption | reflexivity |].
          exists z0, a. split; [assumption|]. split; [assumption|].
          unfold next_block. rewrite <- P1, <- P2, <- P3, <- P5, <- L5, <- L7, <- L9, <- L11.
          split; [assumption|]. split; [assumption|]. split; [exists dt; split; assumption|].
          split; [assumption|]. split; assumption. }
        split; [exists b0; split; [apply first_app; assumption | assumption]|].
        split; [exists bs; split; [apply final_snoc | assumption]|]. congruence. }
      repeat (split; [congruence|]).
      intro X. exfalso. rewrite app_length in X. destruct c; [discriminate|]. cbn in X. lia.
  Qed.

  (** *** C74, the chain behind a wrapped proof

      If every aggregation proof in the tree carries its own key, then an
      accepted wrapped proof stands for a chain of blocks, each one a sequence of
      batches, each one a sequence of proved segments from [main] to [halt],
      which leads from the state root it names as checkpoint to the state root
      it names as new.  Its chain id is that of the last block and its new
      consolidated hash that of the last block's hashes.  Its checkpoint
      consolidated hash is the one of the first block only when there is just
      one block. *)
  Theorem C74_wrapper_partial : forall p,
    verify_block_wrapper cdk H main halt cap empty_trie root foreign p -> own_keys p ->
    let f := final_of (vals (inputs_of p)) in
    exists c a z,
      good_chain c (f_checkpoint_state_trie_root f) a z /\
      checkpoint_state_trie_root (extra_block_data z) = f_checkpoint_state_trie_root f /\
      state_root (trie_roots_after z) = new_state_trie_root f /\
      block_chain_id (block_metadata z) = chain_id f /\
      new_consolidated_hash f =
        H (skipn 8 (prev_hashes (block_hashes z)) ++ cur_hash (block_hashes z)) /\
      (length c = 1%nat ->
       f_checkpoint_consolidated_hash f = H (prev_hashes (block_hashes a))).
  Proof.
    intros p [V K] O f. destruct p as [| | | | | |i blk bp| ]; try discriminate K.
    destruct V as (S & Sb & [Kb Ib] & Vb & G). cbn [own_keys] in O. cbn [inputs_of] in f.
    destruct (block_tree bp Vb O Kb) as (c & a & z & (C1 & C2 & C3 & C4 & C5) & P1 & P2 & P3 & P4 & P5 & P6).
    rewrite Ib in *.
    assert (W := pub_wf cdk blk Sb). destruct W as [A1 A2 A3 A4 A5 A6 A7 A8 A9 A10].
    destruct A1 as (A11 & A12 & A13), A2 as (A21 & A22 & A23), A6 as (A61 & A62).
    destruct S as [Sn _].
    assert (F1 : length (f_checkpoint_state_trie_root f) = 8%nat)
      by (apply slice_length; rewrite Sn; unfold FV_SIZE; lia).
    assert (F2 : length (new_state_trie_root f) = 8%nat)
      by (apply slice_length; rewrite Sn; unfold FV_SIZE; lia).
    assert (F3 : length (f_checkpoint_consolidated_hash f) = 4%nat)
      by (apply slice_length; rewrite Sn; unfold FV_SIZE; lia).
    assert (F4 : length (new_consolidated_hash f) = 4%nat)
      by (apply slice_length; rewrite Sn; unfold FV_SIZE; lia).
    unfold wrapper_gates in G. fold f in G.
    repeat match goal with
    | E : (_ && _) = true |- _ => apply andb_prop in E; destruct E
    | E : conn _ _ = true |- _ => apply conn_eq in E
    | E : conn_arr _ _ _ = true |- _ => apply conn_arr_eq in E; [|solve [assumption | apply H_len]..]
    end.
    exists c, a, z.
    split; [split; [assumption|]; split; [assumption|]; split; [assumption|];
            split; [assumption | congruence]|].
    split; [congruence|]. split; [congruence|]. split; [congruence|].
    split; [congruence|]. intro X. rewrite <- (P6 X). assumption.
  Qed.

  (** *** C74, timestamps

      Between two consecutive blocks whose timestamps fit 32 bits, time does not
      go backwards. *)
  Theorem C74_timestamp : forall x y, next_block x y ->
    0 <= block_timestamp (block_metadata x) < 2 ^ 32 ->
    0 <= block_timestamp (block_metadata y) < 2 ^ 32 ->
    block_timestamp (block_metadata x) <= block_timestamp (block_metadata y).
  Proof.
    intros x y (_ & _ & (d & D & E) & _) X Y. unfold P in E.
    rewrite Z.mod_small in E; lia.
  Qed.

  (** *** C74, two-to-one aggregation

      An accepted two-to-one proof carries the root of a binary hash tree whose
      leaves are the final public values of accepted wrapped proofs. *)
  Inductive hash_tree : list Z -> list (list Z) -> Prop :=
  | Leaf : forall p, verify_block_wrapper cdk H main halt cap empty_trie root foreign p ->
      hash_tree (H (vals (inputs_of p))) [vals (inputs_of p)]
  | Fork : forall h1 l1 h2 l2, hash_tree h1 l1 -> hash_tree h2 l2 ->
      hash_tree (H (h1 ++ h2)) (l1 ++ l2).

  Lemma slice_all : forall n l, length l = n -> slice 0 n l = l.
  Proof. intros n l L. unfold slice. rewrite skipn_O, <- L. apply firstn_all. Qed.

  Theorem C74_two_to_one : forall p,
    verify_two_to_one_block cdk H main halt cap empty_trie root foreign p ->
    exists leaves, (2 <= length leaves)%nat /\
      hash_tree (slice 0 4 (vals (inputs_of p))) leaves /\
      skipn 4 (vals (inputs_of p)) = repeat 0 21.
  Proof.
    intros p (V & K & S). revert V K S.
    induction p as [| | | | | | |i la_ ra_ la lb ra rb lp IHl rp IHr];
      intros V K Si; try discriminate. clear K. cbn [inputs_of] in *.
    destruct V as (S & [Sl [Kl Il]] & [Sr [Kr Ir]] & Vl & Vr & G). rewrite Si in *.
    repeat match goal with F : Forall _ (_ :: _) |- _ => inversion_clear F end.
    repeat match goal with F : shaped _ _ |- _ => destruct F as [? _] end.
    rewrite !sel_arr_if in G by assumption.
    unfold two_to_one_gates in G. apply andb_prop in G. destruct G as [G1 G2].
    assert (side : forall (c : bool) q a b,
      key_of q = (if c then VTwoToOne else VWrapper) -> inputs_of q = (if c then a else b) ->
      valid q -> slot a = VTwoToOne ->
      length (vals a) = FV_SIZE -> length (vals b) = FV_SIZE ->
      (valid q -> key_of q = VTwoToOne -> slot (inputs_of q) = VTwoToOne ->
       exists leaves, (2 <= length leaves)%nat /\
         hash_tree (slice 0 4 (vals (inputs_of q))) leaves /\
         skipn 4 (vals (inputs_of q)) = repeat 0 21) ->
      exists leaves, (1 <= length leaves)%nat /\
        hash_tree (sel_arr 4 c (slice 0 4 (if c then vals a else vals b))
                     (H (slice 0 FV_SIZE (if c then vals a else vals b)))) leaves).
    { intros c q a b Kq Iq Vq Sq La Lb IH.
      rewrite sel_arr_if;
        [| apply slice_length; destruct c; rewrite ?La, ?Lb; unfold FV_SIZE; lia | apply H_len].
      destruct c.
      - destruct (IH Vq Kq) as (leaves & A & B & _); [rewrite Iq; exact Sq|].
        rewrite Iq in B. exists leaves. split; [lia | exact B].
      - exists [vals b]. split; [cbn; lia|]. rewrite slice_all by assumption.
        rewrite <- Iq. apply Leaf. split; assumption. }
    destruct (side la_ lp la lb Kl Il Vl Sl) as (l1 & N1 & T1); [assumption..|].
    destruct (side ra_ rp ra rb Kr Ir Vr Sr) as (l2 & N2 & T2); [assumption..|].
    exists (l1 ++ l2). split; [rewrite app_length; lia|]. split.
    - assert (E : slice 0 4 (vals i) = H (sel_arr 4 la_ (slice 0 4 (if la_ then vals la else vals lb))
                     (H (slice 0 FV_SIZE (if la_ then vals la else vals lb))) ++
                   sel_arr 4 ra_ (slice 0 4 (if ra_ then vals ra else vals rb))
                     (H (slice 0 FV_SIZE (if ra_ then vals ra else vals rb))))).
      { apply nth_ext with (d := 0) (d' := 0).
        - rewrite slice_length, H_len by (unfold FV_SIZE in *; lia). reflexivity.
        - intros k Lk. rewrite slice_length in Lk by (unfold FV_SIZE in *; lia).
          fold (at_ k (slice 0 4 (vals i))). rewrite at_slice by lia.
          exact (conn_arr_nth _ _ _ G1 k Lk). }
      rewrite E. apply Fork; assumption.
    - apply nth_ext with (d := 0) (d' := 0).
      + rewrite skipn_length, repeat_length. unfold FV_SIZE in *. lia.
      + intros k Lk. rewrite skipn_length in Lk.
        assert (X : at_ (4 + k) (vals i) = 0).
        { rewrite forallb_forall in G2. apply conn_eq. apply G2. apply in_seq.
          unfold FV_SIZE in *. lia. }
        replace (nth k (skipn 4 (vals i)) 0) with (at_ (4 + k) (vals i)).
        * rewrite X. symmetry. apply nth_repeat.
        * unfold at_. clear. revert k. generalize (vals i). intros l k.
          do 4 (destruct l as [|? l]; [destruct k; reflexivity|]). reflexivity.
  Qed.
End Soundness.

Print Assumptions C74_wrapper_partial.
Print Assumptions C74_timestamp.
Print Assumptions C74_two_to_one.
