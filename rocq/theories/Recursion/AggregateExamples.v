(** * A chain of two blocks, and what accepted proofs do not say *)

From Coq Require Import ZArith List Bool Lia.
Import ListNotations.
Require Import Verif.Recursion.AggregateModel Verif.Recursion.AggregateSpec
  Verif.Recursion.AggregateLemmas Verif.Recursion.AggregateProps
  Verif.Recursion.ProverModel Verif.Recursion.ProverProps.
Open Scope Z_scope.

(** ** The chain

    Blocks 1, 2, …, each with a batch of two segments and a batch of one.  The
    parameters say what is put where the circuits might not look. *)


Definition main := 5.
Definition halt := 9.
Definition cap : list Z := repeat 3 64.
Definition empty_trie : list Z := repeat 7 8.

Definition hashes_at (n : Z) : hashes :=
  mkBH (flat_map (fun i => repeat (n + Z.of_nat i) 8) (seq 0 256)) (repeat (n + 256) 8).

Definition idle : registers := mkRD main 1 0 (repeat 0 8) 0 0.
Definition paused : registers := mkRD 50 0 3 (repeat 4 8) 1 6.
Definition done : registers := mkRD halt 1 0 (repeat 0 8) 0 12.
Definition mem_paused : list Z := repeat 60 64.
Definition mem_done : list Z := repeat 61 64.

(** Batch [b] of block [n]: chain id, checkpoint hash, beacon root and burn
    address are parameters. *)
Definition meta (chain : Z) (beacon : list Z) (n : Z) : metadata :=
  mkMD (repeat 1 5) (1000 + n) n 0 (repeat n 8) 30000000 chain [7; 0] 20
       [0; 0] [0; 0] beacon (repeat 0 64).
Definition roots (n b : Z) : trie_roots :=
  if b =? 0 then mkTR (repeat (100 + 2 * n) 8) empty_trie empty_trie
  else if b =? 1 then mkTR (repeat (101 + 2 * n) 8) (repeat (20 + n) 8) (repeat (30 + n) 8)
  else mkTR (repeat (102 + 2 * n) 8) (repeat (40 + n) 8) (repeat (50 + n) 8).
Definition counters (cch : list Z) (b : Z) : extra :=
  mkED (repeat 102 8) cch b (b + 1) (10 * b) (10 * (b + 1)).
Definition seg (chain : Z) (cch beacon burn : list Z) (n b : Z) (r1 r2 : registers)
    (m1 m2 : list Z) : pv :=
  mkPV (roots n b) (roots n (b + 1)) burn (meta chain beacon n) (hashes_at n) (counters cch b)
       r1 r2 m1 m2.

Definition root_proof (s : pv) : proof := RootP (mkPIs (enc s) VRoot).
Definition proves (l : list pv) : pis -> Prop := fun i => exists s, In s l /\ vals i = enc s.
Definition no_other : nat -> pis -> Prop := fun _ _ => False.

(** ** Shapes and ranges *)

Definition limbs (n : nat) (l : list Z) : Prop := length l = n /\ Forall inF l.

Lemma rng_repeat : forall n x, inF x -> Forall inF (repeat x n).
Proof. intros n x R. apply Forall_forall. intros y I. apply repeat_spec in I. congruence. Qed.

Lemma hashes_length : forall n m k, length (flat_map (fun i => repeat (n + Z.of_nat i) 8) (seq k m)) = (8 * m)%nat.
Proof.
  intros n m. induction m; intro k; [reflexivity|]. cbn [seq flat_map]. rewrite app_length, IHm, repeat_length. lia.
Qed.

Lemma hashes_at_ok : forall n, 0 <= n < 1000 -> bh_wf (hashes_at n) /\ Forall inF (enc_bh (hashes_at n)).
Proof.
  intros n N. split.
  - split; [|reflexivity]. unfold hashes_at. cbn [prev_hashes]. rewrite hashes_length. reflexivity.
  - unfold enc_bh, hashes_at. cbn [prev_hashes cur_hash]. apply Forall_app. split.
    + apply Forall_forall. intros x I. apply in_flat_map in I. destruct I as (i & I & J).
      apply in_seq in I. apply repeat_spec in J. subst x. unfold inF, P. lia.
    + apply rng_repeat. unfold inF, P. lia.
Qed.

Lemma prev_hash_at : forall n i, (i < 256)%nat -> prev_hash i (hashes_at n) = repeat (n + Z.of_nat i) 8.
Proof.
  intros n i I. unfold prev_hash, hashes_at. cbn [prev_hashes].
  assert (X : forall m k i, (i < m)%nat ->
    slice (8 * i) 8 (flat_map (fun i => repeat (n + Z.of_nat i) 8) (seq k m)) =
    repeat (n + Z.of_nat (k + i)) 8).
  { clear. induction m; intros k i I; [lia|]. cbn [seq flat_map]. destruct i.
    - rewrite slice_app_l by (rewrite repeat_length; lia). rewrite Nat.add_0_r. reflexivity.
    - rewrite slice_app_r by (rewrite repeat_length; lia). rewrite repeat_length.
      replace (8 * S i - 8)%nat with (8 * i)%nat by lia. rewrite IHm by lia.
      do 2 f_equal. lia. }
  rewrite X by exact I. reflexivity.
Qed.

Ltac inf := unfold inF, P in *; lia.
Ltac consts := repeat (constructor; [inf|]); constructor.

Lemma roots_ok : forall n b, 0 <= n < 1000 -> tr_wf (roots n b) /\ Forall inF (enc_tr (roots n b)).
Proof.
  intros n b N. unfold roots, enc_tr, empty_trie.
  destruct (b =? 0); [|destruct (b =? 1)]; cbn [state_root transactions_root receipts_root];
    (split; [repeat split|]; repeat (apply Forall_app; split); apply rng_repeat; inf).
Qed.

(** The registers used here. *)
Definition good_regs (r : registers) : Prop := rd_wf r /\ Forall inF (enc_rd r).

Lemma seg_ok : forall cdk chain cch beacon burn n b r1 r2 m1 m2,
  inF chain -> limbs 4 cch -> limbs 8 beacon -> limbs (BA_SIZE cdk) burn ->
  0 <= n < 1000 -> 0 <= b < 10 -> good_regs r1 -> good_regs r2 -> limbs 64 m1 -> limbs 64 m2 ->
  pv_wf cdk (seg chain cch beacon burn n b r1 r2 m1 m2) /\
  pv_rng (seg chain cch beacon burn n b r1 r2 m1 m2).
Proof.
  intros cdk chain cch beacon burn n b r1 r2 m1 m2 C [H1 H2] [B1 B2] [U1 U2] N B [R1 R2] [Q1 Q2]
    [M1 M2] [K1 K2].
  destruct (hashes_at_ok n N) as [X1 X2], (roots_ok n b N) as [T1 T2], (roots_ok n (b + 1) N) as [T3 T4].
  split; constructor; try assumption; unfold seg;
    cbn [block_metadata extra_block_data].
  - repeat split; try reflexivity. exact B1.
  - split; [reflexivity | exact H1].
  - unfold enc_md, meta.
    cbn [block_beneficiary block_timestamp block_number block_difficulty block_random block_gaslimit
         block_chain_id block_base_fee block_gas_used block_blob_gas_used block_excess_blob_gas
         parent_beacon_block_root block_bloom].
    repeat first [assumption | apply rng_repeat; inf | apply Forall_app; split | consts].
  - unfold enc_ed, counters.
    cbn [checkpoint_state_trie_root checkpoint_consolidated_hash txn_number_before txn_number_after
         gas_used_before gas_used_after].
    apply Forall_app; split; [apply rng_repeat; inf|]. apply Forall_app; split; [assumption|]. consts.
Qed.

Lemma idle_ok : good_regs idle.
Proof.
  split; [reflexivity|]. unfold enc_rd, idle, paused, done, main, halt.
  cbn [program_counter is_kernel stack_len stack_top context gas_used repeat app]. consts.
Qed.
Lemma paused_ok : good_regs paused.
Proof.
  split; [reflexivity|]. unfold enc_rd, idle, paused, done, main, halt.
  cbn [program_counter is_kernel stack_len stack_top context gas_used repeat app]. consts.
Qed.
Lemma done_ok : good_regs done.
Proof.
  split; [reflexivity|]. unfold enc_rd, idle, paused, done, main, halt.
  cbn [program_counter is_kernel stack_len stack_top context gas_used repeat app]. consts.
Qed.
Lemma limbs_repeat : forall n x, inF x -> limbs n (repeat x n).
Proof. intros n x R. split; [apply repeat_length | apply rng_repeat; exact R]. Qed.
#[local] Hint Resolve idle_ok paused_ok done_ok : ex.

(** ** The pieces of block [n] *)

Section Block.
  Variable cdk : bool.
  Variable H : list Z -> list Z.
  Variable root : pis -> Prop.
  Variable foreign : nat -> pis -> Prop.
  Variable chain : Z.
  Variable cch beacon burn : list Z.
  Variable n : Z.

  Definition seg_a : pv := seg chain cch beacon burn n 0 idle paused cap mem_paused.
  Definition seg_b : pv := seg chain cch beacon burn n 0 paused done mem_paused mem_done.
  Definition seg_c : pv := seg chain cch beacon burn n 1 idle done cap mem_done.
  Definition segments : list pv := [seg_a; seg_b; seg_c].

  (** A batch of two segments and a batch of one. *)
  Definition batches : proof :=
    prove_batch_aggregation cdk
      (prove_segment_aggregation cdk (root_proof seg_a) (root_proof seg_b) false false false)
      (prove_segment_aggregation cdk (root_proof seg_c) (root_proof seg_c) false false true)
      false false.

  Definition fits : Prop :=
    inF chain /\ limbs 4 cch /\ limbs 8 beacon /\ limbs (BA_SIZE cdk) burn /\ 0 <= n < 1000.

  Notation valid := (valid cdk H main halt cap empty_trie root foreign).
  Notation child := (child cdk H main halt cap empty_trie root foreign).

  Lemma segments_ok : fits -> Forall (fun s => pv_wf cdk s /\ pv_rng s) segments.
  Proof.
    intros (F1 & F2 & F3 & F4 & F5).
    repeat (constructor; [apply seg_ok; auto with ex; try (apply limbs_repeat; inf); lia|]).
    constructor.
  Qed.

  Lemma root_child : forall s, In s segments -> fits -> (forall k, root (mkPIs (enc s) k)) ->
    child (root_proof s) false VSegment VRoot /\ pub cdk (inputs_of (root_proof s)) = s.
  Proof.
    intros s I F R. assert (X := segments_ok F). rewrite Forall_forall in X.
    destruct (X s I) as [W G]. split; [|apply pub_enc; exact W].
    assert (Sh : shaped (PV_SIZE cdk) (mkPIs (enc s) VRoot)) by (apply enc_shaped; assumption).
    split; [|split; [exact Sh | reflexivity]]. split; [exact Sh | apply R].
  Qed.

  Theorem batches_ok : fits -> (forall s k, In s segments -> root (mkPIs (enc s) k)) ->
    child batches true VBatch VSegment /\
    pub cdk (inputs_of batches) = batch_agg_pv (segment_agg_pv seg_a seg_b false) seg_c.
  Proof.
    intros F R.
    destruct (root_child seg_a) as [Ca Ea]; [left; reflexivity | exact F | intro; apply R; left; reflexivity|].
    destruct (root_child seg_b) as [Cb Eb]; [right; left; reflexivity | exact F | intro; apply R; right; left; reflexivity|].
    destruct (root_child seg_c) as [Cc Ec]; [right; right; left; reflexivity | exact F | intro; apply R; right; right; left; reflexivity|].
    assert (Sab := C75_segment cdk H main halt cap empty_trie root foreign _ _ _ _ Ca Cb).
    cbv zeta in Sab. rewrite Ea, Eb in Sab.
    destruct Sab as [Cab Eab]; [split; reflexivity | repeat split; reflexivity | reflexivity | reflexivity|].
    assert (Sc := C75_single_segment cdk H main halt cap empty_trie root foreign _ (root_proof seg_c) Cc).
    cbv zeta in Sc. rewrite Ec in Sc. destruct Sc as [Ccc Ecc].
    unfold batches.
    assert (B := C75_batch cdk H main halt cap empty_trie root foreign
      (prove_segment_aggregation cdk (root_proof seg_a) (root_proof seg_b) false false false)
      (prove_segment_aggregation cdk (root_proof seg_c) (root_proof seg_c) false false true)
      false false).
    cbv zeta in B. rewrite Eab, Ecc in B.
    apply B; clear B.
    - destruct Cab as (V & S & K & _). split; [exact V|]. split; [exact S | exact K].
    - destruct Ccc as (V & S & K & _). split; [exact V|]. split; [exact S | exact K].
    - repeat split; reflexivity.
    - reflexivity.
    - reflexivity.
    - repeat split; reflexivity.
    - repeat split; reflexivity.
    - repeat split; reflexivity.
    - repeat split; reflexivity.
  Qed.
End Block.

(** ** The chain of two blocks *)

Lemma own_first : forall cdk ap p, prove_first_block cdk ap = Some p -> own_keys ap -> own_keys p.
Proof.
  intros cdk ap p E O. unfold prove_first_block in E. destruct (dummy_parent _ _); [|discriminate E].
  injection E as <-. split; [reflexivity | exact O].
Qed.

Section Chain.
  Variable H : list Z -> list Z.
  Hypothesis H_ok : forall l, length (H l) = 4%nat /\ Forall inF (H l).
  (** Block 1 has chain id [chain1], block 2 has [chain2] and the checkpoint hash
      [cch2]. *)
  Variable chain1 chain2 : Z.
  Variable cch2 : list Z.
  Hypothesis chain1_ok : inF chain1.
  Hypothesis chain2_ok : inF chain2.
  Hypothesis cch2_ok : limbs 4 cch2.

  Definition cch1 : list Z := H (prev_hashes (hashes_at 1)).
  Definition beacon : list Z := repeat 70 8.
  Definition all_segments : list pv :=
    segments chain1 cch1 beacon [] 1 ++ segments chain2 cch2 beacon [] 2.
  Definition batches1 : proof := batches false chain1 cch1 beacon [] 1.
  Definition batches2 : proof := batches false chain2 cch2 beacon [] 2.

  Theorem two_blocks : exists p1,
    prove_first_block false batches1 = Some p1 /\
    let p2 := prove_next_block false p1 batches2 in
    let p := prove_block_wrapper false H p2 in
    own_keys p /\
    verify_block_wrapper false H main halt cap empty_trie (proves all_segments) no_other p /\
    final_of (vals (inputs_of p)) =
      mkFV chain2 (repeat 102 8) (repeat 106 8) cch2
           (H (skipn 8 (prev_hashes (hashes_at 2)) ++ cur_hash (hashes_at 2))).
  Proof.
    assert (R : forall s, In s all_segments -> forall k, proves all_segments (mkPIs (enc s) k))
      by (intros s I k; exists s; split; [exact I | reflexivity]).
    destruct (batches_ok false H (proves all_segments) no_other chain1 cch1 beacon [] 1) as [B1 E1].
    { split; [exact chain1_ok|]. split; [apply H_ok|]. split; [apply limbs_repeat; inf|].
      split; [split; [reflexivity | constructor] | lia]. }
    { intros s k I. apply R. apply in_or_app. left. exact I. }
    destruct (batches_ok false H (proves all_segments) no_other chain2 cch2 beacon [] 2) as [B2 E2].
    { split; [exact chain2_ok|]. split; [exact cch2_ok|]. split; [apply limbs_repeat; inf|].
      split; [split; [reflexivity | constructor] | lia]. }
    { intros s k I. apply R. apply in_or_app. right. exact I. }
    fold batches1 in B1, E1. fold batches2 in B2, E2.
    destruct B1 as (V1 & S1 & K1 & _), B2 as (V2 & S2 & K2 & _).
    assert (F := C75_first_block false H main halt cap empty_trie (proves all_segments) no_other
      batches1 V1 S1 K1).
    cbv zeta in F. rewrite E1 in F.
    destruct F as (p1 & P1 & VB & SB & PB);
      [repeat split; reflexivity | reflexivity | reflexivity | discriminate | reflexivity |].
    exists p1. split; [exact P1|].
    assert (N := C75_next_block false H main halt cap empty_trie (proves all_segments) no_other
      p1 batches2 VB SB V2 S2 K2).
    cbv zeta in N. rewrite PB, E2 in N.
    destruct N as (VN & SN & PN).
    - repeat split; reflexivity.
    - reflexivity.
    - reflexivity.
    - cbn. lia.
    - intros i I. change (prev_hash i (hashes_at 2) = prev_hash (S i) (hashes_at 1)).
      rewrite !prev_hash_at by lia. f_equal. lia.
    - change (prev_hash 255 (hashes_at 2) = cur_hash (hashes_at 1)).
      rewrite prev_hash_at by lia. reflexivity.
    - reflexivity.
    - reflexivity.
    - cbv zeta. split.
      { split; [reflexivity|]. split; [|repeat split; reflexivity].
        apply (own_first _ _ _ P1). repeat split; reflexivity. }
      assert (W := C75_wrapper false H main halt cap empty_trie (proves all_segments) no_other
        (prove_next_block false p1 batches2) H_ok VN SN).
      cbv zeta in W. rewrite PN in W. apply W. reflexivity.
  Qed.
End Chain.

(** *** Non-vacuity of C74 and C75

    With a hash function of the right shape, the two blocks of one chain are
    proved and accepted. *)
Definition hash0 (l : list Z) : list Z :=
  [fold_left (fun a x => (a * 31 + x) mod P) l 17; 0; 0; 1].

Lemma hash0_ok : forall l, length (hash0 l) = 4%nat /\ Forall inF (hash0 l).
Proof.
  intro l. split; [reflexivity|]. unfold hash0. constructor.
  - assert (X : forall l a, inF a -> inF (fold_left (fun a x => (a * 31 + x) mod P) l a)).
    { clear. induction l; intros z Z; [exact Z|]. cbn [fold_left]. apply IHl. unfold inF.
      apply Z.mod_pos_bound. unfold P. lia. }
    apply X. inf.
  - consts.
Qed.

Theorem C74_example : exists p1,
  prove_first_block false (batches1 hash0 1) = Some p1 /\
  let p := prove_block_wrapper false hash0
             (prove_next_block false p1 (batches2 1 (cch1 hash0))) in
  own_keys p /\
  verify_block_wrapper false hash0 main halt cap empty_trie
    (proves (all_segments hash0 1 1 (cch1 hash0))) no_other p /\
  chain_id (final_of (vals (inputs_of p))) = 1 /\
  f_checkpoint_state_trie_root (final_of (vals (inputs_of p))) = repeat 102 8 /\
  new_state_trie_root (final_of (vals (inputs_of p))) = repeat 106 8.
Proof.
  destruct (two_blocks hash0 hash0_ok 1 1 (cch1 hash0)) as (p1 & P1 & O & V & F);
    [inf | inf | apply hash0_ok |].
  exists p1. split; [exact P1|]. cbv zeta in *. split; [exact O|]. split; [exact V|].
  rewrite F. repeat split; reflexivity.
Qed.

(** ** What acceptance does not say *)

Lemma proved_segments : forall H c1 c2 v i,
  (forall l, length (H l) = 4%nat /\ Forall inF (H l)) -> inF c1 -> inF c2 -> limbs 4 v ->
  proves (all_segments H c1 c2 v) i -> 
  state_root (trie_roots_before (pub false i)) = repeat 102 8 ->
  block_chain_id (block_metadata (pub false i)) = c1 /\ block_hashes (pub false i) = hashes_at 1.
Proof.
  intros H c1 c2 v i HH C1 C2 V (s & I & E) R.
  assert (W : pv_wf false s).
  { unfold all_segments in I. apply in_app_or in I.
    assert (S1 := segments_ok false c1 (cch1 H) beacon [] 1).
    assert (S2 := segments_ok false c2 v beacon [] 2).
    rewrite Forall_forall in S1, S2.
    destruct I as [I|I]; [apply S1 | apply S2]; try exact I;
      (split; [assumption|]; split; [first [exact V | apply HH]|]; split; [apply limbs_repeat; inf|];
       split; [split; [reflexivity | constructor] | lia]). }
  assert (Q : pub false i = s).
  { unfold pub. rewrite E. apply (pub_enc false s VRoot W). }
  rewrite Q in *.
  destruct I as [<-|[<-|[<-|[<-|[<-|[<-|[]]]]]]]; try discriminate R; split; reflexivity.
Qed.

(** *** The checkpoint hash

    The hash of the block hashes before the checkpoint is checked in the first
    block, but the hash that is published is the one of the last block, which is
    not compared with anything: it can be any value. *)
Theorem C74_checkpoint_hash_refuted : forall H v,
  (forall l, length (H l) = 4%nat /\ Forall inF (H l)) -> limbs 4 v ->
  exists root p,
    verify_block_wrapper false H main halt cap empty_trie root no_other p /\ own_keys p /\
    let f := final_of (vals (inputs_of p)) in
    f_checkpoint_consolidated_hash f = v /\
    forall i, root i ->
      state_root (trie_roots_before (pub false i)) = f_checkpoint_state_trie_root f ->
      block_hashes (pub false i) = hashes_at 1.
Proof.
  intros H v HH V.
  destruct (two_blocks H HH 1 1 v) as (p1 & P1 & O & A & F); [inf | inf | exact V |].
  cbv zeta in *. do 2 eexists. split; [exact A|]. split; [exact O|]. rewrite F. split; [reflexivity|].
  cbn [f_checkpoint_state_trie_root]. intros i R S.
  apply (proved_segments H 1 1 v i HH); try assumption; inf.
Qed.

(** *** The chain id

    The chain id that is published is that of the last block; that of the blocks
    before may be another one. *)
Theorem C74_chain_id_refuted : forall H c1 c2,
  (forall l, length (H l) = 4%nat /\ Forall inF (H l)) -> inF c1 -> inF c2 ->
  exists root p,
    verify_block_wrapper false H main halt cap empty_trie root no_other p /\ own_keys p /\
    let f := final_of (vals (inputs_of p)) in
    chain_id f = c2 /\
    forall i, root i ->
      state_root (trie_roots_before (pub false i)) = f_checkpoint_state_trie_root f ->
      block_chain_id (block_metadata (pub false i)) = c1.
Proof.
  intros H c1 c2 HH C1 C2.
  destruct (two_blocks H HH c1 c2 (cch1 H)) as (p1 & P1 & O & A & F); [assumption | assumption | apply HH |].
  cbv zeta in *. do 2 eexists. split; [exact A|]. split; [exact O|]. rewrite F. split; [reflexivity|].
  cbn [f_checkpoint_state_trie_root]. intros i R S.
  apply (proved_segments H c1 c2 (cch1 H) i HH); try assumption. apply HH.
Qed.

(** *** Keys

    The circuit of a block verifies the proof of its batches against the right
    key, but does not look at the key that this proof carries for the proofs
    inside it.  Whoever has another circuit with the shape of the batch circuit
    that accepts everything gets a wrapped block accepted for every new state
    root, without any segment being proved. *)
Definition forged (w : list Z) : pv :=
  mkPV (roots 1 1) (mkTR w (repeat 41 8) (repeat 51 8)) [] (meta 1 beacon 1) (hashes_at 1)
       (counters (cch1 hash0) 1) idle done cap mem_done.

Lemma forged_ok : forall w, limbs 8 w -> pv_wf false (forged w) /\ pv_rng (forged w).
Proof.
  intros w [L R].
  destruct (seg_ok false 1 (cch1 hash0) beacon [] 1 1 idle done cap mem_done)
    as [[A1 A2 A3 A4 A5 A6 A7 A8 A9 A10] [B1 B2 B3 B4 B5 B6 B7 B8 B9 B10]];
    auto with ex; try (apply limbs_repeat; inf); try inf; try apply hash0_ok;
    try (split; [reflexivity | constructor]).
  split; constructor; try assumption; unfold forged; cbn [trie_roots_after].
  - repeat split. exact L.
  - unfold enc_tr. cbn [state_root transactions_root receipts_root].
    repeat first [assumption | apply rng_repeat; inf | apply Forall_app; split].
Qed.

Theorem C74_foreign_key_refuted : forall w, limbs 8 w ->
  exists p,
    verify_block_wrapper false hash0 main halt cap empty_trie
      (fun _ => False) (fun _ _ => True) p /\
    new_state_trie_root (final_of (vals (inputs_of p))) = w.
Proof.
  intros w W. destruct (forged_ok w W) as [Fw Fr].
  set (l := seg 1 (cch1 hash0) beacon [] 1 0 idle done cap mem_done).
  assert (Lk : pv_wf false l /\ pv_rng l).
  { apply seg_ok; auto with ex; try (apply limbs_repeat; inf); try inf; try apply hash0_ok.
    split; [reflexivity | constructor]. }
  destruct Lk as [Lw Lr].
  set (k := VForeign 0).
  set (il := mkPIs (enc l) k). set (ir := mkPIs (enc (forged w)) k).
  set (ap := BatchP (mkPIs (enc (batch_agg_pv l (forged w))) k) true true il il ir ir
               (ForeignP 0 il) (ForeignP 0 ir)).
  assert (Sl : shaped (PV_SIZE false) il) by (apply enc_shaped; assumption).
  assert (Sr : shaped (PV_SIZE false) ir) by (apply enc_shaped; assumption).
  assert (Wb : pv_wf false (batch_agg_pv l (forged w))) by (apply batch_pv_wf; assumption).
  assert (Sa : shaped (PV_SIZE false) (inputs_of ap)).
  { apply enc_shaped; [exact Wb | apply batch_pv_rng; assumption]. }
  assert (Va : valid false hash0 main halt cap empty_trie (fun _ => False) (fun _ _ => True) ap).
  { cbn [valid ap slot].
    split; [repeat (constructor; [assumption|]); constructor|].
    split; [repeat split|]. split; [repeat split|]. split; [exact I|]. split; [exact I|].
    rewrite !pv_select_if by (apply pub_wf; assumption).
    rewrite pub_enc by exact Wb. unfold il, ir. rewrite !pub_enc by assumption.
    apply batch_gates; repeat split; reflexivity. }
  assert (E : pub false (inputs_of ap) = batch_agg_pv l (forged w)) by (apply pub_enc; exact Wb).
  assert (F := C75_first_block false hash0 main halt cap empty_trie (fun _ => False) (fun _ _ => True)
      ap Va Sa eq_refl).
  cbv zeta in F. rewrite E in F.
  destruct F as (p1 & P1 & VB & SB & PB);
    [repeat split; reflexivity | reflexivity | reflexivity | discriminate | reflexivity |].
  exists (prove_block_wrapper false hash0 p1).
  assert (Q := C75_wrapper false hash0 main halt cap empty_trie (fun _ => False) (fun _ _ => True)
        p1 hash0_ok VB SB).
  cbv zeta in Q. rewrite PB in Q. destruct Q as [Q1 Q2]; [reflexivity|].
  split; [exact Q1|]. rewrite Q2. reflexivity.
Qed.

(** The root proofs in a tree. *)
Fixpoint leaves (p : proof) : list pis :=
  match p with
  | ForeignP _ _ => []
  | RootP i => [i]
  | SegmentP _ _ _ _ _ _ _ _ lp rp | BatchP _ _ _ _ _ _ _ lp rp
  | TwoToOneP _ _ _ _ _ _ _ lp rp => leaves lp ++ leaves rp
  | BlockP0 _ _ _ ap => leaves ap
  | BlockP _ _ _ pp ap => leaves pp ++ leaves ap
  | WrapperP _ _ bp => leaves bp
  end.

Lemma leaves_first : forall cdk ap p, prove_first_block cdk ap = Some p -> leaves p = leaves ap.
Proof.
  intros cdk ap p E. unfold prove_first_block in E. destruct (dummy_parent _ _); [|discriminate E].
  injection E as <-. reflexivity.
Qed.
Lemma leaves_batch : forall cdk lp rp a b,
  leaves (prove_batch_aggregation cdk lp rp a b) = leaves lp ++ leaves rp.
Proof. reflexivity. Qed.
Lemma leaves_segment : forall i a b c d e f g lp rp,
  leaves (SegmentP i a b c d e f g lp rp) = leaves lp ++ leaves rp.
Proof. reflexivity. Qed.
Lemma leaves_wrapper : forall cdk H p, leaves (prove_block_wrapper cdk H p) = leaves p.
Proof. reflexivity. Qed.
Lemma own_wrapper : forall cdk H p, own_keys p -> own_keys (prove_block_wrapper cdk H p).
Proof. intros cdk H p O. exact O. Qed.

(** *** The metadata inside a batch

    Two consecutive segments of one batch may disagree on the parent beacon root
    (and on the two blob gas fields, which are left out in the same way). *)
Section Beacon.
  Variable b1 b2 : list Z.
  Hypothesis b1_ok : limbs 8 b1.
  Hypothesis b2_ok : limbs 8 b2.

  Definition xa : pv := seg_a 1 (cch1 hash0) b1 [] 1.
  Definition xb : pv := seg_b 1 (cch1 hash0) b2 [] 1.
  Definition xc : pv := seg_c 1 (cch1 hash0) b1 [] 1.
  Definition xab : pv :=
    mkPV (trie_roots_before xa) (trie_roots_after xb) [] (block_metadata xa) (block_hashes xa)
         (extra_block_data xa) (registers_before xa) (registers_after xb) (mem_before xa) (mem_after xb).
  Definition xroot : pis -> Prop := proves [xa; xb; xc].
  Definition mixed : proof :=
    SegmentP (mkPIs (enc xab) VSegment) false false false
      (zeros false VSegment) (mkPIs (enc xa) VRoot) (zeros false VSegment) (mkPIs (enc xb) VRoot)
      (root_proof xa) (root_proof xb).

  Lemma beacon_segments : Forall (fun s => pv_wf false s /\ pv_rng s) [xa; xb; xc].
  Proof.
    assert (E : limbs (BA_SIZE false) []) by (split; [reflexivity | constructor]).
    assert (D : limbs 4 (cch1 hash0)) by apply hash0_ok.
    repeat (constructor; [apply seg_ok; auto with ex; try (apply limbs_repeat; inf); inf|]).
    constructor.
  Qed.

  Lemma mixed_ok : child false hash0 main halt cap empty_trie xroot no_other mixed true VSegment VRoot /\
    pub false (inputs_of mixed) = xab.
  Proof.
    assert (X := beacon_segments).
    inversion X as [|? ? [Wa Ga] X1]; subst. inversion X1 as [|? ? [Wb Gb] X2]; subst.
    clear X X1 X2.
    assert (Wab : pv_wf false xab) by (destruct Wa, Wb; constructor; assumption).
    assert (Gab : pv_rng xab) by (destruct Ga, Gb; constructor; assumption).
    split; [|apply pub_enc; exact Wab].
    assert (Sa : shaped (PV_SIZE false) (mkPIs (enc xa) VRoot)) by (apply enc_shaped; assumption).
    assert (Sb : shaped (PV_SIZE false) (mkPIs (enc xb) VRoot)) by (apply enc_shaped; assumption).
    assert (Sz := zeros_shaped false VSegment).
    assert (Sab : shaped (PV_SIZE false) (mkPIs (enc xab) VSegment)) by (apply enc_shaped; assumption).
    split; [|split; [exact Sab | split; reflexivity]].
    cbn [valid mixed root_proof slot].
    split; [repeat (constructor; [assumption|]); constructor|].
    split; [repeat split|]. split; [repeat split|].
    split; [split; [exact Sa | exists xa; split; [left; reflexivity | reflexivity]]|].
    split; [split; [exact Sb | exists xb; split; [right; left; reflexivity | reflexivity]]|].
    rewrite !pv_select_if by (apply pub_wf; assumption).
    rewrite !pub_enc by assumption.
    unfold segment_agg_gates, mc_connect, mc_cond, ba_cond. cbn [negb andb].
    unfold xab, xa, xb, seg_a, seg_b, seg, md_cond, meta.
    cbn [trie_roots_before trie_roots_after burn_addr block_metadata block_hashes
         extra_block_data registers_before registers_after mem_before mem_after
         block_beneficiary block_timestamp block_number block_difficulty block_random block_gaslimit
         block_chain_id block_base_fee block_gas_used block_blob_gas_used block_excess_blob_gas
         parent_beacon_block_root block_bloom].
    gates; try reflexivity; try apply ceq_refl.
  Qed.

  Theorem C74_metadata_refuted : exists root p i1 i2,
    verify_block_wrapper false hash0 main halt cap empty_trie root no_other p /\ own_keys p /\
    In i1 (leaves p) /\ In i2 (leaves p) /\
    resumes (pub false i1) (pub false i2) /\ same_batch (pub false i1) (pub false i2) /\
    parent_beacon_block_root (block_metadata (pub false i1)) = b1 /\
    parent_beacon_block_root (block_metadata (pub false i2)) = b2.
  Proof.
    destruct mixed_ok as [(Vm & Sm & Km & _) Em].
    assert (X := beacon_segments).
    inversion X as [|? ? [Wa Ga] X1]; subst. inversion X1 as [|? ? [Wb Gb] X2]; subst.
    inversion X2 as [|? ? [Wc Gc] _]; subst. clear X X1 X2.
    assert (Cc : child false hash0 main halt cap empty_trie xroot no_other (root_proof xc) false VSegment VRoot).
    { assert (Sc : shaped (PV_SIZE false) (mkPIs (enc xc) VRoot)) by (apply enc_shaped; assumption).
      split; [|split; [exact Sc | reflexivity]].
      split; [exact Sc|]. exists xc. split; [right; right; left; reflexivity | reflexivity]. }
    assert (Ec : pub false (inputs_of (root_proof xc)) = xc) by (apply pub_enc; exact Wc).
    assert (Q := C75_single_segment false hash0 main halt cap empty_trie xroot no_other _ (root_proof xc) Cc).
    cbv zeta in Q. rewrite Ec in Q. destruct Q as [(Vc & Sc & Kc & _) Ecc].
    set (pc := prove_segment_aggregation false (root_proof xc) (root_proof xc) false false true) in *.
    assert (B := C75_batch false hash0 main halt cap empty_trie xroot no_other mixed pc false false).
    cbv zeta in B. rewrite Em, Ecc in B.
    destruct B as [(Vb & Sb & Kb & _) Eb];
      [split; [exact Vm|]; split; [exact Sm | exact Km]
      | split; [exact Vc|]; split; [exact Sc | exact Kc]
      | repeat split; reflexivity | reflexivity | reflexivity | repeat split; reflexivity
      | repeat split; reflexivity | repeat split; reflexivity | repeat split; reflexivity |].
    set (ap := prove_batch_aggregation false mixed pc false false) in *.
    assert (F := C75_first_block false hash0 main halt cap empty_trie xroot no_other ap Vb Sb Kb).
    cbv zeta in F. rewrite Eb in F.
    destruct F as (p1 & P1 & VB & SB & PB);
      [repeat split; reflexivity | reflexivity | reflexivity | discriminate | reflexivity |].
    assert (W := C75_wrapper false hash0 main halt cap empty_trie xroot no_other p1 hash0_ok VB SB).
    cbv zeta in W. rewrite PB in W. destruct W as [W _]; [reflexivity|].
    exists xroot, (prove_block_wrapper false hash0 p1), (mkPIs (enc xa) VRoot), (mkPIs (enc xb) VRoot).
    split; [exact W|].
    assert (O : own_keys p1) by (apply (own_first _ _ _ P1); repeat split; reflexivity).
    split; [apply own_wrapper; exact O|].
    assert (L : leaves (prove_block_wrapper false hash0 p1) =
                [mkPIs (enc xa) VRoot; mkPIs (enc xb) VRoot] ++ leaves pc).
    { rewrite leaves_wrapper, (leaves_first _ _ _ P1). unfold ap. rewrite leaves_batch. reflexivity. }
    rewrite L.
    split; [left; reflexivity|]. split; [right; left; reflexivity|].
    rewrite !pub_enc by assumption. repeat split; reflexivity.
  Qed.
End Beacon.

(** *** The burn address

    In a batch of one segment the burn address that is published is not compared
    with that of the segment. *)
Section Burn.
  Variable u v : list Z.
  Hypothesis u_ok : limbs 8 u.
  Hypothesis v_ok : limbs 8 v.

  (** Batch [b], with burn address [w]. *)
  Definition lone (w : list Z) (b : Z) : pv :=
    seg 1 (cch1 hash0) beacon w 1 b idle done cap mem_done.
  Definition uroot : pis -> Prop := proves [lone u 0; lone u 1].
  Definition alone (b : Z) : proof :=
    SegmentP (mkPIs (enc (lone v b)) VSegment) false false true
      (zeros true VSegment) (mkPIs (enc (lone u b)) VRoot)
      (zeros true VSegment) (mkPIs (enc (lone u b)) VRoot)
      (root_proof (lone u b)) (root_proof (lone u b)).

  Lemma lone_ok : forall w b, limbs 8 w -> 0 <= b < 10 -> pv_wf true (lone w b) /\ pv_rng (lone w b).
  Proof.
    intros w b W B. apply seg_ok; auto with ex; try (apply limbs_repeat; inf); try inf.
    apply hash0_ok.
  Qed.

  Lemma alone_ok : forall b, b = 0 \/ b = 1 ->
    child true hash0 main halt cap empty_trie uroot no_other (alone b) false VBatch VSegment /\
    pub true (inputs_of (alone b)) = lone v b.
  Proof.
    intros b B. assert (B' : 0 <= b < 10) by lia.
    destruct (lone_ok u b u_ok B') as [Wu Gu], (lone_ok v b v_ok B') as [Wv Gv].
    split; [|apply pub_enc; exact Wv].
    assert (Su : shaped (PV_SIZE true) (mkPIs (enc (lone u b)) VRoot)) by (apply enc_shaped; assumption).
    assert (Sv : shaped (PV_SIZE true) (mkPIs (enc (lone v b)) VSegment)) by (apply enc_shaped; assumption).
    assert (Sz := zeros_shaped true VSegment).
    assert (R : uroot (mkPIs (enc (lone u b)) VRoot)).
    { exists (lone u b). split; [|reflexivity]. destruct B as [-> | ->]; [left | right; left]; reflexivity. }
    split; [|split; [exact Sv | reflexivity]].
    cbn [valid alone root_proof slot].
    split; [repeat (constructor; [assumption|]); constructor|].
    split; [repeat split|]. split; [repeat split|].
    split; [split; [exact Su | exact R]|]. split; [split; [exact Su | exact R]|].
    rewrite !pv_select_if by (apply pub_wf; assumption).
    rewrite !pub_enc by assumption.
    unfold segment_agg_gates, mc_connect, mc_cond, ba_cond. cbn [negb andb].
    unfold lone, seg.
    cbn [trie_roots_before trie_roots_after burn_addr block_metadata block_hashes
         extra_block_data registers_before registers_after mem_before mem_after].
    gates; apply rd_cond_refl.
  Qed.

  Theorem C74_burn_addr_refuted : exists root p,
    verify_block true hash0 main halt cap empty_trie root no_other p /\ own_keys p /\
    burn_addr (pub true (inputs_of p)) = v /\
    (forall i, In i (leaves p) -> burn_addr (pub true i) = u) /\ leaves p <> [].
  Proof.
    destruct (alone_ok 0 (or_introl eq_refl)) as [C0 E0], (alone_ok 1 (or_intror eq_refl)) as [C1 E1].
    assert (B := C75_batch true hash0 main halt cap empty_trie uroot no_other (alone 0) (alone 1) false false C0 C1).
    cbv zeta in B. rewrite E0, E1 in B.
    destruct B as [(Vb & Sb & Kb & _) Eb];
      [repeat split; reflexivity | reflexivity | reflexivity | repeat split; reflexivity
      | repeat split; reflexivity | repeat split; reflexivity | repeat split; reflexivity |].
    set (ap := prove_batch_aggregation true (alone 0) (alone 1) false false) in *.
    assert (F := C75_first_block true hash0 main halt cap empty_trie uroot no_other ap Vb Sb Kb).
    cbv zeta in F. rewrite Eb in F.
    destruct F as (p1 & P1 & VB & SB & PB);
      [repeat split; reflexivity | reflexivity | reflexivity | discriminate | reflexivity |].
    exists uroot, p1. split; [exact VB|].
    split; [apply (own_first _ _ _ P1); repeat split; reflexivity|].
    split; [rewrite PB; reflexivity|].
    assert (L : leaves p1 = leaves ap).
    { apply (leaves_first _ _ _ P1). }
    rewrite L. split; [|discriminate].
    intros i I. destruct (lone_ok u 0 u_ok ltac:(lia)) as [W0 _], (lone_ok u 1 u_ok ltac:(lia)) as [W1 _].
    destruct I as [<-|[<-|[<-|[<-|[]]]]]; rewrite pub_enc by assumption; reflexivity.
  Qed.
End Burn.

(** *** The roots before the first block

    The public values of a proof of a first block take the trie roots before from
    the parent that does not exist; only the wrapper compares the state root with
    the checkpoint. *)
Section Before.
  Variable w : list Z.
  Hypothesis w_ok : limbs 8 w.

  Definition honest : proof := batches false 1 (cch1 hash0) beacon [] 1.
  Definition honest_pv : pv :=
    batch_agg_pv (segment_agg_pv (seg_a 1 (cch1 hash0) beacon [] 1) (seg_b 1 (cch1 hash0) beacon [] 1) false)
                 (seg_c 1 (cch1 hash0) beacon [] 1).
  Definition before : trie_roots := mkTR w (repeat 8 8) (repeat 9 8).
  Definition no_parent : pv :=
    mkPV before (roots 1 0) []
         (mkMD (repeat 0 5) 0 0 0 (repeat 0 8) 0 0 [0; 0] 0 [0; 0] [0; 0] (repeat 0 8) (repeat 0 64))
         (hashes_at 0) (counters (cch1 hash0) 0) idle idle cap cap.
  Definition out : pv := block_pv before honest_pv.
  Definition odd_block : proof :=
    BlockP0 (mkPIs (enc out) VBlock) (mkPIs (enc no_parent) VBlock) (inputs_of honest) honest.
  Definition hroot : pis -> Prop := proves (segments 1 (cch1 hash0) beacon [] 1).

  Lemma before_ok : tr_wf before /\ Forall inF (enc_tr before).
  Proof.
    destruct w_ok as [L R]. split; [repeat split; exact L|].
    unfold enc_tr, before. cbn [state_root transactions_root receipts_root].
    repeat first [assumption | apply rng_repeat; inf | apply Forall_app; split].
  Qed.

  Lemma no_parent_ok : pv_wf false no_parent /\ pv_rng no_parent.
  Proof.
    destruct before_ok as [B1 B2].
    destruct (seg_ok false 1 (cch1 hash0) beacon [] 0 0 idle idle cap cap)
      as [[A1 A2 A3 A4 A5 A6 A7 A8 A9 A10] [C1 C2 C3 C4 C5 C6 C7 C8 C9 C10]];
      auto with ex; try (apply limbs_repeat; inf); try inf; try apply hash0_ok;
      try (split; [reflexivity | constructor]).
    destruct (roots_ok 1 0 ltac:(lia)) as [D1 D2].
    split; constructor; try assumption; try (repeat split; reflexivity).
    - unfold enc_md, no_parent.
      cbn [block_metadata block_beneficiary block_timestamp block_number block_difficulty block_random
           block_gaslimit block_chain_id block_base_fee block_gas_used block_blob_gas_used
           block_excess_blob_gas parent_beacon_block_root block_bloom].
      repeat first [assumption | apply rng_repeat; inf | apply Forall_app; split | consts].
  Qed.

  Theorem C74_first_roots_refuted : exists root p,
    verify_block false hash0 main halt cap empty_trie root no_other p /\ own_keys p /\
    state_root (trie_roots_before (pub false (inputs_of p))) = w /\
    forall i, In i (leaves p) -> state_root (trie_roots_before (pub false i)) = repeat 102 8 \/
                                 state_root (trie_roots_before (pub false i)) = repeat 103 8.
  Proof.
    assert (Ft : fits false 1 (cch1 hash0) beacon [] 1).
    { split; [inf|]. split; [apply hash0_ok|]. split; [apply limbs_repeat; inf|].
      split; [split; [reflexivity | constructor] | lia]. }
    destruct (batches_ok false hash0 hroot no_other 1 (cch1 hash0) beacon [] 1 Ft) as [B E].
    { intros s k I. exists s. split; [exact I | reflexivity]. }
    fold honest in B, E. fold honest_pv in E. destruct B as (V & Sh & K & _).
    destruct no_parent_ok as [Wn Gn], before_ok as [B1 B2].
    assert (Wh := pub_wf false _ Sh). assert (Gh := pub_rng false _ Sh). rewrite E in Wh, Gh.
    assert (Wo : pv_wf false out) by (destruct Wh; constructor; assumption).
    assert (Go : pv_rng out) by (destruct Gh; constructor; assumption).
    assert (So : shaped (PV_SIZE false) (mkPIs (enc out) VBlock)) by (apply enc_shaped; assumption).
    assert (Sn : shaped (PV_SIZE false) (mkPIs (enc no_parent) VBlock)) by (apply enc_shaped; assumption).
    exists hroot, odd_block.
    split; [split; [|split; reflexivity]|].
    - cbn [valid odd_block slot].
      split; [repeat (constructor; [assumption|]); constructor|].
      split; [reflexivity|]. split; [split; [exact K | reflexivity]|]. split; [exact V|].
      rewrite !pub_enc by assumption. rewrite E. unfold out.
      change before with (trie_roots_before no_parent).
      apply first_block_gates; try reflexivity; try (repeat split; reflexivity); try inf.
      + change (inF 1001). inf.
      + change (inF 1). inf.
      + discriminate.
      + intros i I. change (prev_hash (S i) (hashes_at 0) = prev_hash i (hashes_at 1)).
        rewrite !prev_hash_at by lia. f_equal. lia.
    - split; [repeat split; reflexivity|].
      split; [cbn [inputs_of odd_block]; rewrite pub_enc by exact Wo; reflexivity|].
      assert (X := segments_ok false 1 (cch1 hash0) beacon [] 1 Ft).
      inversion X as [|? ? [Wa _] X1]; subst. inversion X1 as [|? ? [Wb _] X2]; subst.
      inversion X2 as [|? ? [Wc _] _]; subst.
      intros i I.
      destruct I as [<-|[<-|[<-|[<-|[]]]]]; rewrite pub_enc by assumption;
        [left | left | right | right]; reflexivity.
  Qed.
End Before.

Print Assumptions C74_example.
Print Assumptions C74_checkpoint_hash_refuted.
Print Assumptions C74_chain_id_refuted.
Print Assumptions C74_foreign_key_refuted.
Print Assumptions C74_metadata_refuted.
Print Assumptions C74_burn_addr_refuted.
Print Assumptions C74_first_roots_refuted.
