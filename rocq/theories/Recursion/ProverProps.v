(** * C75: the honest prover's public values satisfy every aggregation circuit *)

From Coq Require Import ZArith List Bool Lia.
Import ListNotations.
Require Import Verif.Recursion.AggregateModel Verif.Recursion.AggregateSpec
  Verif.Recursion.AggregateLemmas Verif.Recursion.ProverModel.
Open Scope Z_scope.

(** ** The layout: what is registered is what is read back *)

Lemma slice_app_l : forall o n (a b : list Z), (o + n <= length a)%nat ->
  slice o n (a ++ b) = slice o n a.
Proof.
  intros o n a b L. unfold slice. rewrite skipn_app, firstn_app.
  replace (n - length (skipn o a))%nat with 0%nat by (rewrite skipn_length; lia).
  rewrite firstn_O, app_nil_r. reflexivity.
Qed.

Lemma slice_app_r : forall o n (a b : list Z), (length a <= o)%nat ->
  slice o n (a ++ b) = slice (o - length a) n b.
Proof.
  intros o n a b L. unfold slice. rewrite skipn_app.
  rewrite skipn_all2 by lia. reflexivity.
Qed.

Lemma slice_whole : forall n l, length l = n -> slice 0 n l = l.
Proof. intros n l L. unfold slice. rewrite skipn_O, <- L. apply firstn_all. Qed.

Lemma at_app_r : forall i (a b : list Z), (length a <= i)%nat -> at_ i (a ++ b) = at_ (i - length a) b.
Proof. intros. unfold at_. apply app_nth2. lia. Qed.

Lemma tr_enc : forall a, tr_wf a -> length (enc_tr a) = TR_SIZE /\ trie_roots_of (enc_tr a) = a.
Proof.
  intros [x y z] (A & B & C). cbn [state_root transactions_root receipts_root] in *.
  unfold enc_tr, trie_roots_of. cbn [state_root transactions_root receipts_root].
  split; [rewrite !app_length; unfold TR_SIZE; lia|].
  rewrite slice_app_l, slice_whole by lia.
  rewrite (slice_app_r 8), A, slice_app_l by lia. cbn [Nat.sub]. rewrite slice_whole by lia.
  rewrite (slice_app_r 16), A by lia. cbn [Nat.sub].
  rewrite (slice_app_r 8), B by lia. cbn [Nat.sub]. rewrite slice_whole by lia. reflexivity.
Qed.

(** Reading a field out of a concatenation, step by step. *)
Ltac peel :=
  repeat first
    [ rewrite slice_app_l by (rewrite ?app_length; cbn [length]; lia)
    | rewrite slice_app_r by (rewrite ?app_length; cbn [length]; lia)
    | rewrite at_app_r by (rewrite ?app_length; cbn [length]; lia) ].

Lemma at_app_l : forall i (a b : list Z), (i < length a)%nat -> at_ i (a ++ b) = at_ i a.
Proof. intros. unfold at_. apply app_nth1. lia. Qed.

Lemma md_enc : forall a, md_wf a -> length (enc_md a) = MD_SIZE /\ metadata_of (enc_md a) = a.
Proof.
  intros [x0 x1 x2 x3 x4 x5 x6 x7 x8 x9 x10 x11 x12] (A & B & C & D & E & F & G).
  cbn [block_beneficiary block_timestamp block_number block_difficulty block_random block_gaslimit
       block_chain_id block_base_fee block_gas_used block_blob_gas_used block_excess_blob_gas
       parent_beacon_block_root block_bloom] in *.
  unfold enc_md, metadata_of.
  cbn [block_beneficiary block_timestamp block_number block_difficulty block_random block_gaslimit
       block_chain_id block_base_fee block_gas_used block_blob_gas_used block_excess_blob_gas
       parent_beacon_block_root block_bloom].
  split; [rewrite !app_length; cbn [length]; unfold MD_SIZE; lia|].
  f_equal; peel; rewrite ?A, ?B, ?C, ?D, ?E, ?F, ?G; cbn [length Nat.sub];
    rewrite ?slice_whole by lia; try reflexivity.
Qed.

Lemma bh_enc : forall a, bh_wf a -> length (enc_bh a) = BH_SIZE /\ hashes_of (enc_bh a) = a.
Proof.
  intros [x y] [A B]. cbn [prev_hashes cur_hash] in *. unfold enc_bh, hashes_of.
  cbn [prev_hashes cur_hash]. split; [rewrite app_length; unfold BH_SIZE; lia|].
  rewrite slice_app_l, slice_whole by lia. rewrite slice_app_r, A by lia.
  replace (2048 - 2048)%nat with 0%nat by lia. rewrite slice_whole by lia. reflexivity.
Qed.

Lemma ed_enc : forall a, ed_wf a -> length (enc_ed a) = ED_SIZE /\ extra_of (enc_ed a) = a.
Proof.
  intros [x0 x1 x2 x3 x4 x5] [A B].
  cbn [checkpoint_state_trie_root checkpoint_consolidated_hash txn_number_before txn_number_after
       gas_used_before gas_used_after] in *.
  unfold enc_ed, extra_of.
  cbn [checkpoint_state_trie_root checkpoint_consolidated_hash txn_number_before txn_number_after
       gas_used_before gas_used_after].
  split; [rewrite !app_length; cbn [length]; unfold ED_SIZE; lia|].
  f_equal; peel; rewrite ?A, ?B; cbn [length Nat.sub]; rewrite ?slice_whole by lia; reflexivity.
Qed.

Lemma rd_enc : forall a, rd_wf a -> length (enc_rd a) = RD_SIZE /\ registers_of (enc_rd a) = a.
Proof.
  intros [x0 x1 x2 x3 x4 x5] A. unfold rd_wf in A.
  cbn [program_counter is_kernel stack_len stack_top context gas_used] in *.
  unfold enc_rd, registers_of. cbn [program_counter is_kernel stack_len stack_top context gas_used].
  split; [rewrite !app_length; cbn [length]; unfold RD_SIZE; lia|].
  f_equal; peel; cbn [length Nat.sub]; rewrite ?A; cbn [length Nat.sub]; rewrite ?slice_whole by lia; reflexivity.
Qed.

Lemma pv_enc : forall cdk a, pv_wf cdk a ->
  length (enc a) = PV_SIZE cdk /\ pv_of cdk (enc a) = a.
Proof.
  intros cdk a [A1 A2 A3 A4 A5 A6 A7 A8 A9 A10].
  destruct (tr_enc _ A1) as [L1 E1], (tr_enc _ A2) as [L2 E2], (md_enc _ A4) as [L4 E4],
    (bh_enc _ A5) as [L5 E5], (ed_enc _ A6) as [L6 E6], (rd_enc _ A7) as [L7 E7],
    (rd_enc _ A8) as [L8 E8].
  unfold enc. split.
  - rewrite !app_length. unfold PV_SIZE. lia.
  - unfold pv_of.
    revert L1 L2 A3 L4 L5 L6 L7 L8 A9 A10 E1 E2 E4 E5 E6 E7 E8.
    destruct a as [a1 a2 a3 a4 a5 a6 a7 a8 a9 a10].
    cbn [trie_roots_before trie_roots_after burn_addr block_metadata block_hashes
         extra_block_data registers_before registers_after mem_before mem_after].
    clear. intros L1 L2 A3 L4 L5 L6 L7 L8 A9 A10 E1 E2 E4 E5 E6 E7 E8.
    set (o1 := TR_SIZE) in *. set (ob := BA_SIZE cdk) in *. set (om := MD_SIZE) in *.
    set (oh := BH_SIZE) in *. set (oe := ED_SIZE) in *. set (or := RD_SIZE) in *.
    set (oc := MC_SIZE) in *. clearbody o1 ob om oh oe or oc.
    f_equal.
    + rewrite slice_app_l, slice_whole by lia. exact E1.
    + rewrite slice_app_r, slice_app_l by lia. rewrite L1, Nat.sub_diag, slice_whole by lia. exact E2.
    + rewrite !slice_app_r, slice_app_l by lia.
      replace (o1 + o1 - length (enc_tr a1) - length (enc_tr a2))%nat with 0%nat by lia.
      apply slice_whole. lia.
    + rewrite !slice_app_r, slice_app_l by lia.
      match goal with |- context [slice ?k om _] => replace k with 0%nat by lia end.
      rewrite slice_whole by lia. exact E4.
    + rewrite !slice_app_r, slice_app_l by lia.
      match goal with |- context [slice ?k oh _] => replace k with 0%nat by lia end.
      rewrite slice_whole by lia. exact E5.
    + rewrite !slice_app_r, slice_app_l by lia.
      match goal with |- context [slice ?k oe _] => replace k with 0%nat by lia end.
      rewrite slice_whole by lia. exact E6.
    + rewrite !slice_app_r, slice_app_l by lia.
      match goal with |- context [slice ?k or _] => replace k with 0%nat by lia end.
      rewrite slice_whole by lia. exact E7.
    + rewrite !slice_app_r, slice_app_l by lia.
      match goal with |- context [slice ?k or _] => replace k with 0%nat by lia end.
      rewrite slice_whole by lia. exact E8.
    + rewrite !slice_app_r, slice_app_l by lia.
      match goal with |- context [slice ?k oc _] => replace k with 0%nat by lia end.
      apply slice_whole. lia.
    + rewrite !slice_app_r by lia.
      match goal with |- context [slice ?k oc _] => replace k with 0%nat by lia end.
      apply slice_whole. lia.
Qed.

(** ** Gates between equal values *)

Lemma conn_arr_refl : forall n a, conn_arr n a a = true.
Proof. intros n a. apply forallb_forall. intros i _. apply Z.eqb_refl. Qed.
Lemma ceq_refl : forall c x, ceq c x x = true.
Proof. intros c x. unfold ceq. rewrite Z.eqb_refl. apply orb_true_r. Qed.
Lemma ceq_arr_refl : forall n c a, ceq_arr n c a a = true.
Proof. intros n c a. apply forallb_forall. intros i _. apply ceq_refl. Qed.
Lemma tr_connect_refl : forall a, tr_connect a a = true.
Proof. intro a. unfold tr_connect. rewrite !conn_arr_refl. reflexivity. Qed.
Lemma tr_cond_refl : forall c a, tr_cond c a a = true.
Proof. intros c a. unfold tr_cond. rewrite !ceq_arr_refl. reflexivity. Qed.
Lemma conn_refl : forall x, conn x x = true.
Proof. exact Z.eqb_refl. Qed.
Lemma md_connect_refl : forall a, md_connect a a = true.
Proof. intro a. unfold md_connect. rewrite !conn_arr_refl, !conn_refl. reflexivity. Qed.
Lemma md_cond_refl : forall c a, md_cond c a a = true.
Proof. intros c a. unfold md_cond. rewrite !ceq_arr_refl, !ceq_refl. reflexivity. Qed.
Lemma bh_connect_refl : forall a, bh_connect a a = true.
Proof. intro a. unfold bh_connect. rewrite !conn_arr_refl. reflexivity. Qed.
Lemma bh_cond_refl : forall c a, bh_cond c a a = true.
Proof. intros c a. unfold bh_cond. rewrite !ceq_arr_refl. reflexivity. Qed.
Lemma ed_connect_refl : forall a, ed_connect a a = true.
Proof. intro a. unfold ed_connect. rewrite !conn_arr_refl, !conn_refl. reflexivity. Qed.
Lemma ed_cond_refl : forall c a, ed_cond c a a = true.
Proof. intros c a. unfold ed_cond. rewrite !ceq_arr_refl, !ceq_refl. reflexivity. Qed.
Lemma rd_connect_refl : forall a, rd_connect a a = true.
Proof. intro a. unfold rd_connect. rewrite !conn_arr_refl, !conn_refl. reflexivity. Qed.
Lemma rd_cond_refl : forall c a, rd_cond c a a = true.
Proof. intros c a. unfold rd_cond. rewrite !ceq_arr_refl, !ceq_refl. reflexivity. Qed.
Lemma ceq_arr_off : forall n a b, ceq_arr n false a b = true.
Proof. intros n a b. apply forallb_forall. reflexivity. Qed.

Lemma tr_cond_off : forall a b, tr_cond false a b = true.
Proof. reflexivity. Qed.
Lemma rd_cond_off : forall a b, rd_cond false a b = true.
Proof. reflexivity. Qed.

(** A conjunction of gates that connect equal terms or are switched off. *)
Ltac gates :=
  repeat match goal with |- _ && _ = true => apply andb_true_intro; split end;
  try match goal with
  | |- tr_connect _ _ = true => apply tr_connect_refl
  | |- md_connect _ _ = true => apply md_connect_refl
  | |- bh_connect _ _ = true => apply bh_connect_refl
  | |- ed_connect _ _ = true => apply ed_connect_refl
  | |- rd_connect _ _ = true => apply rd_connect_refl
  | |- conn_arr _ _ _ = true => apply conn_arr_refl
  | |- conn _ _ = true => apply conn_refl
  | |- tr_cond true _ _ = true => apply tr_cond_refl
  | |- md_cond true _ _ = true => apply md_cond_refl
  | |- bh_cond true _ _ = true => apply bh_cond_refl
  | |- ed_cond true _ _ = true => apply ed_cond_refl
  | |- rd_cond true _ _ = true => apply rd_cond_refl
  | |- ceq_arr _ true _ _ = true => apply ceq_arr_refl
  | |- ceq_arr _ false _ _ = true => apply ceq_arr_off
  | |- tr_cond false _ _ = true => apply tr_cond_off
  | |- md_cond false _ _ = true => reflexivity
  | |- bh_cond false _ _ = true => reflexivity
  | |- ed_cond false _ _ = true => reflexivity
  | |- rd_cond false _ _ = true => apply rd_cond_off
  | |- true = true => reflexivity
  end.

(** ** Ranges *)

Definition inF (x : Z) : Prop := 0 <= x < P.

Record pv_rng (a : pv) : Prop := {
  rg_trb : Forall inF (enc_tr (trie_roots_before a));
  rg_tra : Forall inF (enc_tr (trie_roots_after a));
  rg_ba : Forall inF (burn_addr a);
  rg_md : Forall inF (enc_md (block_metadata a));
  rg_bh : Forall inF (enc_bh (block_hashes a));
  rg_ed : Forall inF (enc_ed (extra_block_data a));
  rg_rb : Forall inF (enc_rd (registers_before a));
  rg_ra : Forall inF (enc_rd (registers_after a));
  rg_mb : Forall inF (mem_before a);
  rg_ma : Forall inF (mem_after a) }.

Lemma rng_enc : forall a, pv_rng a -> Forall inF (enc a).
Proof. intros a [A B C D E F G I J K]. unfold enc.
  repeat first [assumption | apply Forall_app; split]. Qed.

Lemma rng_slice : forall o n l, Forall inF l -> Forall inF (slice o n l).
Proof.
  intros o n l F. unfold slice. apply Forall_forall. intros x I.
  rewrite Forall_forall in F. apply F.
  rewrite <- (firstn_skipn o l). apply in_or_app. right.
  rewrite <- (firstn_skipn n (skipn o l)). apply in_or_app. left. exact I.
Qed.

Lemma rng_at : forall i l, Forall inF l -> inF (at_ i l).
Proof.
  intros i l F. unfold at_. destruct (nth_in_or_default i l 0) as [I|I].
  - rewrite Forall_forall in F. apply F. exact I.
  - rewrite I. unfold inF, P. lia.
Qed.

Lemma rng_pv_of : forall cdk l, Forall inF l -> pv_rng (pv_of cdk l).
Proof.
  intros cdk l F. constructor; unfold pv_of;
    cbn [trie_roots_before trie_roots_after burn_addr block_metadata block_hashes
         extra_block_data registers_before registers_after mem_before mem_after];
    unfold enc_tr, enc_md, enc_bh, enc_ed, enc_rd, trie_roots_of, metadata_of, hashes_of, extra_of,
      registers_of;
    cbn [state_root transactions_root receipts_root
         block_beneficiary block_timestamp block_number block_difficulty block_random block_gaslimit
         block_chain_id block_base_fee block_gas_used block_blob_gas_used block_excess_blob_gas
         parent_beacon_block_root block_bloom prev_hashes cur_hash
         checkpoint_state_trie_root checkpoint_consolidated_hash txn_number_before txn_number_after
         gas_used_before gas_used_after program_counter is_kernel stack_len stack_top context gas_used];
    repeat first [apply Forall_app; split | apply Forall_cons | apply Forall_nil];
    first [apply rng_at | idtac]; repeat apply rng_slice; exact F.
Qed.

Lemma pub_rng : forall cdk i, shaped (PV_SIZE cdk) i -> pv_rng (pub cdk i).
Proof. intros cdk i [_ F]. apply rng_pv_of. exact F. Qed.

Lemma enc_shaped : forall cdk a k, pv_wf cdk a -> pv_rng a -> shaped (PV_SIZE cdk) (mkPIs (enc a) k).
Proof. intros cdk a k W R. split; [apply pv_enc; exact W | apply rng_enc; exact R]. Qed.

Lemma pub_enc : forall cdk a k, pv_wf cdk a -> pub cdk (mkPIs (enc a) k) = a.
Proof. intros cdk a k W. apply pv_enc. exact W. Qed.

Lemma zeros_shaped : forall cdk k, shaped (PV_SIZE cdk) (zeros cdk k).
Proof.
  intros cdk k. split; [apply repeat_length|].
  apply Forall_forall. intros x I. apply repeat_spec in I. subst. unfold P. lia.
Qed.

(** ** Completeness *)

Section Completeness.
  Variable cdk : bool.
  Variable H : list Z -> list Z.
  Variable main halt : Z.
  Variable cap empty_trie : list Z.
  Variable root : pis -> Prop.
  Variable foreign : nat -> pis -> Prop.

  Notation valid := (valid cdk H main halt cap empty_trie root foreign).
  Notation verify_block := (verify_block cdk H main halt cap empty_trie root foreign).
  Notation verify_block_wrapper := (verify_block_wrapper cdk H main halt cap empty_trie root foreign).

  (** A proof that may be a child: of the circuit [base], or, flagged as an
      aggregation, of the circuit [k] and carrying its key. *)
  Definition child (p : proof) (is_agg : bool) (k base : vkey) : Prop :=
    valid p /\ shaped (PV_SIZE cdk) (inputs_of p) /\
    (if is_agg then key_of p = k /\ slot (inputs_of p) = k else key_of p = base).

  Lemma child_cyclic : forall p g k base, child p g k base ->
    shaped (PV_SIZE cdk) (agg_candidate cdk g k p) /\
    shaped (PV_SIZE cdk) (base_candidate p) /\
    cyclic p g (agg_candidate cdk g k p) (base_candidate p) k base /\
    pv_select cdk g (pub cdk (agg_candidate cdk g k p)) (pub cdk (base_candidate p)) =
      pub cdk (inputs_of p).
  Proof.
    intros p g k base (V & S & K).
    assert (Sa : shaped (PV_SIZE cdk) (agg_candidate cdk g k p))
      by (unfold agg_candidate; destruct g; [exact S | apply zeros_shaped]).
    split; [exact Sa|]. split; [exact S|]. split.
    - unfold cyclic, against, agg_candidate, base_candidate.
      destruct g; [destruct K as [K1 K2]; auto | auto].
    - rewrite pv_select_if by (apply pub_wf; assumption).
      unfold agg_candidate, base_candidate. destruct g; reflexivity.
  Qed.

  (** *** C75, segments

      Two consecutive pieces of one batch can always be aggregated, and so can a
      single segment, next to a dummy. *)
  Theorem C75_segment : forall lp rp l_agg r_agg,
    child lp l_agg VSegment VRoot -> child rp r_agg VSegment VRoot ->
    let l := pub cdk (inputs_of lp) in let r := pub cdk (inputs_of rp) in
    resumes l r -> same_batch l r -> block_metadata l = block_metadata r ->
    burn_addr l = burn_addr r ->
    let p := prove_segment_aggregation cdk lp rp l_agg r_agg false in
    child p true VSegment VRoot /\
    pub cdk (inputs_of p) = segment_agg_pv l r false.
  Proof.
    intros lp rp l_agg r_agg CL CR l r [R1 R2] (B1 & B2 & B3 & B4 & _) B5 B6 p.
    destruct (child_cyclic _ _ _ _ CL) as (L1 & L2 & L3 & L4).
    destruct (child_cyclic _ _ _ _ CR) as (X1 & X2 & X3 & X4).
    destruct CL as (VL & SL & _), CR as (VR & SR & _).
    assert (Wl := pub_wf cdk _ SL). assert (Wr := pub_wf cdk _ SR).
    assert (Gl := pub_rng cdk _ SL). assert (Gr := pub_rng cdk _ SR).
    fold l in Wl, Gl, L4. fold r in Wr, Gr, X4.
    set (s := segment_agg_pv l r false).
    assert (E : s = mkPV (trie_roots_before l) (trie_roots_after r) (burn_addr l) (block_metadata r)
                   (block_hashes r) (extra_block_data l) (registers_before l) (registers_after r)
                   (mem_before l) (mem_after r)).
    { unfold s, segment_agg_pv. rewrite <- B4. destruct (extra_block_data l). reflexivity. }
    assert (Ws : pv_wf cdk s)
      by (rewrite E; destruct Wl, Wr; constructor; assumption).
    assert (Gs : pv_rng s)
      by (rewrite E; destruct Gl, Gr; constructor; assumption).
    assert (Q : pub cdk (inputs_of p) = s)
      by (unfold p, prove_segment_aggregation; cbn [inputs_of]; apply pub_enc; exact Ws).
    split; [|exact Q].
    split; [|split; [|split; reflexivity]].
    - unfold p, prove_segment_aggregation. cbn [AggregateModel.valid slot].
      split.
      { repeat (constructor; [assumption || (apply enc_shaped; assumption)|]). constructor. }
      split; [exact L3|]. split; [exact X3|]. split; [exact VL|]. split; [exact VR|].
      rewrite L4, X4. fold l r. fold s. rewrite pub_enc by exact Ws. rewrite E.
      unfold segment_agg_gates, mc_connect, mc_cond, ba_cond.
      cbn [trie_roots_before trie_roots_after burn_addr block_metadata block_hashes
           extra_block_data registers_before registers_after mem_before mem_after negb andb].
      rewrite <- B1, <- B2, <- B3, <- B4, <- B5, <- B6, <- R1, <- R2.
      gates.
    - unfold p, prove_segment_aggregation. cbn [inputs_of]. apply enc_shaped; assumption.
  Qed.

  Theorem C75_single_segment : forall lp rp,
    child lp false VSegment VRoot ->
    let l := pub cdk (inputs_of lp) in
    let p := prove_segment_aggregation cdk lp rp false false true in
    child p true VSegment VRoot /\ pub cdk (inputs_of p) = l.
  Proof.
    intros lp rp CL l p.
    destruct (child_cyclic _ _ _ _ CL) as (L1 & L2 & L3 & L4).
    destruct CL as (VL & SL & _).
    assert (Wl := pub_wf cdk _ SL). assert (Gl := pub_rng cdk _ SL). fold l in Wl, Gl, L4.
    assert (E : forall r, segment_agg_pv l r true = l).
    { intro r. unfold segment_agg_pv. destruct l as [x1 x2 x3 x4 x5 [y1 y2 y3 y4 y5 y6] x7 x8 x9 x10].
      reflexivity. }
    assert (Q : pub cdk (inputs_of p) = l).
    { unfold p, prove_segment_aggregation. cbn [inputs_of]. fold l. rewrite E. apply pub_enc. exact Wl. }
    split; [|exact Q].
    split; [|split; [|split; reflexivity]].
    - unfold p, prove_segment_aggregation. cbn [AggregateModel.valid slot]. fold l. rewrite E.
      split.
      { repeat (constructor; [assumption || (apply enc_shaped; assumption)|]). constructor. }
      split; [exact L3|]. split; [exact L3|]. split; [exact VL|]. split; [exact VL|].
      rewrite L4. rewrite pub_enc by exact Wl.
      unfold segment_agg_gates, mc_connect, mc_cond, ba_cond. cbn [negb andb].
      gates.
    - unfold p, prove_segment_aggregation. cbn [inputs_of]. fold l. rewrite E.
      apply enc_shaped; assumption.
  Qed.

  Lemma starts_stops_gates : forall x, starts main cap x -> stops halt x ->
    connect_initial_final_segment main halt x = true /\ check_init_merkle_cap cap x = true.
  Proof.
    intros x (A & B & C & D & E & F) (G & I & J & K). split.
    - unfold connect_initial_final_segment. rewrite A, B, C, D, E, G, I, J, K.
      rewrite !conn_refl. reflexivity.
    - unfold check_init_merkle_cap, mc_connect. rewrite F. apply conn_arr_refl.
  Qed.

  Lemma batch_pv_wf : forall l r, pv_wf cdk l -> pv_wf cdk r -> pv_wf cdk (batch_agg_pv l r).
  Proof. intros l r Wl Wr. destruct Wl, Wr. constructor; try assumption. Qed.

  Lemma batch_pv_rng : forall l r, pv_rng l -> pv_rng r -> pv_rng (batch_agg_pv l r).
  Proof.
    intros l r Gl Gr. destruct Gl, Gr. constructor; try assumption.
    unfold batch_agg_pv. cbn [extra_block_data]. unfold enc_ed in *.
    cbn [checkpoint_state_trie_root checkpoint_consolidated_hash txn_number_before txn_number_after
         gas_used_before gas_used_after].
    repeat match goal with F : Forall inF (_ ++ _) |- _ => apply Forall_app in F; destruct F end.
    repeat match goal with F : Forall inF (_ :: _) |- _ => inversion F; clear F; subst end.
    apply Forall_app; split; [assumption|]. apply Forall_app; split; [assumption|].
    repeat (constructor; [assumption|]). constructor.
  Qed.

  Lemma batch_gates : forall l r,
    next_batch l r -> burn_addr l = burn_addr r -> registers_before l = registers_before r ->
    starts main cap l -> stops halt l -> starts main cap r -> stops halt r ->
    batch_agg_gates cdk main halt cap (batch_agg_pv l r) l r = true.
  Proof.
    intros l r (N1 & N2 & N3 & N4 & N5 & N6) B1 B2 S1 S2 S3 S4.
    destruct (starts_stops_gates _ S1 S2) as [T1 T2], (starts_stops_gates _ S3 S4) as [T3 T4].
    unfold batch_agg_gates. rewrite T1, T2, T3, T4.
    unfold batch_agg_pv, connect_extra_public_values, ba_connect.
    cbn [trie_roots_before trie_roots_after burn_addr block_metadata block_hashes
         extra_block_data registers_before registers_after mem_before mem_after
         checkpoint_state_trie_root checkpoint_consolidated_hash txn_number_before txn_number_after
         gas_used_before gas_used_after].
    rewrite <- N1, <- N2, <- N3, <- N4, <- N5, <- N6, <- B1, <- B2.
    gates.
  Qed.

  (** *** C75, batches *)
  Theorem C75_batch : forall lp rp l_agg r_agg,
    child lp l_agg VBatch VSegment -> child rp r_agg VBatch VSegment ->
    let l := pub cdk (inputs_of lp) in let r := pub cdk (inputs_of rp) in
    next_batch l r -> burn_addr l = burn_addr r -> registers_before l = registers_before r ->
    starts main cap l -> stops halt l -> starts main cap r -> stops halt r ->
    let p := prove_batch_aggregation cdk lp rp l_agg r_agg in
    child p true VBatch VSegment /\ pub cdk (inputs_of p) = batch_agg_pv l r.
  Proof.
    intros lp rp l_agg r_agg CL CR l r N B1 B2 S1 S2 S3 S4 p.
    destruct (child_cyclic _ _ _ _ CL) as (L1 & L2 & L3 & L4).
    destruct (child_cyclic _ _ _ _ CR) as (X1 & X2 & X3 & X4).
    destruct CL as (VL & SL & _), CR as (VR & SR & _).
    assert (Wl := pub_wf cdk _ SL). assert (Wr := pub_wf cdk _ SR).
    assert (Gl := pub_rng cdk _ SL). assert (Gr := pub_rng cdk _ SR).
    fold l in Wl, Gl, L4. fold r in Wr, Gr, X4.
    set (s := batch_agg_pv l r).
    assert (Ws : pv_wf cdk s) by (apply batch_pv_wf; assumption).
    assert (Gs : pv_rng s) by (apply batch_pv_rng; assumption).
    assert (Q : pub cdk (inputs_of p) = s)
      by (unfold p, prove_batch_aggregation; cbn [inputs_of]; apply pub_enc; exact Ws).
    split; [|exact Q].
    split; [|split; [|split; reflexivity]].
    - unfold p, prove_batch_aggregation. cbn [AggregateModel.valid slot].
      split.
      { repeat (constructor; [assumption || (apply enc_shaped; assumption)|]). constructor. }
      split; [exact L3|]. split; [exact X3|]. split; [exact VL|]. split; [exact VR|].
      rewrite L4, X4. fold l r. fold s. rewrite pub_enc by exact Ws.
      apply batch_gates; assumption.
    - unfold p, prove_batch_aggregation. cbn [inputs_of]. apply enc_shaped; assumption.
  Qed.

  (** ** Blocks *)

  (** What a block has to be like on its own. *)
  Definition fit_block (x : pv) : Prop :=
    txn_number_before (extra_block_data x) = 0 /\
    gas_used_before (extra_block_data x) = 0 /\
    transactions_root (trie_roots_before x) = empty_trie /\
    receipts_root (trie_roots_before x) = empty_trie /\
    gas_used_after (extra_block_data x) = block_gas_used (block_metadata x).

  Lemma fit_block_gates : forall x, fit_block x ->
    connect_initial_values_block empty_trie x = true /\ connect_final_block_values x = true.
  Proof.
    intros x (A & B & C & D & E). unfold connect_initial_values_block, connect_final_block_values.
    rewrite A, B, C, D, E, !conn_arr_refl, !conn_refl. split; reflexivity.
  Qed.

  Lemma hashes_gates : forall x y,
    (forall i, (i < 255)%nat ->
       prev_hash i (block_hashes y) = prev_hash (S i) (block_hashes x)) ->
    prev_hash 255 (block_hashes y) = cur_hash (block_hashes x) ->
    connect_block_hashes x y = true.
  Proof.
    intros x y A B. unfold connect_block_hashes. apply andb_true_intro. split.
    - apply forallb_forall. intros i I. apply in_seq in I.
      apply forallb_forall. intros j J. apply in_seq in J.
      apply Z.eqb_eq.
      replace (8 * (i + 1) + j)%nat with (8 * S i + j)%nat by lia.
      rewrite <- (at_slice j (8 * S i) 8), <- (at_slice j (8 * i) 8) by lia.
      fold (prev_hash (S i) (block_hashes x)). fold (prev_hash i (block_hashes y)).
      rewrite A by lia. reflexivity.
    - apply forallb_forall. intros j J. apply in_seq in J. apply Z.eqb_eq.
      change (slice (255 * 8) 8 (prev_hashes (block_hashes y))) with (prev_hash 255 (block_hashes y)).
      rewrite B. reflexivity.
  Qed.

  (** *** C75, a block after its parent *)
  Theorem C75_next_block : forall pp ap,
    verify_block pp -> shaped (PV_SIZE cdk) (inputs_of pp) ->
    valid ap -> shaped (PV_SIZE cdk) (inputs_of ap) -> key_of ap = VBatch ->
    let x := pub cdk (inputs_of pp) in let y := pub cdk (inputs_of ap) in
    fit_block y ->
    state_root (trie_roots_after x) = state_root (trie_roots_before y) ->
    block_number (block_metadata y) = block_number (block_metadata x) + 1 ->
    (let d := block_timestamp (block_metadata y) - block_timestamp (block_metadata x) in
     0 <= d < 2 ^ 32) ->
    (forall i, (i < 255)%nat ->
       prev_hash i (block_hashes y) = prev_hash (S i) (block_hashes x)) ->
    prev_hash 255 (block_hashes y) = cur_hash (block_hashes x) ->
    checkpoint_state_trie_root (extra_block_data x) =
    checkpoint_state_trie_root (extra_block_data y) ->
    burn_addr x = burn_addr y ->
    let p := prove_next_block cdk pp ap in
    verify_block p /\ shaped (PV_SIZE cdk) (inputs_of p) /\
    pub cdk (inputs_of p) = block_pv (trie_roots_before x) y.
  Proof.
    intros pp ap (Vp & Kp & Sp) Hp Va Sa Ka x y Fy N1 N2 N3 N4 N5 N6 N7 p.
    assert (Wx := pub_wf cdk _ Hp). assert (Wy := pub_wf cdk _ Sa).
    assert (Gx := pub_rng cdk _ Hp). assert (Gy := pub_rng cdk _ Sa).
    fold x in Wx, Gx. fold y in Wy, Gy.
    set (s := block_pv (trie_roots_before x) y).
    assert (Ws : pv_wf cdk s) by (destruct Wx, Wy; constructor; assumption).
    assert (Gs : pv_rng s) by (destruct Gx, Gy; constructor; assumption).
    assert (Q : pub cdk (inputs_of p) = s)
      by (unfold p, prove_next_block; cbn [inputs_of]; apply pub_enc; exact Ws).
    assert (Sh : shaped (PV_SIZE cdk) (mkPIs (enc s) VBlock)) by (apply enc_shaped; assumption).
    split; [|split; [exact Sh | exact Q]].
    split; [|split; reflexivity].
    unfold p, prove_next_block. cbn [AggregateModel.valid slot].
    split; [repeat (constructor; [assumption|]); constructor|].
    split; [exact Sp|].
    split; [split; [exact Kp | reflexivity]|]. split; [exact Vp|].
    split; [split; [exact Ka | reflexivity]|]. split; [exact Va|].
    fold x y. fold s. rewrite pub_enc by exact Ws.
    destruct (fit_block_gates y Fy) as [F1 F2].
    assert (F3 : connect_block_hashes x y = true)
      by (apply hashes_gates; assumption).
    unfold block_gates, connect_block_proof. rewrite F1, F2, F3.
    unfold s, block_pv, connect_checkpoint_block, check_block_timestamp, range_check32, ba_connect.
    cbn [trie_roots_before trie_roots_after burn_addr block_metadata block_hashes
           extra_block_data registers_before registers_after mem_before mem_after negb].
    rewrite N1, N6, N7.
    assert (E1 : fsub (block_timestamp (block_metadata y)) (block_timestamp (block_metadata x)) <? 2 ^ 32 = true).
    { apply Z.ltb_lt. cbv zeta in N3. unfold fsub. rewrite Z.mod_small; [lia | unfold P; lia]. }
    assert (E2 : conn (block_number (block_metadata x)) (fsub (block_number (block_metadata y)) 1) = true).
    { apply Z.eqb_eq. unfold fsub. rewrite N2.
      replace (block_number (block_metadata x) + 1 - 1) with (block_number (block_metadata x)) by ring.
      rewrite Z.mod_small; [reflexivity|]. apply (rng_at 6), rng_slice. apply Hp. }
    gates; assumption.
  Qed.

  (** *** C75, the first block

      The parent that does not exist: the public inputs that are not zero. *)

  Lemma set_nth_length : forall l i v, length (set_nth i v l) = length l.
  Proof. induction l; intros [|i] v; cbn [set_nth length]; rewrite ?IHl; reflexivity. Qed.

  Lemma at_set_nth : forall l i v j, (i < length l)%nat ->
    at_ j (set_nth i v l) = if (j =? i)%nat then v else at_ j l.
  Proof.
    unfold at_. induction l; intros i v j L; [cbn [length] in L; lia|].
    destruct i, j; cbn [set_nth nth Nat.eqb]; try reflexivity.
    apply IHl. cbn [length] in L. lia.
  Qed.

  Lemma write_length : forall vs s l, length (write s vs l) = length l.
  Proof. induction vs; intros s l; cbn [write]; [reflexivity|]. rewrite IHvs. apply set_nth_length. Qed.

  Lemma at_write : forall vs s l j, (s + length vs <= length l)%nat ->
    at_ j (write s vs l) =
    if ((s <=? j) && (j <? s + length vs))%nat then at_ (j - s) vs else at_ j l.
  Proof.
    induction vs; intros s l j L; cbn [write length] in *.
    - destruct (Nat.leb_spec s j), (Nat.ltb_spec j (s + 0)); cbn [andb]; try reflexivity; lia.
    - rewrite IHvs by (rewrite set_nth_length; lia). rewrite at_set_nth by lia.
      destruct (Nat.leb_spec (S s) j), (Nat.ltb_spec j (S s + length vs)), (Nat.leb_spec s j),
        (Nat.ltb_spec j (s + S (length vs))), (Nat.eqb_spec j s); cbn [andb]; try lia; try reflexivity.
      + replace (j - s)%nat with (S (j - S s)) by lia. reflexivity.
      + subst j. rewrite Nat.sub_diag. reflexivity.
  Qed.

  Lemma slice_ext : forall o n o' l l', (o + n <= length l)%nat -> (o' + n <= length l')%nat ->
    (forall j, (j < n)%nat -> at_ (o + j) l = at_ (o' + j) l') -> slice o n l = slice o' n l'.
  Proof.
    intros o n o' l l' L L' E. apply nth_ext with (d := 0) (d' := 0).
    - rewrite !slice_length by assumption. reflexivity.
    - intros j J. rewrite slice_length in J by assumption.
      change (at_ j (slice o n l) = at_ j (slice o' n l')). rewrite !at_slice by assumption.
      apply E. exact J.
  Qed.

  Lemma slice_write_out : forall vs s l o n, (s + length vs <= length l)%nat ->
    (o + n <= length l)%nat -> (o + n <= s \/ s + length vs <= o)%nat ->
    slice o n (write s vs l) = slice o n l.
  Proof.
    intros vs s l o n A B C. apply slice_ext; [rewrite write_length; lia | lia |].
    intros j J. rewrite at_write by assumption.
    destruct (Nat.leb_spec s (o + j)), (Nat.ltb_spec (o + j) (s + length vs)); cbn [andb];
      try reflexivity; lia.
  Qed.

  Lemma slice_write_in : forall vs s l o n, (s + length vs <= length l)%nat ->
    (s <= o /\ o + n <= s + length vs)%nat ->
    slice o n (write s vs l) = slice (o - s) n vs.
  Proof.
    intros vs s l o n A B. apply slice_ext; [rewrite write_length; lia | lia |].
    intros j J. rewrite at_write by assumption.
    destruct (Nat.leb_spec s (o + j)), (Nat.ltb_spec (o + j) (s + length vs)); cbn [andb];
      try lia. f_equal. lia.
  Qed.

  Lemma slice_slice : forall a b o n l, (o + n <= length l)%nat -> (a + b <= n)%nat ->
    slice a b (slice o n l) = slice (o + a) b l.
  Proof.
    intros a b o n l L M. apply slice_ext; [rewrite slice_length by assumption; lia | lia |].
    intros j J. rewrite at_slice by lia. f_equal. lia.
  Qed.

  Lemma rng_write : forall vs s l, Forall inF vs -> Forall inF l -> Forall inF (write s vs l).
  Proof.
    induction vs; intros s l A B; cbn [write]; [exact B|]. inversion A; subst. apply IHvs; [assumption|].
    clear - B H2. revert s. induction B; intros [|s]; cbn [set_nth]; constructor; auto.
  Qed.

  Ltac outside := rewrite slice_write_out by (rewrite ?write_length, ?repeat_length; cbn [length]; lia).
  Ltac inside := rewrite slice_write_in by (rewrite ?write_length, ?repeat_length; cbn [length]; lia).

  Lemma dummy_parent_facts : forall y parent, pv_wf cdk y -> pv_rng y ->
    dummy_parent cdk y = Some parent ->
    let x := pub cdk (mkPIs parent VBlock) in
    shaped (PV_SIZE cdk) (mkPIs parent VBlock) /\
    trie_roots_before x = trie_roots_before y /\
    state_root (trie_roots_after x) = state_root (trie_roots_before y) /\
    burn_addr x = burn_addr y /\
    block_timestamp (block_metadata x) = 0 /\
    block_number (block_metadata x) = block_number (block_metadata y) - 1 /\
    (forall i, (i < 255)%nat ->
       prev_hash (S i) (block_hashes x) = prev_hash i (block_hashes y)) /\
    cur_hash (block_hashes x) = prev_hash 255 (block_hashes y) /\
    checkpoint_state_trie_root (extra_block_data x) =
    checkpoint_state_trie_root (extra_block_data y).
  Proof.
    intros y parent W G D x. unfold dummy_parent in D.
    destruct (negb _); [discriminate|].
    destruct (block_number (block_metadata y) =? 0) eqn:N; [discriminate|].
    apply (f_equal (fun o => match o with Some z => z | None => [] end)) in D.
    cbv beta iota in D. apply Z.eqb_neq in N.
    assert (Rn : inF (block_number (block_metadata y))).
    { destruct G as [_ _ _ G _ _ _ _ _ _]. unfold enc_md in G.
      rewrite Forall_forall in G. apply G. apply in_or_app. right. apply in_or_app. left. right. left. reflexivity. }
    destruct G as [(*trb*) Gt _ Gb _ Gh Ge _ _ _ _]. unfold enc_tr, enc_bh, enc_ed in Gt, Gh, Ge.
    apply Forall_app in Gt. destruct Gt as [Gt1 Gt]. apply Forall_app in Gt.
    apply Forall_app in Gh. apply Forall_app in Ge.
    destruct W as [(T1 & T2 & T3) _ Wb _ (Wp & Wc) (We1 & We2) _ _ _ _].
    assert (Lp : length parent = PV_SIZE cdk)
      by (rewrite <- D, !write_length; apply repeat_length).
    unfold x, pub, pv_of. cbn [vals trie_roots_before trie_roots_after burn_addr block_metadata
      block_hashes extra_block_data].
    unfold trie_roots_of, metadata_of, hashes_of, extra_of, prev_hash.
    cbn [state_root transactions_root receipts_root block_timestamp block_number
         prev_hashes cur_hash checkpoint_state_trie_root].
    assert (Z1 : Z.of_nat TR_SIZE = 24) by reflexivity.
    assert (Z2 : Z.of_nat MD_SIZE = 97) by reflexivity.
    assert (Z3 : Z.of_nat BH_SIZE = 2056) by reflexivity.
    assert (Z4 : Z.of_nat ED_SIZE = 16) by reflexivity.
    unfold PV_SIZE in *.
    (* large numerals are kept as names *)
    remember 2040%nat as big eqn:Big. assert (Z5 : Z.of_nat big = 2040) by (subst big; reflexivity).
    clear Big.
    remember 255%nat as top eqn:Top. assert (Z6 : Z.of_nat top = 255) by (subst top; reflexivity).
    clear Top.
    assert (S1 := slice_length big 8 (prev_hashes (block_hashes y)) ltac:(lia)).
    assert (S2 := slice_length 0 big (prev_hashes (block_hashes y)) ltac:(lia)).
    rewrite !slice_slice by (rewrite ?Lp; lia).
    rewrite !at_slice by lia.
    rewrite <- D in *. clear D.
    split; [split; [exact Lp|]; cbn [vals] | split; [|split; [|split; [|split; [|split; [|split; [|split]]]]]]].
    - assert (Forall inF [block_number (block_metadata y) - 1])
        by (constructor; [unfold inF in *; lia | constructor]).
      assert (forall k, Forall inF (repeat 0 k))
        by (intro k; apply Forall_forall; intros z I; apply repeat_spec in I; subst; unfold inF, P; lia).
      repeat (apply rng_write; [first [assumption | apply rng_slice; tauto | tauto]|]). auto.
    - transitivity (mkTR (state_root (trie_roots_before y)) (transactions_root (trie_roots_before y))
                         (receipts_root (trie_roots_before y)));
        [|destruct (trie_roots_before y); reflexivity].
      f_equal.
      + do 8 outside. inside. apply slice_whole. exact T1.
      + do 7 outside. inside. apply slice_whole. exact T2.
      + do 6 outside. inside. apply slice_whole. exact T3.
    - do 5 outside. inside. apply slice_whole. exact T1.
    - do 4 outside. inside. apply slice_whole. exact Wb.
    - rewrite !at_write by (rewrite ?write_length, ?repeat_length; cbn [length]; lia).
      cbn [length].
      repeat match goal with |- context [((?a <=? ?b) && (?c <? ?d))%nat] =>
        replace ((a <=? b) && (c <? d))%nat with false
          by (symmetry; apply andb_false_iff; rewrite Nat.leb_gt, Nat.ltb_ge; lia) end.
      unfold at_. apply nth_repeat.
    - rewrite at_write by (rewrite ?write_length, ?repeat_length; cbn [length]; lia).
      replace (TR_SIZE + TR_SIZE + BA_SIZE cdk + 6)%nat with (BA_SIZE cdk + 2 * TR_SIZE + 6)%nat by lia.
      rewrite Nat.leb_refl. cbn [length].
      replace (BA_SIZE cdk + 2 * TR_SIZE + 6 <? BA_SIZE cdk + 2 * TR_SIZE + 6 + 1)%nat with true
        by (symmetry; apply Nat.ltb_lt; lia).
      rewrite Nat.sub_diag. reflexivity.
    - intros i I. rewrite slice_slice by (rewrite ?write_length, ?repeat_length; cbn [length]; lia).
      do 2 outside. inside. rewrite slice_slice by lia. f_equal. lia.
    - do 1 outside. inside. rewrite slice_slice by lia. f_equal. lia.
    - do 3 outside. inside.
      replace (TR_SIZE + TR_SIZE + BA_SIZE cdk + MD_SIZE + BH_SIZE + 0 - (BA_SIZE cdk + 2 * TR_SIZE + MD_SIZE + BH_SIZE))%nat
        with 0%nat by lia.
      apply slice_whole. exact We1.
  Qed.

  Lemma first_block_gates : forall x y, fit_block y ->
    inF (block_timestamp (block_metadata y)) -> inF (block_number (block_metadata y)) ->
    state_root (trie_roots_before y) = checkpoint_state_trie_root (extra_block_data y) ->
    checkpoint_consolidated_hash (extra_block_data y) = H (prev_hashes (block_hashes y)) ->
    block_number (block_metadata y) <> 0 ->
    block_timestamp (block_metadata y) < 2 ^ 32 ->
    state_root (trie_roots_after x) = state_root (trie_roots_before y) ->
    burn_addr x = burn_addr y ->
    block_timestamp (block_metadata x) = 0 ->
    block_number (block_metadata x) = block_number (block_metadata y) - 1 ->
    (forall i, (i < 255)%nat ->
       prev_hash (S i) (block_hashes x) = prev_hash i (block_hashes y)) ->
    cur_hash (block_hashes x) = prev_hash 255 (block_hashes y) ->
    checkpoint_state_trie_root (extra_block_data x) =
    checkpoint_state_trie_root (extra_block_data y) ->
    block_gates cdk H empty_trie false (block_pv (trie_roots_before x) y) x y = true.
  Proof.
    intros x y Fy Rt Rn K1 K2 K3 K4 P2 P3 P4 P5 P6 P7 P8.
    destruct (fit_block_gates y Fy) as [F1 F2].
    assert (F3 : connect_block_hashes x y = true).
    { apply hashes_gates.
      - intros i I. symmetry. apply P6. exact I.
      - symmetry. exact P7. }
    unfold block_gates, connect_block_proof, block_pv. rewrite F1, F2, F3.
    unfold connect_checkpoint_block, check_block_timestamp, range_check32, ba_connect.
    cbn [negb trie_roots_before trie_roots_after burn_addr block_metadata block_hashes
         extra_block_data].
    rewrite P2, P3, P4, P5, P8, K1, <- K2.
    assert (E1 : fsub (block_timestamp (block_metadata y)) 0 <? 2 ^ 32 = true).
    { apply Z.ltb_lt. unfold fsub. rewrite Z.sub_0_r, Z.mod_small by exact Rt. exact K4. }
    assert (E2 : conn (block_number (block_metadata y) - 1)
                      (fsub (block_number (block_metadata y)) 1) = true).
    { apply Z.eqb_eq. unfold fsub. rewrite Z.mod_small; [reflexivity|]. unfold inF in Rn. lia. }
    gates; assumption.
  Qed.

  Theorem C75_first_block : forall ap,
    valid ap -> shaped (PV_SIZE cdk) (inputs_of ap) -> key_of ap = VBatch ->
    let y := pub cdk (inputs_of ap) in
    fit_block y ->
    state_root (trie_roots_before y) = checkpoint_state_trie_root (extra_block_data y) ->
    checkpoint_consolidated_hash (extra_block_data y) = H (prev_hashes (block_hashes y)) ->
    block_number (block_metadata y) <> 0 ->
    block_timestamp (block_metadata y) < 2 ^ 32 ->
    exists p, prove_first_block cdk ap = Some p /\
      verify_block p /\ shaped (PV_SIZE cdk) (inputs_of p) /\ pub cdk (inputs_of p) = y.
  Proof.
    intros ap Va Sa Ka y Fy K1 K2 K3 K4.
    assert (Wy := pub_wf cdk _ Sa). assert (Gy := pub_rng cdk _ Sa). fold y in Wy, Gy.
    assert (D : exists parent, dummy_parent cdk y = Some parent).
    { unfold dummy_parent.
      replace (forallb _ _) with true.
      2:{ symmetry. rewrite K1. apply forallb_forall.
          generalize (checkpoint_state_trie_root (extra_block_data y)). intro l.
          induction l as [|z l IH]; cbn [combine In]; [tauto|].
          intros q [<-|I]; [apply Z.eqb_refl | apply IH; exact I]. }
      apply Z.eqb_neq in K3. rewrite K3. eexists. reflexivity. }
    destruct D as [parent D].
    destruct (dummy_parent_facts y parent Wy Gy D)
      as (Sp & P1 & P2 & P3 & P4 & P5 & P6 & P7 & P8).
    set (x := pub cdk (mkPIs parent VBlock)) in *.
    unfold prove_first_block. fold y. rewrite D. eexists. split; [reflexivity|].
    assert (Eb : block_pv (trie_roots_before y) y = y) by (unfold block_pv; destruct y; reflexivity).
    rewrite Eb.
    assert (Sh : shaped (PV_SIZE cdk) (mkPIs (enc y) VBlock)) by (apply enc_shaped; assumption).
    split; [|split; [exact Sh | apply pub_enc; exact Wy]].
    split; [|split; reflexivity].
    cbn [AggregateModel.valid slot].
    split; [repeat (constructor; [assumption|]); constructor|].
    split; [reflexivity|].
    split; [split; [exact Ka | reflexivity]|]. split; [exact Va|].
    rewrite pub_enc by exact Wy. fold x y.
    replace y with (block_pv (trie_roots_before x) y) at 1
      by (rewrite P1; exact Eb).
    apply first_block_gates; try assumption.
    - apply (rng_at 5), rng_slice. apply Sa.
    - apply (rng_at 6), rng_slice. apply Sa.
  Qed.

  (** *** C75, the wrapper *)
  Theorem C75_wrapper : forall bp,
    (forall l, length (H l) = 4%nat /\ Forall inF (H l)) ->
    verify_block bp -> shaped (PV_SIZE cdk) (inputs_of bp) ->
    let x := pub cdk (inputs_of bp) in
    state_root (trie_roots_before x) = checkpoint_state_trie_root (extra_block_data x) ->
    let p := prove_block_wrapper cdk H bp in
    verify_block_wrapper p /\ final_of (vals (inputs_of p)) = final_of_pv H x.
  Proof.
    intros bp HH (Vb & Kb & Sb) Sh x K p.
    assert (Wx := pub_wf cdk _ Sh). assert (Gx := pub_rng cdk _ Sh). fold x in Wx, Gx.
    destruct Wx as [(T1 & _ & _) (T2 & _ & _) _ _ (Wp & Wc) (We1 & We2) _ _ _ _].
    destruct (HH (skipn 8 (prev_hashes (block_hashes x)) ++ cur_hash (block_hashes x))) as [L R].
    assert (Q : final_of (enc_final (final_of_pv H x)) = final_of_pv H x).
    { unfold final_of, enc_final, final_of_pv.
      cbn [chain_id f_checkpoint_state_trie_root new_state_trie_root f_checkpoint_consolidated_hash
           new_consolidated_hash].
      f_equal.
      - rewrite slice_app_r by (cbn [length]; lia). cbn [length Nat.sub].
        rewrite slice_app_l by lia. apply slice_whole. exact T1.
      - rewrite slice_app_r by (cbn [length]; lia). cbn [length Nat.sub].
        rewrite slice_app_r by lia. rewrite T1. cbn [Nat.sub].
        rewrite slice_app_l by lia. apply slice_whole. exact T2.
      - rewrite slice_app_r by (cbn [length]; lia). cbn [length Nat.sub].
        rewrite slice_app_r by lia. rewrite T1. cbn [Nat.sub].
        rewrite slice_app_r by lia. rewrite T2. cbn [Nat.sub].
        rewrite slice_app_l by lia. apply slice_whole. exact We2.
      - rewrite slice_app_r by (cbn [length]; lia). cbn [length Nat.sub].
        rewrite slice_app_r by lia. rewrite T1. cbn [Nat.sub].
        rewrite slice_app_r by lia. rewrite T2. cbn [Nat.sub].
        rewrite slice_app_r by lia. rewrite We2. cbn [Nat.sub].
        apply slice_whole. exact L. }
    split; [|exact Q]. split; [|reflexivity].
    unfold p, prove_block_wrapper. cbn [AggregateModel.valid]. fold x.
    split.
    { split; cbn [vals]; unfold enc_final, final_of_pv;
        cbn [chain_id f_checkpoint_state_trie_root new_state_trie_root f_checkpoint_consolidated_hash
           new_consolidated_hash].
      - rewrite !app_length. cbn [length]. unfold FV_SIZE. lia.
      - destruct Gx as [Gt Ga _ Gm _ Ge _ _ _ _]. unfold enc_tr, enc_ed in Gt, Ga, Ge.
        apply Forall_app in Gt, Ga, Ge. destruct Gt as [Gt _], Ga as [Ga _], Ge as [_ Ge].
        apply Forall_app in Ge. destruct Ge as [Ge _].
        constructor; [apply (rng_at 17), rng_slice; apply Sh|].
        apply Forall_app; split; [exact Gt|]. apply Forall_app; split; [exact Ga|].
        apply Forall_app; split; [exact Ge | exact R]. }
    split; [exact Sh|].
    split; [split; [exact Kb | reflexivity]|]. split; [exact Vb|].
    cbn [vals]. fold x. rewrite Q.
    unfold wrapper_gates, final_of_pv.
    cbn [chain_id f_checkpoint_state_trie_root new_state_trie_root f_checkpoint_consolidated_hash
           new_consolidated_hash].
    rewrite <- K. gates.
  Qed.
End Completeness.

Print Assumptions C75_segment.
Print Assumptions C75_single_segment.
Print Assumptions C75_batch.
Print Assumptions C75_first_block.
Print Assumptions C75_next_block.
Print Assumptions C75_wrapper.
