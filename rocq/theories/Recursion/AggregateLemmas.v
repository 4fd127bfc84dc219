(** * Lemmas on the circuits of [AggregateModel] *)

From Coq Require Import ZArith List Bool Lia.
Import ListNotations.
Require Import Verif.Recursion.AggregateModel Verif.Recursion.AggregateSpec.
Open Scope Z_scope.

(** ** Arrays *)

Lemma conn_eq : forall x y, conn x y = true -> x = y.
Proof. intros x y E. apply Z.eqb_eq in E. exact E. Qed.

Lemma ceq_true : forall x y, ceq true x y = conn x y.
Proof. reflexivity. Qed.

Lemma ceq_arr_true : forall n a b, ceq_arr n true a b = conn_arr n a b.
Proof. reflexivity. Qed.

Lemma conn_arr_nth : forall n a b, conn_arr n a b = true ->
  forall i, (i < n)%nat -> at_ i a = at_ i b.
Proof.
  intros n a b E i L. unfold conn_arr in E. rewrite forallb_forall in E.
  apply conn_eq. apply E. apply in_seq. lia.
Qed.

Lemma conn_arr_eq : forall n a b, conn_arr n a b = true ->
  length a = n -> length b = n -> a = b.
Proof.
  intros n a b E La Lb. apply nth_ext with (d := 0) (d' := 0); [lia|].
  intros i L. apply (conn_arr_nth n a b E). lia.
Qed.

Lemma sel_arr_if : forall n c a b, length a = n -> length b = n ->
  sel_arr n c a b = if c then a else b.
Proof.
  intros n c a b La Lb.
  assert (X : forall l : list Z, length l = n -> map (fun i => at_ i l) (seq 0 n) = l).
  { intros l L. apply nth_ext with (d := 0) (d' := 0).
    - rewrite map_length, seq_length. lia.
    - intros i Li. rewrite map_length, seq_length in Li.
      rewrite nth_indep with (d' := at_ 0 l) by (rewrite map_length, seq_length; lia).
      rewrite map_nth with (f := fun i => at_ i l). rewrite seq_nth by lia. reflexivity. }
  unfold sel_arr, sel. destruct c; apply X; assumption.
Qed.

Lemma slice_length : forall o n l, (o + n <= length l)%nat -> length (slice o n l) = n.
Proof.
  intros o n l L. unfold slice. rewrite firstn_length, skipn_length. lia.
Qed.

(** ** Shapes *)

Definition tr_wf (a : trie_roots) : Prop :=
  length (state_root a) = 8%nat /\ length (transactions_root a) = 8%nat /\
  length (receipts_root a) = 8%nat.
Definition md_wf (a : metadata) : Prop :=
  length (block_beneficiary a) = 5%nat /\ length (block_random a) = 8%nat /\
  length (block_base_fee a) = 2%nat /\ length (block_blob_gas_used a) = 2%nat /\
  length (block_excess_blob_gas a) = 2%nat /\ length (parent_beacon_block_root a) = 8%nat /\
  length (block_bloom a) = 64%nat.
Definition bh_wf (a : hashes) : Prop :=
  length (prev_hashes a) = 2048%nat /\ length (cur_hash a) = 8%nat.
Definition ed_wf (a : extra) : Prop :=
  length (checkpoint_state_trie_root a) = 8%nat /\
  length (checkpoint_consolidated_hash a) = 4%nat.
Definition rd_wf (a : registers) : Prop := length (stack_top a) = 8%nat.

Record pv_wf (cdk : bool) (a : pv) : Prop := {
  wf_trb : tr_wf (trie_roots_before a);
  wf_tra : tr_wf (trie_roots_after a);
  wf_ba : length (burn_addr a) = BA_SIZE cdk;
  wf_md : md_wf (block_metadata a);
  wf_bh : bh_wf (block_hashes a);
  wf_ed : ed_wf (extra_block_data a);
  wf_rb : rd_wf (registers_before a);
  wf_ra : rd_wf (registers_after a);
  wf_mb : length (mem_before a) = MC_SIZE;
  wf_ma : length (mem_after a) = MC_SIZE }.

Lemma trie_roots_of_wf : forall l, length l = TR_SIZE -> tr_wf (trie_roots_of l).
Proof. intros l L. unfold TR_SIZE in L. unfold tr_wf, trie_roots_of. cbn [state_root transactions_root receipts_root].
  repeat split; apply slice_length; lia. Qed.

Lemma metadata_of_wf : forall l, length l = MD_SIZE -> md_wf (metadata_of l).
Proof. intros l L. unfold MD_SIZE in L. unfold md_wf, metadata_of.
  cbn [block_beneficiary block_random block_base_fee block_blob_gas_used block_excess_blob_gas
       parent_beacon_block_root block_bloom].
  repeat split; apply slice_length; lia. Qed.

Lemma hashes_of_wf : forall l, length l = BH_SIZE -> bh_wf (hashes_of l).
Proof. intros l L. unfold BH_SIZE in L. unfold bh_wf, hashes_of. cbn [prev_hashes cur_hash].
  split; apply slice_length; lia. Qed.

Lemma extra_of_wf : forall l, length l = ED_SIZE -> ed_wf (extra_of l).
Proof. intros l L. unfold ED_SIZE in L. unfold ed_wf, extra_of.
  cbn [checkpoint_state_trie_root checkpoint_consolidated_hash].
  split; apply slice_length; lia. Qed.

Lemma registers_of_wf : forall l, length l = RD_SIZE -> rd_wf (registers_of l).
Proof. intros l L. unfold RD_SIZE in L. unfold rd_wf, registers_of. cbn [stack_top].
  apply slice_length; lia. Qed.

Lemma pv_of_wf : forall cdk l, length l = PV_SIZE cdk -> pv_wf cdk (pv_of cdk l).
Proof.
  intros cdk l L. unfold PV_SIZE in L.
  constructor; unfold pv_of;
    cbn [trie_roots_before trie_roots_after burn_addr block_metadata block_hashes
         extra_block_data registers_before registers_after mem_before mem_after].
  - apply trie_roots_of_wf, slice_length; lia.
  - apply trie_roots_of_wf, slice_length; lia.
  - apply slice_length; lia.
  - apply metadata_of_wf, slice_length; lia.
  - apply hashes_of_wf, slice_length; lia.
  - apply extra_of_wf, slice_length; lia.
  - apply registers_of_wf, slice_length; lia.
  - apply registers_of_wf, slice_length; lia.
  - apply slice_length; lia.
  - apply slice_length; lia.
Qed.

Lemma pub_wf : forall cdk i, shaped (PV_SIZE cdk) i -> pv_wf cdk (pub cdk i).
Proof. intros cdk i [L _]. apply pv_of_wf. exact L. Qed.

(** ** Selecting and connecting *)

Ltac split_and :=
  repeat match goal with
  | E : (_ && _) = true |- _ => apply andb_prop in E; destruct E
  | E : conn _ _ = true |- _ => apply conn_eq in E
  | E : ceq true _ _ = true |- _ => apply conn_eq in E
  | E : _ /\ _ |- _ => destruct E
  end.

Lemma tr_select_if : forall c a b, tr_wf a -> tr_wf b -> tr_select c a b = if c then a else b.
Proof.
  intros c [a1 a2 a3] [b1 b2 b3] A B. unfold tr_wf in A, B.
  cbn [state_root transactions_root receipts_root] in A, B. split_and.
  unfold tr_select. cbn [state_root transactions_root receipts_root].
  rewrite !sel_arr_if by assumption. destruct c; reflexivity.
Qed.

Lemma md_select_if : forall c a b, md_wf a -> md_wf b -> md_select c a b = if c then a else b.
Proof.
  intros c a b A B. unfold md_wf in A, B. split_and.
  unfold md_select. rewrite !sel_arr_if by assumption. unfold sel.
  destruct c; [destruct a | destruct b]; reflexivity.
Qed.

Lemma bh_select_if : forall c a b, bh_wf a -> bh_wf b -> bh_select c a b = if c then a else b.
Proof.
  intros c a b A B. unfold bh_wf in A, B. split_and.
  unfold bh_select. rewrite !sel_arr_if by assumption.
  destruct c; [destruct a | destruct b]; reflexivity.
Qed.

Lemma ed_select_if : forall c a b, ed_wf a -> ed_wf b -> ed_select c a b = if c then a else b.
Proof.
  intros c a b A B. unfold ed_wf in A, B. split_and.
  unfold ed_select. rewrite !sel_arr_if by assumption. unfold sel.
  destruct c; [destruct a | destruct b]; reflexivity.
Qed.

Lemma rd_select_if : forall c a b, rd_wf a -> rd_wf b -> rd_select c a b = if c then a else b.
Proof.
  intros c a b A B. unfold rd_wf in A, B.
  unfold rd_select. rewrite !sel_arr_if by assumption. unfold sel.
  destruct c; [destruct a | destruct b]; reflexivity.
Qed.

Lemma pv_select_if : forall cdk c a b, pv_wf cdk a -> pv_wf cdk b ->
  pv_select cdk c a b = if c then a else b.
Proof.
  intros cdk c a b [A1 A2 A3 A4 A5 A6 A7 A8 A9 A10] [B1 B2 B3 B4 B5 B6 B7 B8 B9 B10].
  unfold pv_select, ba_select, mc_select.
  rewrite !tr_select_if, md_select_if, bh_select_if, ed_select_if, !rd_select_if, !sel_arr_if
    by assumption.
  destruct c; [destruct a | destruct b]; reflexivity.
Qed.

Lemma tr_connect_eq : forall a b, tr_wf a -> tr_wf b -> tr_connect a b = true -> a = b.
Proof.
  intros [a1 a2 a3] [b1 b2 b3] A B E. unfold tr_wf, tr_connect in *.
  cbn [state_root transactions_root receipts_root] in *. split_and.
  f_equal; eapply conn_arr_eq; eassumption.
Qed.

Lemma md_connect_eq : forall a b, md_wf a -> md_wf b -> md_connect a b = true -> a = b.
Proof.
  intros a b A B E. unfold md_wf, md_connect in *. split_and.
  destruct a as [x0 x1 x2 x3 x4 x5 x6 x7 x8 x9 x10 x11 x12], b as [y0 y1 y2 y3 y4 y5 y6 y7 y8 y9 y10 y11 y12].
  cbn [block_beneficiary block_timestamp block_number block_difficulty block_random block_gaslimit
       block_chain_id block_base_fee block_gas_used block_blob_gas_used block_excess_blob_gas
       parent_beacon_block_root block_bloom] in *.
  f_equal; try assumption; eapply conn_arr_eq; eassumption.
Qed.

Lemma md_cond_core : forall a b, md_wf a -> md_wf b -> md_cond true a b = true ->
  meta_core a = meta_core b.
Proof.
  intros a b A B E. unfold md_wf, md_cond in *. split_and.
  unfold meta_core. repeat match goal with |- (_, _) = (_, _) => apply f_equal2 end;
    try assumption; eapply conn_arr_eq; eassumption.
Qed.

Lemma bh_connect_eq : forall a b, bh_wf a -> bh_wf b -> bh_connect a b = true -> a = b.
Proof.
  intros [a1 a2] [b1 b2] A B E. unfold bh_wf, bh_connect in *. cbn [prev_hashes cur_hash] in *.
  split_and. f_equal; eapply conn_arr_eq; eassumption.
Qed.

Lemma ed_connect_eq : forall a b, ed_wf a -> ed_wf b -> ed_connect a b = true -> a = b.
Proof.
  intros a b A B E. unfold ed_wf, ed_connect in *. split_and. destruct a as [x0 x1 x2 x3 x4 x5], b as [y0 y1 y2 y3 y4 y5].
  cbn [checkpoint_state_trie_root checkpoint_consolidated_hash txn_number_before txn_number_after
       gas_used_before gas_used_after] in *.
  f_equal; try assumption; eapply conn_arr_eq; eassumption.
Qed.

Lemma rd_connect_eq : forall a b, rd_wf a -> rd_wf b -> rd_connect a b = true -> a = b.
Proof.
  intros a b A B E. unfold rd_wf, rd_connect in *. split_and. destruct a as [x0 x1 x2 x3 x4 x5], b as [y0 y1 y2 y3 y4 y5].
  cbn [program_counter is_kernel stack_len stack_top context gas_used] in *.
  f_equal; try assumption; eapply conn_arr_eq; eassumption.
Qed.

(** What the segment aggregation circuit says, as equalities. *)
Lemma segment_agg_facts : forall cdk p l r la d,
  pv_wf cdk p -> pv_wf cdk l -> pv_wf cdk r ->
  segment_agg_gates cdk p l r la d = true ->
  trie_roots_before p = trie_roots_before l /\
  trie_roots_after p = trie_roots_after l /\
  block_metadata p = block_metadata l /\
  block_hashes p = block_hashes l /\
  extra_block_data p = extra_block_data l /\
  registers_before p = registers_before l /\
  mem_before p = mem_before l /\
  (if d
   then la = false /\ registers_after p = registers_after l /\ mem_after p = mem_after l
   else same_batch p r /\ resumes l r /\
        registers_after p = registers_after r /\ mem_after p = mem_after r).
Proof.
  intros cdk p l r la d [A1 A2 A3 A4 A5 A6 A7 A8 A9 A10] [B1 B2 B3 B4 B5 B6 B7 B8 B9 B10]
    [C1 C2 C3 C4 C5 C6 C7 C8 C9 C10] E.
  unfold segment_agg_gates, mc_connect in E.
  repeat match goal with E : (_ && _) = true |- _ => apply andb_prop in E; destruct E end.
  assert (X1 : trie_roots_before p = trie_roots_before l) by (apply tr_connect_eq; assumption).
  assert (X2 : trie_roots_after p = trie_roots_after l) by (apply tr_connect_eq; assumption).
  assert (X3 : block_metadata p = block_metadata l) by (apply md_connect_eq; assumption).
  assert (X4 : block_hashes p = block_hashes l) by (apply bh_connect_eq; assumption).
  assert (X5 : extra_block_data p = extra_block_data l) by (apply ed_connect_eq; assumption).
  assert (X6 : registers_before p = registers_before l) by (apply rd_connect_eq; assumption).
  assert (X7 : mem_before p = mem_before l) by (eapply conn_arr_eq; eassumption).
  do 7 (split; [assumption|]).
  destruct d; cbn [negb] in *.
  - split; [destruct la; [discriminate | reflexivity]|].
    split; [apply rd_connect_eq; assumption | eapply conn_arr_eq; eassumption].
  - split; [|split].
    + repeat split; [apply tr_connect_eq | apply tr_connect_eq | apply bh_connect_eq
        | apply ed_connect_eq | apply md_cond_core]; assumption.
    + split; [apply rd_connect_eq; assumption | eapply conn_arr_eq; eassumption].
    + split; [apply rd_connect_eq; assumption | eapply conn_arr_eq; eassumption].
Qed.

(** What the batch aggregation circuit says. *)
Lemma batch_agg_facts : forall cdk main halt cap p l r,
  pv_wf cdk p -> pv_wf cdk l -> pv_wf cdk r -> length cap = MC_SIZE ->
  batch_agg_gates cdk main halt cap p l r = true ->
  block_hashes p = block_hashes r /\ block_hashes p = block_hashes l /\
  block_metadata p = block_metadata r /\ block_metadata p = block_metadata l /\
  trie_roots_after p = trie_roots_after r /\
  trie_roots_after l = trie_roots_before r /\
  trie_roots_before p = trie_roots_before l /\
  (let e := extra_block_data p in let a := extra_block_data l in let b := extra_block_data r in
   checkpoint_state_trie_root e = checkpoint_state_trie_root b /\
   checkpoint_state_trie_root e = checkpoint_state_trie_root a /\
   txn_number_before e = txn_number_before a /\ txn_number_after e = txn_number_after b /\
   txn_number_after a = txn_number_before b /\
   gas_used_before e = gas_used_before a /\ gas_used_after e = gas_used_after b /\
   gas_used_after a = gas_used_before b) /\
  (starts main cap l /\ stops halt l) /\ (starts main cap r /\ stops halt r).
Proof.
  intros cdk main halt cap p l r [A1 A2 A3 A4 A5 A6 A7 A8 A9 A10] [B1 B2 B3 B4 B5 B6 B7 B8 B9 B10]
    [C1 C2 C3 C4 C5 C6 C7 C8 C9 C10] K E.
  unfold batch_agg_gates, check_init_merkle_cap, mc_connect, connect_extra_public_values,
    connect_initial_final_segment in E.
  repeat match goal with
  | E : (_ && _) = true |- _ => apply andb_prop in E; destruct E
  | E : conn _ _ = true |- _ => apply conn_eq in E end.
  split; [apply bh_connect_eq; assumption|].
  split; [apply bh_connect_eq; assumption|].
  split; [apply md_connect_eq; assumption|].
  split; [apply md_connect_eq; assumption|].
  split; [apply tr_connect_eq; assumption|].
  split; [apply tr_connect_eq; assumption|].
  split; [apply tr_connect_eq; assumption|].
  split.
  { destruct A6 as [A6 _], B6 as [B6 _], C6 as [C6 _].
    cbv zeta. repeat split; try assumption; eapply conn_arr_eq; eassumption. }
  split; (split; [unfold starts | unfold stops]; repeat split; try assumption;
                  eapply conn_arr_eq; eassumption).
Qed.

Lemma at_slice : forall j o n l, (j < n)%nat -> at_ j (slice o n l) = at_ (o + j) l.
Proof.
  intros j o n l L. unfold at_, slice.
  assert (X : forall (n j : nat) (l : list Z), (j < n)%nat -> nth j (firstn n l) 0 = nth j l 0).
  { clear. induction n; intros j l L; [lia|]. destruct l; [destruct j; reflexivity|].
    destruct j; [reflexivity|]. cbn [firstn nth]. apply IHn. lia. }
  rewrite X by assumption. clear. revert l. induction o; intro l; [reflexivity|].
  destruct l; [destruct j; reflexivity|]. cbn [skipn Nat.add nth]. apply IHo.
Qed.

(** What [connect_block_proof] and its neighbours say about a block [r] with the
    parent [l]. *)
Lemma block_facts : forall cdk H et hp p l r,
  pv_wf cdk p -> pv_wf cdk l -> pv_wf cdk r -> length et = 8%nat ->
  (forall x, length (H x) = 4%nat) ->
  0 <= block_number (block_metadata r) < P ->
  0 <= block_timestamp (block_metadata r) < P ->
  block_gates cdk H et hp p l r = true ->
  trie_roots_before p = trie_roots_before l /\
  trie_roots_after p = trie_roots_after r /\
  block_metadata p = block_metadata r /\
  block_hashes p = block_hashes r /\
  extra_block_data p = extra_block_data r /\
  (txn_number_before (extra_block_data r) = 0 /\
   gas_used_before (extra_block_data r) = 0 /\
   transactions_root (trie_roots_before r) = et /\
   receipts_root (trie_roots_before r) = et) /\
  gas_used_after (extra_block_data r) = block_gas_used (block_metadata r) /\
  next_block l r /\
  (hp = false ->
   state_root (trie_roots_before r) = checkpoint_state_trie_root (extra_block_data r) /\
   checkpoint_consolidated_hash (extra_block_data r) = H (prev_hashes (block_hashes r))).
Proof.
  intros cdk H et hp p l r [A1 A2 A3 A4 A5 A6 A7 A8 A9 A10] [B1 B2 B3 B4 B5 B6 B7 B8 B9 B10]
    [C1 C2 C3 C4 C5 C6 C7 C8 C9 C10] Let LH RN RT E.
  unfold block_gates, connect_block_proof, connect_initial_values_block,
    connect_final_block_values, connect_checkpoint_block, connect_block_hashes,
    check_block_timestamp, range_check32 in E.
  repeat match goal with
  | E : (_ && _) = true |- _ => apply andb_prop in E; destruct E
  | E : conn _ _ = true |- _ => apply conn_eq in E end.
  split; [apply tr_connect_eq; assumption|].
  split; [apply tr_connect_eq; assumption|].
  split; [apply md_connect_eq; assumption|].
  split; [apply bh_connect_eq; assumption|].
  split; [apply ed_connect_eq; assumption|].
  destruct B1 as (B11 & B12 & B13), B2 as (B21 & B22 & B23), C1 as (C11 & C12 & C13),
    C2 as (C21 & C22 & C23), B6 as (B61 & B62), C6 as (C61 & C62), B5 as (B51 & B52),
    C5 as (C51 & C52).
  split; [repeat split; try assumption; eapply conn_arr_eq; eassumption|].
  split; [congruence|].
  split.
  - unfold next_block. split; [eapply conn_arr_eq; eassumption|].
    split.
    { match goal with E : block_number (block_metadata l) = fsub _ 1 |- _ => rewrite E end.
      unfold fsub. rewrite Zplus_mod_idemp_l.
      replace (block_number (block_metadata r) - 1 + 1) with (block_number (block_metadata r)) by ring.
      rewrite Z.mod_small; [reflexivity | assumption]. }
    split.
    { exists (fsub (block_timestamp (block_metadata r)) (block_timestamp (block_metadata l))).
      split.
      - split; [unfold fsub; apply Z.mod_pos_bound; unfold P; lia|]. apply Z.ltb_lt. assumption.
      - unfold fsub. rewrite Zplus_mod_idemp_r.
        replace (block_timestamp (block_metadata l) +
                 (block_timestamp (block_metadata r) - block_timestamp (block_metadata l)))
          with (block_timestamp (block_metadata r)) by ring.
        symmetry. apply Z.mod_small. assumption. }
    split; [|split].
    + intros i Li. unfold prev_hash.
      apply nth_ext with (d := 0) (d' := 0).
      * rewrite !slice_length; [reflexivity | lia | lia].
      * intros j Lj. rewrite slice_length in Lj by lia.
        fold (at_ j (slice (8 * i) 8 (prev_hashes (block_hashes r)))).
        fold (at_ j (slice (8 * S i) 8 (prev_hashes (block_hashes l)))).
        rewrite !at_slice by lia.
        match goal with E : forallb _ (seq 0 255) = true |- _ => rewrite forallb_forall in E;
          specialize (E i); cbv beta in E; rewrite forallb_forall in E;
          assert (In i (seq 0 255)) as Ii by (apply in_seq; lia);
          specialize (E Ii j); assert (In j (seq 0 8)) as Ij by (apply in_seq; lia);
          specialize (E Ij) end.
        match goal with E : conn _ _ = true |- _ => apply conn_eq in E; rewrite <- E end.
        f_equal. lia.
    + unfold prev_hash.
      apply nth_ext with (d := 0) (d' := 0).
      * rewrite slice_length by lia. symmetry; assumption.
      * intros j Lj. rewrite slice_length in Lj by lia.
        match goal with E : forallb _ (seq 0 8) = true |- _ => rewrite forallb_forall in E;
          specialize (E j); cbv beta in E;
          assert (In j (seq 0 8)) as Ij by (apply in_seq; lia);
          specialize (E Ij) end.
        match goal with E : conn _ _ = true |- _ => apply conn_eq in E end.
        symmetry. assumption.
    + eapply conn_arr_eq; eassumption.
  - intros ->. cbn [negb] in *. rewrite ceq_arr_true in *.
    split; (eapply conn_arr_eq; [eassumption | assumption | first [assumption | apply LH]]).
Qed.

(** ** Lists *)

Lemma first_app : forall A (l r : list A) x, first l = Some x -> first (l ++ r) = Some x.
Proof. intros A [|a l] r x E; [discriminate | exact E]. Qed.

Lemma final_app : forall A (l r : list A) x, final r = Some x -> final (l ++ r) = Some x.
Proof. intros A l r x E. unfold final in *. rewrite rev_app_distr. apply first_app. exact E. Qed.

Lemma final_snoc : forall A (l : list A) x, final (l ++ [x]) = Some x.
Proof. intros A l x. unfold final. rewrite rev_app_distr. reflexivity. Qed.

Lemma final_cons : forall A (a : A) l, l <> [] -> final (a :: l) = final l.
Proof.
  intros A a l N. unfold final. cbn [rev].
  destruct (rev l) eqn:X; [|reflexivity].
  exfalso. apply N. rewrite <- (rev_involutive l), X. reflexivity.
Qed.

Lemma linked_app : forall A (R : A -> A -> Prop) l r x y,
  linked R l -> linked R r -> final l = Some x -> first r = Some y -> R x y ->
  linked R (l ++ r).
Proof.
  intros A R l r x y. induction l as [|a l IH]; intros Ll Lr F G K; [exact Lr|].
  destruct l as [|b l].
  - destruct r as [|c r]; [discriminate|]. cbn in F, G. injection F as <-. injection G as <-.
    cbn [app linked]. split; assumption.
  - destruct Ll as [K1 K2]. cbn [app linked]. split; [exact K1|].
    apply IH; try assumption. rewrite <- F. symmetry. apply final_cons. discriminate.
Qed.
