(** Properties of the trace decoder's batching (trace_decoder/src/core.rs):
    C34 batches partition the transactions, C35 the batches chain, C53 the
    result does not depend on the batch size, C54 the masks cover what the
    block touches, C55 the pre-execution hook runs once. *)
From Coq Require Import ZArith List Bool Arith Lia.
From Verif Require Import Trace.BatchModel.
Import ListNotations.

(** * C34 *)

Lemma chunks_aux_concat : forall {A} fuel hint (l : list A), 1 <= hint -> length l <= fuel -> concat (chunks_aux fuel hint l) = l.
Proof.
  induction fuel; intros hint l Hh Hl; destruct l; cbn [length] in *; try lia; try reflexivity.
  cbn [chunks_aux concat]. rewrite IHfuel; [ apply firstn_skipn | exact Hh | rewrite skipn_length; cbn [length]; lia ].
Qed.
Lemma chunks_concat : forall {A} hint (l : list A), 1 <= hint -> concat (chunks hint l) = l.
Proof. intros. apply chunks_aux_concat; auto. Qed.

Lemma chunks_aux_sizes : forall {A} fuel hint (l : list A), 1 <= hint -> Forall (fun b => b <> [] /\ length b <= hint) (chunks_aux fuel hint l).
Proof.
  induction fuel; intros hint l Hh; destruct l; cbn [chunks_aux]; constructor; auto.
  split; [ destruct hint; [ lia | discriminate ] | rewrite firstn_length; lia ].
Qed.
Lemma chunks_aux_full : forall {A} fuel hint (l : list A) i b, 1 <= hint -> nth_error (chunks_aux fuel hint l) i = Some b -> S i < length (chunks_aux fuel hint l) -> length b = hint.
Proof.
  induction fuel; intros hint l i b Hh Hi Hl; destruct l; cbn [chunks_aux length] in *; try lia.
  destruct i; cbn [nth_error] in Hi.
  - assert (E : b = firstn hint (a :: l)) by congruence. subst b. rewrite firstn_length.
    destruct (le_lt_dec hint (length (a :: l))); [ lia | ].
    rewrite (skipn_all2 (a :: l)) in Hl by lia. destruct fuel; cbn in Hl; lia.
  - eapply IHfuel; eauto. lia.
Qed.
Lemma chunks_aux_count : forall {A} fuel hint (l : list A), 1 <= hint -> length (chunks_aux fuel hint l) < 2 -> length l <= fuel -> length l <= hint.
Proof.
  intros A fuel hint l Hh Hc Hl. destruct fuel; [ lia | ]. destruct l; [ cbn; lia | ].
  cbn [chunks_aux length] in Hc. destruct (le_lt_dec (length (a :: l)) hint); [ auto | ].
  assert (E : skipn hint (a :: l) <> []).
  { intros C. apply (f_equal (@length A)) in C. rewrite skipn_length in C. cbn [length] in C, l0. lia. }
  destruct fuel; [ cbn [length] in *; lia | ]. destruct (skipn hint (a :: l)); [ congruence | ]. cbn in Hc. lia.
Qed.

(** Concatenating the batches gives the transactions in order, followed by the
    dummies needed to have two; there are two batches at least, none is empty
    or longer than the hint; when the hint is smaller than the number of
    transactions only the last batch may be shorter than the hint. *)
Theorem C34_batch : forall txns hint,
  let bs := batch txns hint in
  let h := Nat.max hint 1 in
  concat bs = map Some txns ++ repeat None (2 - length txns) /\
  2 <= length bs /\
  Forall (fun b => b <> [] /\ length b <= h) bs /\
  (h < length txns -> forall i b, nth_error bs i = Some b -> S i < length bs -> length b = h).
Proof.
  intros txns hint bs h. subst bs. unfold batch. cbv zeta. fold h. assert (Hh : 1 <= h) by lia.
  rewrite map_length. set (l := map Some txns).
  assert (El : length l = length txns) by (apply map_length).
  destruct (2 <=? length (chunks h l)) eqn:E1.
  - apply Nat.leb_le in E1.
    assert (H2 : 2 <= length txns).
    { destruct txns as [ | t [ | t' r ] ]; [ cbn in E1; lia | | cbn [length]; lia ].
      unfold chunks in E1. cbn in E1. destruct h; cbn in E1; lia. }
    repeat split.
    + rewrite chunks_concat by lia. replace (2 - length txns) with 0 by lia. cbn [repeat]. rewrite app_nil_r. reflexivity.
    + exact E1.
    + apply chunks_aux_sizes. lia.
    + intros _ i b Hi Hl. eapply chunks_aux_full; eauto.
  - apply Nat.leb_gt in E1. pose proof (chunks_aux_count _ _ _ Hh E1 (le_n _)) as Hle.
    destruct (2 <=? length txns) eqn:E2.
    + apply Nat.leb_le in E2.
      assert (Hd : 1 <= length txns / 2 /\ length txns / 2 < length txns).
      { split; [ apply (Nat.div_le_mono 2 (length txns) 2); lia | apply Nat.div_lt; lia ]. }
      assert (Hf : length (firstn (length txns / 2) l) = length txns / 2) by (rewrite firstn_length; lia).
      assert (Hs : length (skipn (length txns / 2) l) = length txns - length txns / 2) by (rewrite skipn_length; lia).
      repeat split.
      * cbn [concat]. rewrite app_nil_r, firstn_skipn. replace (2 - length txns) with 0 by lia. cbn [repeat]. rewrite app_nil_r. reflexivity.
      * cbn. lia.
      * repeat constructor; try (intros C; rewrite C in *; cbn in *; lia); lia.
      * intros C. rewrite El in Hle. lia.
    + apply Nat.leb_gt in E2. repeat split.
      * subst l. clear. set (k := map Some txns ++ repeat None (2 - length txns)). clearbody k. induction k; cbn; congruence.
      * rewrite map_length, app_length, repeat_length. lia.
      * apply Forall_forall. intros b Hb. apply in_map_iff in Hb. destruct Hb as (x & <- & _). cbn. split; [ discriminate | lia ].
      * intros C. lia.
Qed.
Print Assumptions C34_batch.

Definition sample (n : Z) : txn_info := {| i_traces := []; i_byte_code := [n]; i_receipt := [n]; i_gas_used := n |}.
Example C34_batch_example :
  map (map (option_map i_gas_used)) (batch (map sample [1; 2; 3; 4; 5]%Z) 2) = [[Some 1; Some 2]; [Some 3; Some 4]; [Some 5]]%Z /\
  map (map (option_map i_gas_used)) (batch (map sample [1; 2; 3]%Z) 9) = [[Some 1]; [Some 2; Some 3]]%Z /\
  map (map (option_map i_gas_used)) (batch (map sample [7]%Z) 9) = [[Some 7%Z]; [None]].
Proof. repeat split. Qed.

(** * The body of the loop *)

Lemma some_inj : forall {A} (x y : A), Some x = Some y -> x = y.
Proof. congruence. Qed.
Ltac inv_try :=
  repeat match goal with
  | H : Some _ = Some _ |- _ => apply some_inj in H
  | H : None = Some _ |- _ => discriminate
  | H : match ?r with Some _ => _ | None => None end = Some _ |- _ => destruct r eqn:?; [ | discriminate ]
  | H : match ?p with (_, _) => _ end = Some _ |- _ => destruct p
  end.

Section Body.
  Context {W Path Key T : Type}.
  Variable impl : world_impl W Path Key.
  Variable trie : index_trie T.
  Variable code_hash : bytes -> Z.
  Variable slot_key : Z -> Key.
  Variable map_receipt_bytes : bytes -> option bytes.
  Variable receipt_status : bytes -> option bool.
  Variable do_pre_execution : W -> option (list (Z * list Key) * list Path * W).
  Variable fatal_missing_code : bool.
  Notation st := (@st W Path Key T).
  Notation do_trace := (do_trace impl code_hash slot_key map_receipt_bytes receipt_status fatal_missing_code).
  Notation do_traces := (do_traces impl code_hash slot_key map_receipt_bytes receipt_status fatal_missing_code).
  Notation do_txn := (do_txn impl trie code_hash slot_key map_receipt_bytes receipt_status fatal_missing_code).
  Notation do_txns := (do_txns impl trie code_hash slot_key map_receipt_bytes receipt_status fatal_missing_code).
  Notation use_code := (use_code impl code_hash fatal_missing_code).
  Notation middle_loop := (middle_loop impl trie code_hash slot_key map_receipt_bytes receipt_status do_pre_execution fatal_missing_code).

  (** [k] is among the keys kept of the storage of [a]. *)
  Definition covers (masks : list (Z * list Key)) (a : Z) (k : Key) : Prop := exists ks, In (a, ks) masks /\ In k ks.

  Lemma covers_mono : forall masks b ks a k, covers masks a k -> covers (extend_mask masks b ks) a k.
  Proof.
    induction masks as [ | (a', ks') masks IH ]; intros b ks a k (l & Hl & Hk); [ destruct Hl | ].
    cbn [extend_mask]. destruct (Z.eqb a' b) eqn:E.
    - destruct Hl as [ Hl | Hl ].
      + assert (a' = a /\ ks' = l) as [ -> -> ] by (split; congruence). exists (l ++ ks). split; [ left; reflexivity | apply in_or_app; auto ].
      + exists l. split; [ right; exact Hl | exact Hk ].
    - destruct Hl as [ Hl | Hl ].
      + exists l. split; [ left; exact Hl | exact Hk ].
      + destruct (IH b ks a k) as (l' & H1 & H2); [ exists l; auto | ]. exists l'. split; [ right; exact H1 | exact H2 ].
  Qed.
  Lemma covers_new : forall masks a ks k, In k ks -> covers (extend_mask masks a ks) a k.
  Proof.
    induction masks as [ | (a', ks') masks IH ]; intros a ks k Hk; cbn [extend_mask].
    - exists ks. split; [ left; reflexivity | exact Hk ].
    - destruct (Z.eqb a' a) eqn:E.
      + apply Z.eqb_eq in E. subst a'. exists (ks' ++ ks). split; [ left; reflexivity | apply in_or_app; auto ].
      + destruct (IH a ks k Hk) as (l & H1 & H2). exists l. split; [ right; exact H1 | exact H2 ].
  Qed.

  (** What no account of a transaction changes, and what only grows. *)
  Record kept (s s' : st) : Prop := {
    k_txns : s_txns s' = s_txns s; k_receipts : s_receipts s' = s_receipts s; k_ix : s_ix s' = s_ix s; k_gas : b_gas s' = b_gas s;
    k_byte_code : b_byte_code s' = b_byte_code s }.
  Record grown (s s' : st) : Prop := {
    g_state : forall p, In p (b_state_mask s) -> In p (b_state_mask s'); g_storage : forall a k, covers (b_storage_masks s) a k -> covers (b_storage_masks s') a k;
    g_contract : forall c, In c (b_contract_code s) -> In c (b_contract_code s') }.
  Lemma kept_refl : forall s, kept s s. Proof. intros; split; reflexivity. Qed.
  Lemma kept_trans : forall s1 s2 s3, kept s1 s2 -> kept s2 s3 -> kept s1 s3.
  Proof. intros s1 s2 s3 [] []. split; congruence. Qed.
  Lemma grown_refl : forall s, grown s s. Proof. intros; split; auto. Qed.
  Lemma grown_trans : forall s1 s2 s3, grown s1 s2 -> grown s2 s3 -> grown s1 s3.
  Proof. intros s1 s2 s3 [] []. split; auto. Qed.
  Definition evolves (s s' : st) : Prop := kept s s' /\ grown s s'.
  Lemma with_world_ok : forall s w, evolves s (with_world s w).
  Proof. intros. split; split; cbn; auto. Qed.
  Lemma with_code_ok : forall s c, evolves s (with_code s c).
  Proof. intros. split; split; cbn; auto. Qed.
  Lemma with_contract_ok : forall s c, evolves s (with_contract s c).
  Proof. intros. split; split; cbn; auto. intros. apply in_or_app; auto. Qed.
  Lemma with_storage_mask_ok : forall s a ks, evolves s (with_storage_mask s a ks).
  Proof. intros. split; split; cbn; auto using covers_mono. Qed.
  Lemma with_state_mask_ok : forall s ps, evolves s (with_state_mask s ps).
  Proof. intros. split; split; cbn; auto. intros. apply in_or_app; auto. Qed.
  Lemma evolves_refl : forall s, evolves s s. Proof. intros; split; auto using kept_refl, grown_refl. Qed.
  Lemma evolves_trans : forall s1 s2 s3, evolves s1 s2 -> evolves s2 s3 -> evolves s1 s3.
  Proof. intros s1 s2 s3 [] []. split; eauto using kept_trans, grown_trans. Qed.
  Hint Resolve with_world_ok with_code_ok with_contract_ok with_storage_mask_ok with_state_mask_ok evolves_refl : ev.
  Ltac ev := repeat (first [ solve [ auto with ev ] | eapply evolves_trans; [ | apply with_world_ok || apply with_code_ok || apply with_contract_ok || apply with_storage_mask_ok || apply with_state_mask_ok ] ]).

  Lemma write_slots_evolves : forall addr l s s', write_slots impl addr l s = Some s' -> evolves s s'.
  Proof.
    induction l as [ | (k, v) l IH ]; intros s s' H; cbn [write_slots] in H; [ assert (s = s') by congruence; subst; ev | ].
    destruct (Z.eqb v 0); inv_try; subst; eapply evolves_trans; [ | eauto | | eauto ]; ev.
  Qed.
  Lemma use_code_evolves : forall addr u s s', use_code addr u s = Some s' -> evolves s s'.
  Proof.
    intros addr u s s' H. destruct u as [ [ h | c ] | ]; cbn [BatchModel.use_code] in H; [ | | inv_try; subst; ev ].
    - destruct fatal_missing_code, (s_code s h); inv_try; subst; ev.
    - inv_try; subst; ev.
  Qed.

  Lemma do_trace_evolves : forall r addr t s s', do_trace r addr t s = Some s' ->
    evolves s s' /\ In (path_of_address impl addr) (b_state_mask s') /\
    forall k, In k (map fst (t_storage_written t)) \/ In k (t_storage_read t) -> covers (b_storage_masks s') addr (slot_key k).
  Proof.
    intros r addr t s s' H. unfold BatchModel.do_trace in H. inv_try.
    assert (E1 : evolves s s0) by (match goal with E : (if negb ?c then _ else _) = Some s0 |- _ => destruct c end; cbn [negb] in *; inv_try; subst; ev).
    set (sm := with_storage_mask s0 addr (map slot_key (map fst (t_storage_written t) ++ t_storage_read t))) in *.
    assert (E2 : evolves s0 sm) by ev.
    assert (C1 : forall k, In k (map fst (t_storage_written t)) \/ In k (t_storage_read t) -> covers (b_storage_masks sm) addr (slot_key k)).
    { intros k Hk. apply covers_new. apply in_map. apply in_or_app. exact Hk. }
    clearbody sm.
    match goal with E : _ = Some s1 |- _ => rename E into H2 end.
    assert (E3 : evolves sm s1 /\ In (path_of_address impl addr) (b_state_mask s1)).
    { match type of H2 with (if ?c then _ else _) = _ => destruct c end.
      - inv_try. subst s1.
        assert (A1 : evolves sm s2) by (destruct (t_balance t); inv_try; subst; ev).
        assert (A2 : evolves s2 s3) by (destruct (t_nonce t); inv_try; subst; ev).
        split; [ | cbn; apply in_or_app; right; left; reflexivity ].
        eapply evolves_trans; [ | apply with_state_mask_ok ].
        match goal with E : use_code _ _ _ = Some _ |- _ => apply use_code_evolves in E end.
        match goal with E : write_slots _ _ _ _ = Some _ |- _ => apply write_slots_evolves in E end.
        eapply evolves_trans; [ exact A1 | ]. eapply evolves_trans; [ exact A2 | ]. eapply evolves_trans; eassumption.
      - inv_try. subst s1. split; [ ev | cbn; apply in_or_app; right; left; reflexivity ]. }
    destruct E3 as (E3 & P).
    assert (E4 : evolves s1 s').
    { destruct (t_self_destructed t); inv_try; subst; ev. }
    split; [ eauto using evolves_trans | split ].
    - apply E4. exact P.
    - intros k Hk. apply E4, E3. auto.
  Qed.

  Lemma do_traces_evolves : forall r l s s', do_traces r l s = Some s' ->
    evolves s s' /\
    forall addr t, In (addr, t) l ->
      In (path_of_address impl addr) (b_state_mask s') /\
      forall k, In k (map fst (t_storage_written t)) \/ In k (t_storage_read t) -> covers (b_storage_masks s') addr (slot_key k).
  Proof.
    induction l as [ | (addr, t) l IH ]; intros s s' H; cbn [BatchModel.do_traces] in H.
    - inv_try. subst. split; [ ev | intros ? ? [] ].
    - inv_try. destruct (do_trace_evolves _ _ _ _ _ Heqo) as (E & P & C). destruct (IH _ _ H) as (E' & A).
      split; [ eauto using evolves_trans | ]. intros addr' t' [ I | I ]; [ | auto ].
      assert (addr = addr' /\ t = t') as [ -> -> ] by (split; congruence).
      split; [ apply E'; exact P | intros k Hk; apply E'; auto ].
  Qed.

  (** Independent descriptions of a batch: its real transactions, how many,
      their gas, and the bytes of those that have some. *)
  Definition reals (b : list (option txn_info)) : list txn_info := flat_map (fun o => match o with Some i => [i] | None => [] end) b.
  Definition total_gas (l : list txn_info) : Z := fold_right Z.add 0%Z (map i_gas_used l).
  Definition signed (l : list txn_info) : list bytes := filter (fun c => match c with [] => false | _ => true end) (map i_byte_code l).

  Definition touched (l : list txn_info) (addr : Z) : Prop := exists i t, In i l /\ In (addr, t) (i_traces i).
  Definition touched_slot (l : list txn_info) (addr slot : Z) : Prop :=
    exists i t, In i l /\ In (addr, t) (i_traces i) /\ (In slot (map fst (t_storage_written t)) \/ In slot (t_storage_read t)).

  Lemma do_txn_props : forall o s s', do_txn o s = Some s' ->
    grown s s' /\ s_ix s' = s_ix s + length (reals [o]) /\ b_gas s' = (b_gas s + total_gas (reals [o]))%Z /\ b_byte_code s' = b_byte_code s ++ signed (reals [o]) /\
    (forall a, touched (reals [o]) a -> In (path_of_address impl a) (b_state_mask s')) /\
    (forall a k, touched_slot (reals [o]) a k -> covers (b_storage_masks s') a (slot_key k)).
  Proof.
    intros o s s' H. unfold BatchModel.do_txn in H. inv_try.
    set (i := match o with Some i => i | None => default_txn end) in *.
    assert (E1 : grown s s0 /\ s_ix s0 = s_ix s /\ b_gas s0 = b_gas s /\ b_byte_code s0 = b_byte_code s ++ signed [i]).
    { unfold signed. cbn [map filter]. destruct (i_byte_code i) eqn:Eb; inv_try; subst; cbn.
      - rewrite app_nil_r. repeat split; auto.
      - repeat split; auto. }
    destruct E1 as (G & I & Ga & B). unfold u64_add in Heqo1. destruct (Z.ltb _ _); [ | discriminate ]. apply some_inj in Heqo1.
    destruct (do_traces_evolves _ _ _ _ Heqo2) as (([K1 K2 K3 K4 K5] & [G1 G2 G3]) & Cov). cbn in K1, K2, K3, K4, K5, G1, G2, G3.
    subst s'. cbn [s_ix b_gas b_byte_code b_state_mask b_storage_masks].
    assert (R : forall x, In x (reals [o]) -> x = i).
    { intros x Hx. destruct o; cbn in Hx; [ | destruct Hx ]. destruct Hx as [ <- | [] ]. reflexivity. }
    split; [ | split; [ | split; [ | split; [ | split ] ] ] ].
    - destruct G. split; cbn; auto.
    - destruct o; cbn; lia.
    - rewrite K4, <- Heqo1, Ga. destruct o; cbn; subst i; cbn; ring.
    - rewrite K5, B. destruct o; [ reflexivity | subst i; reflexivity ].
    - intros a (x & t & Hx & Ht). apply R in Hx. subst x. apply (Cov _ _ Ht).
    - intros a k (x & t & Hx & Ht & Hk). apply R in Hx. subst x. apply (Cov _ _ Ht). exact Hk.
  Qed.

  Lemma reals_cons : forall o b, reals (o :: b) = reals [o] ++ reals b.
  Proof. intros. unfold reals. cbn [flat_map]. rewrite app_nil_r. reflexivity. Qed.
  Lemma reals_app : forall a b, reals (a ++ b) = reals a ++ reals b.
  Proof. intros. apply flat_map_app. Qed.
  Lemma total_gas_app : forall a b, total_gas (a ++ b) = (total_gas a + total_gas b)%Z.
  Proof. intros. unfold total_gas. rewrite map_app. induction (map i_gas_used a); cbn; [ reflexivity | rewrite IHl; ring ]. Qed.
  Lemma signed_app : forall a b, signed (a ++ b) = signed a ++ signed b.
  Proof. intros. unfold signed. rewrite map_app. apply filter_app. Qed.

  Lemma do_txns_props : forall b s s', do_txns b s = Some s' ->
    grown s s' /\ s_ix s' = s_ix s + length (reals b) /\ b_gas s' = (b_gas s + total_gas (reals b))%Z /\ b_byte_code s' = b_byte_code s ++ signed (reals b) /\
    (forall a, touched (reals b) a -> In (path_of_address impl a) (b_state_mask s')) /\
    (forall a k, touched_slot (reals b) a k -> covers (b_storage_masks s') a (slot_key k)).
  Proof.
    induction b as [ | o b IH ]; intros s s' H; cbn [BatchModel.do_txns] in H.
    - inv_try. subst. cbn. rewrite app_nil_r. split; [ apply grown_refl | ]. split; [ lia | ]. split; [ ring | ]. split; [ reflexivity | ].
      split; [ intros a (x & t & [] & _) | intros a k (x & t & [] & _) ].
    - inv_try. destruct (do_txn_props _ _ _ Heqo0) as (G1 & I1 & Ga1 & B1 & T1 & S1). destruct (IH _ _ H) as (G2 & I2 & Ga2 & B2 & T2 & S2).
      rewrite reals_cons, total_gas_app, signed_app, app_length.
      split; [ eauto using grown_trans | ]. split; [ lia | ]. split; [ rewrite Ga2, Ga1; ring | ]. split; [ rewrite B2, B1, app_assoc; reflexivity | ].
      split.
      + intros a (x & t & Hx & Ht). apply in_app_or in Hx. destruct Hx as [ Hx | Hx ]; [ apply G2, T1 | apply T2 ]; exists x, t; auto.
      + intros a k (x & t & Hx & Ht). apply in_app_or in Hx. destruct Hx as [ Hx | Hx ]; [ apply G2, S1 | apply S2 ]; exists x, t; auto.
  Qed.

  Lemma do_withdrawals_props : forall ws s s', do_withdrawals impl ws s = Some s' -> evolves s s' /\ forall a v, In (a, v) ws -> In (path_of_address impl a) (b_state_mask s').
  Proof.
    induction ws as [ | (a, v) ws IH ]; intros s s' H; cbn [do_withdrawals] in H.
    - inv_try. subst. split; [ ev | intros ? ? [] ].
    - inv_try. destruct (IH _ _ H) as (E & P). split.
      + eapply evolves_trans; [ | exact E ]. ev.
      + intros a' v' [ I | I ]; [ | eauto ]. assert (a = a') by congruence. subst a'. apply E. cbn. apply in_or_app. right. left. reflexivity.
  Qed.

  (** ** The loop *)

  (** One batch [b], from the block state [w, t, r] to [w', t', r']. *)
  Record step_ok (last : bool) (ws : list (Z * Z)) (n : nat) (w : W) (t r : T) (b : list (option txn_info)) (o : batch_out) (w' : W) (t' r' : T) : Prop := {
    so_first : o_first_txn_ix o = n; so_gas : o_gas_used o = total_gas (reals b); so_signed : o_byte_code o = signed (reals b);
    so_withdrawals : o_withdrawals o = if last then ws else []; so_roots : o_roots o = (root impl w', t_root trie t', t_root trie r');
    so_txns : t_mask trie t (seq n (length (reals b))) = Some (o_txns o); so_receipts : t_mask trie r (seq n (length (reals b))) = Some (o_receipts o);
    so_contract : In [] (o_contract_code o);
    so_world : exists paths masks wm, mask impl w paths = Some wm /\ mask_storage impl wm masks = Some (o_world o) /\
      (forall a, touched (reals b) a -> In (path_of_address impl a) paths) /\
      (forall a k, touched_slot (reals b) a k -> covers masks a (slot_key k)) /\
      (last = true -> forall a v, In (a, v) ws -> In (path_of_address impl a) paths) }.

  Arguments so_first {last ws n w t r b o w' t' r'}.
  Arguments so_gas {last ws n w t r b o w' t' r'}.
  Arguments so_signed {last ws n w t r b o w' t' r'}.
  Arguments so_withdrawals {last ws n w t r b o w' t' r'}.
  Arguments so_roots {last ws n w t r b o w' t' r'}.
  Arguments so_txns {last ws n w t r b o w' t' r'}.
  Arguments so_receipts {last ws n w t r b o w' t' r'}.
  Arguments so_contract {last ws n w t r b o w' t' r'}.
  Arguments so_world {last ws n w t r b o w' t' r'}.

  Inductive chained (ws : list (Z * Z)) : nat -> W -> T -> T -> list (list (option txn_info)) -> list (@batch_out W T) -> W -> T -> T -> Prop :=
  | chained_nil : forall n w t r, chained ws n w t r [] [] w t r
  | chained_cons : forall n w t r b bs o outs w' t' r' wf tf rf,
      step_ok (match bs with [] => true | _ => false end) ws n w t r b o w' t' r' ->
      chained ws (n + length (reals b)) w' t' r' bs outs wf tf rf ->
      chained ws n w t r (b :: bs) (o :: outs) wf tf rf.

  Lemma middle_chained : forall bs len ix ws w c t r n outs,
    Forall (fun b => b <> []) bs -> ix + length (concat bs) = len -> middle_loop bs len ix ws w c t r n = Some outs ->
    exists wf tf rf, chained ws n w t r bs outs wf tf rf.
  Proof.
    induction bs as [ | b bs IH ]; intros len ix ws w c t r n outs Hne Hlen H; cbn [BatchModel.middle_loop] in H.
    - inv_try. subst outs. exists w, t, r. constructor.
    - inversion Hne as [ | ? ? Hb Hbs ]; subst. inv_try. subst outs.
      set (last := ix + length b =? ix + length (concat (b :: bs))) in *.
      assert (El : last = match bs with [] => true | _ => false end).
      { subst last. cbn [concat]. rewrite app_length. destruct bs as [ | b' bs ].
        - cbn. rewrite Nat.add_0_r. apply Nat.eqb_refl.
        - apply Nat.eqb_neq. inversion Hbs; subst. destruct b'; [ congruence | ]. cbn [concat app length]. lia. }
      match goal with E : (if _ =? 0 then _ else _) = Some ?x |- _ => rename E into H0, x into sa end.
      assert (E0 : s_ix sa = n /\ b_gas sa = 0%Z /\ b_byte_code sa = [] /\ In [] (b_contract_code sa)).
      { destruct (n =? 0); inv_try; subst sa; cbn; auto. }
      destruct E0 as (I0 & G0 & B0 & C0).
      match goal with E : do_txns b sa = Some ?x |- _ => destruct (do_txns_props _ _ _ E) as (GR & I1 & G1 & B1 & T1 & S1); rename x into sb end.
      match goal with E : (if last then _ else _) = Some ?x |- _ => rename E into H2, x into sc end.
      assert (E2 : evolves sb sc /\ (last = true -> forall a v, In (a, v) ws -> In (path_of_address impl a) (b_state_mask sc))).
      { destruct last.
        - destruct (do_withdrawals_props _ _ _ H2) as (E & P). split; eauto.
        - inv_try. subst sc. split; [ apply evolves_refl | discriminate ]. }
      destruct E2 as (([K1 K2 K3 K4 K5] & [R1 R2 R3]) & P2).
      assert (Ix : s_ix sc - n = length (reals b)) by lia.
      rewrite Ix in *.
      match goal with E : BatchModel.middle_loop _ _ _ _ _ _ _ _ _ _ _ _ _ _ _ _ _ = Some _ |- _ => rename E into HL end.
      apply IH in HL; [ | exact Hbs | cbn [concat]; rewrite app_length; lia ].
      destruct HL as (wf & tf & rf & HL). exists wf, tf, rf.
      eapply chained_cons.
      2:{ replace (n + length (reals b)) with (s_ix sc) by lia.
          destruct bs; [ inversion HL; subst; constructor | ]. rewrite El in HL. exact HL. }
      rewrite <- El. split; cbn; auto.
      + rewrite K4, G1, G0. ring.
      + rewrite K5, B1, B0. reflexivity.
      + apply R3, GR, C0.
      + eexists _, _, _. split; [ eassumption | ]. split; [ eassumption | ]. auto 6.
  Qed.

  (** ** The accumulators of the batch do not influence the block state *)

  Definition same (s1 s2 : st) : Prop :=
    s_world s1 = s_world s2 /\ s_code s1 = s_code s2 /\ s_txns s1 = s_txns s2 /\ s_receipts s1 = s_receipts s2 /\ s_ix s1 = s_ix s2.
  Lemma same_refl : forall s, same s s. Proof. intros; repeat split. Qed.
  Lemma same_sym : forall s1 s2, same s1 s2 -> same s2 s1. Proof. intros s1 s2 (? & ? & ? & ? & ?). repeat split; congruence. Qed.
  Lemma same_trans : forall s1 s2 s3, same s1 s2 -> same s2 s3 -> same s1 s3.
  Proof. intros s1 s2 s3 (? & ? & ? & ? & ?) (? & ? & ? & ? & ?). repeat split; congruence. Qed.
  Ltac same := repeat split; cbn; congruence.

  Lemma write_slots_same : forall addr l s1 s2 s1', same s1 s2 -> write_slots impl addr l s1 = Some s1' -> exists s2', write_slots impl addr l s2 = Some s2' /\ same s1' s2'.
  Proof.
    induction l as [ | (k, v) l IH ]; intros s1 s2 s1' S H; cbn [write_slots] in *.
    - inv_try. subst. eauto.
    - pose proof S as (Ew & Ec & Et & Er & Ei). rewrite <- Ew.
      destruct (Z.eqb v 0); inv_try; (eapply IH; [ | eassumption ]); subst; same.
  Qed.
  Lemma use_code_same : forall addr u s1 s2 s1', same s1 s2 -> use_code addr u s1 = Some s1' -> exists s2', use_code addr u s2 = Some s2' /\ same s1' s2'.
  Proof.
    intros addr u s1 s2 s1' S H. pose proof S as (Ew & Ec & Et & Er & Ei).
    destruct u as [ [ h | c ] | ]; cbn [BatchModel.use_code] in *; cbn [s_world with_code] in *; rewrite <- ?Ew, <- ?Ec.
    - destruct fatal_missing_code, (s_code s1 h); inv_try; subst; (eexists; split; [ reflexivity | same ]).
    - inv_try; subst; (eexists; split; [ reflexivity | same ]).
    - inv_try. subst. eauto.
  Qed.
  Lemma do_trace_same : forall r addr t s1 s2 s1', same s1 s2 -> do_trace r addr t s1 = Some s1' -> exists s2', do_trace r addr t s2 = Some s2' /\ same s1' s2'.
  Proof.
    intros r addr t s1 s2 s1' S H. pose proof S as (Ew & Ec & Et & Er & Ei). unfold BatchModel.do_trace in *.
    destruct (map_receipt_bytes r) as [ rb | ]; [ | discriminate ]. destruct (receipt_status rb) as [ status | ]; [ | discriminate ].
    rewrite <- Ew. destruct (contains impl (s_world s1) addr) as [ known | ]; [ | discriminate ].
    destruct (if negb known then _ else _) as [ s1a | ] eqn:E1 in H; [ | discriminate ].
    assert (A : exists s2a, (if negb known then try w <- create_storage impl (s_world s1) addr; Some (with_world s2 w) else Some s2) = Some s2a /\ same s1a s2a).
    { destruct known; cbn [negb] in *; inv_try; subst; eexists; (split; [ reflexivity | ]); [ auto | same ]. }
    destruct A as (s2a & -> & S1).
    set (ks := map slot_key (map fst (t_storage_written t) ++ t_storage_read t)) in *.
    destruct (if negb (is_default t) && _ then _ else _) as [ s1b | ] eqn:E2 in H; [ | discriminate ].
    match goal with |- exists _, (match ?e with Some _ => _ | None => None end) = Some _ /\ _ => assert (B : exists s2b, e = Some s2b /\ same s1b s2b) end.
    { destruct (negb (is_default t) && _).
      - assert (S1m : same (with_storage_mask s1a addr ks) (with_storage_mask s2a addr ks)) by (destruct S1 as (? & ? & ? & ? & ?); same).
        set (m1 := with_storage_mask s1a addr ks) in *. set (m2 := with_storage_mask s2a addr ks) in *. clearbody m1 m2.
        destruct (match t_balance t with Some _ => _ | None => _ end) as [ s1c | ] eqn:E3 in E2; [ | discriminate ].
        assert (B1 : exists s2c, match t_balance t with Some new => try w <- update_balance impl (s_world m2) addr (fun _ => Some new); Some (with_world m2 w) | None => Some m2 end = Some s2c /\ same s1c s2c).
        { pose proof S1m as (Ew' & ? & ? & ? & ?). rewrite <- Ew'. destruct (t_balance t); inv_try; subst; eexists; (split; [ reflexivity | ]); [ same | auto ]. }
        destruct B1 as (s2c & -> & S2).
        destruct (match t_nonce t with Some _ => _ | None => _ end) as [ s1d | ] eqn:E4 in E2; [ | discriminate ].
        assert (B2 : exists s2d, match t_nonce t with Some new => try w <- update_nonce impl (s_world s2c) addr (fun _ => Some new); Some (with_world s2c w) | None => Some s2c end = Some s2d /\ same s1d s2d).
        { pose proof S2 as (Ew' & ? & ? & ? & ?). rewrite <- Ew'. destruct (t_nonce t); inv_try; subst; eexists; (split; [ reflexivity | ]); [ same | auto ]. }
        destruct B2 as (s2d & -> & S3).
        destruct (use_code addr (t_code_usage t) s1d) as [ s1e | ] eqn:E5; [ | discriminate ].
        destruct (use_code_same _ _ _ _ _ S3 E5) as (s2e & -> & S4).
        destruct (write_slots impl addr (t_storage_written t) s1e) as [ s1f | ] eqn:E6; [ | discriminate ].
        destruct (write_slots_same _ _ _ _ _ S4 E6) as (s2f & -> & S5).
        inv_try. subst s1b. eexists. split; [ reflexivity | ]. destruct S5 as (? & ? & ? & ? & ?). same.
      - inv_try. subst s1b. eexists. split; [ reflexivity | ]. destruct S1 as (? & ? & ? & ? & ?). same. }
    destruct B as (s2b & -> & S2). pose proof S2 as (Ew' & ? & ? & ? & ?).
    destruct (t_self_destructed t); [ rewrite <- Ew' | ]; inv_try; subst; eexists; (split; [ reflexivity | ]); [ same | auto ].
  Qed.
  Lemma do_traces_same : forall r l s1 s2 s1', same s1 s2 -> do_traces r l s1 = Some s1' -> exists s2', do_traces r l s2 = Some s2' /\ same s1' s2'.
  Proof.
    induction l as [ | (a, t) l IH ]; intros s1 s2 s1' S H; cbn [BatchModel.do_traces] in *.
    - inv_try. subst. eauto.
    - destruct (do_trace r a t s1) as [ s1a | ] eqn:E; [ | discriminate ].
      destruct (do_trace_same _ _ _ _ _ _ S E) as (s2a & -> & S'). eauto.
  Qed.
  Lemma do_txn_same : forall o s1 s2 s1', same s1 s2 -> do_txn o s1 = Some s1' -> (b_gas s2 + total_gas (reals [o]) < 2^64)%Z -> exists s2', do_txn o s2 = Some s2' /\ same s1' s2'.
  Proof.
    intros o s1 s2 s1' S H Hg. pose proof S as (Ew & Ec & Et & Er & Ei). unfold BatchModel.do_txn in *.
    set (i := match o with Some i => i | None => default_txn end) in *.
    assert (Hg' : (b_gas s2 + i_gas_used i < 2^64)%Z) by (clear H; subst i; unfold total_gas in Hg; destruct o; cbn [reals flat_map app map fold_right i_gas_used default_txn] in *; lia).
    destruct (match i_byte_code i with [] => _ | _ => _ end) as [ s1a | ] eqn:E1 in H; [ | discriminate ].
    match goal with |- exists _, (match ?e with Some _ => _ | None => None end) = Some _ /\ _ => assert (B : exists s2b, e = Some s2b /\ same s1a s2b /\ b_gas s2b = b_gas s2) end.
    { destruct (i_byte_code i); [ inv_try; subst; eauto | ]. rewrite <- Et, <- Er, <- Ei. inv_try. subst s1a. eexists. split; [ reflexivity | split; [ same | reflexivity ] ]. }
    destruct B as (s2a & -> & S1 & Eg).
    assert (A : u64_add (b_gas s2a) (i_gas_used i) = Some (b_gas s2a + i_gas_used i)%Z).
    { unfold u64_add. rewrite Eg. replace (Z.ltb _ _) with true; [ reflexivity | symmetry; apply Z.ltb_lt; exact Hg' ]. }
    rewrite A. destruct (u64_add (b_gas s1a) (i_gas_used i)) as [ g1 | ]; [ | discriminate ].
    destruct (do_traces _ _ _) as [ s1b | ] eqn:E2 in H; [ | discriminate ].
    eapply do_traces_same in E2; [ destruct E2 as (s2b & -> & S2) | ].
    - inv_try. subst s1'. eexists. split; [ reflexivity | ]. destruct S2 as (? & ? & ? & ? & ?). destruct o; same.
    - destruct S1 as (? & ? & ? & ? & ?). same.
  Qed.
  Definition gas_ok (l : list txn_info) : Prop := Forall (fun i => 0 <= i_gas_used i)%Z l.
  Lemma total_gas_nonneg : forall l, gas_ok l -> (0 <= total_gas l)%Z.
  Proof. induction 1; unfold total_gas in *; cbn; lia. Qed.
  Lemma do_txns_same : forall b s1 s2 s1', same s1 s2 -> gas_ok (reals b) -> do_txns b s1 = Some s1' -> (b_gas s2 + total_gas (reals b) < 2^64)%Z -> exists s2', do_txns b s2 = Some s2' /\ same s1' s2'.
  Proof.
    induction b as [ | o b IH ]; intros s1 s2 s1' S G H Hg; cbn [BatchModel.do_txns] in *.
    - inv_try. subst. eauto.
    - rewrite reals_cons in *. rewrite total_gas_app in Hg. apply Forall_app in G. destruct G as (G1 & G2). pose proof (total_gas_nonneg _ G2) as N.
      destruct (do_txn o s1) as [ s1a | ] eqn:E; [ | discriminate ].
      destruct (do_txn_same _ _ _ _ S E) as (s2a & E' & S'); [ lia | ]. rewrite E'.
      eapply IH; eauto. destruct (do_txn_props _ _ _ E') as (_ & _ & -> & _). lia.
  Qed.
  Lemma do_withdrawals_same : forall ws s1 s2 s1', same s1 s2 -> do_withdrawals impl ws s1 = Some s1' -> exists s2', do_withdrawals impl ws s2 = Some s2' /\ same s1' s2'.
  Proof.
    induction ws as [ | (a, v) ws IH ]; intros s1 s2 s1' S H; cbn [do_withdrawals] in *.
    - inv_try. subst. eauto.
    - pose proof S as (Ew & Ec & Et & Er & Ei). cbn [s_world with_state_mask] in *. rewrite <- Ew.
      destruct (update_balance impl (s_world s1) a _); [ | discriminate ]. eapply IH; [ | eassumption ]. same.
  Qed.
  Lemma do_txns_app : forall a b s, do_txns (a ++ b) s = match do_txns a s with Some s => do_txns b s | None => None end.
  Proof. induction a as [ | o a IH ]; intros b s; cbn; [ reflexivity | ]. destruct (do_txn o s); auto. Qed.

  Definition roots (s : st) : Z * Z * Z := (root impl (s_world s), t_root trie (s_txns s), t_root trie (s_receipts s)).

  (** After the first batch: the rest of the loop is one pass over the rest of
      the transactions. *)
  Lemma middle_sequential : forall bs len ix ws w c t r n outs s d,
    bs <> [] -> Forall (fun b => b <> []) bs -> ix + length (concat bs) = len -> 0 < n ->
    middle_loop bs len ix ws w c t r n = Some outs ->
    s_world s = w -> s_code s = c -> s_txns s = t -> s_receipts s = r -> s_ix s = n ->
    gas_ok (reals (concat bs)) -> (b_gas s + total_gas (reals (concat bs)) < 2^64)%Z ->
    exists s1 s2, do_txns (concat bs) s = Some s1 /\ do_withdrawals impl ws s1 = Some s2 /\ o_roots (List.last outs d) = roots s2.
  Proof.
    induction bs as [ | b bs IH ]; intros len ix ws w c t r n outs s d Hnn Hne Hlen Hn H Sw Sc St Sr Si G Hg; [ congruence | ].
    inversion Hne as [ | ? ? Hb Hbs ]; subst len. cbn [BatchModel.middle_loop] in H.
    destruct (n =? 0) eqn:En; [ apply Nat.eqb_eq in En; lia | ].
    cbn [concat] in *. rewrite reals_app in *. rewrite total_gas_app in Hg. apply Forall_app in G. destruct G as (G1 & G2). pose proof (total_gas_nonneg _ G2) as N.
    set (last := ix + length b =? _) in *.
    assert (El : last = match bs with [] => true | _ => false end).
    { subst last. rewrite app_length. destruct bs as [ | b' bs ].
      - cbn. rewrite Nat.add_0_r. apply Nat.eqb_refl.
      - apply Nat.eqb_neq. inversion Hbs; subst. destruct b'; [ congruence | ]. cbn [concat app length]. lia. }
    clearbody last. destruct (do_txns b _) as [ sb | ] eqn:E1 in H; [ | discriminate ].
    pose proof (do_txns_props _ _ _ E1) as (_ & I1 & _). cbn [s_ix] in I1.
    pose proof (fun S => do_txns_same b _ s _ S G1 E1) as X. destruct X as (sb' & E1' & S1); [ repeat split; cbn; congruence | lia | ].
    pose proof (do_txns_props _ _ _ E1') as (_ & _ & Eg & _).
    rewrite do_txns_app, E1'.
    destruct (if last then _ else _) as [ sc | ] eqn:E2 in H; [ | discriminate ].
    inv_try. subst outs. destruct bs as [ | b' bs ].
    - subst last. destruct (do_withdrawals_same _ _ _ _ S1 E2) as (sc' & E2' & S2).
      exists sb', sc'. cbn [concat BatchModel.do_txns]. split; [ reflexivity | split; [ exact E2' | ] ].
      match goal with E : BatchModel.middle_loop _ _ _ _ _ _ _ _ [] _ _ _ _ _ _ _ _ = Some _ |- _ => cbn in E; apply some_inj in E; subst end.
      cbn. unfold roots. destruct S2 as (-> & _ & -> & -> & _). reflexivity.
    - subst last. inv_try. subst sc. destruct S1 as (Ew & Ec & Et & Er & Ei).
      match goal with E : BatchModel.middle_loop _ _ _ _ _ _ _ _ _ _ _ _ _ _ _ _ _ = Some ?l |- _ =>
        pose proof (fun X1 X2 X3 => IH _ _ _ _ _ _ _ _ _ sb' d X1 Hbs X2 X3 E) as X end.
      destruct X as (s1 & s2 & A1 & A2 & A3); auto; [ discriminate | rewrite app_length; lia | lia | lia | ].
      exists s1, s2. split; [ exact A1 | split; [ exact A2 | ] ]. rewrite <- A3.
      match goal with |- o_roots (List.last (_ :: ?l) _) = _ => destruct l; [ | reflexivity ] end.
      match goal with E : BatchModel.middle_loop _ _ _ _ _ _ _ _ _ _ _ _ _ _ _ _ _ = Some [] |- _ => cbn [BatchModel.middle_loop] in E; inv_try; discriminate end.
  Qed.

  Lemma chained_length : forall ws n w t r bs outs wf tf rf, chained ws n w t r bs outs wf tf rf -> length outs = length bs.
  Proof. induction 1; cbn; congruence. Qed.
  Lemma chained_nth : forall ws n w t r bs outs wf tf rf, chained ws n w t r bs outs wf tf rf -> forall i o, nth_error outs i = Some o ->
    exists b wi ti ri wj tj rj, nth_error bs i = Some b /\
      step_ok (S i =? length bs) ws (n + length (reals (concat (firstn i bs)))) wi ti ri b o wj tj rj /\
      match i with 0 => (wi, ti, ri) = (w, t, r) | S p => forall o', nth_error outs p = Some o' -> o_roots o' = (root impl wi, t_root trie ti, t_root trie ri) end.
  Proof.
    induction 1 as [ | n w t r b bs o outs w' t' r' wf tf rf SO CH IH ]; intros i x Hi; [ destruct i; discriminate | ].
    destruct i as [ | i ]; cbn [nth_error] in Hi.
    - assert (x = o) by congruence. subst x. exists b, w, t, r, w', t', r'. split; [ reflexivity | ]. split; [ | reflexivity ].
      cbn [firstn concat reals flat_map length]. rewrite Nat.add_0_r. replace (1 =? S (length bs)) with (match bs with [] => true | _ => false end); [ exact SO | destruct bs; reflexivity ].
    - destruct (IH i x Hi) as (b' & wi & ti & ri & wj & tj & rj & Hb & SO' & P). exists b', wi, ti, ri, wj, tj, rj.
      split; [ exact Hb | ]. split.
      + cbn [firstn concat]. rewrite reals_app, app_length. replace (S (S i) =? length (b :: bs)) with (S i =? length bs) by reflexivity. rewrite Nat.add_assoc. exact SO'.
      + intros o' Ho'. destruct i; [ | exact (P o' Ho') ].
        cbn [nth_error] in Ho'. assert (o' = o) by congruence. subst o'. rewrite (so_roots SO).
        assert (wi = w' /\ ti = t' /\ ri = r') as (-> & -> & ->) by (repeat split; congruence). reflexivity.
  Qed.

  Notation finish := (finish code_hash).
  Lemma finish_nth : forall (outs : list (@batch_out W T)) g gs, finish outs g = Some gs -> length gs = length outs /\
    forall i x, nth_error gs i = Some x -> exists o, nth_error outs i = Some o /\
      g_txn_number_before x = o_first_txn_ix o /\ g_signed_txns x = o_byte_code o /\ g_withdrawals x = o_withdrawals o /\ g_world x = o_world o /\
      g_txns x = o_txns o /\ g_receipts x = o_receipts o /\ g_roots_after x = o_roots o /\ g_contract_code x = map (fun c => (code_hash c, c)) (o_contract_code o) /\
      g_gas_used_before x = (g + fold_right Z.add 0 (map o_gas_used (firstn i outs)))%Z /\ g_gas_used_after x = (g_gas_used_before x + o_gas_used o)%Z /\
      (g_gas_used_after x < 2^64)%Z.
  Proof.
    induction outs as [ | o outs IH ]; intros g gs H; cbn [BatchModel.finish] in H.
    - inv_try. subst gs. split; [ reflexivity | ]. intros [ | i ] x Hx; discriminate.
    - unfold u64_add in H. destruct (Z.ltb _ _) eqn:E; [ | discriminate ]. apply Z.ltb_lt in E. inv_try. subst gs.
      match goal with X : BatchModel.finish _ _ _ = Some _ |- _ => destruct (IH _ _ X) as (L & N) end.
      split; [ cbn; congruence | ]. intros [ | i ] x Hx; cbn [nth_error] in Hx.
      + apply some_inj in Hx. subst x. exists o. cbn [nth_error firstn map fold_right g_txn_number_before g_signed_txns g_withdrawals g_world g_txns g_receipts g_roots_after g_contract_code g_gas_used_before g_gas_used_after].
        rewrite Z.add_0_r. repeat split; auto.
      + destruct (N i x Hx) as (o' & Ho & A1 & A2 & A3 & A4 & A5 & A6 & A7 & A8 & A9 & A10). exists o'. cbn [nth_error firstn map fold_right].
        split; [ exact Ho | ]. do 8 (split; [ assumption | ]). split; [ rewrite A9; ring | exact A10 ].
  Qed.
  Lemma chained_gas : forall ws n w t r bs outs wf tf rf, chained ws n w t r bs outs wf tf rf -> forall i,
    fold_right Z.add 0%Z (map o_gas_used (firstn i outs)) = total_gas (reals (concat (firstn i bs))).
  Proof.
    induction 1 as [ | n w t r b bs o outs w' t' r' wf tf rf SO CH IH ]; intros [ | i ]; try reflexivity.
    cbn [firstn map fold_right concat]. rewrite reals_app, total_gas_app, IH, (so_gas SO). reflexivity.
  Qed.
  Lemma chained_signed : forall ws n w t r bs outs wf tf rf, chained ws n w t r bs outs wf tf rf -> concat (map o_byte_code outs) = signed (reals (concat bs)).
  Proof.
    induction 1 as [ | n w t r b bs o outs w' t' r' wf tf rf SO CH IH ]; [ reflexivity | ].
    cbn [map concat]. rewrite reals_app, signed_app, IH, (so_signed SO). reflexivity.
  Qed.
  Lemma finish_signed : forall (outs : list (@batch_out W T)) g gs, finish outs g = Some gs -> map g_signed_txns gs = map o_byte_code outs.
  Proof. induction outs as [ | o outs IH ]; intros g gs H; cbn [BatchModel.finish] in H; inv_try; subst; cbn; [ reflexivity | f_equal; eauto ]. Qed.

  Lemma scale_withdrawals_spec : forall l ws, scale_withdrawals l = Some ws -> ws = map (fun '(a, v) => (a, v * 10^9)%Z) l.
  Proof.
    induction l as [ | (a, v) l IH ]; intros ws H; cbn [scale_withdrawals] in H; [ inv_try; subst; reflexivity | ].
    unfold gwei_to_wei in H. destruct (Z.ltb _ _); [ | discriminate ]. inv_try. subst. cbn [map]. f_equal. auto.
  Qed.
  Lemma reals_batch : forall txns hint, reals (concat (batch txns hint)) = txns.
  Proof.
    intros. destruct (C34_batch txns hint) as (-> & _). rewrite reals_app.
    assert (A : forall n, reals (repeat None n) = []) by (induction n; cbn; auto). rewrite A, app_nil_r.
    induction txns as [ | x l IH ]; [ reflexivity | ]. cbn [map]. rewrite reals_cons, IH. reflexivity.
  Qed.
End Body.

Arguments so_first {W Path Key T impl trie slot_key last ws n w t r b o w' t' r'}.
Arguments so_gas {W Path Key T impl trie slot_key last ws n w t r b o w' t' r'}.
Arguments so_signed {W Path Key T impl trie slot_key last ws n w t r b o w' t' r'}.
Arguments so_withdrawals {W Path Key T impl trie slot_key last ws n w t r b o w' t' r'}.
Arguments so_roots {W Path Key T impl trie slot_key last ws n w t r b o w' t' r'}.
Arguments so_txns {W Path Key T impl trie slot_key last ws n w t r b o w' t' r'}.
Arguments so_receipts {W Path Key T impl trie slot_key last ws n w t r b o w' t' r'}.
Arguments so_contract {W Path Key T impl trie slot_key last ws n w t r b o w' t' r'}.
Arguments so_world {W Path Key T impl trie slot_key last ws n w t r b o w' t' r'}.

(** * C35: the batches chain *)
Section C35.
  Context {W Path Key T : Type}.
  Variable impl : world_impl W Path Key.
  Variable trie : index_trie T.
  Variable code_hash : bytes -> Z.
  Variable slot_key : Z -> Key.
  Variable map_receipt_bytes : bytes -> option bytes.
  Variable receipt_status : bytes -> option bool.
  Variable do_pre_execution : W -> option (list (Z * list Key) * list Path * W).
  Variable fatal_missing_code : bool.
  Notation entrypoint := (entrypoint impl trie code_hash slot_key map_receipt_bytes receipt_status do_pre_execution fatal_missing_code).
  Notation chained := (chained impl trie slot_key).

  (** Hashing out parts of a trie keeps its root (C12, C13 for the Merkle
      Patricia tries). *)
  Definition masks_keep_roots : Prop :=
    (forall w ps w', mask impl w ps = Some w' -> root impl w' = root impl w) /\
    (forall w ms w', mask_storage impl w ms = Some w' -> root impl w' = root impl w) /\
    (forall t l t', t_mask trie t l = Some t' -> t_root trie t' = t_root trie t).
  (** The roots the tries given to the prover for a batch have. *)
  Definition roots_before (g : @inputs W T) : Z * Z * Z := (root impl (g_world g), t_root trie (g_txns g), t_root trie (g_receipts g)).

  Lemma batch_nonempty : forall txns hint, Forall (fun b => b <> []) (batch txns hint).
  Proof. intros. destruct (C34_batch txns hint) as (_ & _ & F & _). eapply Forall_impl; [ | exact F ]. cbn. tauto. Qed.

  Lemma entrypoint_chained : forall world txns code withdrawals hint gs, entrypoint world txns code withdrawals hint = Some gs ->
    exists ws outs wf tf rf, ws = map (fun '(a, v) => (a, v * 10^9)%Z) withdrawals /\ chained ws 0 world (t_new trie) (t_new trie) (batch txns hint) outs wf tf rf /\ finish code_hash outs 0 = Some gs.
  Proof.
    intros world txns code withdrawals hint gs H. unfold BatchModel.entrypoint in H. destruct (hint =? 0); [ discriminate | ].
    inv_try. apply scale_withdrawals_spec in Heqo. unfold middle in Heqo0. apply middle_chained in Heqo0; [ | apply batch_nonempty | reflexivity ].
    destruct Heqo0 as (wf & tf & rf & CH). eexists _, _, _, _, _. split; [ exact Heqo | ]. split; [ exact CH | exact H ].
  Qed.

  (** For the i-th generated input: the transaction number and gas before it
      count the transactions of the earlier batches, the gas after it also its
      own; its signed transactions are those of its batch; the withdrawals (in
      wei) come with the last batch and no other; the tries before it have the
      roots after the previous one (the block's initial roots for the first).
      Over the block: the signed transactions are all the transactions in
      order, and the last gas is the sum over all of them. *)
  Theorem C35_chain : forall world txns code withdrawals hint gs, masks_keep_roots -> entrypoint world txns code withdrawals hint = Some gs ->
    let bs := batch txns hint in
    length gs = length bs /\
    (forall i g, nth_error gs i = Some g -> exists b, nth_error bs i = Some b /\
       g_txn_number_before g = length (reals (concat (firstn i bs))) /\
       g_gas_used_before g = total_gas (reals (concat (firstn i bs))) /\
       g_gas_used_after g = total_gas (reals (concat (firstn (S i) bs))) /\
       g_signed_txns g = signed (reals b) /\
       g_withdrawals g = (if S i =? length gs then map (fun '(a, v) => (a, v * 10^9)%Z) withdrawals else []) /\
       (forall h c, In (h, c) (g_contract_code g) -> h = code_hash c)) /\
    (forall g, nth_error gs 0 = Some g -> roots_before g = (root impl world, t_root trie (t_new trie), t_root trie (t_new trie))) /\
    (forall i g g', nth_error gs i = Some g -> nth_error gs (S i) = Some g' ->
       g_gas_used_before g' = g_gas_used_after g /\ roots_before g' = g_roots_after g) /\
    concat (map g_signed_txns gs) = signed txns /\
    (forall g, nth_error gs (length gs - 1) = Some g -> g_gas_used_after g = total_gas txns).
  Proof.
    intros world txns code withdrawals hint gs (M1 & M2 & M3) H bs. subst bs.
    destruct (entrypoint_chained _ _ _ _ _ _ H) as (ws & outs & wf & tf & rf & Hws & CH & F). clear H. set (bs := batch txns hint) in *.
    destruct (finish_nth _ _ _ _ F) as (Lg & N). pose proof (chained_length _ _ _ _ _ _ _ _ _ _ _ _ _ CH) as Lo.
    assert (RB : forall i g o b wi ti ri wj tj rj l n, nth_error gs i = Some g -> nth_error outs i = Some o -> step_ok impl trie slot_key l ws n wi ti ri b o wj tj rj ->
      g_world g = o_world o -> g_txns g = o_txns o -> g_receipts g = o_receipts o -> roots_before g = (root impl wi, t_root trie ti, t_root trie ri)).
    { intros i g o b wi ti ri wj tj rj l n Hi Ho SO E1 E2 E3. unfold roots_before. rewrite E1, E2, E3.
      destruct (so_world SO) as (ps & ms & wm & A1 & A2 & _).
      rewrite (M2 _ _ _ A2), (M1 _ _ _ A1), (M3 _ _ _ (so_txns SO)), (M3 _ _ _ (so_receipts SO)). reflexivity. }
    assert (P : forall i g, nth_error gs i = Some g -> exists b, nth_error bs i = Some b /\
       g_txn_number_before g = length (reals (concat (firstn i bs))) /\
       g_gas_used_before g = total_gas (reals (concat (firstn i bs))) /\
       g_gas_used_after g = total_gas (reals (concat (firstn (S i) bs))) /\
       g_signed_txns g = signed (reals b) /\
       g_withdrawals g = (if S i =? length gs then map (fun '(a, v) => (a, v * 10^9)%Z) withdrawals else []) /\
       (forall h c, In (h, c) (g_contract_code g) -> h = code_hash c)).
    { intros i g Hi. destruct (N i g Hi) as (o & Ho & A1 & A2 & A3 & A4 & A5 & A6 & A7 & A8 & A9 & A10 & _).
      destruct (chained_nth _ _ _ _ _ _ _ _ _ _ _ _ _ CH i o Ho) as (b & wi & ti & ri & wj & tj & rj & Hb & SO & Q).
      exists b. split; [ exact Hb | ].
      split; [ rewrite A1; apply SO | ].
      assert (G : g_gas_used_before g = total_gas (reals (concat (firstn i bs)))).
      { rewrite A9. cbn [Z.add]. eapply chained_gas. exact CH. }
      split; [ exact G | ]. split.
      { rewrite A10, G, (so_gas SO).
        assert (E : firstn (S i) bs = firstn i bs ++ [b]).
        { clear -Hb. revert i Hb. induction bs as [ | x l IH ]; intros [ | i ] Hb; cbn in *; try discriminate; [ congruence | ]. f_equal. auto. }
        rewrite E, concat_app, reals_app, total_gas_app. cbn [concat]. rewrite app_nil_r. reflexivity. }
      split; [ rewrite A2; apply SO | ].
      split.
      { rewrite A3, (so_withdrawals SO), Lg, Lo, Hws. reflexivity. }
      intros h c Hc. rewrite A8 in Hc. apply in_map_iff in Hc. destruct Hc as (c' & E & _). congruence. }
    split; [ congruence | ]. split; [ exact P | ]. split; [ | split; [ | split ] ].
    - intros g Hi. destruct (N 0 g Hi) as (o & Ho & A1 & A2 & A3 & A4 & A5 & A6 & _).
      destruct (chained_nth _ _ _ _ _ _ _ _ _ _ _ _ _ CH 0 o Ho) as (b & wi & ti & ri & wj & tj & rj & Hb & SO & Q).
      rewrite (RB _ _ _ _ _ _ _ _ _ _ _ _ Hi Ho SO A4 A5 A6). congruence.
    - intros i g g' Hi Hi'. destruct (N _ _ Hi) as (o & Ho & _ & _ & _ & _ & _ & _ & A7 & _).
      destruct (N _ _ Hi') as (o' & Ho' & _ & _ & _ & B4 & B5 & B6 & _).
      destruct (P _ _ Hi) as (b & Hb & _ & _ & G & _). destruct (P _ _ Hi') as (b' & Hb' & _ & G' & _).
      split; [ congruence | ].
      destruct (chained_nth _ _ _ _ _ _ _ _ _ _ _ _ _ CH (S i) o' Ho') as (b1 & wi & ti & ri & wj & tj & rj & Hb1 & SO & Q).
      rewrite (RB _ _ _ _ _ _ _ _ _ _ _ _ Hi' Ho' SO B4 B5 B6), A7. symmetry. exact (Q o Ho).
    - rewrite (finish_signed _ _ _ _ F), (chained_signed _ _ _ _ _ _ _ _ _ _ _ _ _ CH). unfold bs. rewrite reals_batch. reflexivity.
    - intros g Hi. destruct (P _ _ Hi) as (b & Hb & _ & _ & -> & _).
      assert (firstn (S (length gs - 1)) bs = bs) as ->.
      { apply firstn_all2. lia. }
      unfold bs. rewrite reals_batch. reflexivity.
  Qed.

  (** * C54: what a batch touches is not hashed out *)

  (** The world given for the i-th batch is the world before the batch with
      all hashed out but [paths] and, for storage, [masks]; every account in
      the traces of the batch is in [paths], every slot read or written is in
      [masks], and so is every account withdrawn to for the last batch. *)
  Theorem C54_masks_cover : forall world txns code withdrawals hint gs, entrypoint world txns code withdrawals hint = Some gs ->
    forall i g b, nth_error gs i = Some g -> nth_error (batch txns hint) i = Some b ->
    exists w paths masks wm, mask impl w paths = Some wm /\ mask_storage impl wm masks = Some (g_world g) /\
      (i = 0 -> w = world) /\
      (forall p g', i = S p -> nth_error gs p = Some g' -> fst (fst (g_roots_after g')) = root impl w) /\
      (forall a, touched (reals b) a -> In (path_of_address impl a) paths) /\
      (forall a k, touched_slot (reals b) a k -> covers masks a (slot_key k)) /\
      (S i = length gs -> forall a v, In (a, v) withdrawals -> In (path_of_address impl a) paths).
  Proof.
    intros world txns code withdrawals hint gs H i g b Hi Hb.
    destruct (entrypoint_chained _ _ _ _ _ _ H) as (ws & outs & wf & tf & rf & Hws & CH & F). clear H.
    destruct (finish_nth _ _ _ _ F) as (Lg & N). pose proof (chained_length _ _ _ _ _ _ _ _ _ _ _ _ _ CH) as Lo.
    destruct (N i g Hi) as (o & Ho & A1 & A2 & A3 & A4 & A5 & A6 & A7 & _).
    destruct (chained_nth _ _ _ _ _ _ _ _ _ _ _ _ _ CH i o Ho) as (b' & wi & ti & ri & wj & tj & rj & Hb' & SO & Q).
    assert (b' = b) by congruence. subst b'.
    destruct (so_world SO) as (ps & ms & wm & B1 & B2 & B3 & B4 & B5).
    exists wi, ps, ms, wm. split; [ exact B1 | ]. split; [ congruence | ]. split.
    { intros ->. congruence. }
    split.
    { intros p g' -> Hp. destruct (N p g' Hp) as (o' & Ho' & _ & _ & _ & _ & _ & _ & C7 & _). rewrite C7, (Q o' Ho'). reflexivity. }
    split; [ exact B3 | ]. split; [ exact B4 | ].
    intros El a v Hv. apply (B5 ltac:(apply Nat.eqb_eq; congruence) a (v * 10^9)%Z). rewrite Hws. apply in_map_iff. exists (a, v). auto.
  Qed.

  (** * C53, C55: one pass over the block *)

  Notation do_txns := (do_txns impl trie code_hash slot_key map_receipt_bytes receipt_status fatal_missing_code).
  Definition start (w : W) (code : code_map) : @st W Path Key T :=
    {| s_world := w; s_code := code; s_txns := t_new trie; s_receipts := t_new trie; s_ix := 0; b_gas := 0; b_byte_code := []; b_contract_code := []; b_storage_masks := []; b_state_mask := [] |}.

  Lemma dummies_same : forall n s, (b_gas s < 2^64)%Z -> exists s', do_txns (repeat None n) s = Some s' /\ same s s'.
  Proof.
    induction n as [ | n IH ]; intros s Hg; cbn [repeat BatchModel.do_txns]; [ eauto using same_refl | ].
    unfold do_txn. cbn [i_byte_code default_txn i_gas_used i_receipt i_traces do_traces]. unfold u64_add. rewrite Z.add_0_r.
    replace (Z.ltb (b_gas s) (2^64)) with true by (symmetry; apply Z.ltb_lt; exact Hg).
    match goal with |- context [ do_txns (repeat None n) ?x ] => destruct (IH x) as (s' & E & S) end; [ exact Hg | ].
    exists s'. split; [ exact E | ]. destruct S as (? & ? & ? & ? & ?). repeat split; cbn in *; congruence.
  Qed.

  (** For a block with a transaction, the roots after the last batch are those
      of: the pre-execution hook once, all the transactions in order, the
      withdrawals; whatever the batch size. *)
  Theorem C53_sequential : forall world txns code withdrawals hint gs d,
    txns <> [] -> gas_ok txns -> entrypoint world txns code withdrawals hint = Some gs ->
    exists masks paths w s1 s2, do_pre_execution world = Some (masks, paths, w) /\ do_txns (map Some txns) (start w code) = Some s1 /\
      do_withdrawals impl (map (fun '(a, v) => (a, v * 10^9)%Z) withdrawals) s1 = Some s2 /\ g_roots_after (List.last gs d) = roots impl trie s2.
  Proof.
    intros world txns code withdrawals hint gs d Hne Hgas H.
    destruct (C34_batch txns hint) as (Ec & L2 & Fb & _).
    pose proof (batch_nonempty txns hint) as NE. pose proof (reals_batch txns hint) as RB.
    (* total gas *)
    assert (TG : (total_gas txns < 2^64)%Z).
    { destruct (entrypoint_chained _ _ _ _ _ _ H) as (ws & outs & wf & tf & rf & Hws & CH & F).
      destruct (finish_nth _ _ _ _ F) as (Lg & N). pose proof (chained_length _ _ _ _ _ _ _ _ _ _ _ _ _ CH) as Lo.
      destruct (nth_error gs (length gs - 1)) as [ g | ] eqn:Eg; [ | apply nth_error_None in Eg; lia ].
      destruct (N _ _ Eg) as (o & Ho & _ & _ & _ & _ & _ & _ & _ & _ & A9 & A10 & A11).
      assert (E : g_gas_used_after g = total_gas (reals (concat (firstn (S (length gs - 1)) (batch txns hint))))).
      { rewrite A10, A9. cbn [Z.add]. rewrite (chained_gas _ _ _ _ _ _ _ _ _ _ _ _ _ CH).
        destruct (chained_nth _ _ _ _ _ _ _ _ _ _ _ _ _ CH _ o Ho) as (b & wi & ti & ri & wj & tj & rj & Hb & SO & Q).
        rewrite (so_gas SO).
        assert (E : firstn (S (length gs - 1)) (batch txns hint) = firstn (length gs - 1) (batch txns hint) ++ [b]).
        { revert Hb. generalize (length gs - 1) (batch txns hint). clear. intros n l. revert n. induction l as [ | x l IH ]; intros [ | i ] Hb; cbn in *; try discriminate; [ congruence | ]. f_equal. auto. }
        rewrite E, concat_app, reals_app, total_gas_app. cbn [concat]. rewrite app_nil_r. reflexivity. }
      rewrite firstn_all2 in E by lia. rewrite RB in E. lia. }
    unfold BatchModel.entrypoint in H. destruct (hint =? 0); [ discriminate | ]. inv_try.
    apply scale_withdrawals_spec in Heqo. unfold middle in Heqo0. rename l0 into outs. rename l into ws.
    assert (Lr : forall dd, g_roots_after (List.last gs d) = o_roots (List.last outs dd)).
    { intros dd. destruct (finish_nth _ _ _ _ H) as (Lg & N).
      assert (outs <> []).
      { intros ->. apply middle_chained in Heqo0; [ | exact NE | reflexivity ]. destruct Heqo0 as (? & ? & ? & CH). apply chained_length in CH. cbn in CH. lia. }
      destruct (exists_last H0) as (l & o & ->). clear -H. revert H. generalize 0%Z. revert gs.
      induction l as [ | x l IH ]; intros gs g H; cbn [app finish] in H.
      - inv_try. subst gs. match goal with X : Some [] = Some _ |- _ => idtac | _ => idtac end. subst. reflexivity.
      - inv_try. subst gs. match goal with X : finish _ _ _ = Some _ |- _ => specialize (IH _ _ X); rename X into F end.
        match goal with |- g_roots_after (List.last (_ :: ?k) _) = _ => destruct k as [ | k1 k2 ] eqn:Ek end.
        + exfalso. clear -F. destruct l; cbn [app finish] in F; inv_try; discriminate.
        + change (List.last (?a :: ?k1 :: ?k2) d) with (List.last (k1 :: k2) d). rewrite IH.
          change ((x :: l) ++ [o]) with (x :: l ++ [o]). destruct (l ++ [o]) eqn:El; [ destruct l; discriminate | reflexivity ]. }
    clear H. destruct (batch txns hint) as [ | b bs ]; [ cbn in L2; lia | ].
    assert (Rb : 0 < length (reals b)).
    { pose proof (Forall_inv Fb) as (Hb & _). destruct b as [ | [ i | ] b ]; [ congruence | cbn; lia | ].
      destruct txns; [ congruence | ]. cbn in Ec. discriminate. }
    pose proof (Forall_inv_tail NE) as Hbs.
    cbn [middle_loop Nat.eqb s_world] in Heqo0.
    set (last := 0 + length b =? _) in *.
    assert (El : last = match bs with [] => true | _ => false end).
    { subst last. cbn [concat]. rewrite app_length. destruct bs as [ | b' bs' ].
      - cbn. rewrite Nat.add_0_r. apply Nat.eqb_refl.
      - apply Nat.eqb_neq. pose proof (Forall_inv Hbs). cbn beta in *. destruct b'; [ congruence | ]. cbn [concat app length]. lia. }
    clearbody last. destruct bs as [ | b' bs ]; [ cbn in L2; lia | ]. subst last.
    destruct (do_pre_execution world) as [ ((masks, paths), w) | ] eqn:Ep; [ | discriminate ].
    cbn [concat] in RB. rewrite reals_app in RB. rewrite <- RB in TG, Hgas. rewrite total_gas_app in TG. apply Forall_app in Hgas. destruct Hgas as (G1 & G2).
    pose proof (total_gas_nonneg _ G2) as N2.
    destruct (do_txns b _) as [ sb | ] eqn:E1 in Heqo0; [ | discriminate ].
    pose proof (do_txns_props _ _ _ _ _ _ _ _ _ _ E1) as (_ & I1 & _). cbn [s_ix] in I1.
    pose proof (fun S => do_txns_same impl trie code_hash slot_key map_receipt_bytes receipt_status fatal_missing_code b _ (start w code) _ S G1 E1) as X.
    destruct X as (sb' & E1' & S1); [ repeat split; cbn; congruence | cbn [b_gas start]; lia | ].
    pose proof (do_txns_props _ _ _ _ _ _ _ _ _ _ E1') as (_ & _ & Eg & _). cbn [b_gas start] in Eg.
    destruct S1 as (Sw & Sc & St & Sr & Si).
    inv_try.
    match goal with E : middle_loop _ _ _ _ _ _ _ _ _ _ _ _ _ _ _ _ _ = Some ?l |- _ =>
      match goal with HO : ?o :: l = outs |- _ =>
      pose proof (fun X1 X2 X3 => middle_sequential impl trie code_hash slot_key map_receipt_bytes receipt_status do_pre_execution fatal_missing_code _ _ _ _ _ _ _ _ _ l sb' o X1 Hbs X2 X3 E) as X;
      specialize (Lr o); rewrite <- HO in Lr; assert (NL : l <> []) by (clear -E; intros ->; cbn [middle_loop] in E; inv_try; discriminate) end end.
    repeat match goal with E : sb = _ |- _ => subst sb | E : _ = sb |- _ => subst sb end.
    destruct X as (s1 & s2 & A1 & A2 & A3); auto; [ discriminate | cbn [concat]; rewrite !app_length; lia | lia | rewrite Eg; cbn [concat]; lia | ].
    (* the whole block, dummies included *)
    assert (A0 : do_txns (concat (b :: b' :: bs)) (start w code) = Some s1).
    { change (concat (b :: b' :: bs)) with (b ++ concat (b' :: bs)). rewrite do_txns_app, E1'. exact A1. }
    rewrite Ec, do_txns_app in A0. destruct (do_txns (map Some txns) (start w code)) as [ sr | ] eqn:Er; [ | discriminate ].
    destruct (dummies_same (2 - length txns) sr) as (sr' & D1 & D2).
    { destruct (do_txns_props _ _ _ _ _ _ _ _ _ _ Er) as (_ & _ & -> & _). cbn [b_gas start].
      replace (reals (map Some txns)) with txns; [ rewrite <- RB, total_gas_app; lia | ].
      clear. induction txns as [ | x l IH ]; [ reflexivity | ]. cbn [map]. rewrite reals_cons, <- IH. reflexivity. }
    assert (sr' = s1) by congruence. subst sr'.
    destruct (do_withdrawals_same _ _ _ _ _ (same_sym _ _ D2) A2) as (s2' & B1 & B2).
    exists masks, paths, w, sr, s2'. split; [ reflexivity | ]. split; [ exact Er | ]. split; [ rewrite <- Heqo; exact B1 | ].
    rewrite Lr. destruct B2 as (Bw & _ & Bt & Br & _).
    match goal with |- o_roots (List.last (_ :: ?l) _) = _ => destruct l; [ congruence | ] end.
    etransitivity; [ exact A3 | ]. unfold roots. rewrite Bw, Bt, Br. reflexivity.
  Qed.

  (** The batch size does not change the outcome for the block. *)
  Theorem C53_hint_independent : forall world txns code withdrawals hint hint' gs gs' d d',
    txns <> [] -> gas_ok txns -> masks_keep_roots ->
    entrypoint world txns code withdrawals hint = Some gs -> entrypoint world txns code withdrawals hint' = Some gs' ->
    g_roots_after (List.last gs d) = g_roots_after (List.last gs' d') /\
    g_gas_used_after (List.last gs d) = g_gas_used_after (List.last gs' d') /\
    g_withdrawals (List.last gs d) = g_withdrawals (List.last gs' d') /\
    concat (map g_signed_txns gs) = concat (map g_signed_txns gs').
  Proof.
    intros world txns code withdrawals hint hint' gs gs' d d' Hne Hgas HM H H'.
    destruct (C53_sequential _ _ _ _ _ _ d Hne Hgas H) as (m & p & w & s1 & s2 & A1 & A2 & A3 & A4).
    destruct (C53_sequential _ _ _ _ _ _ d' Hne Hgas H') as (m' & p' & w' & s1' & s2' & B1 & B2 & B3 & B4).
    assert (w' = w) by congruence. subst w'. assert (s1' = s1) by congruence. subst s1'. assert (s2' = s2) by congruence. subst s2'.
    assert (L : forall gs d hint, entrypoint world txns code withdrawals hint = Some gs ->
      g_gas_used_after (List.last gs d) = total_gas txns /\ g_withdrawals (List.last gs d) = map (fun '(a, v) => (a, v * 10^9)%Z) withdrawals /\ concat (map g_signed_txns gs) = signed txns).
    { clear -HM. intros gs d hint H. destruct (C35_chain _ _ _ _ _ _ HM H) as (Lg & P & _ & _ & Sg & G).
      destruct (C34_batch txns hint) as (_ & L2 & _). rewrite <- Lg in L2.
      assert (E : nth_error gs (length gs - 1) = Some (List.last gs d)).
      { assert (NN : gs <> []) by (destruct gs; [ cbn in L2; lia | discriminate ]). destruct (exists_last NN) as (l & x & ->).
        rewrite last_last, app_length, nth_error_app2 by (cbn; lia). cbn [length]. replace (length l + 1 - 1 - length l) with 0 by lia. reflexivity. }
      destruct (P _ _ E) as (b & _ & _ & _ & _ & _ & Wd & _).
      replace (S (length gs - 1) =? length gs) with true in Wd by (symmetry; apply Nat.eqb_eq; lia).
      split; [ exact (G _ E) | split; assumption ]. }
    destruct (L _ d _ H) as (-> & -> & ->). destruct (L _ d' _ H') as (-> & -> & ->). repeat split. congruence.
  Qed.
End C35.
Print Assumptions C35_chain.
Print Assumptions C54_masks_cover.
Print Assumptions C53_sequential.
Print Assumptions C53_hint_independent.

(** * C55: the pre-execution hook and blocks without transactions *)

(** [C53_sequential] runs the hook once for a block with a transaction.  A
    block without transactions is proved as two dummy batches, both of which
    start at transaction 0, so the hook runs twice; this is the same as once
    for a hook that changes nothing the second time. *)
Theorem C55_once_idempotent : forall {W Path Key T : Type} (impl : world_impl W Path Key) (trie : index_trie T) code_hash slot_key map_receipt_bytes receipt_status pre fatal world code withdrawals hint gs d,
  (forall w m p w', pre w = Some (m, p, w') -> exists m' p', pre w' = Some (m', p', w')) ->
  entrypoint impl trie code_hash slot_key map_receipt_bytes receipt_status pre fatal world [] code withdrawals hint = Some gs ->
  exists m p w s, pre world = Some (m, p, w) /\ do_withdrawals impl (map (fun '(a, v) => (a, v * 10^9)%Z) withdrawals) (start trie w code) = Some s /\
    g_roots_after (List.last gs d) = roots impl trie s.
Proof.
  intros W Path Key T impl trie code_hash slot_key map_receipt_bytes receipt_status pre fatal world code withdrawals hint gs d Hid H.
  unfold entrypoint in H. destruct (hint =? 0); [ discriminate | ]. destruct (scale_withdrawals withdrawals) as [ ws | ] eqn:Ew; [ | discriminate ].
  apply scale_withdrawals_spec in Ew. change (batch [] hint) with [[@None txn_info]; [None]] in H. unfold middle in H.
  cbn [concat app length middle_loop Nat.eqb s_world Nat.add] in H.
  destruct (pre world) as [ ((m, p), w) | ] eqn:Ep; [ | discriminate ]. exists m, p, w.
  destruct (Hid _ _ _ _ Ep) as (m' & p' & Ep').
  assert (D : forall s, b_gas s = 0%Z -> exists s', do_txns impl trie code_hash slot_key map_receipt_bytes receipt_status fatal [None] s = Some s' /\ same s s').
  { intros s Hs. apply (dummies_same impl trie code_hash slot_key map_receipt_bytes receipt_status fatal 1 s). rewrite Hs. reflexivity. }
  match type of H with context [ do_txns _ _ _ _ _ _ _ [None] ?x ] => destruct (D x eq_refl) as (s1 & E1 & (S1 & S2 & S3 & S4 & S5)) end.
  rewrite E1 in H. cbn [s_world s_code s_txns s_receipts s_ix] in S1, S2, S3, S4, S5. rewrite <- S1, <- S2, <- S3, <- S4, <- S5 in H. cbn [Nat.eqb] in H.
  rewrite Ep' in H.
  match type of H with context [ do_txns _ _ _ _ _ _ _ [None] ?x ] => destruct (D x eq_refl) as (s2 & E2 & Sm) end.
  rewrite E2 in H. clear D.
  destruct (do_withdrawals impl ws s2) as [ s3 | ] eqn:E3; [ | exfalso; clear -H; inv_try; discriminate ].
  destruct (do_withdrawals_same _ _ _ (start trie w code) _ (same_trans _ _ _ (same_sym _ _ Sm) ltac:(repeat split)) E3) as (s4 & E4 & (R1 & _ & R3 & R4 & _)).
  exists s4. split; [ reflexivity | ]. split; [ rewrite <- Ew; exact E4 | ].
  inv_try. subst. cbn [finish] in H. inv_try. subst. cbn. unfold roots. rewrite R1, R3, R4. reflexivity.
Qed.
Print Assumptions C55_once_idempotent.

(** The beacon root hook (Ethereum mainnet) is such a hook, in a world whose
    storage behaves as a map: [holds w a k v] says slot [k] of [a] is [v]. *)
Theorem C55_beacon_idempotent : forall {W Path Key : Type} (impl : world_impl W Path Key) slot_position (holds : W -> Z -> Z -> Z -> Prop),
  (forall w a k v w', v <> 0%Z -> store_int impl w a k v = Some w' -> holds w' a k v) ->
  (forall w a k w' o, reporting_destroy_slot impl w a k = Some (w', o) -> holds w' a k 0%Z) ->
  (forall w a k v k' v' w', k <> k' -> store_int impl w a k v = Some w' -> holds w a k' v' -> holds w' a k' v') ->
  (forall w a k k' v' w' o, k <> k' -> reporting_destroy_slot impl w a k = Some (w', o) -> holds w a k' v' -> holds w' a k' v') ->
  (forall w a k v, v <> 0%Z -> holds w a k v -> store_int impl w a k v = Some w) ->
  (forall w a k, holds w a k 0%Z -> exists o, reporting_destroy_slot impl w a k = Some (w, o)) ->
  forall timestamp beacon_root w m p w', do_beacon_hook impl slot_position timestamp beacon_root w = Some (m, p, w') ->
  exists m' p', do_beacon_hook impl slot_position timestamp beacon_root w' = Some (m', p', w').
Proof.
  intros W Path Key impl slot_position holds H1 H2 H3 H4 H5 H6 ts br w m p w' H. unfold do_beacon_hook in *. cbv zeta in *.
  set (k1 := (ts mod HISTORY_BUFFER_LENGTH)%Z) in *. set (k2 := (k1 + HISTORY_BUFFER_LENGTH)%Z) in *.
  assert (Hk : k1 <> k2) by (subst k2; unfold HISTORY_BUFFER_LENGTH; lia).
  set (a := BEACON_ROOTS_CONTRACT_ADDRESS) in *. clearbody k1 k2.
  assert (A : holds w' a k1 ts /\ holds w' a k2 br).
  { cbn [beacon_stores] in H. fold a in H.
    destruct (Z.eqb ts 0) eqn:Et; [ apply Z.eqb_eq in Et; subst ts | apply Z.eqb_neq in Et ];
    (destruct (Z.eqb br 0) eqn:Eb; [ apply Z.eqb_eq in Eb; subst br | apply Z.eqb_neq in Eb ]); inv_try;
    repeat match goal with X : (_, ?u) = (_, ?v) |- _ => apply (f_equal snd) in X; cbn [snd] in X; subst v end;
    (split; [ first [ eapply H3; [ | eassumption | ] | eapply H4; [ | eassumption | ] ]; [ congruence | ] | ]);
    first [ eapply H1; [ | eassumption ]; assumption | eapply H2; eassumption ]. }
  destruct A as (A1 & A2). cbn [beacon_stores]. fold a.
  destruct (Z.eqb ts 0) eqn:Et; [ apply Z.eqb_eq in Et; subst ts; destruct (H6 _ _ _ A1) as (o1 & ->) | apply Z.eqb_neq in Et; rewrite (H5 _ _ _ _ Et A1) ];
  (destruct (Z.eqb br 0) eqn:Eb; [ apply Z.eqb_eq in Eb; subst br; destruct (H6 _ _ _ A2) as (o2 & ->) | apply Z.eqb_neq in Eb; rewrite (H5 _ _ _ _ Eb A2) ]); eauto.
Qed.
Print Assumptions C55_beacon_idempotent.

(** * A small world, for examples: an association list from (address, slot)
    to values, slots -1, -2, -3 being balance, nonce and code hash; the root
    hashes the list. *)
Module Demo.
  Definition world : Type := list (Z * Z * Z).
  Definition key_eqb (a b : Z * Z) : bool := Z.eqb (fst a) (fst b) && Z.eqb (snd a) (snd b).
  Fixpoint get (w : world) (k : Z * Z) : option Z :=
    match w with [] => None | (k', v) :: r => if key_eqb k' k then Some v else get r k end.
  Fixpoint set (w : world) (k : Z * Z) (v : Z) : world :=
    match w with [] => [(k, v)] | (k', v') :: r => if key_eqb k' k then (k, v) :: r else (k', v') :: set r k v end.
  Definition del (w : world) (k : Z * Z) : world := filter (fun e => negb (key_eqb (fst e) k)) w.
  Definition hash (w : world) : Z := fold_right (fun '(a, k, v) h => (h * 1000003 + a * 10007 + k * 101 + v) mod (2^256))%Z 7%Z w.
  Definition code_hash (c : bytes) : Z := fold_right (fun b h => h * 257 + b + 1)%Z 1%Z c.
  Definition update (slot : Z) (w : world) (a : Z) (f : Z -> option Z) : option world :=
    match f (match get w (a, slot) with Some v => v | None => 0%Z end) with Some v => Some (set w (a, slot) v) | None => None end.
  Definition impl : world_impl world Z Z := {|
    contains w a := Some (match get w (a, -1)%Z with Some _ => true | None => false end);
    update_balance := update (-1); update_nonce := update (-2);
    set_code w a c := Some (set w (a, -3)%Z (match c with inl c => code_hash c | inr h => h end));
    reporting_destroy w a := Some (filter (fun e => negb (Z.eqb (fst (fst e)) a && Z.ltb (snd (fst e)) 0)) w, None);
    create_storage w a := Some w;
    destroy_storage w a := Some (filter (fun e => negb (Z.eqb (fst (fst e)) a && Z.leb 0 (snd (fst e)))) w);
    store_int w a k v := Some (set w (a, k) v);
    reporting_destroy_slot w a k := Some (del w (a, k), None);
    mask_storage w m := Some w; mask w p := Some w; root := hash; path_of_address a := a |}.
  Definition trie : index_trie (list (nat * bytes)) := {|
    t_new := []; t_insert t i b := Some (t ++ [(i, b)]); t_mask t l := Some t; t_root t := fold_right (fun '(i, b) h => h * 1000003 + Z.of_nat i * 7919 + code_hash b)%Z 3%Z t |}.
  Definition run (pre : world -> option (list (Z * list Z) * list Z * world)) :=
    entrypoint impl trie code_hash (fun k => k) Some (fun _ => Some true) pre true.

  Definition no_hook (w : world) : option (list (Z * list Z) * list Z * world) := Some ([], [], w).
  Definition scalable := do_scalable_hook impl (fun w a k => get w (a, k)) (fun w a h v => Some (set w (a, h) v)) (fun k => k) (fun h => h) (fun a b => a * 1000 + b + 5000)%Z.
  Definition beacon := do_beacon_hook impl (fun k => k).

  Definition trace (balance nonce : Z) (read : list Z) (written : list (Z * Z)) (u : option code_usage) (sd : bool) : txn_trace :=
    {| t_balance := Some balance; t_nonce := Some nonce; t_storage_read := read; t_storage_written := written; t_code_usage := u; t_self_destructed := sd |}.
  Definition w0 : world := [((1, -1), 1000); ((1, -2), 0); ((2, -1), 50); ((2, 4), 9); ((2, 6), 1)]%Z.
  Definition txns : list txn_info := [
    {| i_traces := [(1%Z, trace 900 1 [] [] None false); (2%Z, trace 150 0 [4%Z] [(4, 0); (5, 3)]%Z None false)]; i_byte_code := [1; 1]%Z; i_receipt := [5]%Z; i_gas_used := 21000 |};
    {| i_traces := [(3%Z, trace 10 1 [] [(1, 1)]%Z (Some (Write [96; 0]%Z)) false)]; i_byte_code := [2]%Z; i_receipt := [6]%Z; i_gas_used := 53000 |};
    {| i_traces := [(2%Z, trace 0 1 [6%Z] [] None true)]; i_byte_code := [3]%Z; i_receipt := [7]%Z; i_gas_used := 30000 |}].
  Definition empty_codes : code_map := fun h => if Z.eqb h (code_hash []) then Some [] else None.
  Lemma keep : masks_keep_roots impl trie.
  Proof. repeat split; intros; cbn in *; congruence. Qed.

  Example run_example :
    option_map (map (fun g => (g_txn_number_before g, g_gas_used_before g, g_gas_used_after g, g_signed_txns g, g_withdrawals g, length (g_contract_code g)))) (run (beacon 1000 77) w0 txns empty_codes [(1, 2)]%Z 2)
    = Some [(0, 0%Z, 74000%Z, [[1; 1]; [2]]%Z, [], 2); (2, 74000%Z, 104000%Z, [[3]]%Z, [(1, 2000000000)]%Z, 1)].
  Proof. vm_compute. reflexivity. Qed.
  Definition d0 : @inputs world (list (nat * bytes)) :=
    {| g_txn_number_before := 0; g_gas_used_before := 0; g_gas_used_after := 0; g_signed_txns := []; g_withdrawals := []; g_world := []; g_txns := []; g_receipts := [];
       g_roots_after := (0, 0, 0)%Z; g_contract_code := [] |}.
  Example C53_example : exists gs gs', run (beacon 1000 77) w0 txns empty_codes [(1, 2)]%Z 1 = Some gs /\ run (beacon 1000 77) w0 txns empty_codes [(1, 2)]%Z 3 = Some gs' /\
    length gs = 3 /\ length gs' = 2 /\ g_roots_after (last gs d0) = g_roots_after (last gs' d0).
  Proof. eexists _, _. split; [ vm_compute; reflexivity | ]. split; [ vm_compute; reflexivity | ]. repeat split. Qed.

  Lemma key_eqb_eq : forall a b, key_eqb a b = true <-> a = b.
  Proof. intros (a1, a2) (b1, b2). unfold key_eqb. cbn. rewrite andb_true_iff, !Z.eqb_eq. split; [ intros [ -> -> ] | intros E ]; [ reflexivity | split; congruence ]. Qed.
  Lemma get_set : forall w k v k', get (set w k v) k' = if key_eqb k k' then Some v else get w k'.
  Proof.
    induction w as [ | (kk, vv) w IH ]; intros k v k'; cbn [set get]; [ reflexivity | ].
    destruct (key_eqb kk k) eqn:E; cbn [get].
    - apply key_eqb_eq in E. subst kk. destruct (key_eqb k k'); reflexivity.
    - rewrite IH. destruct (key_eqb kk k') eqn:E1; [ | reflexivity ]. apply key_eqb_eq in E1. subst kk. destruct (key_eqb k k') eqn:E2; [ | reflexivity ].
      apply key_eqb_eq in E2. subst k. rewrite (proj2 (key_eqb_eq k' k') eq_refl) in E. discriminate.
  Qed.
  Lemma get_del : forall w k k', get (del w k) k' = if key_eqb k k' then None else get w k'.
  Proof.
    induction w as [ | (kk, vv) w IH ]; intros k k'; unfold del in *; cbn [filter get fst]; [ destruct (key_eqb k k'); reflexivity | ].
    destruct (key_eqb kk k) eqn:E; cbn [negb get].
    - apply key_eqb_eq in E. subst kk. rewrite IH. destruct (key_eqb k k'); reflexivity.
    - rewrite IH. destruct (key_eqb kk k') eqn:E1; [ | reflexivity ]. apply key_eqb_eq in E1. subst kk. destruct (key_eqb k k') eqn:E2; [ | reflexivity ].
      apply key_eqb_eq in E2. subst k. rewrite (proj2 (key_eqb_eq k' k') eq_refl) in E. discriminate.
  Qed.
  Lemma set_same : forall w k v, get w k = Some v -> set w k v = w.
  Proof.
    induction w as [ | (kk, vv) w IH ]; intros k v; cbn [set get]; [ discriminate | ].
    destruct (key_eqb kk k) eqn:E; intros H; [ apply key_eqb_eq in E; congruence | rewrite IH; auto ].
  Qed.
  Lemma del_same : forall w k, get w k = None -> del w k = w.
  Proof.
    induction w as [ | (kk, vv) w IH ]; intros k; unfold del in *; cbn [filter get fst]; [ reflexivity | ].
    destruct (key_eqb kk k); intros H; [ discriminate | ]. cbn [negb]. rewrite IH; auto.
  Qed.
  (** The demo world meets the hypotheses of [C55_beacon_idempotent]. *)
  Example beacon_idempotent : forall ts br w m p w', beacon ts br w = Some (m, p, w') -> exists m' p', beacon ts br w' = Some (m', p', w').
  Proof.
    unfold beacon. apply C55_beacon_idempotent with (holds := fun w a k v => get w (a, k) = if Z.eqb v 0 then None else Some v).
    - intros w a k v w' Hv H. apply some_inj in H. subst w'. rewrite get_set, (proj2 (key_eqb_eq _ _) eq_refl). apply Z.eqb_neq in Hv. rewrite Hv. reflexivity.
    - intros w a k w' o H. cbn in H. assert (w' = del w (a, k)) by congruence. subst w'. rewrite get_del, (proj2 (key_eqb_eq _ _) eq_refl). reflexivity.
    - intros w a k v k' v' w' Hk H. apply some_inj in H. subst w'. rewrite get_set. destruct (key_eqb (a, k) (a, k')) eqn:E; [ apply key_eqb_eq in E; congruence | auto ].
    - intros w a k k' v' w' o Hk H. cbn in H. assert (w' = del w (a, k)) by congruence. subst w'. rewrite get_del. destruct (key_eqb (a, k) (a, k')) eqn:E; [ apply key_eqb_eq in E; congruence | auto ].
    - intros w a k v Hv H. apply Z.eqb_neq in Hv. rewrite Hv in H. cbn. rewrite set_same; auto.
    - intros w a k H. cbn in *. exists None. rewrite del_same; auto.
  Qed.
  Example C55_example : exists gs, run (beacon 1000 77) w0 [] empty_codes [(1, 2)]%Z 3 = Some gs /\ length gs = 2.
  Proof. eexists. split; vm_compute; reflexivity. Qed.

  (** Refuted for the hook of the cdk_erigon feature: it records the current
      state root, so the second run records the root left by the first, and
      the block ends with another root than after one run. *)
  Theorem C55_pre_execution_once_refuted : exists world code hint gs m p w,
    run (scalable 12 1000 (Some (5, 6)%Z)) world [] code [] hint = Some gs /\ scalable 12 1000 (Some (5, 6)%Z) world = Some (m, p, w) /\
    fst (fst (g_roots_after (List.last gs d0))) <> root impl w.
  Proof.
    exists w0, empty_codes, 3. eexists _, _, _, _. split; [ vm_compute; reflexivity | ]. split; [ vm_compute; reflexivity | ]. vm_compute. discriminate.
  Qed.
  Print Assumptions C55_pre_execution_once_refuted.
End Demo.
