(** An invariant of worlds that the calls of the block loop keep holds of every
    world the loop hands to the prover. *)

From Coq Require Import ZArith List Bool Arith Lia.
From Verif.Trace Require Import BatchModel BatchProps.
Import ListNotations.

Section Inv.
  Context {W Path Key T : Type}.
  Variable impl : world_impl W Path Key.
  Variable trie : index_trie T.
  Variable code_hash : bytes -> Z.
  Variable slot_key : Z -> Key.
  Variable map_receipt_bytes : bytes -> option bytes.
  Variable receipt_status : bytes -> option bool.
  Variable do_pre_execution : W -> option (list (Z * list Key) * list Path * W).
  Variable fatal_missing_code : bool.
  Variable Inv : W -> Prop.

  (** Storage is only created where there is no account, and an account only
      destroyed after its storage. *)
  Record kept_by : Prop := {
    kb_balance : forall w a f w', Inv w -> update_balance impl w a f = Some w' -> Inv w';
    kb_nonce : forall w a f w', Inv w -> update_nonce impl w a f = Some w' -> Inv w';
    kb_code : forall w a c w', Inv w -> set_code impl w a c = Some w' -> Inv w';
    kb_create : forall w a w', Inv w -> contains impl w a = Some false -> create_storage impl w a = Some w' -> Inv w';
    kb_destroy : forall w a w1 w2 p, Inv w -> destroy_storage impl w a = Some w1 -> reporting_destroy impl w1 a = Some (w2, p) -> Inv w2;
    kb_store : forall w a k v w', Inv w -> store_int impl w a k v = Some w' -> Inv w';
    kb_slot : forall w a k w' p, Inv w -> reporting_destroy_slot impl w a k = Some (w', p) -> Inv w';
    kb_mask_storage : forall w ms w', Inv w -> mask_storage impl w ms = Some w' -> Inv w';
    kb_mask : forall w ps w', Inv w -> mask impl w ps = Some w' -> Inv w';
    kb_pre : forall w m p w', Inv w -> do_pre_execution w = Some (m, p, w') -> Inv w' }.

  Hypothesis KB : kept_by.
  Notation st := (@st W Path Key T).

  Ltac tr H := match type of H with
    | (match ?r with Some _ => _ | None => None end) = Some _ => let x := fresh "x" in let E := fresh "E" in destruct r as [x|] eqn:E; [|discriminate H]
    end.

  Lemma inv_slots addr : forall l (s s' : st), Inv (s_world s) -> write_slots impl addr l s = Some s' -> Inv (s_world s').
  Proof.
    induction l as [|[k v] l IH]; intros s s' H E; cbn [write_slots] in E; [congruence|].
    tr E. apply (IH x s'); [|exact E]. destruct (Z.eqb v 0).
    - tr E0. destruct x0 as [w key]. assert (x = with_storage_mask (with_world s w) addr (opt_list key)) by congruence. subst x. cbn. eapply kb_slot; eauto.
    - tr E0. assert (x = with_world s x0) by congruence. subst x. cbn. eapply kb_store; eauto.
  Qed.

  Lemma inv_code addr u : forall (s s' : st), Inv (s_world s) -> use_code impl code_hash fatal_missing_code addr u s = Some s' -> Inv (s_world s').
  Proof.
    intros s s' H E. unfold use_code in E. destruct u as [[h|c]|]; [| |congruence].
    - destruct (s_code s h) as [c|].
      + assert (Q : (match set_code impl (s_world s) addr (inl c) with Some w => Some (with_contract (with_world s w) c) | None => None end) = Some s') by (destruct fatal_missing_code; exact E).
        tr Q. assert (s' = with_contract (with_world s x) c) by congruence. subst s'. cbn. eapply kb_code; eauto.
      + destruct fatal_missing_code; [discriminate|]. tr E. assert (s' = with_world s x) by congruence. subst s'. cbn. eapply kb_code; eauto.
    - tr E. match type of E with Some ?y = _ => assert (s' = y) by congruence end. subst s'. cbn in *. eapply kb_code; eauto.
  Qed.

  Lemma inv_trace receipt addr t : forall (s s' : st), Inv (s_world s) ->
    do_trace impl code_hash slot_key map_receipt_bytes receipt_status fatal_missing_code receipt addr t s = Some s' -> Inv (s_world s').
  Proof.
    intros s s' H E. unfold do_trace in E. tr E. tr E. tr E. rename x1 into known. cbn zeta in E.
    tr E. rename x1 into s1. assert (H1 : Inv (s_world s1)).
    { destruct known; cbn [negb] in E3; [congruence|]. tr E3. assert (s1 = with_world s x1) by congruence. subst s1. cbn. eapply kb_create; eauto. }
    clear E3. tr E. rename x1 into s2.
    assert (H2 : Inv (s_world s2)).
    { match type of E3 with (if ?c then _ else _) = _ => destruct c end.
      - tr E3. assert (I1 : Inv (s_world x1)).
        { destruct (t_balance t); [|assert (x1 = with_storage_mask s1 addr (map slot_key (map fst (t_storage_written t) ++ t_storage_read t))) by congruence; subst; exact H1].
          tr E4. match type of E4 with Some ?y = _ => assert (x1 = y) by congruence end. subst x1. cbn in *. eapply kb_balance; eauto. }
        clear E4. tr E3. assert (I2 : Inv (s_world x2)).
        { destruct (t_nonce t); [|congruence]. tr E4. match type of E4 with Some ?y = _ => assert (x2 = y) by congruence end. subst x2. cbn in *. eapply kb_nonce; eauto. }
        clear E4. tr E3. pose proof (inv_code _ _ _ _ I2 E4) as I3. tr E3. pose proof (inv_slots _ _ _ _ I3 E5) as I4.
        match type of E3 with Some ?y = _ => assert (s2 = y) by congruence end. subst s2. exact I4.
      - match type of E3 with Some ?y = _ => assert (s2 = y) by congruence end. subst s2. exact H1. }
    destruct (t_self_destructed t); [|congruence]. tr E. tr E. destruct x2 as [w p]. match type of E with Some ?y = _ => assert (s' = y) by congruence end. subst s'. cbn. eapply kb_destroy; eauto.
  Qed.

  Lemma inv_traces receipt : forall l (s s' : st), Inv (s_world s) ->
    do_traces impl code_hash slot_key map_receipt_bytes receipt_status fatal_missing_code receipt l s = Some s' -> Inv (s_world s').
  Proof.
    induction l as [|[a t] l IH]; intros s s' H E; cbn [do_traces] in E; [congruence|]. tr E. apply (IH x s'); [|exact E]. eapply inv_trace; eauto.
  Qed.

  Lemma inv_txns : forall l (s s' : st), Inv (s_world s) ->
    do_txns impl trie code_hash slot_key map_receipt_bytes receipt_status fatal_missing_code l s = Some s' -> Inv (s_world s').
  Proof.
    induction l as [|o l IH]; intros s s' H E; cbn [do_txns] in E; [congruence|]. tr E. apply (IH x s'); [|exact E]. clear E.
    unfold do_txn in E0. tr E0. assert (I1 : Inv (s_world x0)).
    { match type of E with match ?b with [] => _ | _ => _ end = _ => destruct b end; [congruence|]. tr E. tr E. tr E.
      match type of E with Some ?y = _ => assert (x0 = y) by congruence end. subst x0. exact H. }
    clear E. tr E0. cbn zeta in E0. tr E0. apply inv_traces in E1; [|exact I1].
    match type of E0 with Some ?y = _ => assert (x = y) by congruence end. subst x. exact E1.
  Qed.

  Lemma inv_withdrawals : forall l (s s' : st), Inv (s_world s) -> do_withdrawals impl l s = Some s' -> Inv (s_world s').
  Proof.
    induction l as [|[a v] l IH]; intros s s' H E; cbn [do_withdrawals] in E; [congruence|]. cbn zeta in E. tr E.
    eapply IH; [|exact E]. cbn. eapply kb_balance; eauto.
  Qed.

  Notation middle_loop := (middle_loop impl trie code_hash slot_key map_receipt_bytes receipt_status do_pre_execution fatal_missing_code).
  Lemma inv_loop : forall bs len lix ws w c t r ix outs, Inv w -> middle_loop bs len lix ws w c t r ix = Some outs -> Forall (fun o => Inv (o_world o)) outs.
  Proof.
    induction bs as [|b bs IH]; intros len lix ws w c t r ix outs H E; cbn [BatchModel.middle_loop] in E; [assert (outs = []) by congruence; subst; constructor|].
    cbn zeta in E. tr E. rename x into s1. assert (H1 : Inv (s_world s1)).
    { destruct (ix =? 0); [|assert (Q : s_world s1 = w) by (match type of E0 with Some ?y = _ => assert (s1 = y) by congruence end; subst s1; reflexivity); now rewrite Q].
      cbn [s_world] in E0. tr E0. destruct x as [[m p] w']. match type of E0 with Some ?y = _ => assert (s1 = y) by congruence end. subst s1. cbn. eapply kb_pre; eauto. }
    clear E0. tr E. apply inv_txns in E0; [|exact H1]. rename x into s2. tr E. rename x into s3.
    assert (H3 : Inv (s_world s3)).
    { match type of E1 with (if ?c then _ else _) = _ => destruct c end; [|congruence]. exact (inv_withdrawals _ _ _ E0 E1). }
    clear E1. tr E. tr E. tr E. tr E. tr E. match type of E with Some ?y = _ => assert (outs = y) by congruence end. subst outs. constructor.
    - cbn. eapply (kb_mask_storage KB); [|eauto]. eapply (kb_mask KB); [exact H|eauto].
    - eapply IH; [|exact E5]. exact H3.
  Qed.

  (** Every world handed to the prover satisfies the invariant. *)
  Theorem inv_entrypoint : forall world txns code withdrawals hint gs, Inv world ->
    entrypoint impl trie code_hash slot_key map_receipt_bytes receipt_status do_pre_execution fatal_missing_code world txns code withdrawals hint = Some gs ->
    Forall (fun g => Inv (g_world g)) gs.
  Proof.
    intros world txns code withdrawals hint gs H E. unfold entrypoint in E. destruct (hint =? 0); [discriminate|]. tr E. tr E. unfold middle in E1.
    apply inv_loop in E1; [|exact H]. clear E0. revert E. generalize 0%Z as z. revert gs. induction E1 as [|o outs Ho _ IH]; intros gs z E; cbn [finish] in E.
    - assert (gs = []) by congruence. subst. constructor.
    - tr E. tr E. match type of E with Some ?y = _ => assert (gs = y) by congruence end. subst gs. constructor; [exact Ho|]. eapply IH; eauto.
  Qed.

  (** ** The masks of a batch *)

  (** The addresses in the traces, and those the pre-execution hook masks. *)
  Variable P : Z -> Prop.
  Definition masks_wf (ms : list (Z * list Key)) : Prop := NoDup (map fst ms) /\ Forall P (map fst ms).
  Definition traces_in (l : list txn_info) : Prop := forall a, touched l a -> P a.
  Hypothesis PRE : forall w m p w', do_pre_execution w = Some (m, p, w') -> masks_wf m.

  Lemma extend_keys (ms : list (Z * list Key)) a ks : map fst (extend_mask ms a ks) = if existsb (Z.eqb a) (map fst ms) then map fst ms else map fst ms ++ [a].
  Proof.
    induction ms as [|[b l] ms IH]; cbn [extend_mask map fst existsb]; [reflexivity|]. rewrite (Z.eqb_sym a b). destruct (Z.eqb b a) eqn:E; cbn [map fst orb]; [reflexivity|].
    rewrite IH. now destruct (existsb _ _).
  Qed.
  Lemma extend_wf (ms : list (Z * list Key)) a ks : masks_wf ms -> P a -> masks_wf (extend_mask ms a ks).
  Proof.
    intros [N F] Pa. unfold masks_wf. rewrite extend_keys. destruct (existsb (Z.eqb a) (map fst ms)) eqn:E; [split; auto|].
    assert (NI : ~ In a (map fst ms)).
    { intros I. apply not_true_iff_false in E. apply E. apply existsb_exists. exists a. split; [exact I|apply Z.eqb_refl]. }
    split; [|apply Forall_app; split; auto].
    clear F E. induction (map fst ms) as [|x l IH]; cbn; [repeat constructor; easy|]. inversion N; subst. constructor.
    - rewrite in_app_iff. cbn. intros [I|[->|[]]]; [easy|]. apply NI. now left.
    - apply IH; [auto|]. intros I. apply NI. now right.
  Qed.

  Lemma wf_slots addr : P addr -> forall l (s s' : st), masks_wf (b_storage_masks s) -> write_slots impl addr l s = Some s' -> masks_wf (b_storage_masks s').
  Proof.
    intros Pa. induction l as [|[k v] l IH]; intros s s' H E; cbn [write_slots] in E; [congruence|].
    tr E. apply (IH x s'); [|exact E]. destruct (Z.eqb v 0).
    - tr E0. destruct x0 as [w key]. assert (x = with_storage_mask (with_world s w) addr (opt_list key)) by congruence. subst x. cbn. now apply extend_wf.
    - tr E0. assert (x = with_world s x0) by congruence. subst x. exact H.
  Qed.
  Lemma wf_code addr u : forall (s s' : st), use_code impl code_hash fatal_missing_code addr u s = Some s' -> b_storage_masks s' = b_storage_masks s.
  Proof.
    intros s s' E. unfold use_code in E. destruct u as [[h|c]|]; [| |congruence].
    - destruct (s_code s h) as [c|].
      + assert (Q : (match set_code impl (s_world s) addr (inl c) with Some w => Some (with_contract (with_world s w) c) | None => None end) = Some s') by (destruct fatal_missing_code; exact E).
        tr Q. assert (s' = with_contract (with_world s x) c) by congruence. subst s'. reflexivity.
      + destruct fatal_missing_code; [discriminate|]. tr E. assert (s' = with_world s x) by congruence. subst s'. reflexivity.
    - tr E. match type of E with Some ?y = _ => assert (s' = y) by congruence end. subst s'. reflexivity.
  Qed.
  Lemma wf_trace receipt addr t : P addr -> forall (s s' : st), masks_wf (b_storage_masks s) ->
    do_trace impl code_hash slot_key map_receipt_bytes receipt_status fatal_missing_code receipt addr t s = Some s' -> masks_wf (b_storage_masks s').
  Proof.
    intros Pa s s' H E. unfold do_trace in E. tr E. tr E. tr E. rename x1 into known. cbn zeta in E.
    tr E. rename x1 into s1. assert (H1 : b_storage_masks s1 = b_storage_masks s).
    { destruct known; cbn [negb] in E3; [congruence|]. tr E3. assert (s1 = with_world s x1) by congruence. subst s1. reflexivity. }
    clear E3. tr E. rename x1 into s2.
    assert (H0 : masks_wf (b_storage_masks (with_storage_mask s1 addr (map slot_key (map fst (t_storage_written t) ++ t_storage_read t)))))
      by (cbn; apply extend_wf; [rewrite H1; exact H|exact Pa]).
    assert (H2 : masks_wf (b_storage_masks s2)).
    { match type of E3 with (if ?c then _ else _) = _ => destruct c end.
      - tr E3. assert (I1 : masks_wf (b_storage_masks x1)).
        { destruct (t_balance t); [|assert (x1 = with_storage_mask s1 addr (map slot_key (map fst (t_storage_written t) ++ t_storage_read t))) by congruence; subst; exact H0].
          tr E4. match type of E4 with Some ?y = _ => assert (x1 = y) by congruence end. subst x1. exact H0. }
        clear E4. tr E3. assert (I2 : masks_wf (b_storage_masks x2)).
        { destruct (t_nonce t); [|congruence]. tr E4. match type of E4 with Some ?y = _ => assert (x2 = y) by congruence end. subst x2. exact I1. }
        clear E4. tr E3. apply wf_code in E4. tr E3. apply wf_slots in E5; [|exact Pa|rewrite E4; exact I2].
        match type of E3 with Some ?y = _ => assert (s2 = y) by congruence end. subst s2. exact E5.
      - match type of E3 with Some ?y = _ => assert (s2 = y) by congruence end. subst s2. exact H0. }
    destruct (t_self_destructed t); [|congruence]. tr E. tr E. destruct x2 as [w p]. match type of E with Some ?y = _ => assert (s' = y) by congruence end. subst s'. exact H2.
  Qed.
  Lemma wf_traces receipt : forall l (s s' : st), (forall a t, In (a, t) l -> P a) -> masks_wf (b_storage_masks s) ->
    do_traces impl code_hash slot_key map_receipt_bytes receipt_status fatal_missing_code receipt l s = Some s' -> masks_wf (b_storage_masks s').
  Proof.
    induction l as [|[a t] l IH]; intros s s' HP H E; cbn [do_traces] in E; [congruence|]. tr E. apply (IH x s'); [|eapply wf_trace; eauto|exact E].
    - intros b u I. eapply HP. right. exact I.
    - eapply HP. left. reflexivity.
  Qed.
  Lemma wf_txns : forall l (s s' : st), traces_in (reals l) -> masks_wf (b_storage_masks s) ->
    do_txns impl trie code_hash slot_key map_receipt_bytes receipt_status fatal_missing_code l s = Some s' -> masks_wf (b_storage_masks s').
  Proof.
    induction l as [|o l IH]; intros s s' HP H E; cbn [do_txns] in E; [congruence|]. tr E. rewrite reals_cons in HP.
    apply (IH x s'); [|clear E|exact E].
    { intros a (i & t & I & J). apply HP. exists i, t. split; [apply in_or_app; now right|exact J]. }
    unfold do_txn in E0. tr E0. assert (I1 : b_storage_masks x0 = b_storage_masks s).
    { match type of E with match ?b with [] => _ | _ => _ end = _ => destruct b end; [congruence|]. tr E. tr E. tr E.
      match type of E with Some ?y = _ => assert (x0 = y) by congruence end. subst x0. reflexivity. }
    clear E. tr E0. cbn zeta in E0. tr E0. apply wf_traces in E1; [| |cbn [b_storage_masks]; rewrite I1; exact H].
    - match type of E0 with Some ?y = _ => assert (x = y) by congruence end. subst x. exact E1.
    - intros a t I. destruct o as [i|]; [|destruct I]. apply HP. exists i, t. split; [now left|exact I].
  Qed.
  Lemma wf_withdrawals : forall l (s s' : st), do_withdrawals impl l s = Some s' -> b_storage_masks s' = b_storage_masks s.
  Proof.
    induction l as [|[a v] l IH]; intros s s' E; cbn [do_withdrawals] in E; [congruence|]. cbn zeta in E. tr E. apply IH in E. exact E.
  Qed.

  (** What each batch's world is made of. *)
  Definition masked_from (w : W) (b : list (option txn_info)) (wm : W) : Prop :=
    exists paths masks w1, mask impl w paths = Some w1 /\ mask_storage impl w1 masks = Some wm /\ masks_wf masks /\
      (forall a, touched (reals b) a -> In (path_of_address impl a) paths) /\
      (forall a k, touched_slot (reals b) a k -> covers masks a (slot_key k)).
  Inductive batches_ok : W -> list (list (option txn_info)) -> list (@batch_out W T) -> Prop :=
  | bo_nil w : batches_ok w [] []
  | bo_cons w b bs o outs w' : Inv w -> masked_from w b (o_world o) -> fst (fst (o_roots o)) = root impl w' -> batches_ok w' bs outs ->
      batches_ok w (b :: bs) (o :: outs).

  Lemma loop_batches : forall bs len lix ws w c t r ix outs, Inv w -> traces_in (reals (concat bs)) ->
    middle_loop bs len lix ws w c t r ix = Some outs -> batches_ok w bs outs.
  Proof.
    induction bs as [|b bs IH]; intros len lix ws w c t r ix outs H HP E; cbn [BatchModel.middle_loop] in E; [assert (outs = []) by congruence; subst; constructor|].
    cbn [concat] in HP. rewrite reals_app in HP.
    assert (HP1 : traces_in (reals b)) by (intros a (i & u & I & J); apply HP; exists i, u; split; [apply in_or_app; now left|exact J]).
    assert (HP2 : traces_in (reals (concat bs))) by (intros a (i & u & I & J); apply HP; exists i, u; split; [apply in_or_app; now right|exact J]).
    cbn zeta in E. tr E. rename x into s1. assert (H1 : Inv (s_world s1) /\ masks_wf (b_storage_masks s1)).
    { destruct (ix =? 0).
      - cbn [s_world] in E0. tr E0. destruct x as [[m p] w']. match type of E0 with Some ?y = _ => assert (s1 = y) by congruence end. subst s1. cbn. split; [eapply kb_pre; eauto|eapply PRE; eauto].
      - match type of E0 with Some ?y = _ => assert (s1 = y) by congruence end. subst s1. cbn. split; [exact H|]. split; constructor. }
    destruct H1 as [H1 M1]. clear E0. tr E. pose proof (inv_txns _ _ _ H1 E0) as H2. pose proof (wf_txns _ _ _ HP1 M1 E0) as M2.
    destruct (do_txns_props _ _ _ _ _ _ _ _ _ _ E0) as (_ & _ & _ & _ & T2 & S2). rename x into s2. clear E0. tr E. rename x into s3.
    assert (H3 : Inv (s_world s3) /\ masks_wf (b_storage_masks s3) /\ (forall p, In p (b_state_mask s2) -> In p (b_state_mask s3)) /\
      (forall a k, covers (b_storage_masks s2) a k -> covers (b_storage_masks s3) a k)).
    { match type of E0 with (if ?c then _ else _) = _ => destruct c end.
      - split; [exact (inv_withdrawals _ _ _ H2 E0)|]. split; [rewrite (wf_withdrawals _ _ _ E0); exact M2|].
        destruct (do_withdrawals_props _ _ _ _ E0) as ((_ & [G1 G2 _]) & _). auto.
      - assert (s3 = s2) by congruence. subst s3. auto. }
    clear E0. destruct H3 as (H3 & M3 & G1 & G2). tr E. tr E. tr E. tr E. tr E. match type of E with Some ?y = _ => assert (outs = y) by congruence end. subst outs.
    apply bo_cons with (w' := s_world s3); [exact H| |reflexivity|eapply IH; eauto].
    cbn [o_world]. eexists. eexists. eexists. split; [eassumption|]. split; [eassumption|]. split; [exact M3|]. split; auto.
  Qed.

  Theorem inv_batches : forall world txns code withdrawals hint gs, Inv world -> traces_in txns ->
    entrypoint impl trie code_hash slot_key map_receipt_bytes receipt_status do_pre_execution fatal_missing_code world txns code withdrawals hint = Some gs ->
    forall i g b, nth_error gs i = Some g -> nth_error (batch txns hint) i = Some b ->
    exists w, Inv w /\ masked_from w b (g_world g) /\ (i = 0 -> w = world) /\
      (forall p g', i = S p -> nth_error gs p = Some g' -> fst (fst (g_roots_after g')) = root impl w).
  Proof.
    intros world txns code withdrawals hint gs H HP E. unfold entrypoint in E. destruct (hint =? 0); [discriminate|]. tr E. tr E. unfold middle in E1.
    apply loop_batches in E1; [|exact H|rewrite reals_batch; exact HP]. clear E0 HP. revert E. generalize 0%Z as z. revert gs.
    assert (G : forall w bs outs, batches_ok w bs outs -> forall gs z, finish code_hash outs z = Some gs ->
      forall i g b, nth_error gs i = Some g -> nth_error bs i = Some b ->
      exists w0, Inv w0 /\ masked_from w0 b (g_world g) /\ (i = 0 -> w0 = w) /\ (forall p g', i = S p -> nth_error gs p = Some g' -> fst (fst (g_roots_after g')) = root impl w0)).
    { clear. induction 1 as [w|w b0 bs o outs w' Iw M R B IH]; intros gs z E i g b Hi Hb; cbn [finish] in E.
      - destruct i; discriminate.
      - tr E. tr E. match type of E with Some ?y = _ => assert (gs = y) by congruence end. subst gs. destruct i as [|i]; cbn [nth_error] in Hi, Hb.
        + match type of Hi with Some ?y = _ => assert (g = y) by congruence end. subst g. assert (b0 = b) by congruence. subst b0. exists w.
          split; [exact Iw|]. split; [exact M|]. split; [auto|]. discriminate.
        + destruct (IH _ _ E1 i g b Hi Hb) as (w0 & I0 & M0 & Z0 & C0). exists w0. split; [exact I0|]. split; [exact M0|]. split; [discriminate|].
          intros p g' Ep Hp. assert (p = i) by congruence. subst p. destruct i as [|i]; cbn [nth_error] in Hp.
          * match type of Hp with Some ?y = _ => assert (g' = y) by congruence end. subst g'. cbn [g_roots_after]. rewrite (Z0 eq_refl). exact R.
          * exact (C0 i g' eq_refl Hp). }
    intros gs z E. exact (G _ _ _ E1 gs z E).
  Qed.
End Inv.
