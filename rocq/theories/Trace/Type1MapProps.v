(** C60: the type-1 world reads back what was written, and a call changes
    nothing else. *)

From Coq Require Import List Arith NArith Bool Lia ZifyN ZifyNat ZifyBool.
From Verif.Mpt Require Import NibblesModel TrieModel TrieSpec TrieFacts TrieOpsProofs TrieIterProofs HashModel HexPrefixProofs RlpProofs
  SubsetModel QueryModel PruneSpec PruneProofs PartialProofs PartialProps FixedOpsProofs.
From Verif.Trace Require Import WireModel Type1Model Type1WorldModel Type1WorldProps.
Import ListNotations.
Local Open Scope nat_scope.

Section Map.
  Variable keccak : list N -> list N.

  (** The storage tries are canonical, with values at 256 bits. *)
  Definition storages_ok (w : world) : Prop :=
    forall k t, storage_get (w_storage w) k = Some t -> canon (t_node t) /\ at_depth 64 (t_node t).

  (** What can be read of an account, and of a slot. *)
  Definition account_of (w : world) (addr : list N) : outcome (option account) := state_get (w_state w) (hkey keccak addr).
  Definition slot_of (w : world) (addr : list N) (slot : N) : outcome N := w_load_int keccak w addr slot.

  (** The two accounts differ at most in the storage root. *)
  Definition same_but_storage (a b : account) : Prop :=
    a_nonce a = a_nonce b /\ a_balance a = a_balance b /\ a_code_hash a = a_code_hash b.

  Hypothesis KOK : keccak_ok keccak.

  (** * The storage tries stay well-formed *)
  Lemma put_ok t k v t' : hash_key k -> canon (t_node t) /\ at_depth 64 (t_node t) -> trie_put t k (Val v) = Done t' ->
    (canon (t_node t') /\ at_depth 64 (t_node t')) /\ forall q, look (t_node t') q = if key_eq_dec q k then Some (Val v) else look (t_node t) q.
  Proof.
    intros [Lk Hk] [C A] E. unfold trie_put in E. destruct (trie_insert (t_node t) k (Val v)) as [n| |] eqn:Ei; try discriminate. cbn [of_res obind] in E.
    assert (t' = {| t_node := n; t_strategy := t_strategy t |}) by congruence. subst t'. cbn [t_node].
    destruct (insert_fixed 64 _ k v n C A Lk Hk Ei) as (C' & A' & L & _). auto.
  Qed.
  Lemma remove_ok t k t' o : hash_key k -> canon (t_node t) /\ at_depth 64 (t_node t) -> trie_reporting_remove t k = Done (t', o) ->
    (canon (t_node t') /\ at_depth 64 (t_node t')) /\ forall q, look (t_node t') q = if key_eq_dec q k then None else look (t_node t) q.
  Proof.
    intros [Lk Hk] [C A] E. unfold trie_reporting_remove in E.
    destruct (reporting_remove (t_node t) k (t_strategy t)) as [[n r]| |] eqn:Er; try discriminate. cbn [of_res obind fst snd] in E.
    assert (t' = {| t_node := n; t_strategy := t_strategy t |}) by congruence. subst t'. cbn [t_node].
    unfold reporting_remove in Er. destruct (path_for_query _ _ _); try discriminate. cbn [bind] in Er.
    destruct (trie_delete (t_node t) k (t_strategy t)) as [[n1 d]| |] eqn:Ed; try discriminate. cbn [bind fst] in Er.
    destruct (path_for_query n1 _ _); try discriminate. cbn [bind] in Er. destruct (node_deletion_resulted_in_a_branch_collapse _ _); try discriminate. cbn [bind] in Er.
    assert (n1 = n) by congruence. subst n1. destruct (delete_fixed 64 _ k _ n d C A Lk Ed) as (C' & A' & _ & L). auto.
  Qed.
  Lemma mask_ok t ks t' : canon (t_node t) /\ at_depth 64 (t_node t) -> trie_mask keccak t ks = Done t' -> canon (t_node t') /\ at_depth 64 (t_node t').
  Proof.
    intros [C A] E. apply mask_trie in E as [P _]. split; [exact (prunes_canon keccak _ _ P C)|exact (prunes_depth keccak 64 _ _ P C A)].
  Qed.

  Lemma storages_set w k t : storages_ok w -> canon (t_node t) /\ at_depth 64 (t_node t) -> storages_ok (with_storage w (storage_set (w_storage w) k t)).
  Proof. intros S T k' t' H. cbn [with_storage w_storage] in H. rewrite storage_get_set in H. destruct (key_eq_dec k' k); [congruence|eauto]. Qed.

  Lemma on_storage_sok {A} w addr (f : trie -> outcome (trie * A)) : storages_ok w ->
    (forall t t' r, canon (t_node t) /\ at_depth 64 (t_node t) -> f t = Done (t', r) -> canon (t_node t') /\ at_depth 64 (t_node t')) ->
    storages_ok (fst (on_storage keccak w addr f)).
  Proof.
    intros S F. unfold on_storage. destruct (state_get _ _) as [[a|]| |]; try exact S. destruct (storage_get _ _) as [t|] eqn:E; [|exact S].
    destruct (f t) as [[t' r]| |] eqn:Ef; try exact S. pose proof (storages_set w (hkey keccak addr) t' S (F _ _ _ (S _ _ E) Ef)) as Q.
    destruct (state_insert _ _ _); cbn [fst]; exact Q.
  Qed.

  (** One call, successful or not, keeps them so. *)
  Theorem C60_storages_ok : forall w o, storages_ok w -> typed o -> storages_ok (after keccak w o).
  Proof.
    intros w o S T. destruct o as [addr f|addr f|addr c|addr s v|addr h v|addr s|ks|ms|addr|addr|addr]; cbn [after].
    1-3: unfold w_update_balance, w_update_nonce, w_set_code, update_account; destruct (state_get _ _); try exact S; destruct (state_insert _ _ _); exact S.
    - apply on_storage_sok; auto. intros t t' r H E. destruct (trie_put t _ _) as [t1| |] eqn:Ep; try discriminate. cbn [obind] in E.
      assert (t1 = t') by congruence. subst t1. now apply (put_ok _ _ _ _ (slot_key_ok keccak KOK s) H) in Ep.
    - apply on_storage_sok; auto. intros t t' r H E. destruct (trie_put t _ _) as [t1| |] eqn:Ep; try discriminate. cbn [obind] in E.
      assert (t1 = t') by congruence. subst t1. destruct T as [T1 T2]. now apply (put_ok _ _ _ _ (nibbles_of_key keccak h T1 T2) H) in Ep.
    - apply on_storage_sok; auto. intros t t' r H E. now apply (remove_ok _ _ _ _ (slot_key_ok keccak KOK s) H) in E.
    - unfold w_mask. destruct (trie_mask _ _ _); exact S.
    - unfold w_mask_storage. destruct (mask_tries keccak ms _) as [m r] eqn:E. cbn [fst]. intros k t H. cbn [with_storage w_storage] in H.
      assert (G : forall ms m0, (forall k t, storage_get m0 k = Some t -> canon (t_node t) /\ at_depth 64 (t_node t)) ->
        forall k t, storage_get (fst (mask_tries keccak ms m0)) k = Some t -> canon (t_node t) /\ at_depth 64 (t_node t)).
      { clear. induction ms as [|[addr keys] ms IH]; intros m0 H k t Hk; cbn [mask_tries] in Hk; [cbn [fst] in Hk; eauto|].
        destruct (storage_get m0 (hkey keccak addr)) as [u|] eqn:Eu; [|eapply IH; eauto].
        destruct (trie_mask keccak u keys) as [u'| |] eqn:Em; cbn [fst] in Hk; eauto. revert Hk. apply IH. intros k' t' Hs. rewrite storage_get_set in Hs.
        destruct (key_eq_dec k' _) as [->|]; [|eauto]. assert (u' = t') by congruence. subst u'. exact (mask_ok _ _ _ (H _ _ Eu) Em). }
      change m with (fst (m, r)) in H. rewrite <- E in H. revert H. apply G. intros k' t' Hs. rewrite storage_get_filter in Hs. destruct (in_dec _ _ _); [eauto|discriminate].
    - unfold w_destroy_storage. destruct (storage_get _ _); cbn [fst]; [|exact S]. intros k t' H. cbn [with_storage w_storage] in H.
      rewrite storage_get_del in H. destruct (key_eq_dec _ _); [discriminate|eauto].
    - unfold w_create_storage. cbn [fst]. apply storages_set; auto. split; [constructor|]. intros k x H. discriminate.
    - unfold w_reporting_destroy. destruct (trie_reporting_remove _ _) as [[s k]| |]; exact S.
  Qed.

  Lemma load_spec w addr slot t : storages_ok w -> storage_get (w_storage w) (hkey keccak addr) = Some t ->
    slot_of w addr slot = match look (t_node t) (slot_key keccak slot) with
                          | Some (Val b) => match decode_uint b with Some n => Done n | None => Fail end
                          | _ => Fail end.
  Proof.
    intros S E. destruct (S _ _ E) as [C A]. destruct (slot_key_ok keccak KOK slot) as [Lk Hk]. unfold slot_of, w_load_int. rewrite E.
    rewrite (get_fixed 64 _ _ C A Lk Hk). destruct (look _ _) as [[b|h]|]; reflexivity.
  Qed.

  Lemma on_storage_spec {A} w addr (f : trie -> outcome (trie * A)) w' r : world_ok keccak w ->
    (forall t t' r, f t = Done (t', r) -> forall h, t_node t' <> Hash h) ->
    on_storage keccak w addr f = (w', Done r) ->
    exists a t t', account_of w addr = Done (Some a) /\ storage_get (w_storage w) (hkey keccak addr) = Some t /\ f t = Done (t', r) /\
      w_storage w' = storage_set (w_storage w) (hkey keccak addr) t' /\ account_of w' addr = Done (Some (with_storage_root a (troot keccak t'))) /\
      (forall addr', hkey keccak addr' <> hkey keccak addr -> account_of w' addr' = account_of w addr').
  Proof.
    intros (S & Y & O) F E. pose proof (hkey_ok keccak KOK addr) as K. unfold on_storage in E. unfold account_of.
    destruct (state_get (w_state w) (hkey keccak addr)) as [[a|]| |] eqn:G; try discriminate.
    destruct (storage_get (w_storage w) (hkey keccak addr)) as [t|] eqn:St; [|discriminate].
    destruct (f t) as [[t' r']| |] eqn:Ef; try discriminate.
    destruct (state_insert (w_state w) (hkey keccak addr) (with_storage_root a (troot keccak t'))) as [s'| |] eqn:Ei; try discriminate.
    assert (r' = r) by congruence. assert (w' = with_state (with_storage w (storage_set (w_storage w) (hkey keccak addr) t')) s') by congruence. subst r' w'.
    pose proof (proj1 (get_some keccak _ _ _ S K) G) as [(A1 & A2 & A3 & A4) _].
    assert (A' : acct_ok (with_storage_root a (troot keccak t'))).
    { split; [exact A1|]. split; [exact A2|]. split; [|exact A4]. apply root_len; [exact KOK|]. eapply F; eauto. }
    destruct (insert_state keccak _ _ _ _ S K A' Ei) as (S' & G' & O' & _). exists a, t, t'. cbn [with_state with_storage w_state w_storage].
    split; [auto|]. split; [auto|]. split; [auto|]. split; [auto|]. split; [auto|]. intros addr' Ne. apply O'; [apply hkey_ok; auto|auto].
  Qed.

  (** A stored value is read back; no other slot and no other account changes,
      and the account keeps its nonce, balance and code. *)
  Theorem C60_store_int : forall w addr slot v w', world_ok keccak w -> storages_ok w -> (v < 2 ^ 256)%N ->
    w_store_int keccak w addr slot v = (w', Done tt) ->
    slot_of w' addr slot = Done v /\
    (forall addr' slot', hkey keccak addr' <> hkey keccak addr \/ slot_key keccak slot' <> slot_key keccak slot ->
       slot_of w' addr' slot' = slot_of w addr' slot') /\
    (exists a a', account_of w addr = Done (Some a) /\ account_of w' addr = Done (Some a') /\ same_but_storage a' a) /\
    (forall addr', hkey keccak addr' <> hkey keccak addr -> account_of w' addr' = account_of w addr').
  Proof.
    intros w addr slot v w' W S V E. pose proof (C60_storages_ok w (OpStoreInt addr slot v) S I) as S'. cbn [after] in S'. rewrite E in S'. cbn [fst] in S'.
    unfold w_store_int in E. apply on_storage_spec in E; auto.
    2:{ intros t t' r H. destruct (trie_put t _ _) as [t1| |] eqn:Ep; try discriminate. cbn [obind] in H. assert (t1 = t') by congruence. subst t1. exact (put_not_hash _ _ _ _ Ep). }
    destruct E as (a & t & t' & Ga & St & Ef & Es & Ga' & O). destruct (trie_put t _ _) as [t1| |] eqn:Ep; try discriminate. cbn [obind] in Ef.
    assert (t1 = t') by congruence. subst t1. destruct (put_ok _ _ _ _ (slot_key_ok keccak KOK slot) (S _ _ St) Ep) as [_ L].
    assert (St' : storage_get (w_storage w') (hkey keccak addr) = Some t') by (rewrite Es, storage_get_set; destruct (key_eq_dec _ _); congruence).
    split; [|split; [|split]].
    - rewrite (load_spec w' addr slot t' S' St'), L. destruct (key_eq_dec _ _); [|congruence]. now rewrite (decode_uint_ok keccak).
    - intros addr' slot' Ne. destruct (key_eq_dec (hkey keccak addr') (hkey keccak addr)) as [Eq|Nq].
      + assert (St1 : storage_get (w_storage w) (hkey keccak addr') = Some t) by (rewrite Eq; exact St).
        assert (St2 : storage_get (w_storage w') (hkey keccak addr') = Some t') by (rewrite Eq; exact St').
        rewrite (load_spec w addr' slot' t S St1), (load_spec w' addr' slot' t' S' St2), L. destruct (key_eq_dec (slot_key keccak slot') _); [|reflexivity].
        destruct Ne; congruence.
      + unfold slot_of, w_load_int. rewrite Es, storage_get_set. destruct (key_eq_dec _ _); [congruence|reflexivity].
    - eexists. eexists. split; [exact Ga|]. split; [exact Ga'|]. repeat split.
    - exact O.
  Qed.

  (** A destroyed slot reads as absent; nothing else changes. *)
  Theorem C60_destroy_slot : forall w addr slot w' r, world_ok keccak w -> storages_ok w ->
    w_reporting_destroy_slot keccak w addr slot = (w', Done r) ->
    slot_of w' addr slot = Fail /\
    (forall addr' slot', hkey keccak addr' <> hkey keccak addr \/ slot_key keccak slot' <> slot_key keccak slot ->
       slot_of w' addr' slot' = slot_of w addr' slot') /\
    (exists a a', account_of w addr = Done (Some a) /\ account_of w' addr = Done (Some a') /\ same_but_storage a' a) /\
    (forall addr', hkey keccak addr' <> hkey keccak addr -> account_of w' addr' = account_of w addr').
  Proof.
    intros w addr slot w' r W S E. pose proof (C60_storages_ok w (OpDestroySlot addr slot) S I) as S'. cbn [after] in S'. rewrite E in S'. cbn [fst] in S'.
    unfold w_reporting_destroy_slot in E. apply on_storage_spec in E; auto.
    2:{ intros t t' r' H. exact (remove_not_hash _ _ _ _ H). }
    destruct E as (a & t & t' & Ga & St & Ef & Es & Ga' & O). destruct (remove_ok _ _ _ _ (slot_key_ok keccak KOK slot) (S _ _ St) Ef) as [_ L].
    assert (St' : storage_get (w_storage w') (hkey keccak addr) = Some t') by (rewrite Es, storage_get_set; destruct (key_eq_dec _ _); congruence).
    split; [|split; [|split]].
    - rewrite (load_spec w' addr slot t' S' St'), L. destruct (key_eq_dec _ _); [|congruence]. reflexivity.
    - intros addr' slot' Ne. destruct (key_eq_dec (hkey keccak addr') (hkey keccak addr)) as [Eq|Nq].
      + assert (St1 : storage_get (w_storage w) (hkey keccak addr') = Some t) by (rewrite Eq; exact St).
        assert (St2 : storage_get (w_storage w') (hkey keccak addr') = Some t') by (rewrite Eq; exact St').
        rewrite (load_spec w addr' slot' t S St1), (load_spec w' addr' slot' t' S' St2), L. destruct (key_eq_dec (slot_key keccak slot') _); [|reflexivity].
        destruct Ne; congruence.
      + unfold slot_of, w_load_int. rewrite Es, storage_get_set. destruct (key_eq_dec _ _); [congruence|reflexivity].
    - eexists. eexists. split; [exact Ga|]. split; [exact Ga'|]. repeat split.
    - exact O.
  Qed.

  (** An account update changes the one field, of a fresh account if there was
      none; no other account and no slot changes. *)
  Lemma update_spec w addr f w' : world_ok keccak w -> (forall a, acct_ok a -> acct_ok (f a)) -> update_account keccak w addr f = (w', Done tt) ->
    (exists o, account_of w addr = Done o /\ account_of w' addr = Done (Some (f (match o with Some a => a | None => default_account keccak end)))) /\
    (forall addr', hkey keccak addr' <> hkey keccak addr -> account_of w' addr' = account_of w addr') /\
    (forall addr' slot, slot_of w' addr' slot = slot_of w addr' slot).
  Proof.
    intros (S & Y & O) F E. pose proof (hkey_ok keccak KOK addr) as K. unfold update_account in E. unfold account_of.
    destruct (get_spec keccak (w_state w) _ S K) as [(a & A & L & G)|[L G]]; rewrite G in *; clear G.
    - destruct (state_insert _ _ _) as [s'| |] eqn:Ei; try discriminate. assert (w' = with_state w s') by congruence. subst w'.
      destruct (insert_state keccak _ _ _ _ S K (F a A) Ei) as (S' & G' & O' & _). split; [exists (Some a); auto|]. split; [|reflexivity].
      intros addr' Ne. apply O'; [apply hkey_ok; auto|auto].
    - destruct (state_insert _ _ _) as [s'| |] eqn:Ei; try discriminate. assert (w' = with_state w s') by congruence. subst w'.
      destruct (insert_state keccak _ _ _ _ S K (F _ (default_ok keccak KOK)) Ei) as (S' & G' & O' & _). split; [exists None; auto|]. split; [|reflexivity].
      intros addr' Ne. apply O'; [apply hkey_ok; auto|auto].
  Qed.

  Theorem C60_update_balance : forall w addr f w', world_ok keccak w -> typed (OpBalance addr f) -> w_update_balance keccak w addr f = (w', Done tt) ->
    (exists o, account_of w addr = Done o /\ let a := match o with Some a => a | None => default_account keccak end in
       account_of w' addr = Done (Some {| a_nonce := a_nonce a; a_balance := f (a_balance a); a_storage_root := a_storage_root a; a_code_hash := a_code_hash a |})) /\
    (forall addr', hkey keccak addr' <> hkey keccak addr -> account_of w' addr' = account_of w addr') /\
    (forall addr' slot, slot_of w' addr' slot = slot_of w addr' slot).
  Proof.
    intros w addr f w' W T E. apply (update_spec w addr _ w' W) in E; [exact E|]. intros a (A1 & A2 & A3 & A4). split; [|split; [|split]]; auto. now apply T.
  Qed.
  Theorem C60_update_nonce : forall w addr f w', world_ok keccak w -> typed (OpNonce addr f) -> w_update_nonce keccak w addr f = (w', Done tt) ->
    (exists o, account_of w addr = Done o /\ let a := match o with Some a => a | None => default_account keccak end in
       account_of w' addr = Done (Some {| a_nonce := f (a_nonce a); a_balance := a_balance a; a_storage_root := a_storage_root a; a_code_hash := a_code_hash a |})) /\
    (forall addr', hkey keccak addr' <> hkey keccak addr -> account_of w' addr' = account_of w addr') /\
    (forall addr' slot, slot_of w' addr' slot = slot_of w addr' slot).
  Proof.
    intros w addr f w' W T E. apply (update_spec w addr _ w' W) in E; [exact E|]. intros a (A1 & A2 & A3 & A4). split; [|split; [|split]]; auto. now apply T.
  Qed.
  Theorem C60_set_code : forall w addr c w', world_ok keccak w -> typed (OpCode addr c) -> w_set_code keccak w addr c = (w', Done tt) ->
    (exists o, account_of w addr = Done o /\ let a := match o with Some a => a | None => default_account keccak end in
       account_of w' addr = Done (Some {| a_nonce := a_nonce a; a_balance := a_balance a; a_storage_root := a_storage_root a;
                                          a_code_hash := match c with inl code => keccak code | inr h => h end |})) /\
    (forall addr', hkey keccak addr' <> hkey keccak addr -> account_of w' addr' = account_of w addr') /\
    (forall addr' slot, slot_of w' addr' slot = slot_of w addr' slot).
  Proof.
    intros w addr c w' W T E. apply (update_spec w addr _ w' W) in E; [exact E|]. intros a (A1 & A2 & A3 & A4). split; [|split; [|split]]; auto. cbn. destruct c; [apply KOK|exact T].
  Qed.

  (** A destroyed account is gone; no other account and no slot changes. *)
  Theorem C60_destroy : forall w addr w' r, world_ok keccak w -> w_reporting_destroy keccak w addr = (w', Done r) ->
    account_of w' addr = Done None /\
    (forall addr', hkey keccak addr' <> hkey keccak addr -> account_of w' addr' = account_of w addr') /\
    (forall addr' slot, slot_of w' addr' slot = slot_of w addr' slot).
  Proof.
    intros w addr w' r (S & Y & O) E. pose proof (hkey_ok keccak KOK addr) as K. unfold w_reporting_destroy in E.
    destruct (trie_reporting_remove _ _) as [[s' k]| |] eqn:Er; try discriminate. assert (w' = with_state w s') by congruence. subst w'.
    destruct (remove_state keccak _ _ _ _ S K Er) as (S' & G' & O' & _). split; [exact G'|]. split; [|reflexivity]. intros addr' Ne. apply O'; [apply hkey_ok; auto|auto].
  Qed.

  (** Updates of a readable account do not fail. *)
  Theorem C60_update_total : forall w addr f a, world_ok keccak w -> account_of w addr = Done (Some a) ->
    (exists w', w_update_balance keccak w addr f = (w', Done tt)) /\ (exists w', w_update_nonce keccak w addr f = (w', Done tt)) /\
    (forall c, exists w', w_set_code keccak w addr c = (w', Done tt)).
  Proof.
    intros w addr f a (S & _) G. unfold account_of in G.
    assert (H : forall g, exists w', update_account keccak w addr g = (w', Done tt)).
    { intros g. unfold update_account. rewrite G. destruct (insert_visible keccak (w_state w) (hkey keccak addr) (g a) a S (hkey_ok keccak KOK addr) G) as (s' & ->). eauto. }
    split; [apply H|]. split; [apply H|]. intros c. apply H.
  Qed.

  (** * Masking *)

  Lemma mask_get t ks t' k : canon (t_node t) -> at_depth 64 (t_node t) -> hash_key k -> trie_mask keccak t ks = Done t' -> In k ks ->
    trie_get (t_node t') k = trie_get (t_node t) k.
  Proof.
    intros C A [Lk Hk] E I. unfold trie_mask in E. destruct (create_trie_subset keccak (t_node t) ks) as [n| |] eqn:Es; try discriminate.
    cbn [of_sub obind] in E. assert (t' = {| t_node := n; t_strategy := Reject |}) by congruence. subst t'. cbn [t_node].
    apply (C06_requested_keys keccak _ ks n k Es); auto.
    - intros p ns c Sb. apply (canon_sub _ _ _ C) in Sb. now apply canon_ext_inv in Sb as (H & _).
    - rewrite (get_fixed 64 _ k C A Lk Hk). discriminate.
  Qed.

  (** Masking keeps the requested accounts readable as they were, the root, and
      all storage. *)
  Theorem C60_mask : forall w ks w', world_ok keccak w -> w_mask keccak w ks = (w', Done tt) ->
    (forall addr, In (hkey keccak addr) ks -> account_of w' addr = account_of w addr) /\
    w_root keccak w' = w_root keccak w /\ w_storage w' = w_storage w.
  Proof.
    intros w ks w' (S & _) E. unfold w_mask in E. destruct (trie_mask keccak (w_state w) ks) as [s'| |] eqn:Em; try discriminate.
    assert (w' = with_state w s') by congruence. subst w'. split; [|split; [|reflexivity]].
    - intros addr I. unfold account_of, state_get. cbn [with_state w_state].
      rewrite (mask_get _ _ _ _ (proj1 S) (state_depth _ S) (hkey_ok keccak KOK addr) Em I). reflexivity.
    - unfold w_root. cbn [with_state w_state]. exact (proj2 (mask_trie _ _ _ _ Em)).
  Qed.

  Lemma mask_tries_get masks : forall m m' addr keys, NoDup (map (fun e => hkey keccak (fst e)) masks) ->
    mask_tries keccak masks m = (m', Done tt) -> In (addr, keys) masks ->
    match storage_get m (hkey keccak addr) with
    | None => storage_get m' (hkey keccak addr) = None
    | Some t => exists t', storage_get m' (hkey keccak addr) = Some t' /\ trie_mask keccak t keys = Done t'
    end.
  Proof.
    assert (Other : forall masks m m' k, mask_tries keccak masks m = (m', Done tt) -> ~ In k (map (fun e => hkey keccak (fst e)) masks) -> storage_get m' k = storage_get m k).
    { clear. induction masks as [|[a ks] masks IH]; intros m m' k E N; cbn [mask_tries] in E; [congruence|]. cbn [map fst In] in N.
      destruct (storage_get m (hkey keccak a)) as [t|]; [|apply (IH _ _ _ E); tauto].
      destruct (trie_mask keccak t ks) as [t1| |]; try discriminate. rewrite (IH _ _ k E) by tauto. rewrite storage_get_set. destruct (key_eq_dec _ _); [subst; tauto|reflexivity]. }
    induction masks as [|[a ks] masks IH]; intros m m' addr keys ND E I; [destruct I|]. cbn [map fst] in ND. apply NoDup_cons_iff in ND as [N1 N2].
    cbn [mask_tries] in E. destruct I as [I|I].
    - assert (a = addr /\ ks = keys) as [-> ->] by (split; congruence). destruct (storage_get m (hkey keccak addr)) as [t|] eqn:Em.
      + destruct (trie_mask keccak t keys) as [t1| |]; try discriminate. exists t1. split; [|reflexivity].
        rewrite (Other _ _ _ _ E N1), storage_get_set. destruct (key_eq_dec _ _); congruence.
      + now rewrite (Other _ _ _ _ E N1).
    - assert (Ne : hkey keccak addr <> hkey keccak a).
      { intros Q. apply N1. rewrite <- Q. change (hkey keccak addr) with ((fun e : list N * list nibbles => hkey keccak (fst e)) (addr, keys)). now apply in_map. }
      destruct (storage_get m (hkey keccak a)) as [t|] eqn:Em; [|eapply IH; eauto].
      destruct (trie_mask keccak t ks) as [t1| |]; try discriminate. specialize (IH _ _ addr keys N2 E I).
      rewrite storage_get_set in IH. destruct (key_eq_dec (hkey keccak addr) (hkey keccak a)); [congruence|exact IH].
  Qed.

  (** Masking storage keeps the requested slots readable as they were, and all
      accounts; the addresses asked for have different hashes. *)
  Theorem C60_mask_storage : forall w masks w', storages_ok w -> NoDup (map (fun e => hkey keccak (fst e)) masks) ->
    w_mask_storage keccak w masks = (w', Done tt) ->
    w_state w' = w_state w /\
    (forall addr keys slot, In (addr, keys) masks -> In (slot_key keccak slot) keys -> slot_of w' addr slot = slot_of w addr slot) /\
    (forall addr keys t, In (addr, keys) masks -> storage_get (w_storage w) (hkey keccak addr) = Some t ->
       exists t', storage_get (w_storage w') (hkey keccak addr) = Some t' /\ troot keccak t' = troot keccak t).
  Proof.
    intros w masks w' S ND E. unfold w_mask_storage in E. destruct (mask_tries keccak masks _) as [m o] eqn:Em.
    assert (o = Done tt) by congruence. assert (w' = with_storage w m) by congruence. subst o w'. clear E. split; [reflexivity|].
    assert (G : forall addr keys, In (addr, keys) masks -> match storage_get (w_storage w) (hkey keccak addr) with
      | None => storage_get m (hkey keccak addr) = None | Some t => exists t', storage_get m (hkey keccak addr) = Some t' /\ trie_mask keccak t keys = Done t' end).
    { intros addr keys I. pose proof (mask_tries_get masks _ m addr keys ND Em I) as Q. rewrite storage_get_filter in Q.
      destruct (in_dec _ _ _) as [_|NI]; [exact Q|]. exfalso. apply NI. change (hkey keccak addr) with ((fun e : list N * list nibbles => hkey keccak (fst e)) (addr, keys)). now apply in_map. }
    split.
    - intros addr keys slot I Ik. specialize (G addr keys I). unfold slot_of, w_load_int. cbn [with_storage w_storage].
      destruct (storage_get (w_storage w) (hkey keccak addr)) as [t|] eqn:Et; [|now rewrite G].
      destruct G as (t' & -> & Hm). destruct (S _ _ Et) as [C A]. now rewrite (mask_get t keys t' _ C A (slot_key_ok keccak KOK slot) Hm Ik).
    - intros addr keys t I Et. specialize (G addr keys I). rewrite Et in G. destruct G as (t' & G & Hm). exists t'. split; [exact G|]. exact (proj2 (mask_trie _ _ _ _ Hm)).
  Qed.
End Map.
Print Assumptions C60_storages_ok.
Print Assumptions C60_store_int.
Print Assumptions C60_destroy_slot.
Print Assumptions C60_update_balance.
Print Assumptions C60_update_nonce.
Print Assumptions C60_set_code.
Print Assumptions C60_destroy.
Print Assumptions C60_update_total.
Print Assumptions C60_mask.
Print Assumptions C60_mask_storage.

Import Type1WorldDemo Type1Props.Type1Demo.
Lemma filled_storages : storages_ok filled.
Proof.
  assert (G : forall l w, storages_ok w -> Forall typed l -> storages_ok (after_all kec w l)).
  { induction l as [|o l IH]; intros w S T; [exact S|]. inversion T; subst. cbn [after_all]. apply IH; auto. apply C60_storages_ok; auto. exact kec_ok. }
  apply G; [|exact typed_calls]. intros k t H. discriminate.
Qed.
(** Storing, reading back, masking and reading the kept slot; a slot not kept fails. *)
Example C60_example : world_ok kec filled /\ storages_ok filled /\
  (exists w', w_store_int kec filled Type1WorldDemo.A 8 12 = (w', Done tt) /\ slot_of kec w' Type1WorldDemo.A 8 = Done 12%N /\ slot_of kec w' Type1WorldDemo.A 5 = Done 77%N /\
     exists w2, w_mask_storage kec w' [(Type1WorldDemo.A, [slot_key kec 5])] = (w2, Done tt) /\ slot_of kec w2 Type1WorldDemo.A 5 = Done 77%N /\ slot_of kec w2 Type1WorldDemo.A 8 = Fail).
Proof.
  split; [exact filled_ok|]. split; [exact filled_storages|]. eexists. split; [vm_compute; reflexivity|].
  split; [vm_compute; reflexivity|]. split; [vm_compute; reflexivity|]. eexists. split; [vm_compute; reflexivity|]. split; vm_compute; reflexivity.
Qed.
