(** Insert, get, delete and hashing-out on partial tries (tries with hash nodes)
    all of whose values lie at one depth: what a call that succeeds does. *)

From Coq Require Import List Arith NArith Bool Lia.
From Verif.Mpt Require Import TrieModel TrieSpec TrieFacts TrieOpsProofs HashModel PruneSpec.
Import ListNotations.
Local Open Scope nat_scope.

(** All values at depth [d], all hash nodes at depth at most [d]. *)
Definition at_depth (d : nat) (n : node) : Prop :=
  forall k x, look n k = Some x -> length k <= d /\ (forall v, x = Val v -> length k = d).

Lemma at_depth_ext d ns c : canon (Ext ns c) -> at_depth d (Ext ns c) -> length ns <= d /\ at_depth (d - length ns) c.
Proof.
  intros C A. split.
  - destruct (canon_ext_inv _ _ C) as (_ & _ & Hb & Cc).
    destruct (canon_nonempty c Cc) as (k & x & Hk); [now destruct c|].
    destruct (A (ns ++ k) x) as [L _]; [now rewrite look_ext_app|]. rewrite app_length in L. lia.
  - intros k x Hk. destruct (A (ns ++ k) x) as [L V]; [now rewrite look_ext_app|]. rewrite app_length in *.
    split; [lia|]. intros v E. specialize (V v E). lia.
Qed.

Lemma at_depth_child d ch v i c : nth_error ch i = Some c -> at_depth d (Branch ch v) -> at_depth (d - 1) c.
Proof.
  intros H A k x Hk. destruct (A (i :: k) x) as [L V]; [now rewrite look_branch, H|]. cbn [length] in *.
  split; [lia|]. intros w E. specialize (V w E). lia.
Qed.

Lemma at_depth_branch_pos d ch : canon (Branch ch []) -> at_depth d (Branch ch []) -> 0 < d.
Proof.
  intros C A. destruct (canon_branch_two ch C) as (i & _ & ki & _ & vi & _ & _ & H & _).
  destruct (A _ _ H) as [L _]. cbn in L. lia.
Qed.

(** A key of the right length either is compatible with the trie or meets a hash node. *)
Lemma compat_or_hash n : forall d k, canon n -> at_depth d n -> length k = d -> nibs_ok k ->
  compat k n \/ (exists p h, is_prefix p k /\ look n p = Some (VHash h)).
Proof.
  induction n as [ | h | ch w IH | ns c IH | ns w ] using node_ind'; intros d k C A L Hk.
  - left. constructor.
  - right. exists [], h. split; [now exists k|reflexivity].
  - destruct (canon_branch_inv _ _ C) as (-> & L16 & HC & _). pose proof (at_depth_branch_pos d ch C A) as P.
    destruct k as [|i k]; [cbn in L; lia|]. apply nibs_ok_cons in Hk as [Hi Hk].
    destruct (nth_error_lt ch i) as (c & Hc); [lia|].
    destruct (IH i c Hc (d - 1) k) as [B|(p & h & [q ->] & Hp)]; auto.
    + now apply HC with (i := i).
    + exact (at_depth_child _ _ _ _ _ Hc A).
    + cbn in L. lia.
    + left. econstructor; eauto.
    + right. exists (i :: p), h. split; [now exists q|]. now rewrite look_branch, Hc.
  - destruct (canon_ext_inv _ _ C) as (_ & _ & _ & Cc). destruct (at_depth_ext _ _ _ C A) as [Ln Ac].
    destruct (diverge_or_prefix ns k) as [D|[[q ->]|[q E]]].
    + left. now constructor.
    + apply nibs_ok_app in Hk as [_ Hq]. rewrite app_length in L.
      destruct (IH (d - length ns) q) as [B|(p & h & [r ->] & Hp)]; auto; [lia| |].
      * left. now apply PExtIn.
      * right. exists (ns ++ p), h. split; [exists r; now rewrite app_assoc|now rewrite look_ext_app].
    + subst ns. rewrite app_length in Ln. assert (q = []) by (destruct q; auto; cbn in Ln; lia). subst q. rewrite app_nil_r in *.
      destruct (IH (d - length k) []) as [B|(p & h & [r E] & Hp)]; auto.
      * cbn. lia.
      * constructor.
      * left. rewrite <- (app_nil_r k) at 1. now apply PExtIn.
      * destruct p; [|discriminate]. right. exists k, h. split; [exists []; now rewrite app_nil_r|].
        rewrite <- (app_nil_r k) at 2. now rewrite look_ext_app.
  - destruct (A ns (Val w)) as [_ V]; [cbn; now rewrite nibbles_eqb_refl|]. specialize (V w eq_refl).
    destruct (diverge_or_prefix ns k) as [D|[[q E]|[q E]]].
    + left. now constructor.
    + subst k. rewrite app_length in L. assert (q = []) by (destruct q; auto; cbn in L; lia). subst q. rewrite app_nil_r. left. constructor.
    + subst ns. rewrite app_length in V. assert (q = []) by (destruct q; auto; cbn in V; lia). subst q. rewrite app_nil_r. left. constructor.
Qed.

(** Below a hash node there is nothing. *)
Lemma look_past_hash n : forall p q h x, look n p = Some (VHash h) -> look n (p ++ q) = Some x -> q = [].
Proof.
  induction n as [ | h0 | ch w IH | ns c IH | ns w ] using node_ind'; intros p q h x H1 H2.
  - discriminate.
  - destruct p; [|discriminate]. destruct q; [auto|discriminate].
  - destruct p as [|i p].
    + cbn in H1. destruct w; discriminate.
    + rewrite look_branch in H1. cbn [app] in H2. rewrite look_branch in H2. destruct (nth_error ch i) as [c|] eqn:E; [|discriminate]. eauto.
  - apply look_ext_some in H1 as (p' & -> & H1). rewrite <- app_assoc, look_ext_app in H2. eauto.
  - apply look_leaf_some in H1 as [_ H1]. discriminate.
Qed.

Lemma get_at_hash n : forall d p q h, canon n -> at_depth d n -> length (p ++ q) = d -> look n p = Some (VHash h) ->
  trie_get n (p ++ q) = Ok None.
Proof.
  induction n as [ | h0 | ch w IH | ns c IH | ns w ] using node_ind'; intros d p q h C A L H.
  - discriminate.
  - reflexivity.
  - destruct p as [|i p].
    + cbn in H. destruct w; discriminate.
    + rewrite look_branch in H. cbn [app]. rewrite trie_get_branch. destruct (nth_error ch i) as [c|] eqn:E; [|discriminate].
      destruct (canon_branch_inv _ _ C) as (-> & _ & HC & _). apply (IH i c E (d - 1)) with (h := h); auto.
      * now apply HC with (i := i).
      * exact (at_depth_child _ _ _ _ _ E A).
      * cbn in L. lia.
  - destruct (canon_ext_inv _ _ C) as (_ & _ & _ & Cc). destruct (at_depth_ext _ _ _ C A) as [Ln Ac].
    apply look_ext_some in H as (p' & -> & H). rewrite <- app_assoc in *. cbn [trie_get].
    rewrite !app_length in *. destruct (Nat.ltb_spec (length ns + (length p' + length q)) (length ns)); [lia|].
    rewrite firstn_app_exact, skipn_app_exact, identical_refl. apply (IH (d - length ns)) with (h := h); auto. rewrite app_length. lia.
  - apply look_leaf_some in H as [_ H]. discriminate.
Qed.

Lemma get_compat_total n : forall d k, canon n -> at_depth d n -> length k = d -> compat k n -> trie_get n k <> Panic.
Proof.
  induction n as [ | h | ch w IH | ns c IH | ns w ] using node_ind'; intros d k C A L P.
  - discriminate.
  - discriminate.
  - apply compat_branch_inv in P as (i & k' & c & -> & Hc & P). rewrite trie_get_branch, Hc.
    destruct (canon_branch_inv _ _ C) as (-> & _ & HC & _). apply (IH i c Hc (d - 1)); auto.
    + now apply HC with (i := i).
    + exact (at_depth_child _ _ _ _ _ Hc A).
    + cbn in L. lia.
  - destruct (canon_ext_inv _ _ C) as (_ & _ & _ & Cc). destruct (at_depth_ext _ _ _ C A) as [Ln Ac]. cbn [trie_get].
    destruct (Nat.ltb_spec (length k) (length ns)); [lia|].
    apply compat_ext_inv in P as [D|(k' & -> & P)].
    + replace (identical_up_to_smallest (firstn (length ns) k) ns) with false; [discriminate|]. symmetry. apply identical_diverge.
      apply diverge_split in D as (p & x & y & a' & b' & -> & -> & Hne). rewrite app_length in *. cbn [length] in *.
      rewrite firstn_app. rewrite firstn_all2 by lia. replace (length p + S (length a') - length p) with (S (length a')) by lia.
      apply diverge_app_l. cbn. auto.
    + rewrite firstn_app_exact, skipn_app_exact, identical_refl. apply (IH (d - length ns)); auto. rewrite app_length in L. lia.
  - cbn. destruct (identical_up_to_smallest ns k); discriminate.
Qed.

(** Lookup never fails and returns the value stored at the key. *)
Lemma get_fixed d n k : canon n -> at_depth d n -> length k = d -> nibs_ok k ->
  trie_get n k = Ok (match look n k with Some (Val v) => Some v | _ => None end).
Proof.
  intros C A L Hk. destruct (compat_or_hash n d k C A L Hk) as [P|(p & h & [q ->] & Hp)].
  - destruct (look_compat_get n k P) as [[_ G]|G]; [|exact G]. now apply (get_compat_total n d k C A L P) in G.
  - rewrite (get_at_hash n d p q h C A L Hp).
    destruct (look n (p ++ q)) as [[v|h']|] eqn:E; auto. pose proof (look_past_hash _ _ _ _ _ Hp E). subst q.
    rewrite app_nil_r in E. congruence.
Qed.

Lemma insert_at_hash n : forall p q h v, look n p = Some (VHash h) -> insert_rec n (p ++ q) v = Err (HashNodeInsertError h).
Proof.
  induction n as [ | h0 | ch w IH | ns c IH | ns w ] using node_ind'; intros p q h v H.
  - discriminate.
  - destruct p; [|discriminate]. cbn in H. cbn. congruence.
  - destruct p as [|i p].
    + cbn in H. destruct w; discriminate.
    + rewrite look_branch in H. cbn [app]. rewrite insert_branch. destruct (nth_error ch i) as [c|] eqn:E; [|discriminate].
      now rewrite (IH i c E p q h v H).
  - apply look_ext_some in H as (p' & -> & H). rewrite <- app_assoc. cbn [insert_rec]. rewrite identical_app.
    unfold truncate_front. rewrite skipn_app_exact. now rewrite (IH p' q h v H).
  - apply look_leaf_some in H as [_ H]. discriminate.
Qed.

(** An insert of a value that succeeds changes the trie at its key only. *)
Lemma insert_fixed d n k v n' : canon n -> at_depth d n -> length k = d -> nibs_ok k -> trie_insert n k (Val v) = Ok n' ->
  canon n' /\ at_depth d n' /\ (forall k', look n' k' = if key_eq_dec k' k then Some (Val v) else look n k') /\
  compat k n.
Proof.
  intros C A L Hk E. unfold trie_insert in E.
  destruct (compat_or_hash n d k C A L Hk) as [P|(p & h & [q ->] & Hp)].
  2:{ rewrite (insert_at_hash n p q h (Val v) Hp) in E. discriminate. }
  destruct (insert_ok n k (Val v) C P Hk) as (n1 & E1 & C1 & _ & _ & L1).
  { destruct (look n k) as [[x|h]|] eqn:Lk; eauto.
    rewrite <- (app_nil_r k) in E. rewrite (insert_at_hash n k [] h (Val v) Lk) in E. discriminate. }
  rewrite E1 in E. assert (n1 = n') by congruence. subst n1. split; [auto|]. split; [|auto].
  intros k' x H. rewrite L1 in H. destruct (key_eq_dec k' k) as [->|]; [|now apply A].
  split; [lia|auto].
Qed.

(** Inserting a value at a compatible key succeeds. *)
Lemma insert_succeeds n k v : canon n -> compat k n -> nibs_ok k -> (forall h, look n k <> Some (VHash h)) ->
  exists n', trie_insert n k (Val v) = Ok n'.
Proof.
  intros C P Hk NH. destruct (insert_ok n k (Val v) C P Hk) as (n' & E & _); [|eauto].
  destruct (look n k) as [[x|h]|] eqn:Lk; eauto. now specialize (NH h).
Qed.

(** ** Delete *)
Lemma collapse_partial ns c key s n' :
  ns <> [] -> nibs_ok ns -> canon c -> c <> Empty -> collapse_ext ns c key s = Ok n' ->
  canon n' /\ n' <> Empty /\ (forall k, look n' k = look (Ext ns c) k).
Proof.
  intros Hne Hns C NE E. destruct c as [|h|ch v|ns2 c2|ns2 v]; cbn [collapse_ext] in E.
  - congruence.
  - destruct s; [|destruct (merge_nibbles key ns); discriminate]. assert (n' = Ext ns (Hash h)) by congruence. subst n'.
    split; [constructor; auto; exact I|]. split; [discriminate|auto].
  - assert (n' = Ext ns (Branch ch v)) by congruence. subst n'. split; [constructor; auto; exact I|]. split; [discriminate|auto].
  - destruct (canon_ext_inv _ _ C) as (Hne2 & Hns2 & Hb2 & C2).
    unfold merge_nibbles in E. destruct (_ <=? _); cbn [bind] in E; [|discriminate].
    assert (n' = Ext (ns ++ ns2) c2) by congruence. subst n'. split; [|split; [discriminate|]].
    + constructor; auto; [|now apply nibs_ok_app]. destruct ns; [congruence|discriminate].
    + intros k'. symmetry. apply look_ext_ext.
  - unfold merge_nibbles in E. destruct (_ <=? _); cbn [bind] in E; [|discriminate].
    assert (n' = Leaf (ns ++ ns2) v) by congruence. subst n'. split; [|split; [discriminate|]].
    + constructor. apply nibs_ok_app. split; auto. now apply canon_leaf_inv in C.
    + intros k'. symmetry. apply look_ext_leaf.
Qed.

Lemma try_collapse_partial n key s n' :
  precanon n -> try_collapse_if_extension n key s = Ok n' ->
  canon n' /\ (n = Empty <-> n' = Empty) /\ (forall k, look n' k = look n k).
Proof.
  intros [C|(ns & c & -> & Hne & Hns & C & NE)] E.
  - destruct n as [|h|ch v|ns c|ns v]; cbn [try_collapse_if_extension] in E;
      try (match type of E with Ok ?a = Ok ?b => assert (a = b) by congruence; subst b end; split; [auto|split; [reflexivity|auto]]; fail).
    destruct (canon_ext_inv _ _ C) as (Hne & Hns & Hb & Cc).
    destruct (collapse_partial ns c key s n') as (C' & NE' & L'); auto.
    { destruct c; easy. }
    split; [auto|]. split; [split; congruence|auto].
  - destruct (collapse_partial ns c key s n') as (C' & NE' & L'); auto. split; [auto|]. split; [split; congruence|auto].
Qed.

Lemma delete_partial n : forall k s d r,
  canon n -> at_depth d n -> length k = d -> delete_intern n k s = Ok r ->
  match r with
  | None => look n k = None
  | Some (n', x) => look n k = Some (Val x) /\ precanon n' /\
        (is_branch n -> is_branch n' \/ exists ns c, n' = Ext ns c) /\
        (forall k', look n' k' = if key_eq_dec k' k then None else look n k')
  end.
Proof.
  induction n as [ | h | ch w IH | ns c IH | ns w ] using node_ind'; intros k s d r C A Lk E.
  - cbn in E. assert (r = None) by congruence. subst r. reflexivity.
  - discriminate.
  - destruct (canon_branch_inv _ _ C) as (-> & HL16 & HC & Htwo). pose proof (at_depth_branch_pos d ch C A) as Pos.
    destruct k as [|i k1]; [cbn in Lk; lia|].
    rewrite delete_branch in E. destruct (nth_error ch i) as [c|] eqn:Hc; [|discriminate].
    destruct (delete_intern c k1 s) as [o| |] eqn:Ed; cbn [bind] in E; try discriminate.
    specialize (IH _ _ Hc k1 s (d - 1) o (HC _ _ Hc) (at_depth_child _ _ _ _ _ Hc A)). 
    assert (Lk1 : length k1 = d - 1) by (cbn in Lk; lia). specialize (IH Lk1 Ed).
    destruct o as [[u x]|].
    2:{ assert (r = None) by congruence. subst r. now rewrite look_branch, Hc. }
    destruct IH as (Lc & PC & _ & LU).
    assert (Nc : c <> Empty) by (intros ->; discriminate).
    assert (Hi16 : i < length ch) by (apply nth_error_Some; congruence).
    assert (Q : forall u' k', (forall q, look u' q = look u q) ->
              look (Branch (set_child ch i u') []) k' =
              (if key_eq_dec k' (i :: k1) then None else look (Branch ch []) k')).
    { intros u' k' Hu. destruct k' as [|j k']; [now rewrite if_key_eq_nil_cons|].
      rewrite !look_branch, nth_error_set_child. destruct (Nat.eqb_spec i j) as [<-|Hij].
      - apply Nat.ltb_lt in Hi16 as Hb. rewrite Hb, Hc, Hu, LU.
        destruct (key_eq_dec k' k1) as [->|Hne].
        + destruct (key_eq_dec (i :: k1) (i :: k1)); congruence.
        + destruct (key_eq_dec (i :: k') (i :: k1)); congruence.
      - destruct (key_eq_dec (j :: k') (i :: k1)); congruence. }
    destruct (node_is_empty u && (get_num_non_empty_children ch <=? 2)) eqn:Ecol.
    + apply andb_true_iff in Ecol as [Eu Ele].
      apply node_is_empty_true in Eu as ->. apply Nat.leb_le in Ele.
      pose proof (get_other_spec ch 0 i) as GO.
      destruct (get_other_non_empty_child 0 ch i) as [[m cm]|] eqn:Eo; [|discriminate].
      destruct GO as (_ & Hm & Hmi & Ncm). rewrite Nat.sub_0_r in Hm.
      assert (r = Some (Ext [m] cm, x)) by congruence. subst r.
      split; [now rewrite look_branch, Hc|]. split; [|split].
      * right. exists [m], cm. repeat split; auto; [discriminate| |eauto].
        constructor; [|constructor].
        assert (m < length ch) by (apply nth_error_Some; congruence). lia.
      * intros _. right. eauto.
      * intros k'. rewrite <- (Q Empty) by auto.
        destruct k' as [|j k']; [reflexivity|].
        rewrite look_branch, nth_error_set_child.
        change (look (Ext [m] cm) (j :: k')) with
          (match (if m =? j then Some k' else None) with Some k'' => look cm k'' | None => None end).
        destruct (Nat.eqb_spec i j) as [<-|Hij].
        -- apply Nat.ltb_lt in Hi16 as Hb. rewrite Hb. destruct (Nat.eqb_spec m i); [congruence|reflexivity].
        -- destruct (Nat.eqb_spec m j) as [<-|Hmj]; [now rewrite Hm|].
           destruct (nth_error ch j) as [cj|] eqn:Ej; auto.
           rewrite (count_le2_others ch i c m cm j cj); auto.
    + destruct (try_collapse_if_extension u k1 s) as [u'| |] eqn:Et; cbn [bind] in E; try discriminate.
      destruct (try_collapse_partial u k1 s u' PC Et) as (C' & NE' & L').
      assert (r = Some (Branch (set_child ch i u') [], x)) by congruence. subst r.
      split; [now rewrite look_branch, Hc|]. split; [|split; [left; exact I|auto]].
      left. constructor.
      * now rewrite set_child_length.
      * intros j cj. rewrite nth_error_set_child. destruct (i =? j).
        -- destruct (i <? length ch); [|discriminate]. now intros [= <-].
        -- apply HC.
      * apply andb_false_iff in Ecol as [Eu|Egt].
        -- apply node_is_empty_false in Eu.
           assert (u' <> Empty) as Nu' by (rewrite <- NE'; auto).
           destruct Htwo as (a & b & ca & cb & Hab & Ha & Hb & Na & Nb).
           assert (Q2 : forall m cm, nth_error ch m = Some cm -> cm <> Empty ->
                exists cm', nth_error (set_child ch i u') m = Some cm' /\ cm' <> Empty).
           { intros m cm Hm Nm. rewrite nth_error_set_child. destruct (i =? m); eauto.
             destruct (Nat.ltb_spec i (length ch)); [eauto|lia]. }
           destruct (Q2 _ _ Ha Na) as (ca' & ? & ?). destruct (Q2 _ _ Hb Nb) as (cb' & ? & ?).
           exists a, b, ca', cb'. auto.
        -- apply Nat.leb_gt in Egt. rewrite (count_set_empty _ _ _ Hc) in Egt.
           apply node_is_empty_false in Nc. rewrite Nc in Egt.
           destruct (count_two (set_child ch i Empty)) as (a & b & ca & cb & Hab & Ha & Hb & Na & Nb); [lia|].
           assert (Q3 : forall m cm, nth_error (set_child ch i Empty) m = Some cm -> cm <> Empty ->
                nth_error (set_child ch i u') m = Some cm).
           { intros m cm. rewrite !nth_error_set_child. destruct (i =? m); auto.
             destruct (i <? length ch); congruence. }
           exists a, b, ca, cb. auto.
  - destruct (canon_ext_inv _ _ C) as (Hne & Hns & Hb & Cc). destruct (at_depth_ext _ _ _ C A) as [Ln Ac].
    cbn [delete_intern] in E. destruct (identical_up_to_smallest ns k) eqn:EI.
    2:{ assert (r = None) by congruence. subst r. apply identical_diverge in EI. now apply look_ext_diverge. }
    assert (exists k1, k = ns ++ k1) as [k1 ->].
    { destruct (diverge_or_prefix ns k) as [D|[[q Q]|[q Q]]].
      - apply identical_diverge in D. congruence.
      - eauto.
      - subst ns. rewrite app_length in Ln. assert (q = []) by (destruct q; auto; cbn in Ln; lia). subst q. exists []. now rewrite !app_nil_r. }
    unfold truncate_front in E. rewrite skipn_app_exact in E. rewrite app_length in Lk.
    destruct (delete_intern c k1 s) as [o| |] eqn:Ed; cbn [bind] in E; try discriminate.
    specialize (IH k1 s (d - length ns) o Cc Ac ltac:(lia) Ed). rewrite look_ext_app.
    destruct o as [[u x]|].
    2:{ assert (r = None) by congruence. subst r. exact IH. }
    destruct IH as (Lc & PC & HBr & LU).
    assert (is_branch c) as Hbr by (destruct c; try easy).
    assert (Q : forall k', look (Ext ns u) k' = if key_eq_dec k' (ns ++ k1) then None else look (Ext ns c) k').
    { intros k'. cbn [look]. destruct (strip ns k') as [q|] eqn:S.
      - apply strip_some in S as ->. rewrite LU.
        destruct (key_eq_dec q k1) as [->|Hr].
        + destruct (key_eq_dec (ns ++ k1) (ns ++ k1)); congruence.
        + destruct (key_eq_dec (ns ++ q) (ns ++ k1)) as [Heq|]; auto.
          apply app_inv_head in Heq. congruence.
      - destruct (key_eq_dec k' (ns ++ k1)); auto. }
    destruct (collapse_ext ns u k1 s) as [u'| |] eqn:Ec; cbn [bind] in E; try discriminate.
    assert (r = Some (u', x)) by congruence. subst r.
    split; [exact Lc|].
    destruct (HBr Hbr) as [Bu|(ns2 & c2 & ->)].
    + destruct u as [|h|ch v| |]; try easy. cbn [collapse_ext] in Ec. assert (u' = Ext ns (Branch ch v)) by congruence. subst u'.
      split; [|split; [easy|auto]].
      left. destruct PC as [PC|(a & b & [=] & _)]. apply CExt; auto.
    + cbn [collapse_ext] in Ec.
      assert (PC2 : ns2 <> [] /\ nibs_ok ns2 /\ canon c2 /\ c2 <> Empty).
      { destruct PC as [PC|(a & b & [= <- <-] & ? & ? & ? & ?)]; auto.
        apply canon_ext_inv in PC as (? & ? & ? & ?). repeat split; auto. now destruct c2. }
      destruct PC2 as (Hne2 & Hns2 & C2 & NE2).
      unfold merge_nibbles in Ec. destruct (_ <=? _); cbn [bind] in Ec; [|discriminate].
      assert (u' = Ext (ns ++ ns2) c2) by congruence. subst u'. split; [|split; [easy|]].
      * right. exists (ns ++ ns2), c2. repeat split; auto; [|now apply nibs_ok_app].
        destruct ns; [congruence|discriminate].
      * intros k'. rewrite <- look_ext_ext. apply Q.
  - cbn [delete_intern] in E. cbn [look]. destruct (nibbles_eqb ns k) eqn:En.
    + apply nibbles_eqb_eq in En. subst k. assert (r = Some (Empty, w)) by congruence. subst r.
      split; [auto|]. split; [left; constructor|]. split; [easy|].
      intros k'. destruct (key_eq_dec k' ns) as [|Hne]; auto. cbn [look].
      assert (ns <> k') as Hn by congruence. apply nibbles_eqb_neq in Hn. now rewrite Hn.
    + assert (r = None) by congruence. subst r. reflexivity.
Qed.

(** A delete that succeeds removes its key and nothing else. *)
Lemma delete_fixed d n k s n' o : canon n -> at_depth d n -> length k = d -> trie_delete n k s = Ok (n', o) ->
  canon n' /\ at_depth d n' /\ o = match look n k with Some (Val x) => Some x | _ => None end /\
  (forall k', look n' k' = if key_eq_dec k' k then None else look n k').
Proof.
  intros C A L E. unfold trie_delete in E. destruct (delete_intern n k s) as [r| |] eqn:Ed; cbn [bind] in E; try discriminate.
  pose proof (delete_partial n k s d r C A L Ed) as D.
  assert (W : forall m, (forall k', look m k' = if key_eq_dec k' k then None else look n k') -> at_depth d m).
  { intros m H k' x Hx. rewrite H in Hx. destruct (key_eq_dec k' k); [discriminate|]. now apply A. }
  destruct r as [[u x]|].
  - destruct D as (Lk & PC & _ & LU). destruct (try_collapse_if_extension u [] s) as [u'| |] eqn:Et; cbn [bind] in E; try discriminate.
    destruct (try_collapse_partial u [] s u' PC Et) as (C' & _ & L').
    assert (u' = n' /\ o = Some x) as [-> ->] by (split; congruence).
    assert (LL : forall k', look n' k' = if key_eq_dec k' k then None else look n k') by (intros k'; now rewrite L', LU).
    split; [auto|]. split; [auto|]. split; [now rewrite Lk|auto].
  - assert (n = n' /\ o = None) as [-> ->] by (split; congruence).
    assert (LL : forall k', look n' k' = if key_eq_dec k' k then None else look n' k') by (intros k'; destruct (key_eq_dec k' k) as [->|]; auto).
    split; [auto|]. split; [auto|]. split; [now rewrite D|auto].
Qed.

(** ** Hashing out *)
Section Prune.
  Variable keccak : list N -> list N.

  Lemma prunes_nonempty P T : prunes keccak P T -> (P = Empty -> T = Empty) /\ (T = Empty -> exists e, P = e /\ (e = Empty \/ exists h, e = Hash h)).
  Proof. destruct 1; split; intros; try discriminate; subst; eauto. Qed.

  Lemma encode_empty h : encode keccak Empty <> Hashed h.
  Proof. discriminate. Qed.

  Lemma prunes_empty P T : prunes keccak P T -> (P = Empty <-> T = Empty).
  Proof. destruct 1; split; intros; try discriminate; subst; auto. discriminate. Qed.

  Lemma Forall2_nth {A B} (R : A -> B -> Prop) la lb : Forall2 R la lb -> forall i a, nth_error la i = Some a -> exists b, nth_error lb i = Some b /\ R a b.
  Proof. induction 1; intros [|i] z H1; try discriminate; cbn in *; eauto. assert (x = z) by congruence. subst. eauto. Qed.

  Lemma Forall2_nth' {A B} (R : A -> B -> Prop) la lb : Forall2 R la lb -> forall i b, nth_error lb i = Some b -> exists a, nth_error la i = Some a /\ R a b.
  Proof. induction 1; intros [|i] z H1; try discriminate; cbn in *; eauto. assert (y = z) by congruence. subst. eauto. Qed.

  Lemma prunes_canon T : forall P, prunes keccak P T -> canon T -> canon P.
  Proof.
    induction T as [ | h | ch w IH | ns c IH | ns w ] using node_ind'; intros P H C.
    - inversion H; subst; [constructor|constructor].
    - inversion H; subst. constructor.
    - inversion H; subst; [constructor|]. destruct (canon_branch_inv _ _ C) as (-> & L16 & HC & Htwo). constructor.
      + match goal with F : Forall2 _ _ _ |- _ => clear - F L16; rewrite <- L16; clear L16; induction F; cbn; auto end.
      + intros i c Hi. destruct (Forall2_nth _ _ _ ltac:(eassumption) i c Hi) as (t & Ht & Pt). eauto.
      + destruct Htwo as (i & j & ci & cj & Hij & Hi & Hj & Ni & Nj).
        destruct (Forall2_nth' _ _ _ ltac:(eassumption) i ci Hi) as (a & Ha & Pa).
        destruct (Forall2_nth' _ _ _ ltac:(eassumption) j cj Hj) as (b & Hb & Pb).
        exists i, j, a, b. rewrite (prunes_empty _ _ Pa), (prunes_empty _ _ Pb). auto.
    - inversion H; subst; [constructor|]. destruct (canon_ext_inv _ _ C) as (Hne & Hns & Hb & Cc). constructor; auto.
      match goal with F : prunes _ ?p ?c0 |- branch_or_hash ?p => destruct F; try exact I; try easy end.
    - inversion H; subst; [constructor|auto].
  Qed.

  (** A value still visible after hashing out is the value that was there; a hash
      node lies on the path of something that was there. *)
  Lemma prunes_look T : forall P, prunes keccak P T -> canon T -> forall k x, look P k = Some x ->
    match x with
    | Val v => look T k = Some (Val v)
    | VHash _ => exists q y, look T (k ++ q) = Some y
    end.
  Proof.
    induction T as [ | h | ch w IH | ns c IH | ns w ] using node_ind'; intros P H C k x Hx.
    - inversion H; subst; [discriminate|discriminate].
    - inversion H; subst. destruct k; [|discriminate]. cbn in Hx. assert (x = VHash h0) by congruence. subst x. exists [], (VHash h). reflexivity.
    - inversion H; subst.
      + destruct k; [|discriminate]. cbn in Hx. assert (x = VHash h) by congruence. subst x.
        destruct (canon_nonempty _ C) as (q & y & Hq); [discriminate|]. exists q, y. exact Hq.
      + destruct (canon_branch_inv _ _ C) as (-> & L16 & HC & _).
        destruct k as [|i k]; [discriminate|]. rewrite look_branch in Hx. destruct (nth_error ps i) as [p|] eqn:Ei; [|discriminate].
        destruct (Forall2_nth _ _ _ ltac:(eassumption) i p Ei) as (t & Ht & Pt).
        specialize (IH i t Ht p Pt (HC _ _ Ht) k x Hx). destruct x.
        * now rewrite look_branch, Ht.
        * destruct IH as (q & y & Hq). exists q, y. cbn [app]. now rewrite look_branch, Ht.
    - inversion H; subst.
      + destruct k; [|discriminate]. cbn in Hx. assert (x = VHash h) by congruence. subst x.
        destruct (canon_nonempty _ C) as (q & y & Hq); [discriminate|]. exists q, y. exact Hq.
      + destruct (canon_ext_inv _ _ C) as (_ & _ & _ & Cc). apply look_ext_some in Hx as (k' & -> & Hx).
        specialize (IH p ltac:(eassumption) Cc k' x Hx). destruct x.
        * now rewrite look_ext_app.
        * destruct IH as (q & y & Hq). exists q, y. now rewrite <- app_assoc, look_ext_app.
    - inversion H; subst.
      + destruct k; [|discriminate]. cbn in Hx. assert (x = VHash h) by congruence. subst x.
        exists ns, (Val w). cbn. now rewrite nibbles_eqb_refl.
      + apply look_leaf_some in Hx as [-> ->]. cbn. now rewrite nibbles_eqb_refl.
  Qed.

  Lemma prunes_depth d P T : prunes keccak P T -> canon T -> at_depth d T -> at_depth d P.
  Proof.
    intros H C A k x Hx. pose proof (prunes_look T P H C k x Hx) as Q. destruct x as [v|h].
    - exact (A k (Val v) Q).
    - destruct Q as (q & y & Hq). destruct (A _ _ Hq) as [L _]. rewrite app_length in L. split; [lia|discriminate].
  Qed.
End Prune.

(** What was there is still there or lies below a hash node. *)
Lemma prunes_back keccak T : forall P, prunes keccak P T -> forall k x, look T k = Some x ->
  look P k = Some x \/ exists p h, is_prefix p k /\ look P p = Some (VHash h).
Proof.
  induction T as [ | h | ch w IH | ns c IH | ns w ] using node_ind'; intros P H k x Hx.
  - discriminate.
  - right. inversion H; subst. exists [], h0. split; [now exists k|reflexivity].
  - inversion H; subst.
    + right. exists [], h. split; [now exists k|reflexivity].
    + destruct k as [|i k]; [left; exact Hx|]. rewrite look_branch in *. destruct (nth_error ch i) as [t|] eqn:Ei; [|discriminate].
      destruct (Forall2_nth' _ _ _ ltac:(eassumption) i t Ei) as (p & Hp & Pt). rewrite Hp.
      destruct (IH i t Ei p Pt k x Hx) as [L|(q & h & [r ->] & Hq)]; [now left|].
      right. exists (i :: q), h. split; [now exists r|]. now rewrite look_branch, Hp.
  - inversion H; subst.
    + right. exists [], h. split; [now exists k|reflexivity].
    + apply look_ext_some in Hx as (k' & -> & Hx). rewrite look_ext_app.
      destruct (IH p ltac:(eassumption) k' x Hx) as [L|(q & h & [r ->] & Hq)]; [now left|].
      right. exists (ns ++ q), h. split; [exists r; now rewrite app_assoc|]. now rewrite look_ext_app.
  - inversion H; subst.
    + right. exists [], h. split; [now exists k|reflexivity].
    + now left.
Qed.

(** Neither operation leaves a bare hash node at the root. *)
Lemma insert_not_hash n k v n' : insert_rec n k (Val v) = Ok n' -> forall h, n' <> Hash h.
Proof.
  destruct n as [ | h | ch w | ns c | ns w ]; intros E h0 ->.
  - discriminate.
  - discriminate.
  - destruct k as [|i k]; [discriminate|]. rewrite insert_branch in E. destruct (nth_error ch i); [|discriminate].
    destruct (insert_rec _ _ _); discriminate.
  - cbn [insert_rec] in E. destruct (identical_up_to_smallest ns k).
    + destruct (insert_rec _ _ _); discriminate.
    + unfold place_branch in E. destruct (existing_postfix _) as [|e ep], (new_postfix _) as [|m np];
        try discriminate; destruct (match _ with [] => c | _ => _ end) in E; try discriminate; destruct (common_prefix _); discriminate.
  - cbn [insert_rec] in E. destruct (nibbles_eqb ns k); [discriminate|].
    unfold place_branch in E. destruct (existing_postfix _), (new_postfix _); try discriminate; destruct (common_prefix _); discriminate.
Qed.

Lemma collapse_not_hash ns c key s n' : collapse_ext ns c key s = Ok n' -> forall h, n' <> Hash h.
Proof.
  intros E h ->. destruct c; cbn in E; try discriminate.
  - destruct s; [discriminate|]. destruct (merge_nibbles key ns); discriminate.
  - destruct (merge_nibbles ns ns0); discriminate.
  - destruct (merge_nibbles ns ns0); discriminate.
Qed.

Lemma delete_not_hash n k s n' o : trie_delete n k s = Ok (n', o) -> forall h, n' <> Hash h.
Proof.
  intros E h ->. unfold trie_delete in E. destruct (delete_intern n k s) as [[[u x]|]| |] eqn:Ed; cbn [bind] in E; try discriminate.
  - destruct u; cbn [try_collapse_if_extension] in E; try discriminate.
    + clear E. destruct n as [ | h1 | ch w | ns c | ns w ]; try discriminate.
      * destruct k as [|i k]; [discriminate|]. rewrite delete_branch in Ed. destruct (nth_error ch i); [|discriminate].
        destruct (delete_intern _ _ _) as [[[u y]|]| |]; cbn [bind] in Ed; try discriminate.
        destruct (_ && _).
        -- destruct (get_other_non_empty_child _ _ _) as [[? ?]|]; discriminate.
        -- destruct (try_collapse_if_extension _ _ _); discriminate.
      * cbn [delete_intern] in Ed. destruct (identical_up_to_smallest ns k); [|discriminate].
        destruct (delete_intern _ _ _) as [[[u y]|]| |]; cbn [bind] in Ed; try discriminate.
        destruct (collapse_ext ns u _ s) as [u'| |] eqn:Ec; cbn [bind] in Ed; try discriminate.
        apply (collapse_not_hash _ _ _ _ _ Ec h0). congruence.
      * cbn [delete_intern] in Ed. destruct (nibbles_eqb ns k); discriminate.
    + destruct (collapse_ext ns u [] s) as [u'| |] eqn:Ec; cbn [bind] in E; try discriminate.
      apply (collapse_not_hash _ _ _ _ _ Ec h). congruence.
  - assert (n = Hash h) by congruence. subst n. discriminate.
Qed.
