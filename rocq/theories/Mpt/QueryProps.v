(** C11, C12: path queries and the branch-collapse report. *)

From Coq Require Import List Arith NArith Bool Lia.
From Verif.Mpt Require Import TrieModel TrieSpec TrieFacts TrieOpsProofs TrieHistory TrieProps HashModel PruneSpec
  PruneProofs PartialProofs PartialProps QueryModel QuerySpec QueryProofs.
Import ListNotations.
Local Open Scope nat_scope.

(** ** C11: path queries *)

(** Each segment of a reported path describes the node that sits in the trie where
    the earlier segments lead. *)
Theorem C11_path_is_in_the_trie : forall t k incl l,
  path_for_query t k incl = Ok l ->
  forall a s b, l = a ++ s :: b -> exists n, sub_at t (pieces a) n /\ describes s n.
Proof. intros t k incl l E a s b. now apply (path_sound t k incl l E). Qed.
Print Assumptions C11_path_is_in_the_trie.

(** The key pieces of the path and the queried key agree up to the shorter one. *)
Theorem C11_path_follows_key : forall t k l,
  path_for_query t k false = Ok l -> is_prefix (pieces l) k \/ is_prefix k (pieces l).
Proof. intros t k l. apply path_follows. Qed.
Print Assumptions C11_path_follows_key.

(** The path spells the key and ends in a leaf exactly when a leaf of the trie
    holds the key. *)
Theorem C11_ends_in_leaf_iff : forall t k,
  (exists l ns, path_for_query t k false = Ok (l ++ [SLeaf ns]) /\ pieces (l ++ [SLeaf ns]) = k) <->
  (exists p ns v, k = p ++ ns /\ sub_at t p (Leaf ns v)).
Proof.
  intros t k. split.
  - intros (l & ns & E & Ek). destruct (path_leaf_fwd t k l ns E Ek) as (v & S). exists (pieces l), ns, v. split; auto.
    rewrite <- Ek. unfold pieces. rewrite flat_map_app. cbn. now rewrite app_nil_r.
  - intros (p & ns & v & -> & S). destruct (path_leaf_bwd t p ns v S) as (l & E & <-). exists l, ns. split; auto.
    unfold pieces. rewrite flat_map_app. cbn. now rewrite app_nil_r.
Qed.
Print Assumptions C11_ends_in_leaf_iff.

(** With [always_include_final_node_if_possible] the same path is reported, plus at
    most one segment. *)
Theorem C11_final_node : forall t k l,
  path_for_query t k false = Ok l -> exists e, length e <= 1 /\ path_for_query t k true = Ok (l ++ e).
Proof. intros t k l. apply path_incl. Qed.
Print Assumptions C11_final_node.

(** On a trie built through the API: a path always exists, its key is returned by
    [into_key], and it ends in a leaf at exactly the key iff [get] finds a value. *)
Theorem C11_path_agrees_with_get : forall K s t k,
  key_domain K -> reachable K s t -> K k ->
  exists l, path_for_query t k false = Ok l /\
    ((exists v, trie_get t k = Ok (Some v)) <->
     (exists a ns, l = a ++ [SLeaf ns]) /\ into_key l = Ok k).
Proof.
  intros K s t k D R Hk. destruct (reachable_represents K s t D R) as (m & Rm).
  pose proof (represents_get K t m k D Rm Hk) as G. pose proof (proj2 D k Hk) as [Nk Lk]. fold (nibs_ok k) in Nk.
  destruct Rm as (C & Lm & HK).
  destruct (path_total t k false (canon_shaped _ C) Nk) as (l & El). exists l. split; auto.
  assert (Q : (exists v, trie_get t k = Ok (Some v)) <-> exists v, m k = Some v).
  { destruct G as [->|[-> ->]]; split; intros (v & E); try discriminate; exists v; congruence. }
  rewrite Q. split.
  - intros (v & Em). assert (Lv : look t k = Some (Val v)) by now rewrite Lm, Em.
    assert (S : exists p ns, k = p ++ ns /\ sub_at t p (Leaf ns v)).
    { clear - Lv C. revert k Lv. induction t as [|h|ch w IH|ns c IH|ns w] using node_ind'; intros k Lv.
      - discriminate.
      - cbn in Lv. destruct k; discriminate.
      - destruct (canon_branch_inv _ _ C) as (-> & _ & Cc & _). destruct k as [|i k]; [discriminate|]. rewrite look_branch in Lv.
        destruct (nth_error ch i) as [c|] eqn:Ec; [|discriminate]. destruct (IH i c Ec (Cc _ _ Ec) k Lv) as (p & ns & -> & S).
        exists (i :: p), ns. split; auto. econstructor; eauto.
      - apply look_ext_some in Lv as (k' & -> & Lv). apply canon_ext_inv in C as (_ & _ & _ & Cc).
        destruct (IH Cc k' Lv) as (p & ms & -> & S). exists (ns ++ p), ms. split; [now rewrite app_assoc|now constructor].
      - apply look_leaf_some in Lv as (-> & [= ->]). exists [], ns. split; auto. constructor. }
    destruct S as (p & ns & -> & S). destruct (path_leaf_bwd t p ns v S) as (a & Ea & <-). rewrite El in Ea. injection Ea as ->.
    split; [eauto|]. rewrite into_key_ok; unfold pieces; rewrite flat_map_app; cbn; rewrite app_nil_r; auto.
  - intros ((a & ns & ->) & Ek). destruct (path_follows t k _ El) as [P|P].
    + assert (Lp : length (pieces (a ++ [SLeaf ns])) <= 64) by (destruct P as (r & ->); rewrite app_length in Lk; lia).
      rewrite into_key_ok in Ek by auto. injection Ek as Ek.
      destruct (path_leaf_fwd t k a ns El Ek) as (v & S). exists v.
      assert (E : look t k = Some (Val v)).
      { rewrite <- Ek. unfold pieces. rewrite flat_map_app. cbn. rewrite app_nil_r. eapply look_sub; eauto. cbn. now rewrite nibbles_eqb_refl. }
      rewrite Lm in E. destruct (m k); cbn in E; congruence.
    + destruct (path_leaf_fwd t k a ns El) as (v & S).
      { destruct P as (r & Ep). assert (HB : bounded t) by (eapply represents_bounded; eauto; repeat split; eauto).
        destruct (path_sound t k false _ El a (SLeaf ns) [] eq_refl) as (n & S & Dn). destruct n; try easy. cbn in Dn. subst ns0.
        assert (E : look t (pieces a ++ ns) = Some (Val value)) by (eapply look_sub; eauto; cbn; now rewrite nibbles_eqb_refl).
        pose proof (HB _ _ E) as LB.
        assert (Lp : length (pieces (a ++ [SLeaf ns])) <= 64) by (unfold pieces in *; rewrite flat_map_app; cbn; now rewrite app_nil_r).
        rewrite into_key_ok in Ek by auto. now injection Ek. }
      assert (Ep : pieces a ++ ns = k).
      { assert (HB : bounded t) by (eapply represents_bounded; eauto; repeat split; eauto).
        assert (E : look t (pieces a ++ ns) = Some (Val v)) by (eapply look_sub; eauto; cbn; now rewrite nibbles_eqb_refl).
        pose proof (HB _ _ E) as LB. rewrite into_key_ok in Ek; unfold pieces in *; rewrite flat_map_app in *; cbn in *; rewrite app_nil_r in *; congruence. }
      exists v. assert (E : look t k = Some (Val v)) by (rewrite <- Ep; eapply look_sub; eauto; cbn; now rewrite nibbles_eqb_refl).
      rewrite Lm in E. destruct (m k); cbn in E; congruence.
Qed.
Print Assumptions C11_path_agrees_with_get.

(** ** C12: branch-collapse report *)

(** Deleting any key from any pruned version of a trie built through the API: the
    reporting function returns whenever the deletion succeeds.  It reports nothing
    exactly when no branch disappears.  Otherwise the branch that disappeared had a
    single other child [c] besides the one towards the key, and the reported path is
    where [c] is found afterwards. *)
Theorem C12_report : forall keccak K s0 T P k s P' d,
  key_domain K -> reachable K s0 T -> prunes keccak P T -> valid_key k ->
  trie_delete P k s = Ok (P', d) ->
  exists r, reporting_remove P k s = Ok (P', r) /\
    (r = None <-> no_branch_lost P P') /\
    (forall q, r = Some q ->
       exists p i j rest ch c,
         k = p ++ j :: rest /\ i <> j /\
         sub_at P p (Branch ch []) /\ ~ branch_at P' p /\
         nth_error ch i = Some c /\ c <> Empty /\
         (forall m x, nth_error ch m = Some x -> m <> i -> m <> j -> x = Empty) /\
         found_at P' (p ++ [i]) q c).
Proof.
  intros keccak K s0 T P k s P' d D R H [Vk _] E. destruct (reachable_represents K s0 T D R) as (m & Rm).
  pose proof (represents_bounded K T m D Rm) as B. destruct Rm as (C & _).
  destruct (report_ok keccak P T k s C B H Vk P' d E) as (r & Er & Hr). exists r. split; auto.
  destruct r as [q|]; split.
  - split; [discriminate|]. intros N. destruct Hr as (p & i & j & r & ch & c & _ & _ & S & _ & _ & _ & NB & _).
    exfalso. apply NB, N. exists ch, []. exact S.
  - intros q' [= <-]. destruct Hr as (p & i & j & r & ch & c & Hk & Hij & S & Ei & N & O & NB & F).
    exists p, i, j, r, ch, c. repeat split; auto.
  - tauto.
  - discriminate.
Qed.
Print Assumptions C12_report.

(** ** Cases *)

Definition q_keys : list (nibbles * bytes) :=
  [([1;2;3;4], [11%N]); ([1;2;3;5], [12%N]); ([1;2;7;0], [13%N]); ([9;0;0;1], [14%N])].
Definition q_ops : list op := map (fun e => OpInsert (fst e) (snd e)) q_keys.
Definition q_trie : node := match trie_run Reject Empty q_ops with Ok (t, _) => t | _ => Empty end.

Example ex_q_reachable : reachable (fun k => Forall (fun n => n < 16) k /\ length k = 4 /\ 4 <= 64) Reject q_trie.
Proof.
  exists q_ops, (snd (match trie_run Reject Empty q_ops with Ok r => r | _ => (Empty, []) end)). split; [|vm_compute; reflexivity].
  repeat constructor; cbn; lia.
Qed.

Example ex_q_paths :
  path_for_query q_trie [1;2;3;4] false = Ok [SBranch 1; SExt [2]; SBranch 3; SBranch 4; SLeaf []] /\
  path_for_query q_trie [1;2;3;6] false = Ok [SBranch 1; SExt [2]; SBranch 3; SBranch 6; SEmpty] /\
  path_for_query q_trie [1;3;3;6] false = Ok [SBranch 1] /\
  path_for_query q_trie [1;3;3;6] true = Ok [SBranch 1; SExt [2]] /\
  trie_get q_trie [1;2;3;4] = Ok (Some [11%N]) /\ trie_get q_trie [1;2;3;6] = Ok None.
Proof. vm_compute. repeat split. Qed.

(** Three deletions: a collapse onto an extension, one onto a leaf, and none. *)
Example ex_q_reports :
  (exists t, reporting_remove q_trie [1;2;7;0] Reject = Ok (t, Some [1;2;3])) /\
  (exists t, reporting_remove q_trie [1;2;3;4] Reject = Ok (t, Some [1;2;3;5])) /\
  (exists t, reporting_remove q_trie [4;4;4;4] Reject = Ok (t, None)) /\
  (exists t, reporting_remove q_trie [9;0;0;1] Reject = Ok (t, Some [1;2])).
Proof. repeat split; eexists; vm_compute; reflexivity. Qed.

(** A key that is a proper prefix of a stored one is reported with a path longer
    than the key, so [is_prefix k (pieces l)] in C11_path_follows_key is needed. *)
Example ex_q_short_key : path_for_query q_trie [1] false = Ok [SBranch 1; SExt [2]].
Proof. reflexivity. Qed.
