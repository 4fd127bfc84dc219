(** C01-C04: the trie API implements a finite map.

    Every theorem quantifies over all histories of API calls from the empty
    trie; [K] is the set of keys the caller uses. *)

From Coq Require Import List Arith NArith Bool Lia Sorting.Sorted.
From Verif.Mpt Require Import TrieModel TrieSpec TrieFacts TrieOpsProofs TrieHistory TrieIterProofs.
Import ListNotations.

(** A trie the caller can hold after some history of inserts and deletes with
    keys in [K]. *)
Definition reachable (K : nibbles -> Prop) (s : strategy) (t : node) : Prop :=
  exists ops outs, Forall (fun o => K (op_key o)) ops /\ trie_run s Empty ops = Ok (t, outs).

Definition fixed_length (K : nibbles -> Prop) (d : nat) : Prop := forall k, K k -> length k = d.

Lemma reachable_represents K s t : key_domain K -> reachable K s t -> exists m, represents K t m.
Proof.
  intros D (ops & outs & HF & E).
  destruct (run_represents K s ops Empty empty_map D (represents_empty K) HF) as (t' & E' & R).
  rewrite E in E'. injection E' as -> _. eauto.
Qed.

Lemma fixed_domain d : key_domain (fun k => Forall (fun n => n < 16) k /\ length k = d /\ d <= 64).
Proof.
  split.
  - intros a b (_ & Ha & _) (_ & Hb & _) [c ->]. rewrite app_length in Hb.
    destruct c; [now rewrite app_nil_r|cbn in Hb; lia].
  - intros k (Hk & Hl & Hd). split; [auto|lia].
Qed.

(** ** C01/C02: histories of inserts and deletes *)

(** Every history of inserts and deletes succeeds, each delete returns the
    value the map held, and afterwards every lookup agrees with the map. *)
Theorem C01_history_refines_map : forall K d s ops,
  key_domain K -> fixed_length K d -> Forall (fun o => K (op_key o)) ops ->
  exists t, trie_run s Empty ops = Ok (t, snd (spec_run empty_map ops)) /\
            forall k, K k -> trie_get t k = Ok (fst (spec_run empty_map ops) k).
Proof.
  intros K d s ops D HL HF.
  destruct (run_represents K s ops Empty empty_map D (represents_empty K) HF) as (t & E & R).
  exists t. split; auto. intros k Hk. now apply represents_get_fixed with (K := K) (d := d).
Qed.
Print Assumptions C01_history_refines_map.

Theorem C01_insert_then_get : forall K d s t k v,
  key_domain K -> fixed_length K d -> reachable K s t -> K k ->
  exists t', trie_insert t k (Val v) = Ok t' /\ trie_get t' k = Ok (Some v) /\
             forall k', K k' -> k' <> k -> trie_get t' k' = trie_get t k'.
Proof.
  intros K d s t k v D HL HR Hk. destruct (reachable_represents K s t D HR) as (m & R).
  destruct (step_represents K s t m (OpInsert k v) D R Hk) as (t' & E & R').
  cbn in E. destruct (trie_insert t k (Val v)) as [t1| |]; try discriminate.
  injection E as ->. exists t'. split; auto. cbn in R'. split.
  - rewrite (represents_get_fixed K t' _ k d D HL R' Hk). unfold upd. now destruct (key_eq_dec k k).
  - intros k' Hk' Hne. rewrite (represents_get_fixed K t' _ k' d D HL R' Hk'),
      (represents_get_fixed K t _ k' d D HL R Hk'). unfold upd. now destruct (key_eq_dec k' k).
Qed.
Print Assumptions C01_insert_then_get.

(** For prefix-free keys of varying length (RLP-encoded indices), a lookup that
    returns does return the map's answer, and a key that is present is always
    found; a lookup of an absent key may panic ([C01_get_panics_refuted]). *)
Theorem C01_history_prefix_free_partial : forall K s ops,
  key_domain K -> Forall (fun o => K (op_key o)) ops ->
  exists t, trie_run s Empty ops = Ok (t, snd (spec_run empty_map ops)) /\
            forall k, K k ->
              trie_get t k = Ok (fst (spec_run empty_map ops) k) \/
              (fst (spec_run empty_map ops) k = None /\ trie_get t k = Panic).
Proof.
  intros K s ops D HF.
  destruct (run_represents K s ops Empty empty_map D (represents_empty K) HF) as (t & E & R).
  exists t. split; auto. intros k Hk. now apply represents_get with (K := K).
Qed.
Print Assumptions C01_history_prefix_free_partial.

Theorem C02_delete_then_get : forall K d s t k,
  key_domain K -> fixed_length K d -> reachable K s t -> K k ->
  exists t' old, trie_delete t k s = Ok (t', old) /\ trie_get t k = Ok old /\
                 trie_get t' k = Ok None /\
                 (forall k', K k' -> k' <> k -> trie_get t' k' = trie_get t k') /\
                 (old = None -> t' = t).
Proof.
  intros K d s t k D HL HR Hk. destruct (reachable_represents K s t D HR) as (m & R).
  destruct (step_represents K s t m (OpDelete k) D R Hk) as (t' & E & R').
  cbn in E. destruct (trie_delete t k s) as [[t1 old]| |] eqn:ED; try discriminate.
  cbn in E. injection E as -> ->. cbn in R'. exists t', (m k). split; auto.
  split; [now apply represents_get_fixed with (K := K) (d := d)|]. split; [|split].
  - rewrite (represents_get_fixed K t' _ k d D HL R' Hk). unfold upd. now destruct (key_eq_dec k k).
  - intros k' Hk' Hne. rewrite (represents_get_fixed K t' _ k' d D HL R' Hk'),
      (represents_get_fixed K t _ k' d D HL R Hk'). unfold upd. now destruct (key_eq_dec k' k).
  - intros Hn. apply (represents_unique K t' t _ _ R' R).
    intros k'. unfold upd. destruct (key_eq_dec k' k); congruence.
Qed.
Print Assumptions C02_delete_then_get.

(** Deleting a freshly inserted key gives back the very same trie. *)
Theorem C02_insert_delete_roundtrip : forall K s t k v,
  key_domain K -> reachable K s t -> K k -> trie_delete t k s = Ok (t, None) ->
  exists t', trie_insert t k (Val v) = Ok t' /\ trie_delete t' k s = Ok (t, Some v).
Proof.
  intros K s t k v D HR Hk HN. destruct (reachable_represents K s t D HR) as (m & R).
  assert (Hm : m k = None).
  { destruct (step_represents K s t m (OpDelete k) D R Hk) as (t' & E & R').
    cbn in E. rewrite HN in E. cbn in E. congruence. }
  destruct (step_represents K s t m (OpInsert k v) D R Hk) as (t1 & E1 & R1).
  cbn in E1. destruct (trie_insert t k (Val v)) as [t0| |]; try discriminate.
  injection E1 as ->. exists t1. split; auto. cbn in R1.
  destruct (step_represents K s t1 _ (OpDelete k) D R1 Hk) as (t2 & E2 & R2).
  cbn in E2, R2. destruct (trie_delete t1 k s) as [[t3 old]| |]; try discriminate.
  cbn in E2. injection E2 as -> ->.
  rewrite (represents_unique K t2 t _ _ R2 R).
  - unfold upd. now destruct (key_eq_dec k k).
  - intros k'. unfold upd. destruct (key_eq_dec k' k); congruence.
Qed.
Print Assumptions C02_insert_delete_roundtrip.

(** ** C03: the trie (hence its root hash) depends only on its contents *)
Theorem C03_same_contents_same_trie : forall K s1 s2 ops1 ops2 t1 t2 o1 o2,
  key_domain K ->
  Forall (fun o => K (op_key o)) ops1 -> Forall (fun o => K (op_key o)) ops2 ->
  trie_run s1 Empty ops1 = Ok (t1, o1) -> trie_run s2 Empty ops2 = Ok (t2, o2) ->
  (forall k, fst (spec_run empty_map ops1) k = fst (spec_run empty_map ops2) k) ->
  t1 = t2.
Proof.
  intros K s1 s2 ops1 ops2 t1 t2 o1 o2 D H1 H2 E1 E2 HM.
  destruct (run_represents K s1 ops1 Empty empty_map D (represents_empty K) H1) as (t1' & E1' & R1).
  destruct (run_represents K s2 ops2 Empty empty_map D (represents_empty K) H2) as (t2' & E2' & R2).
  rewrite E1 in E1'. rewrite E2 in E2'. injection E1' as -> _. injection E2' as -> _.
  eapply represents_unique; eauto.
Qed.
Print Assumptions C03_same_contents_same_trie.

(** ** C04: iteration *)

(** Draining the iterator of any trie built by inserts and deletes ends, never
    panics, yields every entry of the map exactly once and nothing else, in
    strictly increasing key order; [contains] agrees with the map. *)
Theorem C04_iteration_complete : forall K s ops,
  key_domain K -> Forall (fun o => K (op_key o)) ops ->
  exists t items fuel, trie_run s Empty ops = Ok (t, snd (spec_run empty_map ops)) /\
    (forall f, fuel <= f -> drain f (trie_items t) = Done items) /\
    StronglySorted key_lt (map fst items) /\
    (forall k x, In (k, x) items <->
       exists v, x = Val v /\ fst (spec_run empty_map ops) k = Some v) /\
    (forall k, has_item_by_key items k = true <-> fst (spec_run empty_map ops) k <> None).
Proof.
  intros K s ops D HF.
  destruct (run_represents K s ops Empty empty_map D (represents_empty K) HF) as (t & E & R).
  destruct (items_ok t) as (f & HD); [apply R|eapply represents_bounded; eauto|].
  exists t, (ents t), f. split; auto. split; auto.
  destruct R as (C & L & HK). split; [now apply ents_sorted|]. split.
  - intros k x. rewrite in_ents_look, L. destruct (fst (spec_run empty_map ops) k) as [v|]; cbn.
    + split; [intros [= <-]; eauto|intros (v' & -> & [= ->]); auto].
    + split; [discriminate|intros (v' & _ & [=])].
  - intros k. rewrite has_item_spec. split.
    + intros (x & Hx). apply look_stored in Hx. rewrite L in Hx.
      destruct (fst (spec_run empty_map ops) k); [discriminate|easy].
    + intros Hn. destruct (fst (spec_run empty_map ops) k) as [v|] eqn:Em; [|easy].
      exists (Val v). apply look_stored. now rewrite L, Em.
Qed.
Print Assumptions C04_iteration_complete.

(** Iteration over any canonical trie, hash nodes included, yields exactly the
    stored entries.  [stored] is defined by paths in TrieSpec.v. *)
Theorem C04_iteration_with_hash_nodes : forall t,
  canon t -> (forall k x, stored t k x -> length k <= 64) ->
  exists items fuel, (forall f, fuel <= f -> drain f (trie_items t) = Done items) /\
    StronglySorted key_lt (map fst items) /\
    (forall k x, In (k, x) items <-> stored t k x).
Proof.
  intros t C B. destruct (items_ok t C) as (f & HD).
  - intros k x Hx. apply look_stored in Hx. eauto.
  - exists (ents t), f. split; auto. split; [now apply ents_sorted|].
    intros k x. now rewrite in_ents_look, look_stored.
Qed.
Print Assumptions C04_iteration_with_hash_nodes.

(** ** What fails outside the guarded domain *)

(** Looking up an absent key can panic even when all keys are prefix-free. *)
Theorem C01_get_panics_refuted :
  exists t k, trie_run Reject Empty [OpInsert [1;3;4;5;6] [1%N]; OpInsert [1;3;4;5;7] [2%N]] = Ok (t, [OutInserted; OutInserted])
    /\ k = [1;2] /\ trie_get t k = Panic.
Proof. eexists. exists [1;2]. split; [vm_compute; reflexivity|]. split; reflexivity. Qed.

(** Without prefix-freeness, [get] answers for a key that was never inserted. *)
Theorem C01_get_prefix_key_refuted :
  exists t, trie_insert Empty [1;2;3] (Val [7%N]) = Ok t /\ trie_get t [1;2] = Ok (Some [7%N]).
Proof. eexists. split; reflexivity. Qed.

(** Without prefix-freeness, an insert can be lost: the value lands under a
    different key. *)
Theorem C01_insert_short_key_refuted :
  exists t t', trie_run Reject Empty [OpInsert [1;2;3;4] [1%N]; OpInsert [1;2;3;5] [2%N]]
                 = Ok (t, [OutInserted; OutInserted]) /\
               trie_insert t [1;2] (Val [9%N]) = Ok t' /\
               (forall x, ~ stored t' [1;2] x) /\ stored t' [1;2;3] (Val [9%N]).
Proof.
  eexists. eexists. split; [vm_compute; reflexivity|]. split; [vm_compute; reflexivity|].
  split.
  - intros x H. apply look_stored in H. vm_compute in H. discriminate.
  - apply look_stored. vm_compute. reflexivity.
Qed.

(** Without prefix-freeness, deleting one key can drop another one. *)
Theorem C02_delete_drops_branch_value_refuted :
  exists t t', trie_run Reject Empty [OpInsert [1] [1%N]; OpInsert [1;2] [2%N]; OpInsert [1;3] [3%N]]
                 = Ok (t, [OutInserted; OutInserted; OutInserted]) /\
               trie_get t [1] = Ok (Some [1%N]) /\
               trie_delete t [1;2] Reject = Ok (t', Some [2%N]) /\
               (forall x, ~ stored t' [1] x).
Proof.
  eexists. eexists. split; [vm_compute; reflexivity|]. split; [vm_compute; reflexivity|].
  split; [vm_compute; reflexivity|].
  intros x H. apply look_stored in H. vm_compute in H. discriminate.
Qed.

(** ** Non-vacuity *)
Definition ex_ops : list op :=
  [OpInsert [1;2;3;4] [10%N]; OpInsert [1;2;3;5] [11%N]; OpInsert [1;2;7;7] [12%N];
   OpDelete [1;2;3;4]; OpInsert [9;0;0;0] [13%N]; OpInsert [1;2;7;7] [14%N]; OpDelete [5;5;5;5]].

Definition K4 : nibbles -> Prop := fun k => Forall (fun n => n < 16) k /\ length k = 4 /\ 4 <= 64.

Example K4_domain : key_domain K4 /\ fixed_length K4 4 /\ Forall (fun o => K4 (op_key o)) ex_ops.
Proof.
  split; [apply (fixed_domain 4)|]. split; [intros k (_ & H & _); auto|].
  repeat constructor; cbn; lia.
Qed.

Example ex_run : exists t, trie_run Reject Empty ex_ops =
    Ok (t, [OutInserted; OutInserted; OutInserted; OutDeleted (Some [10%N]); OutInserted; OutInserted;
            OutDeleted None]) /\
    trie_get t [1;2;7;7] = Ok (Some [14%N]) /\ trie_get t [1;2;3;4] = Ok None /\
    drain 100 (trie_items t) =
      Done [([1;2;3;5], Val [11%N]); ([1;2;7;7], Val [14%N]); ([9;0;0;0], Val [13%N])] /\
    reachable K4 Reject t.
Proof.
  eexists. split; [vm_compute; reflexivity|]. split; [vm_compute; reflexivity|].
  split; [vm_compute; reflexivity|]. split; [vm_compute; reflexivity|].
  exists ex_ops. eexists. split; [apply K4_domain|vm_compute; reflexivity].
Qed.

(** Two different histories with the same final contents. *)
Example ex_same_contents : exists t o1 o2,
  trie_run Reject Empty ex_ops = Ok (t, o1) /\
  trie_run CollapseToExtension Empty
    [OpInsert [9;0;0;0] [13%N]; OpInsert [1;2;7;7] [14%N]; OpInsert [1;2;3;5] [11%N]] = Ok (t, o2).
Proof. do 3 eexists. split; vm_compute; reflexivity. Qed.

(** A trie with hash nodes to iterate over. *)
Example ex_hash_items : exists t,
  trie_insert Empty [1;2] (VHash [1%N]) = Ok t /\
  drain 100 (trie_items t) = Done [([1;2], VHash [1%N])].
Proof. eexists. split; vm_compute; reflexivity. Qed.
