(** Histories of inserts and deletes: the trie implements the abstract map, and
    is determined by its contents. *)

From Coq Require Import List Arith NArith Bool Lia.
From Verif.Mpt Require Import TrieModel TrieSpec TrieFacts TrieOpsProofs.
Import ListNotations.

Lemma compat_of_keys n : forall k,
  canon n -> hash_free n -> nibs_ok k ->
  (forall k' x, look n k' = Some x -> k' = k \/ diverge k' k) -> compat k n.
Proof.
  induction n as [ | h | ch w IH | ns c IH | ns w ] using node_ind'; intros k C HF Hk HK.
  - constructor.
  - now apply hash_free_not_hash in HF.
  - destruct (canon_branch_inv _ _ C) as (-> & HL16 & HC & _).
    destruct (canon_branch_two _ C) as (i & j & ki & kj & vi & vj & Hij & Hi & Hj).
    destruct k as [|m k].
    + destruct (HK _ _ Hi) as [|[]]; discriminate.
    + apply nibs_ok_cons in Hk as [Hm Hk].
      destruct (nth_error_lt ch m) as [c Hc]; [lia|].
      apply (PBranch m k ch [] c Hc). eapply IH; eauto using hash_free_child.
      intros k' x Hx. destruct (HK (m :: k') x) as [E|D].
      * now rewrite look_branch, Hc.
      * left. congruence.
      * right. cbn in D. intuition.
  - destruct (canon_ext_inv _ _ C) as (Hne & Hns & Hb & Cc).
    destruct (canon_nonempty c Cc) as (q & y & Hq); [destruct c; easy|].
    assert (IN : forall k', k = ns ++ k' -> compat k (Ext ns c)).
    { intros k' ->. apply PExtIn. apply nibs_ok_app in Hk as [_ Hk'].
      apply IH; auto; [now apply hash_free_ext in HF|].
      intros q' x Hx. destruct (HK (ns ++ q') x) as [E|D]; [now rewrite look_ext_app| |].
      - left. now apply app_inv_head in E.
      - right. now apply diverge_app_l in D. }
    destruct (diverge_or_prefix ns k) as [D|[[k' ->]|[r ->]]].
    + now apply PExt.
    + eauto.
    + destruct (HK ((k ++ r) ++ q) y) as [E|D]; [now rewrite look_ext_app| |].
      * rewrite <- app_assoc in E. rewrite <- (app_nil_r k) in E at 2. apply app_inv_head in E.
        apply app_eq_nil in E as [-> ->]. apply (IN []). now rewrite !app_nil_r.
      * exfalso. rewrite <- app_assoc in D. rewrite <- (app_nil_r k) in D at 2.
        apply diverge_app_l in D. now destruct (r ++ q).
  - destruct (HK ns (Val w)) as [->|D]; [cbn; now rewrite nibbles_eqb_refl|constructor|now constructor].
Qed.

(** The trie represents the map [m], all of whose keys are in [K]. *)
Definition represents (K : nibbles -> Prop) (t : node) (m : kvmap) : Prop :=
  canon t /\ (forall k, look t k = option_map Val (m k)) /\ (forall k v, m k = Some v -> K k).

Lemma represents_hash_free K t m : represents K t m -> hash_free t.
Proof. intros (_ & L & _) k h. rewrite L. destruct (m k); discriminate. Qed.

Lemma represents_bounded K t m : key_domain K -> represents K t m -> bounded t.
Proof.
  intros [_ V] (_ & L & HK) k x. rewrite L. destruct (m k) eqn:E; [|discriminate].
  intros _. apply HK in E. now apply V in E as [_ E].
Qed.

Lemma represents_compat K t m k : key_domain K -> represents K t m -> K k -> compat k t.
Proof.
  intros D R Hk. pose proof (represents_hash_free _ _ _ R) as HF.
  destruct R as (C & L & HK). apply compat_of_keys; auto; [now apply D in Hk as [? _]|].
  intros k' x. rewrite L. destruct (m k') eqn:E; [|discriminate]. intros _.
  apply HK in E. destruct (diverge_or_prefix k' k) as [|[P|P]]; auto; left.
  - now apply D.
  - symmetry. now apply D.
Qed.

Lemma represents_empty K : represents K Empty empty_map.
Proof. repeat split; try constructor; discriminate. Qed.

Lemma step_represents K s t m o : key_domain K -> represents K t m -> K (op_key o) ->
  exists t', trie_step s t o = Ok (t', snd (spec_step m o)) /\ represents K t' (fst (spec_step m o)).
Proof.
  intros D R Hk. pose proof (represents_compat _ _ _ _ D R Hk) as P.
  pose proof (represents_hash_free _ _ _ R) as HF. pose proof (represents_bounded _ _ _ D R) as HB.
  destruct R as (C & L & HK). destruct o as [k v|k]; cbn [op_key] in *.
  - destruct (insert_ok t k (Val v) C P) as (t' & E & C' & _ & _ & L').
    + now apply D in Hk as [? _].
    + rewrite L. destruct (m k); [right|left; auto]. cbn. eauto.
    + exists t'. cbn. unfold trie_insert. rewrite E. cbn. split; auto.
      split; auto. split.
      * intros k'. rewrite L'. unfold upd. destruct (key_eq_dec k' k); auto.
      * intros k' w. unfold upd. destruct (key_eq_dec k' k); [congruence|eauto].
  - destruct (trie_delete_ok t k s C HF HB P) as (t' & E & C' & L').
    exists t'. cbn. rewrite E. cbn. split.
    + rewrite L. now destruct (m k).
    + split; auto. split.
      * intros k'. rewrite L'. unfold upd. destruct (key_eq_dec k' k); auto.
      * intros k' w. unfold upd. destruct (key_eq_dec k' k); [congruence|eauto].
Qed.

Lemma run_represents K s l : forall t m, key_domain K -> represents K t m ->
  Forall (fun o => K (op_key o)) l ->
  exists t', trie_run s t l = Ok (t', snd (spec_run m l)) /\ represents K t' (fst (spec_run m l)).
Proof.
  induction l as [|o l IH]; intros t m D R HF.
  - exists t. auto.
  - inversion HF; subst. destruct (step_represents K s t m o D R) as (t1 & E1 & R1); auto.
    destruct (IH t1 _ D R1) as (t2 & E2 & R2); auto.
    exists t2. cbn [trie_run spec_run]. rewrite E1. cbn [bind fst snd]. rewrite E2. cbn [bind fst snd].
    destruct (spec_step m o) as [m1 x]. cbn [fst snd] in *.
    destruct (spec_run m1 l) as [m2 xs]. auto.
Qed.

Lemma represents_get K t m k : key_domain K -> represents K t m -> K k ->
  trie_get t k = Ok (m k) \/ (m k = None /\ trie_get t k = Panic).
Proof.
  intros D R Hk. pose proof (represents_compat _ _ _ _ D R Hk) as P.
  destruct (look_compat_get t k P) as [[H1 H2]|H]; destruct R as (C & L & HK).
  - right. rewrite L in H1. destruct (m k); [discriminate|auto].
  - left. rewrite H, L. now destruct (m k).
Qed.

(** With keys of one fixed length, [get] never runs past the end of a key. *)
Lemma get_fixed_no_panic n : forall k d, canon n -> hash_free n -> compat k n ->
  (forall k' x, look n k' = Some x -> length k' = d) -> length k = d -> trie_get n k <> Panic.
Proof.
  induction n as [ | h | ch w IH | ns c IH | ns w ] using node_ind'; intros k d C HF P HL Hk.
  - discriminate.
  - discriminate.
  - destruct (canon_branch_inv _ _ C) as (-> & HL16 & HC & _).
    apply compat_branch_inv in P as (i & k1 & c & -> & Hc & P). rewrite trie_get_branch, Hc.
    apply (IH i c Hc k1 (d - 1)); eauto using hash_free_child.
    + intros k' x Hx. specialize (HL (i :: k') x). rewrite look_branch, Hc in HL. specialize (HL Hx).
      cbn in HL. lia.
    + cbn in Hk. lia.
  - destruct (canon_ext_inv _ _ C) as (Hne & Hns & Hb & Cc).
    destruct (canon_nonempty c Cc) as (q & y & Hq); [destruct c; easy|].
    assert (length (ns ++ q) = d) as E by (apply (HL _ y); now rewrite look_ext_app).
    rewrite app_length in E. cbn [trie_get].
    destruct (Nat.ltb_spec (length k) (length ns)); [lia|].
    apply compat_ext_inv in P as [D|(k1 & -> & P)].
    + replace (identical_up_to_smallest (firstn (length ns) k) ns) with false; [discriminate|].
      symmetry. apply identical_diverge, diverge_sym.
      apply diverge_split in D as (p & x & z & a' & b' & -> & -> & Hxz).
      rewrite app_length in *. cbn in *. rewrite firstn_app, firstn_all2 by lia.
      replace (length p + S (length a') - length p) with (S (length a')) by lia.
      apply diverge_app_l. cbn. auto.
    + rewrite firstn_app_exact, skipn_app_exact, identical_refl.
      apply (IH k1 (length q)); auto; [now apply hash_free_ext in HF| |].
      * intros k' x Hx. specialize (HL (ns ++ k') x). rewrite look_ext_app, app_length in HL.
        specialize (HL Hx). lia.
      * rewrite app_length in *. lia.
  - cbn. destruct (identical_up_to_smallest ns k); discriminate.
Qed.

Lemma represents_get_fixed K t m k d : key_domain K -> (forall k', K k' -> length k' = d) ->
  represents K t m -> K k -> trie_get t k = Ok (m k).
Proof.
  intros D HL R Hk. destruct (represents_get K t m k D R Hk) as [|[_ E]]; auto. exfalso.
  revert E. apply get_fixed_no_panic with (d := d); auto.
  - apply R.
  - now apply represents_hash_free in R.
  - now apply (represents_compat K t m).
  - destruct R as (_ & L & HK). intros k' x. rewrite L. destruct (m k') eqn:E; [|discriminate].
    eauto.
Qed.

Lemma represents_unique K t1 t2 m1 m2 :
  represents K t1 m1 -> represents K t2 m2 -> (forall k, m1 k = m2 k) -> t1 = t2.
Proof.
  intros (C1 & L1 & _) (C2 & L2 & _) E. apply canon_unique; auto.
  intros k. now rewrite L1, L2, E.
Qed.
