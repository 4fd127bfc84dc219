(** C03, C05-C08, C44: hashing, partial tries, trie subsets and hash caching. *)

From Coq Require Import List Arith NArith Bool Lia.
From Verif.Mpt Require Import TrieModel TrieSpec TrieFacts TrieOpsProofs TrieHistory TrieProps HashModel PruneSpec
  PruneProofs PartialProofs RlpProofs SubsetModel SubsetProofs CacheModel CacheProofs NibblesModel.
Import ListNotations.
Local Open Scope nat_scope.

Lemma reachable_facts K s t : key_domain K -> reachable K s t -> canon t /\ no_hash t /\ exts_nonempty t.
Proof.
  intros D R. destruct (reachable_represents K s t D R) as (m & Rm). pose proof (represents_hash_free _ _ _ Rm) as F.
  destruct Rm as (C & _). split; auto. split; [now apply canon_no_hash|].
  intros p ns c S. apply (canon_sub _ _ _ C) in S. now apply canon_ext_inv in S as (H & _).
Qed.

(** ** C03: root hashes *)
Theorem C03_same_contents_same_root : forall keccak K s1 s2 ops1 ops2 t1 t2 o1 o2,
  key_domain K ->
  Forall (fun o => K (op_key o)) ops1 -> Forall (fun o => K (op_key o)) ops2 ->
  trie_run s1 Empty ops1 = Ok (t1, o1) -> trie_run s2 Empty ops2 = Ok (t2, o2) ->
  (forall k, fst (spec_run empty_map ops1) k = fst (spec_run empty_map ops2) k) ->
  hash_trie keccak t1 = hash_trie keccak t2.
Proof.
  intros keccak K s1 s2 ops1 ops2 t1 t2 o1 o2 D F1 F2 E1 E2 M.
  now rewrite (C03_same_contents_same_trie K s1 s2 ops1 ops2 t1 t2 o1 o2 D F1 F2 E1 E2 M).
Qed.
Print Assumptions C03_same_contents_same_root.

(** ** C05: partial tries *)

(** Any operations that succeed on a partial trie return what they return on the
    full trie, and leave a pruned version of the full result, with its root
    hash. *)
Theorem C05_operations : forall keccak P T ops P' outs,
  prunes keccak P T -> trie_run Reject P ops = Ok (P', outs) ->
  exists T', trie_run Reject T ops = Ok (T', outs) /\ prunes keccak P' T' /\
             hash_trie keccak P' = hash_trie keccak T'.
Proof.
  intros keccak P T ops P' outs H E. destruct (run_sim keccak ops P T P' outs H E) as (T' & E' & H').
  exists T'. split; [auto|]. split; auto. now apply prunes_root.
Qed.
Print Assumptions C05_operations.

(** Stateless execution: on any pruned version of the trie a history produced,
    operations that succeed return what the map says, and the resulting root is
    the root of the full trie for the resulting contents. *)
Theorem C05_stateless_execution : forall keccak K ops0 ops T o0 P P' outs Tfull ofull,
  key_domain K -> Forall (fun o => K (op_key o)) (ops0 ++ ops) ->
  trie_run Reject Empty ops0 = Ok (T, o0) -> prunes keccak P T ->
  trie_run Reject P ops = Ok (P', outs) ->
  trie_run Reject Empty (ops0 ++ ops) = Ok (Tfull, ofull) ->
  outs = snd (spec_run (fst (spec_run empty_map ops0)) ops) /\
  hash_trie keccak P' = hash_trie keccak Tfull.
Proof.
  intros keccak K ops0 ops T o0 P P' outs Tfull ofull D F E0 H EP EF.
  apply Forall_app in F as [F0 F].
  destruct (run_represents K Reject ops0 Empty empty_map D (represents_empty K) F0) as (T1 & E1 & R1).
  rewrite E0 in E1. injection E1 as <- ->.
  destruct (run_represents K Reject ops T _ D R1 F) as (T2 & E2 & R2).
  destruct (run_sim keccak ops P T P' outs H EP) as (T' & E' & H'). rewrite E2 in E'. injection E' as <- <-.
  split; auto. rewrite (prunes_root keccak _ _ H'). f_equal.
  assert (CAT : forall l t t1 x1 t2 x2, trie_run Reject t l = Ok (t1, x1) -> trie_run Reject t1 ops = Ok (t2, x2) ->
     trie_run Reject t (l ++ ops) = Ok (t2, x1 ++ x2)).
  { induction l as [|o l IH]; intros t t1 x1 t2 x2 A B; cbn in *.
    - injection A as <- <-. exact B.
    - destruct (trie_step Reject t o) as [[u y]|e|]; try discriminate. cbn in *.
      destruct (trie_run Reject u l) as [[u' ys]|e|] eqn:Er; try discriminate. injection A as <- <-.
      now rewrite (IH _ _ _ _ _ Er B). }
  rewrite (CAT _ _ _ _ _ _ E0 E2) in EF. congruence.
Qed.
Print Assumptions C05_stateless_execution.

(** An insert on a partial trie fails only as on the full trie, or because a
    hash node lies on (or below the end of) the path. *)
Theorem C05_insert_outcome : forall keccak P T k v,
  prunes keccak P T ->
  (exists P' T', trie_insert P k v = Ok P' /\ trie_insert T k v = Ok T' /\ prunes keccak P' T') \/
  (exists h, trie_insert P k v = Err (HashNodeInsertError h) /\ near_hash P k) \/
  (exists e, trie_insert P k v = Err e /\ trie_insert T k v = Err e) \/
  (trie_insert P k v = Panic /\ trie_insert T k v = Panic).
Proof.
  intros keccak P T k v H. pose proof (insert_sim keccak P T k v H) as I. unfold ins_rel, trie_insert in *.
  destruct (insert_rec P k v) as [P'|e|], (insert_rec T k v) as [T'|e'|]; try easy.
  - left. eauto.
  - destruct e; try easy. right. left. eauto.
  - destruct e; try (right; right; left; subst; eauto; fail). right. left. eauto.
  - destruct e; try easy. right. left. eauto.
  - right. right. right. auto.
Qed.
Print Assumptions C05_insert_outcome.

(** Lookups agree with the full trie unless a hash node lies on the path, and
    then they return nothing. *)
Theorem C05_get : forall keccak P T k, prunes keccak P T ->
  trie_get P k = trie_get T k \/ (trie_get P k = Ok None /\ meets_hash P k).
Proof. intros keccak P T k H. now apply get_sim with (keccak := keccak). Qed.
Print Assumptions C05_get.

(** A delete on a canonical partial trie returns an error only if a hash node lies
    on the path of the key or is a child of a node on that path. *)
Theorem C05_delete_error : forall P k e, canon P -> trie_delete P k Reject = Err e -> beside_hash P k.
Proof. intros P k e C. apply trie_delete_err. now apply canon_exts_ok. Qed.
Print Assumptions C05_delete_error.

(** ** C44: a root hash binds the contents *)

(** A trie value with the root hash of a full trie is either just that hash or
    the full trie with subtrees replaced by their hashes, unless Keccak collides
    on two of the strings hashed for the two tries. *)
Theorem C44_root_binds : forall keccak P T,
  (forall b, length (keccak b) = 32) -> wf_node P -> wf_node T -> no_hash T -> no_collision keccak P T ->
  hash_trie keccak P = hash_trie keccak T ->
  P = Hash (hash_trie keccak T) \/ prunes keccak P T.
Proof. intros. now apply root_binding. Qed.
Print Assumptions C44_root_binds.

(** Full tries with equal roots are equal. *)
Theorem C44_equal_roots_equal_tries : forall keccak A B,
  (forall b, length (keccak b) = 32) -> wf_node A -> wf_node B -> no_hash A -> no_hash B -> no_collision keccak A B ->
  hash_trie keccak A = hash_trie keccak B -> A = B.
Proof.
  intros keccak A B L WA WB NA NB NC E. destruct (root_binding keccak L A B WA WB NB NC E) as [->|H].
  - inversion NA.
  - eapply prunes_no_hash; eauto.
Qed.
Print Assumptions C44_equal_roots_equal_tries.

(** Verification against a root: whatever trie value [P] the prover supplies, if
    its hash is the root of the state a history [ops0] produced, the results of
    further operations on it are those of the real state. *)
Theorem C44_witness_soundness : forall keccak K ops0 ops T o0 P P' outs Tfull ofull,
  (forall b, length (keccak b) = 32) ->
  key_domain K -> Forall (fun o => K (op_key o)) (ops0 ++ ops) ->
  (forall k v, fst (spec_run empty_map ops0) k = Some v -> (N.of_nat (length v) < 2 ^ 60)%N) ->
  trie_run Reject Empty ops0 = Ok (T, o0) ->
  wf_node P -> no_collision keccak P T -> hash_trie keccak P = hash_trie keccak T ->
  trie_run Reject P ops = Ok (P', outs) -> ops <> [] ->
  trie_run Reject Empty (ops0 ++ ops) = Ok (Tfull, ofull) ->
  outs = snd (spec_run (fst (spec_run empty_map ops0)) ops) /\
  hash_trie keccak P' = hash_trie keccak Tfull.
Proof.
  intros keccak K ops0 ops T o0 P P' outs Tfull ofull L D F V E0 WP NC EH EP NE EF.
  eapply C05_stateless_execution; eauto.
  apply Forall_app in F as [F0 F].
  destruct (run_represents K Reject ops0 Empty empty_map D (represents_empty K) F0) as (T1 & E1 & R1).
  rewrite E0 in E1. injection E1 as <- ->. pose proof (represents_hash_free _ _ _ R1) as HF. destruct R1 as (C & Lk & HK).
  assert (WT : wf_node T).
  { apply canon_wf; auto. intros k x. rewrite Lk. destruct (fst (spec_run empty_map ops0) k) as [v|] eqn:Em; [|discriminate].
    intros [= <-]. split; [|eauto]. apply HK in Em. now apply D in Em as [_ ?]. }
  destruct (C44_root_binds keccak P T L WP WT (canon_no_hash _ C HF) NC EH) as [->|H]; auto.
  destruct ops as [|[k v|k] ops]; [congruence| |]; discriminate.
Qed.
Print Assumptions C44_witness_soundness.

(** ** C06: trie subsets *)

(** The subset is the trie with subtrees replaced by hashes; the root hash is
    kept. *)
Theorem C06_same_root : forall keccak T ks P, create_trie_subset keccak T ks = SOk P ->
  prunes keccak P T /\ hash_trie keccak P = hash_trie keccak T.
Proof.
  intros keccak T ks P E. unfold create_trie_subset in E. destruct (mark_all (track T) ks) as [t| |] eqn:Em; try discriminate.
  injection E as <-. assert (H : prunes keccak (extract keccak t) T).
  { apply extract_prunes. eapply mark_all_tr; [apply track_tr|eauto]. }
  split; auto. now apply prunes_root.
Qed.
Print Assumptions C06_same_root.

(** Requested keys are looked up as in the full trie, and no new hash node lies
    on their path, so they can be inserted too. *)
Theorem C06_requested_keys : forall keccak T ks P k,
  create_trie_subset keccak T ks = SOk P -> exts_nonempty T -> In k ks -> trie_get T k <> Panic ->
  trie_get P k = trie_get T k /\
  (forall p h, is_prefix p k -> sub_at P p (Hash h) -> sub_at T p (Hash h)).
Proof.
  intros keccak T ks P k E X I G. unfold create_trie_subset in E. destruct (mark_all (track T) ks) as [t| |] eqn:Em; try discriminate.
  injection E as <-. pose proof (mark_all_tr ks _ _ _ (track_tr T) Em) as H.
  pose proof (mark_all_marked ks _ _ _ (track_tr T) Em) as M.
  destruct M as [M _]. pose proof (M k I) as Mk.
  split; [eapply marked_get; eauto|]. intros p h Hp S. eapply marked_hash; eauto.
Qed.
Print Assumptions C06_requested_keys.

(** Nothing more than needed: every node of 32 bytes or more that is kept lies on
    the path of a requested key. *)
Theorem C06_minimal : forall keccak T ks P p c h,
  create_trie_subset keccak T ks = SOk P -> sub_at P p c -> encode keccak c = Hashed h -> (forall h', c <> Hash h') ->
  exists k, In k ks /\ is_prefix p k.
Proof.
  intros keccak T ks P p c h E S Ec NH. unfold create_trie_subset in E. destruct (mark_all (track T) ks) as [t| |] eqn:Em; try discriminate.
  injection E as <-. pose proof (mark_all_tr ks _ _ _ (track_tr T) Em) as H.
  pose proof (extract_kept keccak t T p c h H S Ec NH) as TA.
  destruct (mark_all_touched ks _ _ _ p (track_tr T) Em TA) as [B|B]; auto. now apply track_untouched in B.
Qed.
Print Assumptions C06_minimal.

Lemma mark_all_fail ks : forall t T, tr t T ->
  (mark_all t ks = SErr -> exists k p x r h, In k ks /\ k = p ++ x :: r /\ sub_at T p (Hash h)) /\
  (mark_all t ks = SPanic -> branches16 T -> Forall (Forall (fun x => x < 16)) ks ->
   exists k p q r ns c, In k ks /\ k = p ++ q /\ q <> [] /\ r <> [] /\ ns = q ++ r /\ sub_at T p (Ext ns c)).
Proof.
  induction ks as [|k ks IH]; intros t T H; cbn; [split; discriminate|].
  destruct (mark t k) as [t'| |] eqn:Em; cbn.
  - destruct (IH t' T (mark_tr _ _ _ _ H Em)) as [I1 I2]. split.
    + intros E. destruct (I1 E) as (k' & p & x & r & h & I & R). exists k', p, x, r, h. auto.
    + intros E W F. inversion F; subst. destruct (I2 E W) as (k' & p & q & r & ns & c & I & R); auto.
      exists k', p, q, r, ns, c. auto.
  - split; [|discriminate]. intros _. destruct (mark_err _ _ _ H Em) as (p & x & r & h & R). exists k, p, x, r, h. auto.
  - split; [discriminate|]. intros _ W F. inversion F; subst.
    destruct (mark_panic (fun b => b) t T k H W H2 Em) as (p & q & r & ns & c & R). exists k, p, q, r, ns, c. auto.
Qed.

(** An error means that a requested key runs through a hash node; a panic that a
    requested key ends inside an extension. *)
Theorem C06_failures : forall keccak T ks,
  (create_trie_subset keccak T ks = SErr ->
     exists k p x r h, In k ks /\ k = p ++ x :: r /\ sub_at T p (Hash h)) /\
  (create_trie_subset keccak T ks = SPanic -> branches16 T -> Forall (Forall (fun x => x < 16)) ks ->
     exists k p q r ns c, In k ks /\ k = p ++ q /\ q <> [] /\ r <> [] /\ ns = q ++ r /\ sub_at T p (Ext ns c)).
Proof.
  intros keccak T ks. destruct (mark_all_fail ks _ _ (track_tr T)) as [I1 I2]. unfold create_trie_subset.
  destruct (mark_all (track T) ks); cbn; split; auto; discriminate.
Qed.
Print Assumptions C06_failures.

(** On every trie the API can produce over fixed-length keys, a subset for any
    keys of that length is created, keeps the root and answers those keys. *)
Theorem C06_fixed_length_keys : forall keccak K d s T ks,
  key_domain K -> fixed_length K d -> reachable K s T -> Forall K ks ->
  exists P, create_trie_subset keccak T ks = SOk P /\ hash_trie keccak P = hash_trie keccak T /\
            forall k, In k ks -> trie_get P k = trie_get T k.
Proof.
  intros keccak K d s T ks D L R F. destruct (reachable_facts K s T D R) as (C & NH & X).
  destruct (reachable_represents K s T D R) as (m & Rm).
  destruct (mark_all (track T) ks) as [t| |] eqn:Em.
  - assert (E : create_trie_subset keccak T ks = SOk (extract keccak t)) by (unfold create_trie_subset; now rewrite Em).
    exists (extract keccak t). split; auto. split; [now apply C06_same_root with (ks := ks)|].
    intros k I. rewrite Forall_forall in F. eapply C06_requested_keys; eauto.
    rewrite (represents_get_fixed K T m k d D L Rm); auto. discriminate.
  - exfalso. destruct (mark_all_fail ks _ _ (track_tr T)) as [I1 _]. destruct (I1 Em) as (k & p & x & r & h & _ & _ & S).
    apply (look_sub T p (Hash h) [] (VHash h)) in S; [|reflexivity]. now apply (represents_hash_free _ _ _ Rm) in S.
  - exfalso. destruct (mark_all_fail ks _ _ (track_tr T)) as [_ I2]. rewrite Forall_forall in F.
    destruct I2 as (k & p & q & r & ns & c & I & -> & Q & Nr & -> & S); auto.
    + intros p ch v S. apply (canon_sub _ _ _ C) in S. now apply canon_branch_inv in S as (_ & S & _).
    + apply Forall_forall. intros k Hk. now apply F, D in Hk as [? _].
    + pose proof (canon_sub _ _ _ C S) as Cx. destruct (canon_nonempty _ Cx) as (k' & x & E'); [discriminate|].
      pose proof (look_sub _ _ _ _ _ S E') as E. apply look_ext_some in E' as (k2 & -> & _).
      destruct Rm as (_ & Lk & HK). rewrite Lk in E. destruct (m (p ++ (q ++ r) ++ k2)) as [v|] eqn:Em'; [|discriminate].
      apply HK, L in Em'. apply F, L in I. rewrite !app_length in *. destruct r; [congruence|]. cbn in Em'. lia.
Qed.
Print Assumptions C06_fixed_length_keys.

(** ** C07: several subsets at once *)

(** [create_trie_subsets] returns, or fails with, what one [create_trie_subset]
    call per key list would, if every list has a non-empty key. *)
Fixpoint one_by_one (keccak : list N -> list N) (T : node) (kss : list (list nibbles)) : sub_res (list node) :=
  match kss with
  | [] => SOk []
  | ks :: r =>
      sbind (create_trie_subset keccak T ks) (fun P => sbind (one_by_one keccak T r) (fun l => SOk (P :: l)))
  end.

Theorem C07_independent : forall keccak T kss,
  Forall (fun ks => exists k, In k ks /\ k <> []) kss ->
  create_trie_subsets keccak T kss = one_by_one keccak T kss.
Proof.
  intros keccak T kss F. unfold create_trie_subsets. rewrite (subsets_loop_each keccak kss (track T) T (track_tr T)); auto.
  - clear F. induction kss as [|ks kss IH]; cbn; [reflexivity|]. now rewrite IH.
  - now left.
Qed.
Print Assumptions C07_independent.

(** ** C08: cached hashes *)

(** If no trie's root hash has been cached by building a subset without any
    non-empty key, [hash()] is always the hash of the current contents,
    whatever is cloned, inserted, deleted or fails. *)
Theorem C08_no_root_interning : forall keccak calls s i,
  run keccak rootless initial calls s -> observed_hash keccak s i = true_hash keccak s i.
Proof. intros keccak calls s i R. eapply invA_hash, runA; eauto using initial_A. Qed.
Print Assumptions C08_no_root_interning.

(** If tries are only changed while no clone of them is alive and no [extend]
    fails half-way, [hash()] is always right, whatever subsets are built. *)
Theorem C08_exclusive : forall keccak calls s i,
  run keccak exclusive initial calls s -> observed_hash keccak s i = true_hash keccak s i.
Proof. intros keccak calls s i R. eapply invB_hash, runB; eauto using initial_B. Qed.
Print Assumptions C08_exclusive.

(** ** Concrete cases *)

(** A 32-byte stand-in for Keccak. *)
Definition toy (b : list N) : list N :=
  be_bytes 32 (fold_left (fun a x => (a * 257 + x + 1) mod 2147483647) b 7)%N.

Lemma toy_length b : length (toy b) = 32.
Proof. unfold toy. now rewrite HexPrefixProofs.be_bytes_length. Qed.

Definition val40 (x : N) : list N := repeat x 40.
Definition K4' (k : nibbles) : Prop := Forall (fun n => n < 16) k /\ length k = 4 /\ 4 <= 64.
Definition ops0 : list op :=
  [OpInsert [1;2;3;4] (val40 1); OpInsert [1;2;3;5] (val40 2); OpInsert [1;2;7;0] (val40 3); OpInsert [9;0;0;0] (val40 4)].
Definition ops1 : list op := [OpInsert [1;2;3;4] (val40 9); OpInsert [9;0;0;1] (val40 8); OpDelete [1;2;3;4]].
Definition full0 : node := match trie_run Reject Empty ops0 with Ok (t, _) => t | _ => Empty end.
Definition keys0 : list nibbles := [[1;2;3;4]; [9;0;0;1]; [1;2;3;5]].
Definition part0 : node := match create_trie_subset toy full0 keys0 with SOk p => p | _ => Empty end.

(** The subset hashes a subtree away, and the operations succeed on it. *)
Example ex_subset : create_trie_subset toy full0 keys0 = SOk part0 /\ part0 <> full0 /\
  (exists p h, sub_at part0 p (Hash h)) /\
  (exists P' outs, trie_run Reject part0 ops1 = Ok (P', outs)) /\
  Forall (fun o => K4' (op_key o)) (ops0 ++ ops1) /\ key_domain K4' /\ Forall K4' keys0.
Proof.
  split; [vm_compute; reflexivity|]. split; [vm_compute; discriminate|]. split.
  { exists [1;2;7]. eexists. let v := eval vm_compute in part0 in change part0 with v.
    eapply (sub_branch _ _ 1 _ [2;7]); [reflexivity|].
    apply (sub_ext [2] _ [7]). eapply (sub_branch _ _ 7 _ []); [reflexivity|]. constructor. }
  split; [do 2 eexists; vm_compute; reflexivity|]. split; [repeat constructor; cbn; lia|].
  split; [apply (fixed_domain 4)|repeat constructor; cbn; lia].
Qed.

Fixpoint wf_check (n : node) : bool :=
  match n with
  | Empty => true
  | Hash h => length h =? 32
  | Leaf ns v => forallb (fun x => x <? 16) ns && (length ns <=? 64) && (N.of_nat (length v) <? 2 ^ 60)%N
  | Ext ns c => forallb (fun x => x <? 16) ns && (length ns <=? 64) && wf_check c
  | Branch ch v => (length ch =? 16) && forallb wf_check ch && (N.of_nat (length v) <? 2 ^ 60)%N
  end.

Lemma wf_check_ok n : wf_check n = true -> wf_node n.
Proof.
  assert (V : forall ns, forallb (fun x => x <? 16) ns && (length ns <=? 64) = true -> valid_key ns).
  { intros ns H. apply andb_prop in H as [A B]. apply Nat.leb_le in B. split; auto.
    rewrite forallb_forall in A. apply Forall_forall. intros x Hx. apply Nat.ltb_lt. auto. }
  induction n as [|h|ch v IH|ns c IH|ns v] using node_ind'; cbn [wf_check]; intros H.
  - constructor.
  - constructor. now apply Nat.eqb_eq.
  - apply andb_prop in H as [H Hv]. apply andb_prop in H as [Hl Hc]. constructor; [now apply Nat.eqb_eq| |now apply N.ltb_lt].
    rewrite forallb_forall in Hc. apply Forall_forall. intros c Hi. apply In_nth_error in Hi as (i & Hi).
    apply (IH i c Hi). apply Hc. eapply nth_error_In; eauto.
  - apply andb_prop in H as [H Hc]. constructor; auto.
  - apply andb_prop in H as [H Hc]. constructor; auto. now apply N.ltb_lt.
Qed.

Definition collide_check (a b : node) : bool :=
  let la := map (fun x => (x, toy x)) (rlp_strings toy a) in
  let lb := map (fun x => (x, toy x)) (rlp_strings toy b) in
  forallb (fun x => forallb (fun y =>
    if list_eq_dec N.eq_dec (snd x) (snd y) then if list_eq_dec N.eq_dec (fst x) (fst y) then true else false else true) lb) la.
Lemma collide_check_ok a b : collide_check a b = true -> no_collision toy a b.
Proof.
  unfold collide_check. intros H x y Hx Hy E. rewrite forallb_forall in H.
  specialize (H (x, toy x) (in_map (fun x => (x, toy x)) _ _ Hx)). rewrite forallb_forall in H.
  specialize (H (y, toy y) (in_map (fun x => (x, toy x)) _ _ Hy)). cbn [fst snd] in H.
  destruct (list_eq_dec N.eq_dec (toy x) (toy y)) as [_|Ne]; [|contradiction].
  destruct (list_eq_dec N.eq_dec x y) as [Exy|_]; [exact Exy|discriminate H].
Qed.

(** The hypotheses of the binding theorems hold of the partial trie above. *)
Example ex_binding : wf_node part0 /\ wf_node full0 /\ no_collision toy part0 full0 /\ hash_trie toy part0 = hash_trie toy full0.
Proof.
  split; [apply wf_check_ok; vm_compute; reflexivity|]. split; [apply wf_check_ok; vm_compute; reflexivity|].
  split; [apply collide_check_ok; vm_compute; reflexivity|vm_compute; reflexivity].
Qed.

(** A delete that runs into a hash sibling is rejected. *)
Example ex_delete_error : exists P e, create_trie_subset toy full0 [[1;2;7;0]] = SOk P /\
  trie_delete P [1;2;7;0] Reject = Err e.
Proof. do 2 eexists. split; [vm_compute; reflexivity|vm_compute; reflexivity]. Qed.

(** Two key lists in one call. *)
Example ex_subsets : exists a b, create_trie_subsets toy full0 [[[1;2;3;4]]; [[9;0;0;0]]] = SOk [a; b] /\ a <> b.
Proof. do 2 eexists. split; [vm_compute; reflexivity|vm_compute; discriminate]. Qed.

(** ** Where the properties fail *)

(** Deleting with the [CollapseToExtension] strategy on a partial trie does not
    give the root of the full trie after the deletion. *)
Theorem C05_collapse_to_extension_refuted : exists P T k P' T' o,
  prunes toy P T /\ trie_delete P k CollapseToExtension = Ok (P', o) /\
  trie_delete T k CollapseToExtension = Ok (T', o) /\ hash_trie toy P' <> hash_trie toy T'.
Proof.
  set (ch := fun a => set_child (set_child new_branch_child_arr 1 (Leaf [2] (val40 1))) 3 a).
  set (l := Leaf [4] (val40 2)).
  exists (Branch (ch (Hash (toy (node_rlp toy l)))) []), (Branch (ch l) []), [1;2]. do 3 eexists.
  split; [|split; [vm_compute; reflexivity|split; [vm_compute; reflexivity|vm_compute; discriminate]]].
  constructor. unfold ch. cbn [new_branch_child_arr repeat set_child]. unfold l.
  repeat (constructor; [solve [constructor|constructor; vm_compute; reflexivity]|]). constructor.
Qed.
Print Assumptions C05_collapse_to_extension_refuted.

(** With [Reject], a delete that meets a hash sibling can panic instead of
    returning its error: building the error joins the remaining key (up to 63
    nibbles) and the extension (here 2), more than 64 nibbles. *)
Theorem C05_reject_panics_refuted : exists P k T',
  valid_key k /\ length k = 64 /\ trie_delete P k Reject = Panic /\
  (exists T, prunes toy P T /\ no_hash T /\ trie_delete T k Reject = Ok (T', Some (val40 1))).
Proof.
  set (x := fun a => Branch (set_child (set_child new_branch_child_arr 0
     (Ext [5] (Branch (set_child (set_child new_branch_child_arr 1 (Leaf (repeat 0 61) (val40 1))) 3 a) []))) 1 (Leaf [] (val40 3))) []).
  set (l := Leaf (repeat 0 61) (val40 2)).
  exists (x (Hash (toy (node_rlp toy l)))), (0 :: 5 :: 1 :: repeat 0 61). eexists.
  split; [split; [repeat constructor; lia|cbn; lia]|]. split; [reflexivity|]. split; [vm_compute; reflexivity|].
  exists (x l). split; [|split].
  - unfold x, l. cbn [new_branch_child_arr repeat set_child]. constructor. constructor.
    2:{ repeat (constructor; [solve [constructor]|]). constructor. }
    constructor. constructor. repeat (constructor; [solve [constructor|constructor; vm_compute; reflexivity]|]). constructor.
  - unfold x, l. cbn [new_branch_child_arr repeat set_child]. constructor. constructor.
    2:{ repeat (constructor; [solve [constructor]|]). constructor. }
    constructor. constructor. repeat (constructor; [solve [constructor]|]). constructor.
  - vm_compute. reflexivity.
Qed.
Print Assumptions C05_reject_panics_refuted.

(** Requesting a key that ends inside an extension panics. *)
Theorem C06_short_key_panics_refuted : exists T outs,
  trie_run Reject Empty [OpInsert [1;2;3;4] (val40 1); OpInsert [1;2;3;5] (val40 2)] = Ok (T, outs) /\
  create_trie_subset toy T [[1;2]] = SPanic.
Proof. do 2 eexists. split; [vm_compute; reflexivity|vm_compute; reflexivity]. Qed.
Print Assumptions C06_short_key_panics_refuted.

(** The mark on the root survives from one key list to the next: an empty second
    list gets the unhashed root. *)
Theorem C07_empty_list_refuted : exists a b c,
  create_trie_subsets toy full0 [[[1;2;3;4]]; []] = SOk [a; b] /\
  one_by_one toy full0 [[[1;2;3;4]]; []] = SOk [a; c] /\ b <> c.
Proof. do 3 eexists. split; [vm_compute; reflexivity|]. split; [vm_compute; reflexivity|vm_compute; discriminate]. Qed.
Print Assumptions C07_empty_list_refuted.

Definition any (_ : state) (_ : call) : Prop := True.

Lemma derived_leaf s old ns v nx : next s <= nx -> derived s old (CacheModel.CLeaf ns v) nx.
Proof. intros H. split; auto. split; [intros p []|intros p q []]. Qed.

Ltac go_insert a b := eapply run_cons; [exact I|eapply (st_insert toy) with (n' := CacheModel.CLeaf a b); [reflexivity|vm_compute; reflexivity|reflexivity|apply derived_leaf; apply Nat.le_refl]|].
Ltac go_subset h := eapply run_cons; [exact I|eapply (st_subset toy) with (n' := CacheModel.CHash h) (l := []); [reflexivity|vm_compute; reflexivity|intros ? []|vm_compute; reflexivity|split; [apply Nat.le_refl|split; [intros p []|intros p q []]]]|].

Definition leaf_hash : list N := hash_trie toy (Leaf [1;2] (val40 1)).

(** A stale hash through a shared cell: clone a trie whose hash is cached, change
    the clone, build another subset of the original, ask the clone for its hash. *)
Theorem C08_clone_stale_refuted : exists s,
  run toy any initial
    [New; Insert 0 [1;2] (Val (val40 1)); Clone 0; Insert 1 [1;2] (Val (val40 2)); Subset 0 []] s /\
  observed_hash toy s 1 <> true_hash toy s 1 /\ observed_hash toy s 1 = true_hash toy s 0.
Proof.
  eexists. split.
  - eapply run_cons; [exact I|apply st_new|]. go_insert [1;2] (val40 1).
    eapply run_cons; [exact I|eapply st_clone; reflexivity|]. go_insert [1;2] (val40 2).
    let h := eval vm_compute in leaf_hash in go_subset h. apply run_nil.
  - split; [vm_compute; discriminate|vm_compute; reflexivity].
Qed.
Print Assumptions C08_clone_stale_refuted.

(** A stale hash after a failing [extend]: the inserts before the failing one are
    kept but the cached hash is not reset. *)
Theorem C08_failed_extend_stale_refuted : exists s,
  run toy any initial
    [New; Insert 0 [1;2] (Val (val40 1)); Subset 0 [];
     Extend 0 [([1;2], Val (val40 2)); ([1;2], VHash (repeat 0%N 32))]] s /\
  observed_hash toy s 0 <> true_hash toy s 0.
Proof.
  eexists. split.
  - eapply run_cons; [exact I|apply st_new|]. go_insert [1;2] (val40 1).
    let h := eval vm_compute in leaf_hash in go_subset h.
    eapply run_cons; [exact I|eapply (st_extend_err toy) with (n' := CacheModel.CLeaf [1;2] (val40 2));
      [reflexivity|vm_compute; reflexivity|reflexivity|apply derived_leaf; apply Nat.le_refl]|]. apply run_nil.
  - vm_compute. discriminate.
Qed.
Print Assumptions C08_failed_extend_stale_refuted.

(** Runs meeting the two side conditions, with clones, a subset and a cached root. *)
Example ex_rootless : exists s, run toy rootless initial
  [New; Insert 0 [1;2] (Val (val40 1)); Clone 0; Insert 1 [1;2] (Val (val40 2)); GetHash 0; Subset 0 [[1;2]]] s.
Proof.
  eexists. eapply run_cons; [exact I|apply st_new|]. go_insert [1;2] (val40 1).
  eapply run_cons; [exact I|eapply st_clone; reflexivity|]. go_insert [1;2] (val40 2).
  eapply run_cons; [exact I|eapply st_hash; reflexivity|].
  eapply run_cons; [exists [1;2]; split; [now left|discriminate]|
    eapply (st_subset toy) with (n' := CacheModel.CLeaf [1;2] (val40 1)) (l := []);
      [reflexivity|vm_compute; reflexivity|intros ? []|vm_compute; reflexivity|apply derived_leaf; apply Nat.le_refl]|].
  apply run_nil.
Qed.

Example ex_exclusive : exists s, run toy exclusive initial
  [New; Insert 0 [1;2] (Val (val40 1)); Subset 0 []; Insert 0 [1;2] (Val (val40 2)); Clone 0; GetHash 2] s.
Proof.
  assert (U : forall (s : state), (exists p q, handles s = [p; q] /\ fst p <> fst q) \/ (exists p, handles s = [p]) -> unshared s 0).
  { intros s [(p & q & E & Ne)|(p & E)] j a b Ha Hb Eq; rewrite E in *; cbn in Ha; injection Ha as <-;
      destruct j as [|[|j]]; cbn in Hb; auto; try (injection Hb as <-; congruence); try discriminate; destruct j; discriminate. }
  eexists. eapply run_cons; [exact I|apply st_new|].
  eapply run_cons; [apply U; right; eexists; reflexivity|eapply (st_insert toy) with (n' := CacheModel.CLeaf [1;2] (val40 1)); [reflexivity|vm_compute; reflexivity|reflexivity|apply derived_leaf; apply Nat.le_refl]|].
  let h := eval vm_compute in leaf_hash in go_subset h.
  eapply run_cons; [apply U; left; do 2 eexists; split; [reflexivity|discriminate]|eapply (st_insert toy) with (n' := CacheModel.CLeaf [1;2] (val40 2)); [reflexivity|vm_compute; reflexivity|reflexivity|apply derived_leaf; apply Nat.le_refl]|].
  eapply run_cons; [exact I|eapply st_clone; reflexivity|].
  eapply run_cons; [exact I|eapply st_hash; reflexivity|]. apply run_nil.
Qed.
