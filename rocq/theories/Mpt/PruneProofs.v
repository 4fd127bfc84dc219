(** Operations on a pruned trie simulate those on the full trie. *)

From Coq Require Import List Arith NArith Bool Lia.
From Verif.Mpt Require Import TrieModel TrieSpec TrieFacts TrieOpsProofs HashModel PruneSpec.
Import ListNotations.
Local Open Scope nat_scope.

Section Prune.
Variable keccak : list N -> list N.
Local Notation prunes := (prunes keccak).
Local Notation encode := (encode keccak).

Lemma prunes_hash_inv h T : prunes (Hash h) T -> encode T = Hashed h.
Proof. inversion 1; auto. Qed.
Lemma prunes_empty_inv T : prunes Empty T -> T = Empty.
Proof. inversion 1; auto. Qed.
Lemma prunes_leaf_inv ns v T : prunes (Leaf ns v) T -> T = Leaf ns v.
Proof. inversion 1; auto. Qed.
Lemma prunes_ext_inv ns c T : prunes (Ext ns c) T -> exists c', T = Ext ns c' /\ prunes c c'.
Proof. inversion 1; eauto. Qed.
Lemma prunes_branch_inv ch v T : prunes (Branch ch v) T -> exists ch', T = Branch ch' v /\ Forall2 prunes ch ch'.
Proof. inversion 1; eauto. Qed.
Lemma prunes_into_empty P : prunes P Empty -> P = Empty.
Proof. inversion 1 as [? ? E| | | |]; auto; discriminate E. Qed.

Lemma Forall2_nth {A B} (R : A -> B -> Prop) l : forall m i a, Forall2 R l m -> nth_error l i = Some a ->
  exists b, nth_error m i = Some b /\ R a b.
Proof.
  induction l as [|x l IH]; intros m i a F E; destruct i; cbn in E; try discriminate; inversion F; subst.
  - injection E as <-. cbn. eauto.
  - cbn. eauto.
Qed.
Lemma Forall2_nth_none {A B} (R : A -> B -> Prop) l : forall m i, Forall2 R l m -> nth_error l i = None -> nth_error m i = None.
Proof.
  induction l as [|x l IH]; intros m i F E; destruct i; inversion F; subst; cbn in *; auto; try discriminate; eauto.
Qed.
Lemma Forall2_set_child l : forall m i a b, Forall2 prunes l m -> prunes a b ->
  Forall2 prunes (set_child l i a) (set_child m i b).
Proof.
  induction l as [|x l IH]; intros m i a b F H; inversion F; subst; cbn; [constructor|].
  destruct i; constructor; auto.
Qed.

Lemma prunes_refl T : no_hash T -> prunes T T.
Proof.
  induction T as [|h|ch v IH|ns c IH|ns v] using node_ind'; intros H; inversion H; subst; try constructor; auto.
  assert (G : forall l, (forall i c, nth_error l i = Some c -> no_hash c -> prunes c c) -> Forall no_hash l -> Forall2 prunes l l).
  { clear. induction l as [|x l IHl]; intros H F; constructor; inversion F; subst.
    - now apply (H 0).
    - apply IHl; auto. intros i. exact (H (S i)). }
  apply G; auto.
Qed.

Lemma prunes_encode P : forall T, prunes P T -> encode P = encode T.
Proof.
  induction P as [|h|ch v IH|ns c IH|ns v] using node_ind'; intros T H.
  - now apply prunes_empty_inv in H as ->.
  - apply prunes_hash_inv in H. now rewrite H.
  - apply prunes_branch_inv in H as (ch' & -> & F). cbn [HashModel.encode]. do 3 f_equal.
    revert ch' F. induction ch as [|x ch IHc]; intros ch' F; inversion F; subst; cbn [flat_map]; auto.
    rewrite (IH 0 x eq_refl _ H1). f_equal. apply IHc; auto. intros i c Hc. exact (IH (S i) c Hc).
  - apply prunes_ext_inv in H as (c' & -> & H). cbn [HashModel.encode]. now rewrite (IH _ H).
  - now apply prunes_leaf_inv in H as ->.
Qed.

Lemma prunes_root P T : prunes P T -> hash_trie keccak P = hash_trie keccak T.
Proof. intros H. unfold hash_trie. now rewrite (prunes_encode _ _ H). Qed.

Lemma prunes_trans A : forall B C, prunes A B -> prunes B C -> prunes A C.
Proof.
  induction A as [|h|ch v IH|ns c IH|ns v] using node_ind'; intros B C H G.
  - apply prunes_empty_inv in H as ->. apply prunes_empty_inv in G as ->. constructor.
  - apply prunes_hash_inv in H. constructor. now rewrite <- (prunes_encode _ _ G).
  - apply prunes_branch_inv in H as (ch' & -> & F). apply prunes_branch_inv in G as (ch'' & -> & G). constructor.
    revert ch' ch'' F G. induction ch as [|x ch IHc]; intros ch' ch'' F G; inversion F; subst; inversion G; subst; constructor.
    + eapply (IH 0 x eq_refl); eauto.
    + eapply IHc; eauto. intros i c Hc. exact (IH (S i) c Hc).
  - apply prunes_ext_inv in H as (c' & -> & H). apply prunes_ext_inv in G as (c'' & -> & G). constructor. eauto.
  - apply prunes_leaf_inv in H as ->. apply prunes_leaf_inv in G as ->. constructor.
Qed.

(** ** Insert *)

Definition ins_rel (P : node) (k : nibbles) (a b : res node) : Prop :=
  match a, b with
  | Ok P', Ok T' => prunes P' T'
  | Err (HashNodeInsertError h), _ => near_hash P k
  | Err e, Err e' => e = e'
  | Panic, Panic => True
  | _, _ => False
  end.

Lemma create_prunes_self k v : prunes (create_node_from_insert_val k v) (create_node_from_insert_val k v).
Proof.
  destruct v; cbn; [constructor|]. destruct k; [|constructor]; now constructor.
Qed.

Lemma empties_self : Forall2 prunes new_branch_child_arr new_branch_child_arr.
Proof. unfold new_branch_child_arr. cbn. repeat constructor. Qed.

Lemma place_prunes Q info k v p t : prunes p t -> ((exists ns x, p = Leaf ns x) \/ existing_postfix info <> []) ->
  ins_rel Q k (place_branch info p k v) (place_branch info t k v).
Proof.
  intros H HC. unfold place_branch. cbv zeta.
  assert (W : forall q a b x, Forall2 prunes a b ->
    prunes (match q with [] => Branch a x | n1 :: l1 => Ext (n1 :: l1) (Branch a x) end) (match q with [] => Branch b x | n1 :: l1 => Ext (n1 :: l1) (Branch b x) end)).
  { intros q a b x F. destruct q; repeat constructor; auto. }
  pose proof empties_self as E. pose proof (create_prunes_self (skipn (length (common_prefix info) + 1) k) v) as C.
  destruct HC as [(ns & x & ->)|HN].
  - apply prunes_leaf_inv in H as ->.
    assert (L : prunes (Leaf ns x) (Leaf ns x)) by constructor.
    destruct (existing_postfix info), (new_postfix info); cbn [ins_rel]; auto.
    + apply (W (common_prefix info)). now apply Forall2_set_child.
    + destruct v; cbn [ins_rel]; auto. apply (W (common_prefix info)). now apply Forall2_set_child.
    + apply (W (common_prefix info)). apply Forall2_set_child; auto. now apply Forall2_set_child.
  - destruct (existing_postfix info); [congruence|].
    assert (G : forall (A : Type) (r : A) t', match t' with Leaf _ _ => r | _ => r end = r) by (now intros ? ? []).
    destruct (new_postfix info); cbn [ins_rel].
    + destruct v; cbn [ins_rel]; auto. apply (W (common_prefix info)). now apply Forall2_set_child.
    + apply (W (common_prefix info)). apply Forall2_set_child; auto. now apply Forall2_set_child.
Qed.

Lemma near_hash_branch ch v i c k : nth_error ch i = Some c -> near_hash c k -> near_hash (Branch ch v) (i :: k).
Proof.
  intros E (p & h & HP & HS). exists (i :: p), h. split; [|econstructor; eauto].
  destruct HP as [(r & ->)|(r & ->)]; [left|right]; now exists r.
Qed.

Lemma identical_cases a : forall b, identical_up_to_smallest a b = true ->
  (exists r, b = a ++ r) \/ (exists r, a = b ++ r).
Proof.
  induction a as [|x a IH]; intros b H; [left; now exists b|].
  destruct b as [|y b]; [right; now exists (x :: a)|]. cbn in H. apply andb_prop in H as [H1 H2].
  apply Nat.eqb_eq in H1 as ->. destruct (IH _ H2) as [(r & ->)|(r & ->)]; [left|right]; now exists r.
Qed.

Lemma near_hash_ext ns c k : identical_up_to_smallest ns k = true -> near_hash c (truncate_front (length ns) k) ->
  near_hash (Ext ns c) k.
Proof.
  intros HI (p & h & HP & HS). exists (ns ++ p), h. split; [|now constructor]. unfold truncate_front in HP.
  destruct (identical_cases _ _ HI) as [(r & ->)|(r & E)].
  - rewrite skipn_app_exact in HP. destruct HP as [(q & ->)|(q & ->)].
    + left. exists q. now rewrite app_assoc.
    + right. exists q. now rewrite app_assoc.
  - right. exists (r ++ p). now rewrite E, app_assoc.
Qed.

Lemma ext_existing_postfix ns k : identical_up_to_smallest ns k = false ->
  existing_postfix (get_pre_and_postfixes ns k) <> [].
Proof.
  intros H. apply identical_diverge, diverge_split in H as (p & x & y & a & b & -> & -> & Hxy).
  cbn. rewrite diff_idx_app by auto. rewrite skipn_app_exact. discriminate.
Qed.

Lemma insert_sim P : forall T k v, prunes P T -> ins_rel P k (insert_rec P k v) (insert_rec T k v).
Proof.
  induction P as [|h|ch v IH|ns c IH|ns v] using node_ind'; intros T k w H.
  - apply prunes_empty_inv in H as ->. cbn. apply create_prunes_self.
  - cbn. exists [], h. split; [left; now exists k|constructor].
  - apply prunes_branch_inv in H as (ch' & -> & F). destruct k as [|i k].
    + cbn. destruct w; cbn; auto. now constructor.
    + rewrite !insert_branch. destruct (nth_error ch i) as [c|] eqn:E.
      * destruct (Forall2_nth _ _ _ _ _ F E) as (c' & E' & Hc). rewrite E'.
        specialize (IH i c E c' k w Hc). destruct (insert_rec c k w) as [a|e|], (insert_rec c' k w) as [b|e'|]; cbn in *; auto.
        -- constructor. now apply Forall2_set_child.
        -- destruct e; auto. eapply near_hash_branch; eauto.
        -- destruct e; auto. eapply near_hash_branch; eauto.
        -- destruct e; auto. eapply near_hash_branch; eauto.
      * rewrite (Forall2_nth_none _ _ _ _ F E). cbn. auto.
  - apply prunes_ext_inv in H as (c' & -> & H). cbn [insert_rec].
    destruct (identical_up_to_smallest ns k) eqn:EI.
    + specialize (IH c' (truncate_front (length ns) k) w H).
      destruct (insert_rec c _ w) as [a|e|], (insert_rec c' _ w) as [b|e'|]; cbn in *; auto.
      * now constructor.
      * destruct e; auto. eapply near_hash_ext; eauto.
      * destruct e; auto. eapply near_hash_ext; eauto.
      * destruct e; auto. eapply near_hash_ext; eauto.
    + pose proof (ext_existing_postfix _ _ EI) as HN. apply place_prunes; auto.
      destruct (truncate_front 1 _); auto. now constructor.
  - apply prunes_leaf_inv in H as ->. cbn [insert_rec]. destruct (nibbles_eqb ns k).
    + destruct w; cbn; auto. constructor.
    + apply place_prunes; [constructor|eauto].
Qed.

(** ** Get *)

Lemma get_sim P : forall T k, prunes P T ->
  trie_get P k = trie_get T k \/ (trie_get P k = Ok None /\ meets_hash P k).
Proof.
  induction P as [|h|ch v IH|ns c IH|ns v] using node_ind'; intros T k H.
  - apply prunes_empty_inv in H as ->. now left.
  - right. split; auto. exists [], h. split; [now exists k|constructor].
  - apply prunes_branch_inv in H as (ch' & -> & F). destruct k as [|i k]; [now left|].
    rewrite !trie_get_branch. destruct (nth_error ch i) as [c|] eqn:E.
    + destruct (Forall2_nth _ _ _ _ _ F E) as (c' & -> & Hc). destruct (IH i c E c' k Hc) as [G|[G (p & h & (r & ->) & S)]]; auto.
      right. split; auto. exists (i :: p), h. split; [now exists r|econstructor; eauto].
    + rewrite (Forall2_nth_none _ _ _ _ F E). now left.
  - apply prunes_ext_inv in H as (c' & -> & H). cbn [trie_get].
    destruct (Nat.ltb_spec (length k) (length ns)); [now left|].
    destruct (identical_up_to_smallest (firstn (length ns) k) ns) eqn:EI; [|now left].
    destruct (IH c' (skipn (length ns) k) H) as [G|[G (p & h & (r & E) & S)]]; auto.
    right. split; auto. exists (ns ++ p), h. split; [|now constructor]. exists r.
    rewrite <- app_assoc, <- E.
    assert (EF : firstn (length ns) k = ns).
    { destruct (identical_cases _ _ EI) as [(q & Q)|(q & Q)]; apply (f_equal (@length nat)) in Q as L;
        rewrite app_length, firstn_length in L; assert (q = []) by (destruct q; auto; cbn in L; lia);
        subst q; rewrite app_nil_r in Q; auto. }
    rewrite <- (firstn_skipn (length ns) k) at 1. now rewrite EF.
  - apply prunes_leaf_inv in H as ->. now left.
Qed.

(** ** Delete, strategy Reject *)

Lemma node_is_empty_prunes p t : prunes p t -> node_is_empty p = node_is_empty t.
Proof. intros H. destruct H as [h T E| | | |]; auto. destruct T; auto. discriminate E. Qed.

Lemma count_prunes ch : forall ch', Forall2 prunes ch ch' -> get_num_non_empty_children ch = get_num_non_empty_children ch'.
Proof.
  unfold get_num_non_empty_children. induction ch as [|x ch IH]; intros ch' F; inversion F; subst; auto. cbn.
  rewrite (node_is_empty_prunes _ _ H1). destruct (node_is_empty y); cbn; auto.
Qed.

Lemma other_prunes ch : forall ch' b our, Forall2 prunes ch ch' ->
  match get_other_non_empty_child b ch our, get_other_non_empty_child b ch' our with
  | Some (i, c), Some (j, d) => i = j /\ prunes c d
  | None, None => True
  | _, _ => False
  end.
Proof.
  induction ch as [|x ch IH]; intros ch' b our F; inversion F; subst; cbn; auto.
  rewrite (node_is_empty_prunes _ _ H1). destruct (negb (b =? our) && negb (node_is_empty y)); auto. now apply IH.
Qed.

Lemma collapse_sim ns p t key r : prunes p t -> collapse_ext ns p key Reject = Ok r ->
  exists r', collapse_ext ns t key Reject = Ok r' /\ prunes r r'.
Proof.
  intros H E. destruct p as [|h|ch v|ms c|ms v]; cbn in E; try discriminate.
  - destruct (merge_nibbles key ns); discriminate.
  - apply prunes_branch_inv in H as (ch' & -> & F). injection E as <-. cbn. eexists. split; eauto. constructor. now constructor.
  - apply prunes_ext_inv in H as (c' & -> & F). cbn. destruct (merge_nibbles ns ms); try discriminate. injection E as <-.
    cbn. eexists. split; eauto. now constructor.
  - apply prunes_leaf_inv in H as ->. cbn. rewrite E. eexists. split; eauto.
    destruct (merge_nibbles ns ms); try discriminate. injection E as <-. constructor.
Qed.

Lemma try_collapse_sim p t key r : prunes p t -> try_collapse_if_extension p key Reject = Ok r ->
  (exists r', try_collapse_if_extension t key Reject = Ok r' /\ prunes r r') \/
  (exists h, p = Hash h).
Proof.
  intros H E. destruct p as [|h|ch v|ms c|ms v]; cbn in E.
  - apply prunes_empty_inv in H as ->. injection E as <-. left. eexists. split; [reflexivity|constructor].
  - eauto.
  - apply prunes_branch_inv in H as (ch' & -> & F). injection E as <-. left. eexists. split; [reflexivity|now constructor].
  - apply prunes_ext_inv in H as (c' & -> & F). left. cbn. eapply collapse_sim; eauto.
  - apply prunes_leaf_inv in H as ->. injection E as <-. left. eexists. split; [reflexivity|constructor].
Qed.

Definition del_rel (a b : option (node * bytes)) : Prop :=
  match a, b with
  | None, None => True
  | Some (p, v), Some (t, w) => v = w /\ prunes p t /\ (forall h, p <> Hash h)
  | _, _ => False
  end.

Lemma collapse_not_hash ns c key s h : collapse_ext ns c key s <> Ok (Hash h).
Proof.
  destruct c; cbn; try discriminate.
  - destruct s; try discriminate. destruct (merge_nibbles key ns); discriminate.
  - destruct (merge_nibbles ns ns0); discriminate.
  - destruct (merge_nibbles ns ns0); discriminate.
Qed.

Lemma delete_sim P : forall T k r, prunes P T -> delete_intern P k Reject = Ok r ->
  exists r', delete_intern T k Reject = Ok r' /\ del_rel r r'.
Proof.
  induction P as [|h|ch v IH|ns c IH|ns v] using node_ind'; intros T k r H E.
  - apply prunes_empty_inv in H as ->. cbn in *. injection E as <-. exists None. now split.
  - discriminate E.
  - apply prunes_branch_inv in H as (ch' & -> & F). destruct k as [|i k].
    + cbn in *. injection E as <-. eexists. split; [reflexivity|]. split; auto. split; [now constructor|discriminate].
    + rewrite delete_branch in *. destruct (nth_error ch i) as [c|] eqn:Ec; [|discriminate].
      destruct (Forall2_nth _ _ _ _ _ F Ec) as (c' & -> & Hc).
      destruct (delete_intern c k Reject) as [q|e|] eqn:Ed; try discriminate. cbn [bind] in E.
      destruct (IH i c Ec c' k q Hc Ed) as (q' & -> & R). cbn [bind].
      destruct q as [[u d]|], q' as [[u' d']|]; cbn in R; try easy.
      * destruct R as (<- & Hu & NH). rewrite <- (node_is_empty_prunes _ _ Hu), <- (count_prunes _ _ F).
        destruct (node_is_empty u && _).
        -- pose proof (other_prunes ch ch' 0 i F) as G. destruct (get_other_non_empty_child 0 ch i) as [[j o]|]; try discriminate.
           destruct (get_other_non_empty_child 0 ch' i) as [[j' o']|]; try easy. destruct G as [<- Ho].
           injection E as <-. eexists. split; [reflexivity|]. split; auto. split; [now constructor|discriminate].
        -- destruct (try_collapse_if_extension u k Reject) as [w|e|] eqn:Et; try discriminate. injection E as <-.
           destruct (try_collapse_sim _ _ _ _ Hu Et) as [(w' & -> & Hw)|(h & ->)]; [|now destruct (NH h)].
           eexists. split; [reflexivity|]. split; auto. split; [|discriminate]. constructor. now apply Forall2_set_child.
      * injection E as <-. exists None. now split.
  - apply prunes_ext_inv in H as (c' & -> & H). cbn [delete_intern] in *.
    destruct (identical_up_to_smallest ns k); [|injection E as <-; exists None; now split].
    destruct (delete_intern c _ Reject) as [q|e|] eqn:Ed; try discriminate. cbn [bind] in E.
    destruct (IH c' _ q H Ed) as (q' & -> & R). cbn [bind].
    destruct q as [[u d]|], q' as [[u' d']|]; cbn in R; try easy.
    + destruct R as (<- & Hu & NH). destruct (collapse_ext ns u _ Reject) as [w|e|] eqn:Et; try discriminate. injection E as <-.
      destruct (collapse_sim _ _ _ _ _ Hu Et) as (w' & -> & Hw). eexists. split; [reflexivity|]. split; auto. split; auto.
      intros h ->. eapply collapse_not_hash; eauto.
    + injection E as <-. exists None. now split.
  - apply prunes_leaf_inv in H as ->. rewrite E. eexists. split; [reflexivity|]. cbn in E.
    destruct (nibbles_eqb ns k); injection E as <-; cbn; auto. split; auto. split; [constructor|discriminate].
Qed.

Lemma trie_delete_sim P T k P' o : prunes P T -> trie_delete P k Reject = Ok (P', o) ->
  exists T', trie_delete T k Reject = Ok (T', o) /\ prunes P' T'.
Proof.
  intros H E. unfold trie_delete in *. destruct (delete_intern P k Reject) as [q|e|] eqn:Ed; try discriminate.
  cbn [bind] in E. destruct (delete_sim _ _ _ _ H Ed) as (q' & -> & R). cbn [bind].
  destruct q as [[u d]|], q' as [[u' d']|]; cbn in R; try easy.
  - destruct R as (<- & Hu & NH). destruct (try_collapse_if_extension u [] Reject) as [w|e|] eqn:Et; try discriminate.
    injection E as <- <-. destruct (try_collapse_sim _ _ _ _ Hu Et) as [(w' & -> & Hw)|(h & ->)]; [|now destruct (NH h)].
    cbn. eauto.
  - injection E as <- <-. eauto.
Qed.

Lemma step_sim P T o P' x : prunes P T -> trie_step Reject P o = Ok (P', x) ->
  exists T', trie_step Reject T o = Ok (T', x) /\ prunes P' T'.
Proof.
  intros H E. destruct o as [k v|k]; cbn in E |- *.
  - pose proof (insert_sim P T k (Val v) H) as I. unfold trie_insert in *. destruct (insert_rec P k (Val v)); try discriminate.
    injection E as <- <-. destruct (insert_rec T k (Val v)); try easy. cbn. eauto.
  - destruct (trie_delete P k Reject) as [[p y]|e|] eqn:Ed; try discriminate. injection E as <- <-.
    destruct (trie_delete_sim _ _ _ _ _ H Ed) as (T' & -> & HT). cbn. eauto.
Qed.

Lemma run_sim l : forall P T P' xs, prunes P T -> trie_run Reject P l = Ok (P', xs) ->
  exists T', trie_run Reject T l = Ok (T', xs) /\ prunes P' T'.
Proof.
  induction l as [|o l IH]; intros P T P' xs H E; cbn in *.
  - injection E as <- <-. eauto.
  - destruct (trie_step Reject P o) as [[p y]|e|] eqn:Es; try discriminate. cbn in E.
    destruct (trie_run Reject p l) as [[p' ys]|e|] eqn:Er; try discriminate. injection E as <- <-.
    destruct (step_sim _ _ _ _ _ H Es) as (t & -> & Ht). cbn. destruct (IH _ _ _ _ Ht Er) as (t' & -> & Ht').
    cbn. eauto.
Qed.

End Prune.
