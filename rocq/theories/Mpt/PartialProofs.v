(** When does a delete on a partial trie fail? *)

From Coq Require Import List Arith NArith Bool Lia.
From Verif.Mpt Require Import TrieModel TrieSpec TrieFacts TrieOpsProofs HashModel PruneSpec PruneProofs.
Import ListNotations.
Local Open Scope nat_scope.

(** A hash node lies on the path of [k], or is a child of a node on that path. *)
Definition beside_hash (t : node) (k : nibbles) : Prop :=
  near_hash t k \/ exists q j h, is_prefix q k /\ sub_at t (q ++ [j]) (Hash h).

Definition exts_ok (t : node) : Prop := forall p ns c, sub_at t p (Ext ns c) -> branch_or_hash c.

Lemma exts_ok_child ch v i c : exts_ok (Branch ch v) -> nth_error ch i = Some c -> exts_ok c.
Proof. intros H E p ns d Hp. apply (H (i :: p) ns d). econstructor; eauto. Qed.
Lemma exts_ok_ext ns c : exts_ok (Ext ns c) -> exts_ok c.
Proof. intros H p ms d Hp. apply (H (ns ++ p) ms d). now constructor. Qed.

Lemma canon_sub t : forall p c, canon t -> sub_at t p c -> canon c.
Proof.
  intros p c C S. revert C. induction S; intros C; auto.
  - apply canon_branch_inv in C as (-> & _ & C & _). eauto.
  - apply canon_ext_inv in C as (_ & _ & _ & C). eauto.
Qed.
Lemma canon_exts_ok t : canon t -> exts_ok t.
Proof. intros C p ns c S. apply (canon_sub _ _ _ C) in S. now apply canon_ext_inv in S as (_ & _ & H & _). Qed.

Lemma beside_branch ch v i c k : nth_error ch i = Some c -> beside_hash c k -> beside_hash (Branch ch v) (i :: k).
Proof.
  intros E [H|(q & j & h & (r & ->) & S)]; [left; eapply near_hash_branch; eauto|right].
  exists (i :: q), j, h. split; [now exists r|]. cbn. econstructor; eauto.
Qed.

Lemma beside_ext ns c k : identical_up_to_smallest ns k = true -> beside_hash c (truncate_front (length ns) k) ->
  beside_hash (Ext ns c) k.
Proof.
  intros HI [H|(q & j & h & (r & E) & S)]; [left; eapply near_hash_ext; eauto|].
  unfold truncate_front in E. destruct (identical_cases _ _ HI) as [(x & ->)|(x & E')].
  - rewrite skipn_app_exact in E. subst x. right. exists (ns ++ q), j, h. split; [exists r; now rewrite app_assoc|].
    rewrite <- app_assoc. constructor. exact S.
  - left. exists (ns ++ q ++ [j]), h. split; [|now constructor].
    right. exists (x ++ q ++ [j]). now rewrite E', <- app_assoc.
Qed.

Lemma delete_shape P : forall k s r v, delete_intern P k s = Ok (Some (r, v)) -> r = Empty -> exists ns, P = Leaf ns v.
Proof.
  induction P as [|h|ch w IH|ns c IH|ns w] using node_ind'; intros k s r v E ->.
  - discriminate.
  - discriminate.
  - destruct k as [|i k]; [discriminate|]. rewrite delete_branch in E. destruct (nth_error ch i) as [c|]; [|discriminate].
    destruct (delete_intern c k s) as [[[u d]|]|e|]; cbn [bind] in E; try discriminate.
    destruct (node_is_empty u && _); [destruct (get_other_non_empty_child 0 ch i) as [[? ?]|]; discriminate|].
    destruct (try_collapse_if_extension u k s); discriminate.
  - cbn [delete_intern] in E. destruct (identical_up_to_smallest ns k); [|discriminate].
    destruct (delete_intern c _ s) as [[[u d]|]|e|]; cbn [bind] in E; try discriminate.
    destruct u; cbn in E; try discriminate.
    + destruct s; try discriminate. destruct (merge_nibbles _ ns); discriminate.
    + destruct (merge_nibbles ns ns0); discriminate.
    + destruct (merge_nibbles ns ns0); discriminate.
  - cbn in E. destruct (nibbles_eqb ns k); [|discriminate]. injection E as <-. eauto.
Qed.

(** If the result is an extension over a hash, that hash node was a sibling. *)
Lemma delete_ext_hash P : forall k ms h v, delete_intern P k Reject = Ok (Some (Ext ms (Hash h), v)) -> beside_hash P k.
Proof.
  induction P as [|h0|ch w IH|ns c IH|ns w] using node_ind'; intros k ms h v E.
  - discriminate.
  - discriminate.
  - destruct k as [|i k]; [discriminate|]. rewrite delete_branch in E. destruct (nth_error ch i) as [c|]; [|discriminate].
    destruct (delete_intern c k Reject) as [[[u d]|]|e|]; cbn [bind] in E; try discriminate.
    destruct (node_is_empty u && _).
    + pose proof (get_other_spec ch 0 i) as G. destruct (get_other_non_empty_child 0 ch i) as [[j o]|]; try discriminate.
      injection E as <- -> <-. destruct G as (_ & G & _). rewrite Nat.sub_0_r in G.
      right. exists [], j, h. split; [now exists (i :: k)|]. econstructor; [exact G|constructor].
    + destruct (try_collapse_if_extension u k Reject); discriminate.
  - cbn [delete_intern] in E. destruct (identical_up_to_smallest ns k) eqn:HI; [|discriminate].
    destruct (delete_intern c _ Reject) as [[[u d]|]|e|] eqn:Ed; cbn [bind] in E; try discriminate.
    destruct u as [|h0|ch0 v0|ms0 c0|ms0 v0]; cbn in E; try discriminate.
    + destruct (merge_nibbles _ ns); discriminate.
    + destruct (merge_nibbles ns ms0); try discriminate. injection E as <- -> <-. eapply beside_ext; eauto.
    + destruct (merge_nibbles ns ms0); discriminate.
  - cbn in E. destruct (nibbles_eqb ns k); discriminate.
Qed.

Lemma delete_result_not_hash P k h v : delete_intern P k Reject <> Ok (Some (Hash h, v)).
Proof.
  intros E. destruct P as [|h0|ch w|ns c|ns w]; try discriminate.
  - destruct k as [|i k]; [discriminate|]. rewrite delete_branch in E. destruct (nth_error ch i) as [c|]; [|discriminate].
    destruct (delete_intern c k Reject) as [[[u d]|]|e|]; cbn [bind] in E; try discriminate.
    destruct (node_is_empty u && _); [destruct (get_other_non_empty_child 0 ch i) as [[? ?]|]; discriminate|].
    destruct (try_collapse_if_extension u k Reject); discriminate.
  - cbn [delete_intern] in E. destruct (identical_up_to_smallest ns k); [|discriminate].
    destruct (delete_intern c _ Reject) as [[[u d]|]|e|]; cbn [bind] in E; try discriminate.
    destruct (collapse_ext ns u _ Reject) eqn:Ec; try discriminate. injection E as -> _. eapply collapse_not_hash; eauto.
  - cbn in E. destruct (nibbles_eqb ns k); discriminate.
Qed.

Lemma try_collapse_err u k e : try_collapse_if_extension u k Reject = Err e ->
  (exists ms h, u = Ext ms (Hash h)) \/ exists ms, u = Ext ms Empty.
Proof.
  intros E. destruct u as [|h|ch v|ns c|ns v]; try discriminate. cbn in E. destruct c as [|h|ch v|ms c|ms v]; cbn in E.
  - right. now exists ns.
  - left. now exists ns, h.
  - discriminate.
  - unfold merge_nibbles in E; destruct (_ <=? 64); discriminate.
  - unfold merge_nibbles in E; destruct (_ <=? 64); discriminate.
Qed.

Lemma delete_ext_empty P : forall k ms v, exts_ok P -> delete_intern P k Reject <> Ok (Some (Ext ms Empty, v)).
Proof.
  induction P as [|h0|ch w IH|ns c IH|ns w] using node_ind'; intros k ms v X E; try discriminate.
  - destruct k as [|i k]; [discriminate|]. rewrite delete_branch in E. destruct (nth_error ch i) as [c|]; [|discriminate].
    destruct (delete_intern c k Reject) as [[[u d]|]|e|]; cbn [bind] in E; try discriminate.
    destruct (node_is_empty u && _).
    + pose proof (get_other_spec ch 0 i) as G. destruct (get_other_non_empty_child 0 ch i) as [[j o]|]; try discriminate.
      injection E as <- -> <-. destruct G as (_ & _ & _ & G). congruence.
    + destruct (try_collapse_if_extension u k Reject); discriminate.
  - cbn [delete_intern] in E. destruct (identical_up_to_smallest ns k) eqn:HI; [|discriminate].
    destruct (delete_intern c _ Reject) as [[[u d]|]|e|] eqn:Ed; cbn [bind] in E; try discriminate.
    destruct u as [|h0|ch0 v0|ms0 c0|ms0 v0]; cbn in E; try discriminate.
    + destruct (merge_nibbles _ ns); discriminate.
    + destruct (merge_nibbles ns ms0); try discriminate. injection E as <- -> <-.
      eapply IH; [eapply exts_ok_ext; eauto|]; eauto.
    + destruct (merge_nibbles ns ms0); discriminate.
  - cbn in E. destruct (nibbles_eqb ns k); discriminate.
Qed.

Lemma delete_err P : forall k e, exts_ok P -> delete_intern P k Reject = Err e -> beside_hash P k.
Proof.
  induction P as [|h0|ch w IH|ns c IH|ns w] using node_ind'; intros k e X E; try discriminate.
  - left. exists [], h0. split; [left; now exists k|constructor].
  - destruct k as [|i k]; [discriminate|]. rewrite delete_branch in E. destruct (nth_error ch i) as [c|] eqn:Ec; [|discriminate].
    apply beside_branch with (c := c); auto.
    destruct (delete_intern c k Reject) as [[[u d]|]|e'|] eqn:Ed; cbn [bind] in E; try discriminate.
    + destruct (node_is_empty u && _); [destruct (get_other_non_empty_child 0 ch i) as [[? ?]|]; discriminate|].
      destruct (try_collapse_if_extension u k Reject) as [x|e'|] eqn:Et; try discriminate.
      destruct (try_collapse_err _ _ _ Et) as [(ms & h & ->)|(ms & ->)].
      * eapply delete_ext_hash; eauto.
      * exfalso. eapply delete_ext_empty; [eapply exts_ok_child; eauto|exact Ed].
    + eapply IH; eauto. eapply exts_ok_child; eauto.
  - cbn [delete_intern] in E. destruct (identical_up_to_smallest ns k) eqn:HI; [|discriminate].
    apply beside_ext; auto.
    destruct (delete_intern c _ Reject) as [[[u d]|]|e'|] eqn:Ed; cbn [bind] in E; try discriminate.
    + destruct u as [|h0|ch0 v0|ms0 c0|ms0 v0]; cbn in E; try discriminate.
      * destruct (delete_shape _ _ _ _ _ Ed eq_refl) as (ms & ->).
        pose proof (X [] ns (Leaf ms d) (sub_here _)) as B. now cbn in B.
      * exfalso. eapply delete_result_not_hash; eauto.
      * unfold merge_nibbles in E; destruct (_ <=? 64); discriminate.
      * unfold merge_nibbles in E; destruct (_ <=? 64); discriminate.
    + eapply IH; eauto. eapply exts_ok_ext; eauto.
  - cbn in E. destruct (nibbles_eqb ns k); discriminate.
Qed.

Lemma trie_delete_err P k e : exts_ok P -> trie_delete P k Reject = Err e -> beside_hash P k.
Proof.
  intros X E. unfold trie_delete in E. destruct (delete_intern P k Reject) as [[[u d]|]|e'|] eqn:Ed; cbn [bind] in E; try discriminate.
  - destruct (try_collapse_if_extension u [] Reject) as [x|e'|] eqn:Et; try discriminate.
    destruct (try_collapse_err _ _ _ Et) as [(ms & h & ->)|(ms & ->)].
    + eapply delete_ext_hash; eauto.
    + exfalso. eapply delete_ext_empty; eauto.
  - eapply delete_err; eauto.
Qed.

(** ** Tries reached by histories *)
Lemma canon_no_hash n : canon n -> hash_free n -> no_hash n.
Proof.
  induction n as [|h|ch v IH|ns c IH|ns v] using node_ind'; intros C F.
  - constructor.
  - now apply hash_free_not_hash in F.
  - apply canon_branch_inv in C as (-> & _ & C & _). constructor. apply Forall_forall. intros c Hc.
    apply In_nth_error in Hc as (i & Hi). eapply IH; eauto. eapply hash_free_child; eauto.
  - apply canon_ext_inv in C as (_ & _ & _ & C). constructor. apply IH; auto. now apply hash_free_ext in F.
  - constructor.
Qed.

Lemma canon_wf n : canon n -> (forall k x, look n k = Some x -> length k <= 64 /\ exists v, x = Val v /\ (N.of_nat (length v) < 2 ^ 60)%N) ->
  wf_node n.
Proof.
  induction n as [|h|ch v IH|ns c IH|ns v] using node_ind'; intros C F.
  - constructor.
  - destruct (F [] (VHash h) eq_refl) as (_ & v & E & _). discriminate.
  - pose proof C as C'. apply canon_branch_inv in C as (-> & L & C & _). constructor; auto; [|reflexivity].
    apply Forall_forall. intros c Hc. apply In_nth_error in Hc as (i & Hi). apply (IH i c Hi); [eauto|].
    intros k x E. destruct (F (i :: k) x) as (Hl & Hv); [now rewrite look_branch, Hi|]. cbn in Hl. split; [lia|auto].
  - pose proof C as C'. apply canon_ext_inv in C as (_ & N & B & C). constructor.
    + split; auto. destruct (canon_nonempty c C) as (k & x & E); [destruct c; easy|].
      destruct (F (ns ++ k) x) as (Hl & _); [now rewrite look_ext_app|]. rewrite app_length in Hl. lia.
    + apply IH; auto. intros k x E. destruct (F (ns ++ k) x) as (Hl & Hv); [now rewrite look_ext_app|].
      rewrite app_length in Hl. split; [lia|auto].
  - destruct (F ns (Val v)) as (Hl & w & E & Hv); [cbn; now rewrite nibbles_eqb_refl|]. injection E as <-.
    constructor; auto. split; auto. now apply canon_leaf_inv in C.
Qed.

Lemma look_sub n p c k x : sub_at n p c -> look c k = Some x -> look n (p ++ k) = Some x.
Proof.
  induction 1; intros E; cbn [app]; auto.
  - rewrite look_branch, H. auto.
  - rewrite <- app_assoc, look_ext_app. auto.
Qed.

Lemma prunes_no_hash keccak P : forall T, no_hash P -> prunes keccak P T -> P = T.
Proof.
  induction P as [|h|ch v IH|ns c IH|ns v] using node_ind'; intros T N H.
  - now apply prunes_empty_inv in H.
  - inversion N.
  - apply prunes_branch_inv in H as (ch' & -> & F). inversion N as [| | |? ? Nc]; subst. f_equal. apply nth_error_ext.
    intros i. destruct (nth_error ch i) as [c|] eqn:Ec.
    + destruct (Forall2_nth _ _ _ _ _ F Ec) as (c' & -> & Hc). f_equal. eapply IH; eauto.
      rewrite Forall_forall in Nc. apply Nc. eapply nth_error_In; eauto.
    + symmetry. eapply Forall2_nth_none; eauto.
  - apply prunes_ext_inv in H as (c' & -> & H). inversion N; subst. f_equal. now apply IH.
  - now apply prunes_leaf_inv in H.
Qed.
