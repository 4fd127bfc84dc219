(** Proofs about path queries and the branch-collapse report. *)

From Coq Require Import List Arith NArith Bool Lia.
From Verif.Mpt Require Import TrieModel TrieSpec TrieFacts TrieOpsProofs TrieHistory PruneSpec PruneProofs PartialProofs RlpProofs SubsetProofs QueryModel QuerySpec.
Import ListNotations.
Local Open Scope nat_scope.

Lemma path_branch ch v i k incl :
  path_for_query (Branch ch v) (i :: k) incl =
  match nth_error ch i with
  | Some c => bind (path_for_query c k incl) (fun l => Ok (SBranch i :: l))
  | None => Panic
  end.
Proof.
  cbn [path_for_query].
  assert (E : forall j, (fix at_child (ch0 : list node) (i0 : nat) {struct ch0} : res (list segment) :=
      match ch0 with
      | [] => Panic
      | c :: t => match i0 with 0 => path_for_query c k incl | S i' => at_child t i' end
      end) ch j = match nth_error ch j with Some c => path_for_query c k incl | None => Panic end).
  { induction ch as [|c ch IH]; destruct j; cbn; auto. }
  rewrite E. destruct (nth_error ch i); auto.
Qed.

Lemma path_ext ns c k incl :
  path_for_query (Ext ns c) k incl =
  if identical_up_to_smallest k ns
  then bind (path_for_query c (skipn (length ns) k) incl) (fun l => Ok (SExt ns :: l))
  else Ok (if incl then [SExt ns] else []).
Proof. reflexivity. Qed.

Lemma identical_sym a : forall b, identical_up_to_smallest a b = identical_up_to_smallest b a.
Proof. induction a as [|x a IH]; destruct b as [|y b]; cbn; auto. now rewrite Nat.eqb_sym, IH. Qed.

Lemma identical_split a b : identical_up_to_smallest a b = true -> (exists r, b = a ++ r) \/ (exists x r, a = b ++ x :: r).
Proof.
  revert b. induction a as [|x a IH]; intros b H; [left; now exists b|]. destruct b as [|y b]; [right; now exists x, a|].
  cbn in H. apply andb_true_iff in H as [H1 H2]. apply Nat.eqb_eq in H1 as ->.
  destruct (IH _ H2) as [(r & ->)|(z & r & ->)]; [left; now exists r|right; now exists z, r].
Qed.

(** Paths exist whenever branches have 16 children and nibbles are small. *)
Definition shaped (n : node) : Prop := forall p ch v, sub_at n p (Branch ch v) -> length ch = 16.

Lemma shaped_child ch v i c : shaped (Branch ch v) -> nth_error ch i = Some c -> shaped c.
Proof. intros H E p ch' v' S. apply (H (i :: p) ch' v'). econstructor; eauto. Qed.
Lemma shaped_ext ns c : shaped (Ext ns c) -> shaped c.
Proof. intros H p ch' v' S. apply (H (ns ++ p) ch' v'). now constructor. Qed.

Lemma nibs_ok_skipn n k : nibs_ok k -> nibs_ok (skipn n k).
Proof. intros H. rewrite <- (firstn_skipn n k) in H. now apply nibs_ok_app in H as [_ H]. Qed.

Lemma path_total n : forall k incl, shaped n -> nibs_ok k -> exists l, path_for_query n k incl = Ok l.
Proof.
  induction n as [|h|ch v IH|ns c IH|ns v] using node_ind'; intros k incl S K; try (eexists; reflexivity).
  - destruct k as [|i k]; [eexists; reflexivity|]. rewrite path_branch. apply nibs_ok_cons in K as [Hi K].
    destruct (nth_error_lt ch i) as (c & Ec); [rewrite (S [] ch v); auto; constructor|]. rewrite Ec.
    destruct (IH i c Ec k incl (shaped_child _ _ _ _ S Ec) K) as (l & ->). eexists; reflexivity.
  - cbn [path_for_query]. destruct (identical_up_to_smallest k ns); [|eexists; reflexivity].
    destruct (IH (skipn (length ns) k) incl (shaped_ext _ _ S) (nibs_ok_skipn _ _ K)) as (l & ->). eexists; reflexivity.
Qed.

(** Every segment describes the node at the place given by the pieces before it. *)
Lemma path_sound n : forall k incl l, path_for_query n k incl = Ok l ->
  forall a s b, l = a ++ s :: b -> exists m, sub_at n (pieces a) m /\ describes s m.
Proof.
  induction n as [|h|ch v IH|ns c IH|ns v] using node_ind'; intros k incl l E a s b ->.
  - injection E as E. destruct a as [|? [|]]; try discriminate. injection E as <- <-. exists Empty. split; [constructor|exact I].
  - injection E as E. destruct a as [|? [|]]; try discriminate. injection E as <- <-. exists (Hash h). split; [constructor|exact I].
  - destruct k as [|i k]; [destruct a; discriminate|]. rewrite path_branch in E.
    destruct (nth_error ch i) as [c|] eqn:Ec; [|discriminate].
    destruct (path_for_query c k incl) as [l'|e|] eqn:El; try discriminate. cbn [bind] in E. injection E as E.
    destruct a as [|s' a]; [injection E as <- _; exists (Branch ch v); split; [constructor|exact I]|].
    injection E as <- E. destruct (IH i c Ec k incl l' El a s b E) as (m & Sm & D). exists m. split; auto.
    cbn. econstructor; eauto.
  - cbn [path_for_query] in E. destruct (identical_up_to_smallest k ns).
    + destruct (path_for_query c (skipn (length ns) k) incl) as [l'|e|] eqn:El; try discriminate. cbn [bind] in E. injection E as E.
      destruct a as [|s' a]; [injection E as <- _; exists (Ext ns c); split; [constructor|reflexivity]|].
      injection E as <- E. destruct (IH _ incl l' El a s b E) as (m & Sm & D). exists m. split; auto.
      cbn. now constructor.
    + destruct incl; injection E as E; [|destruct a; discriminate]. destruct a as [|? [|]]; try discriminate.
      injection E as <- _. exists (Ext ns c). split; [constructor|reflexivity].
  - cbn [path_for_query] in E. injection E as E. destruct (nibbles_eqb k ns || incl); [|destruct a; discriminate].
    destruct a as [|? [|]]; try discriminate. injection E as <- _. exists (Leaf ns v). split; [constructor|reflexivity].
Qed.

(** The pieces follow the key: without the optional last node, one is a prefix of
    the other. *)
Lemma path_follows n : forall k l, path_for_query n k false = Ok l -> is_prefix (pieces l) k \/ is_prefix k (pieces l).
Proof.
  induction n as [|h|ch v IH|ns c IH|ns v] using node_ind'; intros k l E.
  - injection E as <-. left. now exists k.
  - injection E as <-. left. now exists k.
  - destruct k as [|i k]; [injection E as <-; left; now exists []|]. rewrite path_branch in E.
    destruct (nth_error ch i) as [c|] eqn:Ec; [|discriminate].
    destruct (path_for_query c k false) as [l'|e|] eqn:El; try discriminate. cbn [bind] in E. injection E as <-.
    cbn [pieces flat_map piece app]. destruct (IH i c Ec k l' El) as [(r & ->)|(r & Er)]; [left; now exists r|right].
    exists r. cbn. f_equal. exact Er.
  - cbn [path_for_query] in E. destruct (identical_up_to_smallest k ns) eqn:Hi; [|injection E as <-; left; now exists k].
    destruct (path_for_query c (skipn (length ns) k) false) as [l'|e|] eqn:El; try discriminate. cbn [bind] in E. injection E as <-.
    cbn [pieces flat_map piece]. fold (pieces l'). destruct (identical_split _ _ Hi) as [(r & ->)|(x & r & ->)].
    + right. exists (r ++ pieces l'). now rewrite app_assoc.
    + rewrite skipn_app_exact in El. destruct (IH _ _ El) as [(q & Eq)|(q & Eq)].
      * left. exists q. now rewrite <- app_assoc, <- Eq.
      * right. exists q. now rewrite Eq, app_assoc.
  - cbn [path_for_query] in E. injection E as <-. rewrite orb_false_r. destruct (nibbles_eqb k ns) eqn:En.
    + apply nibbles_eqb_eq in En as ->. left. exists []. cbn. now rewrite !app_nil_r.
    + left. now exists k.
Qed.

(** With the flag set, at most one more segment is reported, and it is the last
    one. *)
Lemma path_incl n : forall k l, path_for_query n k false = Ok l ->
  exists e, length e <= 1 /\ path_for_query n k true = Ok (l ++ e).
Proof.
  induction n as [|h|ch v IH|ns c IH|ns v] using node_ind'; intros k l E.
  - injection E as <-. exists []. auto.
  - injection E as <-. exists []. auto.
  - destruct k as [|i k]; [injection E as <-; exists []; auto|]. rewrite path_branch in *.
    destruct (nth_error ch i) as [c|] eqn:Ec; [|discriminate].
    destruct (path_for_query c k false) as [l'|e|] eqn:El; try discriminate. cbn [bind] in E. injection E as <-.
    destruct (IH i c Ec k l' El) as (e & Le & ->). exists e. auto.
  - cbn [path_for_query] in *. destruct (identical_up_to_smallest k ns) eqn:Hi; [|injection E as <-; exists [SExt ns]; auto].
    destruct (path_for_query c (skipn (length ns) k) false) as [l'|e|] eqn:El; try discriminate. cbn [bind] in E. injection E as <-.
    destruct (IH _ l' El) as (e & Le & ->). exists e. auto.
  - cbn [path_for_query] in *. injection E as <-. rewrite orb_false_r, orb_true_r. destruct (nibbles_eqb k ns).
    + exists []. auto.
    + exists [SLeaf ns]. auto.
Qed.

Lemma path_leaf_fwd n : forall k l ns, path_for_query n k false = Ok (l ++ [SLeaf ns]) -> pieces (l ++ [SLeaf ns]) = k ->
  exists v, sub_at n (pieces l) (Leaf ns v).
Proof.
  intros k l ns E _. destruct (path_sound n k false _ E l (SLeaf ns) [] eq_refl) as (m & S & D).
  destruct m; try easy. cbn in D. subst. eauto.
Qed.

Lemma path_leaf_bwd n p ns v : sub_at n p (Leaf ns v) ->
  exists l, path_for_query n (p ++ ns) false = Ok (l ++ [SLeaf ns]) /\ pieces l = p.
Proof.
  remember (Leaf ns v) as m eqn:Em. induction 1 as [n|ch w i c p m Ec S IH|ms c p m S IH]; subst.
  - exists []. cbn. now rewrite nibbles_eqb_refl.
  - destruct (IH eq_refl) as (l & E & El). exists (SBranch i :: l). cbn [app]. rewrite path_branch, Ec, E. cbn. now rewrite <- El.
  - destruct (IH eq_refl) as (l & E & El). exists (SExt ms :: l). cbn [path_for_query app].
    rewrite <- app_assoc, identical_sym, identical_app, skipn_app_exact, E. cbn. now rewrite <- El.
Qed.

(** ** Keys of paths *)
Lemma into_key_acc_ok l : forall a, length a + length (pieces l) <= 64 -> into_key_acc a l = Ok (a ++ pieces l).
Proof.
  induction l as [|s l IH]; intros a H; cbn [into_key_acc pieces flat_map]; [now rewrite app_nil_r|].
  fold (pieces l). destruct s; cbn [piece app pieces flat_map] in *; fold (pieces l) in *.
  - now apply IH.
  - now apply IH.
  - cbn [length] in H. unfold merge_nibble. replace (length a <? 64) with true by (symmetry; apply Nat.ltb_lt; lia).
    cbn [bind]. rewrite IH; [now rewrite <- app_assoc|rewrite app_length; cbn; lia].
  - rewrite app_length in H. rewrite merge_ok by lia. cbn [bind]. rewrite IH; [now rewrite <- app_assoc|rewrite app_length; lia].
  - rewrite app_length in H. rewrite merge_ok by lia. cbn [bind]. rewrite IH; [now rewrite <- app_assoc|rewrite app_length; lia].
Qed.

Lemma into_key_ok l : length (pieces l) <= 64 -> into_key l = Ok (pieces l).
Proof. intros H. unfold into_key. now rewrite into_key_acc_ok. Qed.

(** ** Branch collapse *)

Lemma canon_shaped n : canon n -> shaped n.
Proof.
  intros C p ch v S. revert C. remember (Branch ch v) as m eqn:Em. induction S; intros C; subst.
  - now apply canon_branch_inv in C as (_ & L & _).
  - apply canon_branch_inv in C as (_ & _ & C & _). eauto.
  - apply canon_ext_inv in C as (_ & _ & _ & C). eauto.
Qed.

Lemma sub_branch_inv ch v p m : sub_at (Branch ch v) p m ->
  (p = [] /\ m = Branch ch v) \/ exists i q c, p = i :: q /\ nth_error ch i = Some c /\ sub_at c q m.
Proof. inversion 1; subst; eauto 10. Qed.
Lemma sub_ext_inv ns c p m : sub_at (Ext ns c) p m ->
  (p = [] /\ m = Ext ns c) \/ exists q, p = ns ++ q /\ sub_at c q m.
Proof. inversion 1; subst; eauto. Qed.
Lemma sub_leaf_inv ns v p m : sub_at (Leaf ns v) p m -> p = [] /\ m = Leaf ns v.
Proof. inversion 1; auto. Qed.

Lemma branch_at_child ch v i c p : nth_error ch i = Some c -> branch_at (Branch ch v) (i :: p) <-> branch_at c p.
Proof.
  intros E. split; intros (h & w & S).
  - apply sub_branch_inv in S as [[? _]|(j & q & d & [= <- <-] & E' & S)]; [discriminate|]. rewrite E in E'. injection E' as <-. now exists h, w.
  - exists h, w. econstructor; eauto.
Qed.
Lemma branch_at_ext ns c p : branch_at (Ext ns c) (ns ++ p) <-> branch_at c p.
Proof.
  split; intros (h & w & S).
  - apply sub_ext_inv in S as [[_ ?]|(q & E & S)]; [discriminate|]. apply app_inv_head in E as <-. now exists h, w.
  - exists h, w. now constructor.
Qed.

(** [collapsed n k u']: the branch of [n] at [p] on the way to [k] had, besides
    the child towards [k], only the child [c] at [i]; in [u'] it is gone and [c]
    is found below [p ++ \[i\]]. *)
Definition collapsed (n : node) (k : nibbles) (u' : node) (q : nibbles) : Prop :=
  exists p i j r ch c,
    k = p ++ j :: r /\ i <> j /\ sub_at n p (Branch ch []) /\ nth_error ch i = Some c /\ c <> Empty /\
    (forall m d, nth_error ch m = Some d -> m <> i -> m <> j -> d = Empty) /\
    ~ branch_at u' p /\ found_at u' (p ++ [i]) q c.

(** What is known after [delete_intern] and the collapse of a pending extension. *)
Definition outcome (n : node) (k : nibbles) (u' : node) : Prop :=
  exists l l', path_for_query n k true = Ok l /\ path_for_query u' k true = Ok l' /\
    ((no_branch_lost n u' /\ length l' = length l) \/
     (2 <= length l /\ length l' < length l /\ collapsed n k u' (pieces l'))).

Lemma stored_sub t p c q x : sub_at t p c -> stored c q x -> stored t (p ++ q) x.
Proof.
  intros S H. assert (T : forall q' m, sub_at c q' m -> sub_at t (p ++ q') m).
  { intros q' m H'. clear H. induction S; cbn; auto; [econstructor; eauto|]. rewrite <- app_assoc. constructor; auto. }
  destruct H.
  - rewrite app_assoc. apply stored_leaf. auto.
  - eapply stored_branch; eauto.
  - apply stored_hash; auto.
Qed.

Lemma found_at_sub t p c a q d : sub_at t p c -> found_at c a q d -> found_at t (p ++ a) (p ++ q) d.
Proof.
  intros S H. assert (T : forall q' m, sub_at c q' m -> sub_at t (p ++ q') m).
  { intros q' m H'. clear H. induction S; cbn; auto; [econstructor; eauto|]. rewrite <- app_assoc. constructor; auto. }
  destruct d; cbn in *; auto.
  - destruct H as [-> H]. split; auto.
  - destruct H as [-> H]. split; auto.
  - destruct H as [-> H]. split; [now rewrite app_assoc|]. auto.
  - destruct H as [-> H]. split; [now rewrite app_assoc|]. eapply stored_sub; eauto.
Qed.

Lemma outcome_branch ch i k c u v : nth_error ch i = Some c -> outcome c k u ->
  outcome (Branch ch v) (i :: k) (Branch (set_child ch i u) v).
Proof.
  intros Ec (l & l' & E & E' & H).
  assert (Es : nth_error (set_child ch i u) i = Some u).
  { rewrite nth_error_set_child, Nat.eqb_refl. assert (i < length ch) by (apply nth_error_Some; congruence). apply Nat.ltb_lt in H0. now rewrite H0. }
  exists (SBranch i :: l), (SBranch i :: l'). rewrite !path_branch, Ec, Es, E, E'. do 2 (split; [reflexivity|]).
  destruct H as [[N L]|(L2 & Lt & p & a & b & r & ch0 & d & -> & Hab & S & Ed & Nd & Oth & NB & F)].
  - left. split; [|cbn; lia]. intros [|j p] B.
    + exists (set_child ch i u), v. constructor.
    + destruct (Nat.eq_dec j i) as [->|Hne].
      * rewrite (branch_at_child _ _ _ _ _ Es). apply N. now rewrite (branch_at_child _ _ _ _ _ Ec) in B.
      * destruct B as (h & w & S). apply sub_branch_inv in S as [[? _]|(j' & q & d & [= <- <-] & Ej & S)]; [discriminate|].
        exists h, w. econstructor; eauto. rewrite nth_error_set_child. apply Nat.eqb_neq in Hne. now rewrite Nat.eqb_sym, Hne.
  - right. split; [cbn; lia|]. split; [cbn; lia|].
    exists (i :: p), a, b, r, ch0, d. repeat split; auto.
    + econstructor; eauto.
    + rewrite (branch_at_child _ _ _ _ _ Es). exact NB.
    + apply (found_at_sub _ [i] u (p ++ [a]) (pieces l') d); auto. econstructor; eauto. constructor.
Qed.

Lemma outcome_ext ns k c u : outcome c k u -> outcome (Ext ns c) (ns ++ k) (Ext ns u).
Proof.
  intros (l & l' & E & E' & H).
  exists (SExt ns :: l), (SExt ns :: l'). rewrite !path_ext, identical_sym, identical_app, skipn_app_exact, E, E'.
  do 2 (split; [reflexivity|]).
  destruct H as [[N L]|(L2 & Lt & p & a & b & r & ch0 & d & -> & Hab & S & Ed & Nd & Oth & NB & F)].
  - left. split; [|cbn; lia]. intros p (h & w & S). apply sub_ext_inv in S as [[_ ?]|(q & -> & S)]; [discriminate|].
    rewrite branch_at_ext. apply N. now exists h, w.
  - right. split; [cbn; lia|]. split; [cbn; lia|].
    exists (ns ++ p), a, b, r, ch0, d. repeat split; auto.
    + now rewrite <- app_assoc.
    + now constructor.
    + now rewrite branch_at_ext.
    + rewrite <- app_assoc. apply (found_at_sub _ ns u (p ++ [a]) (pieces l') d); auto. rewrite <- (app_nil_r ns) at 2. constructor. constructor.
Qed.

Lemma diverge_snoc p i a j r : i <> j -> diverge ((p ++ [i]) ++ a) (p ++ j :: r).
Proof. intros H. rewrite <- app_assoc. apply diverge_app_l. cbn. auto. Qed.

Lemma no_branch_above ns i a d p' x : sub_at (Ext ((ns ++ [i]) ++ a) d) ns x -> p' = ns -> x = Ext ((ns ++ [i]) ++ a) d.
Proof.
  intros S ->. apply sub_ext_inv in S as [[_ ?]|(q & E & _)]; auto. exfalso.
  apply (f_equal (@length _)) in E. rewrite !app_length in E. cbn in E. lia.
Qed.

Lemma top_collapse ns ch i j r v c kk s u' :
  i <> j -> nth_error ch i = Some c -> c <> Empty -> nth_error ch j = Some (Leaf r v) ->
  (forall m d, nth_error ch m = Some d -> m <> i -> m <> j -> d = Empty) ->
  collapse_ext (ns ++ [i]) c kk s = Ok u' ->
  outcome (wrap ns (Branch ch [])) (ns ++ j :: r) u'.
Proof.
  intros Hij Ei Nc Ej Oth E.
  assert (P : path_for_query (wrap ns (Branch ch [])) (ns ++ j :: r) true =
              Ok (match ns with [] => [] | _ => [SExt ns] end ++ [SBranch j; SLeaf r])).
  { assert (B : path_for_query (Branch ch []) (j :: r) true = Ok [SBranch j; SLeaf r]).
    { rewrite path_branch, Ej. cbn. now rewrite nibbles_eqb_refl. }
    destruct ns as [|x ns]; [exact B|]. cbn [wrap]. rewrite path_ext, identical_sym, identical_app, skipn_app_exact, B. reflexivity. }
  assert (S : sub_at (wrap ns (Branch ch [])) ns (Branch ch [])).
  { destruct ns as [|x ns]; [constructor|]. cbn [wrap]. rewrite <- (app_nil_r (x :: ns)) at 2. constructor. constructor. }
  assert (Q : exists l', path_for_query u' (ns ++ j :: r) true = Ok l' /\ length l' = 1 /\
                ~ branch_at u' ns /\ found_at u' (ns ++ [i]) (pieces l') c).
  { assert (G : forall a d, exists l', path_for_query (Ext ((ns ++ [i]) ++ a) d) (ns ++ j :: r) true = Ok l' /\ length l' = 1 /\
        ~ branch_at (Ext ((ns ++ [i]) ++ a) d) ns /\ pieces l' = (ns ++ [i]) ++ a).
    { intros a d. exists [SExt ((ns ++ [i]) ++ a)]. cbn [path_for_query].
      rewrite identical_sym. replace (identical_up_to_smallest _ _) with false
        by (symmetry; apply identical_diverge; now apply diverge_snoc).
      repeat split; auto.
      - intros (h & w & Sb). apply (no_branch_above _ _ _ _ ns) in Sb; auto. discriminate.
      - cbn. now rewrite app_nil_r. }
    assert (Hs : forall a d, sub_at (Ext a d) a d).
    { intros a d. rewrite <- (app_nil_r a) at 2. constructor. constructor. }
    destruct c as [|h|ch' w|ms d|ms w]; [congruence| | | |]; cbn [collapse_ext] in E.
    - destruct s; [|destruct (merge_nibbles kk (ns ++ [i])); discriminate]. injection E as <-.
      destruct (G [] (Hash h)) as (l' & H1 & H2 & H3 & H4). rewrite app_nil_r in *. exists l'. repeat split; auto.
      rewrite H4. apply Hs.
    - injection E as <-. destruct (G [] (Branch ch' w)) as (l' & H1 & H2 & H3 & H4). rewrite app_nil_r in *. exists l'. repeat split; auto.
      rewrite H4. apply Hs.
    - unfold merge_nibbles in E. destruct (_ <=? 64); [|discriminate]. injection E as <-.
      destruct (G ms d) as (l' & H1 & H2 & H3 & H4). exists l'. repeat split; auto. rewrite H4. apply Hs.
    - unfold merge_nibbles in E. destruct (_ <=? 64); [|discriminate]. injection E as <-.
      exists [SLeaf ((ns ++ [i]) ++ ms)]. cbn [path_for_query]. rewrite orb_true_r. repeat split; auto.
      + intros (h & x & Sb). apply sub_leaf_inv in Sb as [_ Sb]. discriminate.
      + cbn. now rewrite app_nil_r.
      + cbn. rewrite app_nil_r. apply (stored_leaf _ [] ((ns ++ [i]) ++ ms) w). constructor. }
  destruct Q as (l' & E' & L' & NB & F).
  eexists _, l'. split; [exact P|]. split; [exact E'|]. right. rewrite app_length. cbn [length].
  split; [lia|]. split; [lia|]. exists ns, i, j, r, ch, c. repeat split; auto.
Qed.

(** Deleting from a branch either keeps the branch or leaves a pending extension. *)
Lemma delete_branch_cases ch j r s u v : canon (Branch ch []) ->
  delete_intern (Branch ch []) (j :: r) s = Ok (Some (u, v)) ->
  (exists i c ns, u = Ext [i] c /\ i <> j /\ nth_error ch i = Some c /\ c <> Empty /\ nth_error ch j = Some (Leaf ns v) /\ r = ns /\
    (forall m d, nth_error ch m = Some d -> m <> i -> m <> j -> d = Empty)) \/
  (exists c w w', nth_error ch j = Some c /\ delete_intern c r s = Ok (Some (w, v)) /\
     try_collapse_if_extension w r s = Ok w' /\ u = Branch (set_child ch j w') []).
Proof.
  intros C E. rewrite delete_branch in E. destruct (nth_error ch j) as [c|] eqn:Ec; [|discriminate].
  destruct (delete_intern c r s) as [[[w d]|]|e|] eqn:Ed; cbn [bind] in E; try discriminate.
  destruct (node_is_empty w && (get_num_non_empty_children ch <=? 2)) eqn:Hc.
  - left. apply andb_true_iff in Hc as [Hw Hn]. apply node_is_empty_true in Hw as ->. apply Nat.leb_le in Hn.
    pose proof (get_other_spec ch 0 j) as G. destruct (get_other_non_empty_child 0 ch j) as [[i o]|]; [|discriminate].
    injection E as <- <-. destruct G as (_ & Ei & Hij & No). rewrite Nat.sub_0_r in Ei.
    destruct (delete_shape c r s Empty d Ed eq_refl) as (ns & ->).
    cbn [delete_intern] in Ed. destruct (nibbles_eqb ns r) eqn:En; [|discriminate]. apply nibbles_eqb_eq in En as ->.
    exists i, o, r. repeat split; auto. intros m x Em Hmi Hmj.
    eapply (count_le2_others ch i o j (Leaf r d) m x); eauto. discriminate.
  - right. destruct (try_collapse_if_extension w r s) as [w'| |] eqn:Ew; try discriminate. cbn [bind] in E. injection E as <- <-.
    exists c, w, w'. auto.
Qed.

Lemma delete_outcome n : forall k s u v kk u', canon n -> nibs_ok k ->
  delete_intern n k s = Ok (Some (u, v)) -> try_collapse_if_extension u kk s = Ok u' -> outcome n k u'.
Proof.
  induction n as [|h|ch w IH|ns c IH|ns w] using node_ind'; intros k s u v kk u' C K E Et; try discriminate.
  - destruct (canon_branch_inv _ _ C) as (-> & Lc & Cc & _). destruct k as [|j r].
    + cbn in E. injection E as <- <-. cbn in Et. injection Et as <-.
      exists [], []. repeat split; auto. left. split; auto. intros p; auto.
    + destruct (delete_branch_cases _ _ _ _ _ _ C E) as [(i & c & ns & -> & Hij & Ei & Nc & Ej & -> & Oth)|(c & x & x' & Ec & Ed & Ex & ->)].
      * cbn in Et. exact (top_collapse [] ch i j ns v c kk s u' Hij Ei Nc Ej Oth Et).
      * cbn in Et. injection Et as <-. apply outcome_branch with (c := c); auto.
        apply nibs_ok_cons in K as [_ K]. eapply IH; eauto.
  - destruct (canon_ext_inv _ _ C) as (Ne & Hn & Hb & Cc). cbn [delete_intern] in E.
    destruct (identical_up_to_smallest ns k) eqn:Hi; [|discriminate]. unfold truncate_front in E.
    destruct (delete_intern c (skipn (length ns) k) s) as [[[x d]|]|e|] eqn:Ed; cbn [bind] in E; try discriminate.
    destruct (collapse_ext ns x (skipn (length ns) k) s) as [y| |] eqn:Ey; cbn [bind] in E; try discriminate. injection E as -> ->.
    destruct c as [|h|ch w|? ?|? ?]; try easy.
    destruct (canon_branch_inv _ _ Cc) as (-> & _).
    destruct (identical_split _ _ Hi) as [(r & ->)|(z & r & ->)].
    + rewrite skipn_app_exact in *. destruct r as [|j r].
      * cbn in Ed. injection Ed as <- <-. cbn in Ey. injection Ey as <-. cbn in Et. injection Et as <-.
        apply outcome_ext. exists [], []. repeat split; auto. left. split; auto. intros p; auto.
      * destruct (delete_branch_cases _ _ _ _ _ _ Cc Ed) as [(i & c & ms & -> & Hij & Ei & Nc & Ej & -> & Oth)|(c & q & q' & Ec & Eq & Eq' & ->)].
        -- cbn in Ey. unfold merge_nibbles in Ey. destruct (_ <=? 64); [|discriminate]. injection Ey as <-. cbn [try_collapse_if_extension] in Et.
           destruct ns as [|y ns]; [congruence|].
           exact (top_collapse (y :: ns) ch i j ms v c kk s u' Hij Ei Nc Ej Oth Et).
        -- cbn in Ey. injection Ey as <-. cbn in Et. injection Et as <-. apply outcome_ext.
           apply nibs_ok_app in K as [_ K]. eapply (IH _ s _ _ [] _); eauto.
    + rewrite skipn_all2 in Ed by (rewrite app_length; cbn; lia). cbn in Ed. injection Ed as <- <-. rewrite skipn_all2 in Ey by (rewrite app_length; cbn; lia).
      cbn in Ey. injection Ey as <-. cbn in Et. injection Et as <-.
      assert (P : forall v0, path_for_query (Ext (k ++ z :: r) (Branch ch v0)) k true = Ok [SExt (k ++ z :: r)]).
      { intros v0. cbn [path_for_query]. rewrite identical_app. rewrite skipn_all2 by (rewrite app_length; cbn; lia). reflexivity. }
      eexists _, _. split; [apply P|]. split; [apply P|]. left. split; auto.
      intros p; auto.
  - cbn [delete_intern] in E. destruct (nibbles_eqb ns k) eqn:En; [|discriminate]. injection E as <- <-. cbn in Et. injection Et as <-.
    exists [SLeaf ns], [SEmpty]. cbn [path_for_query]. rewrite orb_true_r. repeat split; auto. left. split; auto.
    intros p (h & x & S). apply sub_leaf_inv in S as [_ S]. discriminate.
Qed.

(** ** Depths in a pruned trie *)
Lemma prunes_sub keccak P p m : sub_at P p m -> forall T, prunes keccak P T -> exists m', sub_at T p m' /\ prunes keccak m m'.
Proof.
  induction 1 as [n|ch v i c p m Ec S IH|ns c p m S IH]; intros T H.
  - exists T. split; [constructor|auto].
  - apply prunes_branch_inv in H as (ch' & -> & F). destruct (Forall2_nth _ _ _ _ _ F Ec) as (c' & Ec' & H').
    destruct (IH c' H') as (m' & S' & Hm). exists m'. split; auto. econstructor; eauto.
  - apply prunes_ext_inv in H as (c' & -> & H'). destruct (IH c' H') as (m' & S' & Hm). exists m'. split; auto. now constructor.
Qed.

Definition piece_len (n : node) : nat := match n with Leaf ns _ | Ext ns _ => length ns | _ => 0 end.

Lemma depth_bound keccak P T p m : canon T -> bounded T -> prunes keccak P T -> sub_at P p m -> m <> Empty ->
  length p + piece_len m <= 64.
Proof.
  intros C B H S N. destruct (prunes_sub keccak P p m S T H) as (m' & S' & Hm).
  pose proof (canon_sub _ _ _ C S') as Cm.
  assert (Nm : m' <> Empty) by (intros ->; apply prunes_into_empty in Hm; auto).
  destruct m as [|h|ch v|ns c|ns v]; [congruence| | | |]; cbn [piece_len].
  - destruct (canon_nonempty _ Cm Nm) as (k & x & E). pose proof (look_sub _ _ _ _ _ S' E) as L. apply B in L. rewrite app_length in L. lia.
  - destruct (canon_nonempty _ Cm Nm) as (k & x & E). pose proof (look_sub _ _ _ _ _ S' E) as L. apply B in L. rewrite app_length in L. lia.
  - apply prunes_ext_inv in Hm as (c' & -> & _). destruct (canon_nonempty _ Cm Nm) as (k & x & E). pose proof (look_sub _ _ _ _ _ S' E) as L.
    apply look_ext_some in E as (k' & -> & _). apply B in L. rewrite !app_length in L. lia.
  - apply prunes_leaf_inv in Hm as ->. assert (E : look (Leaf ns v) ns = Some (Val v)) by (cbn; now rewrite nibbles_eqb_refl).
    pose proof (look_sub _ _ _ _ _ S' E) as L. apply B in L. rewrite app_length in L. lia.
Qed.

Lemma canon_prunes keccak P : forall T, canon T -> prunes keccak P T -> canon P.
Proof.
  induction P as [|h|ch v IH|ns c IH|ns v] using node_ind'; intros T C H.
  - constructor.
  - constructor.
  - apply prunes_branch_inv in H as (ch' & -> & F). destruct (canon_branch_inv _ _ C) as (-> & L & Cc & (i & j & ci & cj & Hij & Ei & Ej & Ni & Nj)).
    pose proof (Forall2_len _ _ _ F) as L'.
    assert (G : forall m d, nth_error ch' m = Some d -> exists d', nth_error ch m = Some d' /\ prunes keccak d' d).
    { intros m d Em. destruct (nth_error ch m) as [d'|] eqn:E.
      - destruct (Forall2_nth _ _ _ _ _ F E) as (d2 & E2 & Hd). rewrite Em in E2. injection E2 as <-. eauto.
      - apply nth_error_None in E. assert (m < length ch') by (apply nth_error_Some; congruence). lia. }
    constructor.
    + congruence.
    + intros m d Em. destruct (Forall2_nth _ _ _ _ _ F Em) as (d' & Ed' & Hd). apply (IH m d Em d'); eauto.
    + destruct (G i ci Ei) as (di & Edi & Hi). destruct (G j cj Ej) as (dj & Edj & Hj). exists i, j, di, dj. repeat split; auto.
      * intros ->. apply prunes_empty_inv in Hi. congruence.
      * intros ->. apply prunes_empty_inv in Hj. congruence.
  - apply prunes_ext_inv in H as (c' & -> & H). destruct (canon_ext_inv _ _ C) as (Ne & Hn & Hb & Cc).
    constructor; auto; [|eapply IH; eauto]. destruct c; try easy.
    + apply prunes_empty_inv in H. now subst.
    + apply prunes_ext_inv in H as (? & -> & _). easy.
    + apply prunes_leaf_inv in H. now subst.
  - apply prunes_leaf_inv in H as ->. auto.
Qed.

Lemma found_at_len keccak P T p i c q ch u' : canon T -> bounded T -> prunes keccak P T ->
  sub_at P p (Branch ch []) -> nth_error ch i = Some c -> c <> Empty -> found_at u' (p ++ [i]) q c -> length q <= 64.
Proof.
  intros C B H S E N F.
  assert (S' : sub_at P (p ++ [i]) c).
  { clear - S E. remember (Branch ch []) as m eqn:Em. induction S; subst; cbn.
    - econstructor; eauto. constructor.
    - econstructor; eauto.
    - rewrite <- app_assoc. constructor. auto. }
  pose proof (depth_bound keccak P T (p ++ [i]) c C B H S' N) as L.
  destruct c; cbn in *; try easy; destruct F as [-> _]; rewrite ?app_length in *; cbn in *; lia.
Qed.

(** The report, for every pruned version of a canonical trie. *)
Lemma report_ok keccak P T k s : canon T -> bounded T -> prunes keccak P T -> nibs_ok k ->
  forall P' d, trie_delete P k s = Ok (P', d) ->
  exists r, reporting_remove P k s = Ok (P', r) /\
    match r with None => no_branch_lost P P' | Some q => collapsed P k P' q end.
Proof.
  intros CT B H K P' d E. pose proof (canon_prunes keccak P T CT H) as C.
  assert (O : outcome P k P').
  { unfold trie_delete in E. destruct (delete_intern P k s) as [[[u x]|]|e|] eqn:Ed; cbn [bind] in E; try discriminate.
    - destruct (try_collapse_if_extension u [] s) as [u'| |] eqn:Eu; cbn [bind] in E; try discriminate. injection E as <- <-.
      eapply delete_outcome; eauto.
    - injection E as <- <-. destruct (path_total P k true (canon_shaped _ C) K) as (l & El). exists l, l. repeat split; auto.
      left. split; auto. intros p; auto. }
  destruct O as (l & l' & El & El' & O). unfold reporting_remove. rewrite El. cbn [bind]. rewrite E. cbn [bind fst]. rewrite El'. cbn [bind].
  unfold node_deletion_resulted_in_a_branch_collapse.
  destruct O as [[N L]|(L2 & Lt & Cl)].
  - exists None. split; auto. rewrite L, Nat.ltb_irrefl. now destruct (length l <? 2).
  - replace (length l <? 2) with false by (symmetry; apply Nat.ltb_ge; lia).
    replace (length l' <? length l) with true by (symmetry; apply Nat.ltb_lt; lia).
    rewrite into_key_ok; [exists (Some (pieces l')); split; [reflexivity|exact Cl]|].
    destruct Cl as (p & i & j & r & ch & c & _ & _ & S & Ei & N & _ & _ & F).
    exact (found_at_len keccak P T p i c _ ch P' CT B H S Ei N F).
Qed.
