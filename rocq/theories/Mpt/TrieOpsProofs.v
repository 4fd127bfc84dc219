(** Insert and delete keep tries canonical and update the exact lookup at one
    key only. *)

From Coq Require Import List Arith NArith Bool Lia.
From Verif.Mpt Require Import TrieModel TrieSpec TrieFacts.
Import ListNotations.

Definition is_branch (n : node) : Prop := match n with Branch _ _ => True | _ => False end.

Definition wrap (p : nibbles) (b : node) : node := match p with [] => b | _ => Ext p b end.

Lemma look_wrap p b k :
  look (wrap p b) k = match strip p k with Some k' => look b k' | None => None end.
Proof. destruct p; auto. Qed.

Lemma look_create k v k' :
  look (create_node_from_insert_val k v) k' = if key_eq_dec k' k then Some v else None.
Proof.
  destruct v as [x|h]; cbn.
  - destruct (key_eq_dec k' k) as [->|Hne].
    + now rewrite nibbles_eqb_refl.
    + assert (k <> k') as Hn by congruence. apply nibbles_eqb_neq in Hn. now rewrite Hn.
  - destruct k as [|a k]; [now destruct k'|].
    cbn [look]. destruct (strip (a :: k) k') as [r|] eqn:S.
    + apply strip_some in S. destruct r as [|b r].
      * rewrite app_nil_r in S. subst. now destruct (key_eq_dec _ _).
      * destruct (key_eq_dec k' (a :: k)) as [E|]; auto. subst k'.
        apply (f_equal (@length _)) in E. rewrite app_length in E. cbn in E. lia.
    + destruct (key_eq_dec k' (a :: k)) as [E|]; auto. subst k'.
      rewrite <- (app_nil_r (a :: k)) in S at 2. rewrite strip_app in S. discriminate.
Qed.

Lemma canon_create k v : nibs_ok k -> canon (create_node_from_insert_val k v).
Proof.
  intros H. destruct v as [x|h]; cbn; [now constructor|].
  destruct k; constructor; cbn; auto; try discriminate. constructor.
Qed.

Lemma create_nonempty k v : create_node_from_insert_val k v <> Empty.
Proof. destruct v; cbn; [discriminate|]. destruct k; discriminate. Qed.

(** The branch created when two keys part after the common prefix [p]. *)
Definition split_node (p : nibbles) (x : nat) (ex : node) (y : nat) (nw : node) : node :=
  wrap p (Branch (set_child (set_child new_branch_child_arr x ex) y nw) []).

Lemma place_branch_eq p x y a b ex v :
  x <> y ->
  place_branch (get_pre_and_postfixes (p ++ x :: a) (p ++ y :: b)) ex (p ++ y :: b) v
  = Ok (split_node p x ex y (create_node_from_insert_val b v)).
Proof.
  intros Hne. unfold place_branch, get_pre_and_postfixes. cbn [common_prefix existing_postfix new_postfix].
  rewrite diff_idx_app by auto. rewrite firstn_app_exact, !skipn_app_exact.
  replace (skipn (length p + 1) (p ++ y :: b)) with b.
  2:{ rewrite skipn_app. rewrite skipn_all2 by lia. now replace (length p + 1 - length p) with 1 by lia. }
  unfold split_node, wrap. destruct p; auto.
Qed.

Lemma nth_split_children x ex y nw m :
  x < 16 -> y < 16 -> x <> y ->
  nth_error (set_child (set_child new_branch_child_arr x ex) y nw) m =
  if m =? y then Some nw else if m =? x then Some ex else if m <? 16 then Some Empty else None.
Proof.
  intros Hx Hy Hne. rewrite !nth_error_set_child, set_child_length.
  unfold new_branch_child_arr. rewrite nth_error_repeat_Empty, repeat_length.
  rewrite (Nat.eqb_sym y m), (Nat.eqb_sym x m).
  apply Nat.ltb_lt in Hx, Hy. now rewrite Hx, Hy.
Qed.

Lemma split_node_canon p x ex y nw :
  x < 16 -> y < 16 -> x <> y -> nibs_ok p -> canon ex -> canon nw -> ex <> Empty -> nw <> Empty ->
  canon (split_node p x ex y nw).
Proof.
  intros Hx Hy Hne Hp Cx Cn Ex En.
  assert (CB : canon (Branch (set_child (set_child new_branch_child_arr x ex) y nw) [])).
  { constructor.
    - now rewrite !set_child_length.
    - intros i c. rewrite nth_split_children by auto.
      destruct (i =? y); [intros [= <-]; auto|]. destruct (i =? x); [intros [= <-]; auto|].
      destruct (i <? 16); [intros [= <-]; constructor|discriminate].
    - exists x, y, ex, nw. rewrite !nth_split_children by auto.
      rewrite !Nat.eqb_refl. apply Nat.eqb_neq in Hne as Hb. rewrite Hb. auto. }
  unfold split_node, wrap. destruct p; auto. constructor; auto; [discriminate|]. exact I.
Qed.

Lemma split_node_look p x ex y nw k :
  x < 16 -> y < 16 -> x <> y ->
  look (split_node p x ex y nw) k =
  match strip p k with
  | Some (m :: k') => if m =? y then look nw k' else if m =? x then look ex k' else None
  | _ => None
  end.
Proof.
  intros Hx Hy Hne. unfold split_node. rewrite look_wrap.
  destruct (strip p k) as [[|m k']|]; auto.
  rewrite look_branch, nth_split_children by auto.
  destruct (m =? y); auto. destruct (m =? x); auto. now destruct (m <? 16).
Qed.

Lemma nibs_ok_app a b : nibs_ok (a ++ b) <-> nibs_ok a /\ nibs_ok b.
Proof. apply Forall_app. Qed.

Lemma nibs_ok_cons x a : nibs_ok (x :: a) <-> x < 16 /\ nibs_ok a.
Proof. split; [inversion 1; auto | intros [? ?]; constructor; auto]. Qed.

(** The look function of a split equals the old one plus the new key. *)
Lemma split_node_update p x y b ex v (old : node) :
  x < 16 -> y < 16 -> x <> y ->
  (forall k, look old k = match strip (p ++ [x]) k with Some k' => look ex k' | None => None end) ->
  forall k, look (split_node p x ex y (create_node_from_insert_val b v)) k =
    if key_eq_dec k (p ++ y :: b) then Some v else look old k.
Proof.
  intros Hx Hy Hne Hold k. rewrite split_node_look by auto. rewrite Hold.
  destruct (strip p k) as [r|] eqn:S.
  - apply strip_some in S as ->.
    destruct r as [|m r].
    + destruct (key_eq_dec (p ++ []) (p ++ y :: b)) as [E|_]; [apply app_inv_head in E; discriminate|].
      rewrite app_nil_r. destruct (strip (p ++ [x]) p) as [r|] eqn:S; auto.
      apply strip_some in S. apply (f_equal (@length _)) in S. rewrite !app_length in S. cbn in S. lia.
    + destruct (Nat.eqb_spec m y) as [->|Hmy].
      * rewrite look_create. destruct (key_eq_dec r b) as [->|Hrb].
        -- now destruct (key_eq_dec (p ++ y :: b) (p ++ y :: b)).
        -- destruct (key_eq_dec (p ++ y :: r) (p ++ y :: b)) as [E|_].
           { apply app_inv_head in E. congruence. }
           rewrite strip_diverge; auto. apply diverge_app_l. cbn. auto.
      * destruct (key_eq_dec (p ++ m :: r) (p ++ y :: b)) as [E|_].
        { apply app_inv_head in E. congruence. }
        destruct (Nat.eqb_spec m x) as [->|Hmx].
        -- replace (p ++ x :: r) with ((p ++ [x]) ++ r) by now rewrite <- app_assoc.
           now rewrite strip_app.
        -- rewrite strip_diverge; auto. apply diverge_app_l. cbn. auto.
  - destruct (key_eq_dec k (p ++ y :: b)) as [->|_]; [now rewrite strip_app in S|].
    destruct (strip (p ++ [x]) k) as [r|] eqn:S2; auto.
    apply strip_some in S2. rewrite <- app_assoc in S2. subst k. now rewrite strip_app in S.
Qed.

Lemma if_key_eq_nil_cons {A} (x : nat) k (a b : A) : (if key_eq_dec [] (x :: k) then a else b) = b.
Proof. destruct (key_eq_dec [] (x :: k)); congruence. Qed.

Lemma insert_ok n : forall k v,
  canon n -> compat k n -> nibs_ok k ->
  (look n k = None \/ exists x y, look n k = Some (Val x) /\ v = Val y) ->
  exists n', insert_rec n k v = Ok n' /\ canon n' /\ n' <> Empty /\ (is_branch n -> is_branch n') /\
    (forall k', look n' k' = if key_eq_dec k' k then Some v else look n k').
Proof.
  induction n as [ | h | ch w IH | ns c IH | ns w ] using node_ind'; intros k v C P Hk HL.
  - exists (create_node_from_insert_val k v). cbn.
    repeat split; auto using canon_create, create_nonempty; try easy.
    intros k'. now rewrite look_create.
  - now apply compat_hash_inv in P.
  - apply compat_branch_inv in P as (i & k1 & c & -> & Hc & P).
    apply canon_branch_inv in C as (-> & HL16 & HC & Htwo).
    apply nibs_ok_cons in Hk as [Hi Hk]. rewrite look_branch, Hc in HL.
    destruct (IH _ _ Hc _ _ (HC _ _ Hc) P Hk HL) as (c' & E & C' & NE & _ & L').
    exists (Branch (set_child ch i c') []). rewrite insert_branch, Hc, E. cbn [bind].
    split; auto. split; [|split; [discriminate|split; [easy|]]].
    + constructor.
      * now rewrite set_child_length.
      * intros j cj. rewrite nth_error_set_child. destruct (i =? j).
        -- destruct (i <? length ch); [|discriminate]. now intros [= <-].
        -- apply HC.
      * destruct Htwo as (a & b & ca & cb & Hab & Ha & Hb & Na & Nb).
        assert (Q : forall m cm, nth_error ch m = Some cm -> cm <> Empty ->
                exists cm', nth_error (set_child ch i c') m = Some cm' /\ cm' <> Empty).
        { intros m cm Hm Nm. rewrite nth_error_set_child. destruct (i =? m); eauto.
          destruct (Nat.ltb_spec i (length ch)); [eauto|lia]. }
        destruct (Q _ _ Ha Na) as (ca' & ? & ?). destruct (Q _ _ Hb Nb) as (cb' & ? & ?).
        exists a, b, ca', cb'. auto.
    + intros [|j k']; [now rewrite if_key_eq_nil_cons|].
      rewrite !look_branch, nth_error_set_child.
      destruct (Nat.eqb_spec i j) as [->|Hij].
      * destruct (Nat.ltb_spec j (length ch)); [|lia]. rewrite Hc, L'.
        destruct (key_eq_dec k' k1) as [->|Hne].
        -- now destruct (key_eq_dec (j :: k1) (j :: k1)).
        -- destruct (key_eq_dec (j :: k') (j :: k1)); congruence.
      * destruct (key_eq_dec (j :: k') (i :: k1)); congruence.
  - pose proof C as C0. apply canon_ext_inv in C as (Hne & Hns & Hb & C).
    apply compat_ext_inv in P as [D|(k1 & -> & P)].
    + cbn [insert_rec]. apply identical_diverge in D as D'. rewrite D'.
      apply diverge_split in D as (p & x & y & a & b & -> & -> & Hxy).
      assert (Hpost : existing_postfix (get_pre_and_postfixes (p ++ x :: a) (p ++ y :: b)) = x :: a).
      { unfold get_pre_and_postfixes. cbn. now rewrite diff_idx_app, skipn_app_exact. }
      rewrite Hpost. unfold truncate_front. cbn [skipn].
      rewrite place_branch_eq by auto. fold (wrap a c).
      apply nibs_ok_app in Hns as [Hp Hxa]. apply nibs_ok_cons in Hxa as [Hx Ha].
      apply nibs_ok_app in Hk as [_ Hyb]. apply nibs_ok_cons in Hyb as [Hy Hb'].
      exists (split_node p x (wrap a c) y (create_node_from_insert_val b v)).
      split; auto. split; [|split; [|split]].
      * apply split_node_canon; auto using canon_create, create_nonempty.
        -- destruct a; [auto|]. constructor; auto. discriminate.
        -- destruct a; [|discriminate]. cbn. destruct c; easy.
      * unfold split_node, wrap. destruct p; discriminate.
      * easy.
      * apply split_node_update; auto. intros k.
        cbn [look]. destruct (strip (p ++ [x]) k) as [r|] eqn:S.
        -- apply strip_some in S as ->. rewrite look_wrap.
           destruct (strip a r) as [q|] eqn:S2.
           ++ apply strip_some in S2 as ->. rewrite <- app_assoc. cbn.
              replace (p ++ x :: a ++ q) with ((p ++ x :: a) ++ q) by now rewrite <- app_assoc.
              now rewrite strip_app.
           ++ destruct (strip (p ++ x :: a) ((p ++ [x]) ++ r)) as [q|] eqn:S3; auto.
              apply strip_some in S3. rewrite <- !app_assoc in S3. apply app_inv_head in S3. cbn in S3.
              injection S3 as ->. now rewrite strip_app in S2.
        -- destruct (strip (p ++ x :: a) k) as [q|] eqn:S3; auto.
           apply strip_some in S3. subst k. rewrite <- app_assoc in S. cbn in S.
           replace (p ++ x :: a ++ q) with ((p ++ [x]) ++ (a ++ q)) in S by now rewrite <- app_assoc.
           now rewrite strip_app in S.
    + cbn [insert_rec]. rewrite identical_app. unfold truncate_front. rewrite skipn_app_exact.
      apply nibs_ok_app in Hk as [_ Hk1]. rewrite look_ext_app in HL.
      destruct (IH _ _ C P Hk1 HL) as (c' & E & C' & NE & B' & L').
      rewrite E. cbn [bind]. exists (Ext ns c').
      assert (is_branch c') as Hbr.
      { apply B'. destruct c; try easy. }
      split; auto. split; [|split; [discriminate|split; [easy|]]].
      * constructor; auto. destruct c'; easy.
      * intros k'. cbn [look]. destruct (strip ns k') as [r|] eqn:S.
        -- apply strip_some in S as ->. rewrite L'.
           destruct (key_eq_dec r k1) as [->|Hr].
           ++ now destruct (key_eq_dec (ns ++ k1) (ns ++ k1)).
           ++ destruct (key_eq_dec (ns ++ r) (ns ++ k1)) as [Heq|]; auto.
              apply app_inv_head in Heq. congruence.
        -- destruct (key_eq_dec k' (ns ++ k1)) as [->|]; auto. now rewrite strip_app in S.
  - apply canon_leaf_inv in C as Hns. cbn [insert_rec].
    apply compat_leaf_inv in P as [->|D].
    + rewrite nibbles_eqb_refl. cbn [look] in HL. rewrite nibbles_eqb_refl in HL.
      destruct HL as [|(x & y & _ & ->)]; [discriminate|]. cbn.
      exists (Leaf ns y). split; auto. split; [now constructor|]. split; [discriminate|]. split; [easy|].
      intros k'. cbn. destruct (key_eq_dec k' ns) as [->|Hne].
      * now rewrite nibbles_eqb_refl.
      * assert (ns <> k') as Hn by congruence. apply nibbles_eqb_neq in Hn. now rewrite Hn.
    + apply diverge_neq in D as Hn. apply nibbles_eqb_neq in Hn. rewrite Hn.
      apply diverge_split in D as (p & x & y & a & b & -> & -> & Hxy).
      assert (Hcp : common_prefix (get_pre_and_postfixes (p ++ x :: a) (p ++ y :: b)) = p).
      { unfold get_pre_and_postfixes. cbn. now rewrite diff_idx_app, firstn_app_exact. }
      rewrite Hcp. unfold truncate_front.
      replace (skipn (length p + 1) (p ++ x :: a)) with a.
      2:{ rewrite skipn_app. rewrite skipn_all2 by lia. now replace (length p + 1 - length p) with 1 by lia. }
      rewrite place_branch_eq by auto.
      apply nibs_ok_app in Hns as [Hp Hxa]. apply nibs_ok_cons in Hxa as [Hx Ha].
      apply nibs_ok_app in Hk as [_ Hyb]. apply nibs_ok_cons in Hyb as [Hy Hb'].
      exists (split_node p x (Leaf a w) y (create_node_from_insert_val b v)).
      split; auto. split; [|split; [|split]].
      * apply split_node_canon; auto using canon_create, create_nonempty; [now constructor|discriminate].
      * unfold split_node, wrap. destruct p; discriminate.
      * easy.
      * apply split_node_update; auto. intros k. cbn [look].
        destruct (strip (p ++ [x]) k) as [r|] eqn:S.
        -- apply strip_some in S as ->. rewrite <- app_assoc. cbn [app].
           destruct (nibbles_eqb a r) eqn:Er.
           ++ apply nibbles_eqb_eq in Er as ->. now rewrite nibbles_eqb_refl.
           ++ apply nibbles_eqb_neq in Er. replace (nibbles_eqb _ _) with false; auto.
              symmetry. apply nibbles_eqb_neq. intros E. apply app_inv_head in E. congruence.
        -- replace (nibbles_eqb (p ++ x :: a) k) with false; auto.
           symmetry. apply nibbles_eqb_neq. intros <-.
           replace (p ++ x :: a) with ((p ++ [x]) ++ a) in S by now rewrite <- app_assoc.
           now rewrite strip_app in S.
Qed.

(** ** Counting non-empty children *)

Lemma count_set_empty ch : forall i c, nth_error ch i = Some c ->
  get_num_non_empty_children ch =
  (if node_is_empty c then 0 else 1) + get_num_non_empty_children (set_child ch i Empty).
Proof.
  unfold get_num_non_empty_children.
  induction ch as [|x ch IH]; intros [|i] c H; try discriminate.
  - injection H as ->. cbn. destruct (node_is_empty c); auto.
  - cbn in H. cbn [set_child filter]. specialize (IH _ _ H).
    destruct (negb (node_is_empty x)); cbn [length] in *; lia.
Qed.

Lemma node_is_empty_true n : node_is_empty n = true <-> n = Empty.
Proof. destruct n; cbn; split; congruence. Qed.

Lemma node_is_empty_false n : node_is_empty n = false <-> n <> Empty.
Proof. destruct n; cbn; split; congruence. Qed.

Lemma count_pos ch : 1 <= get_num_non_empty_children ch ->
  exists i c, nth_error ch i = Some c /\ c <> Empty.
Proof.
  unfold get_num_non_empty_children. induction ch as [|x ch IH]; cbn [filter length]; [lia|].
  destruct (node_is_empty x) eqn:E; cbn [negb].
  - intros H. destruct (IH H) as (i & c & Hi & Hc). exists (S i), c. auto.
  - intros _. exists 0, x. split; auto. now apply node_is_empty_false.
Qed.

Lemma count_two ch : 2 <= get_num_non_empty_children ch ->
  exists i j ci cj, i <> j /\ nth_error ch i = Some ci /\ nth_error ch j = Some cj /\
    ci <> Empty /\ cj <> Empty.
Proof.
  intros H. destruct (count_pos ch) as (i & ci & Hi & Ni); [lia|].
  rewrite (count_set_empty _ _ _ Hi) in H. apply node_is_empty_false in Ni as Nb. rewrite Nb in H.
  destruct (count_pos (set_child ch i Empty)) as (j & cj & Hj & Nj); [lia|].
  rewrite nth_error_set_child in Hj. destruct (Nat.eqb_spec i j) as [->|Hne].
  - destruct (j <? length ch); congruence.
  - exists i, j, ci, cj. auto.
Qed.

Lemma count_le2_others ch i ci j cj m cm :
  get_num_non_empty_children ch <= 2 -> i <> j -> m <> i -> m <> j ->
  nth_error ch i = Some ci -> nth_error ch j = Some cj -> nth_error ch m = Some cm ->
  ci <> Empty -> cj <> Empty -> cm = Empty.
Proof.
  intros H Hij Hmi Hmj Ei Ej Em Ni Nj. destruct (node_is_empty cm) eqn:Nm.
  - now apply node_is_empty_true.
  - exfalso. apply node_is_empty_false in Ni, Nj.
    rewrite (count_set_empty _ _ _ Ei), Ni in H.
    rewrite (count_set_empty (set_child ch i Empty) j cj) in H.
    2:{ rewrite nth_error_set_child. destruct (Nat.eqb_spec i j); congruence. }
    rewrite Nj in H.
    rewrite (count_set_empty (set_child (set_child ch i Empty) j Empty) m cm) in H.
    2:{ rewrite !nth_error_set_child. destruct (Nat.eqb_spec j m); [congruence|].
        destruct (Nat.eqb_spec i m); congruence. }
    rewrite Nm in H. lia.
Qed.

Lemma get_other_spec ch : forall b our,
  match get_other_non_empty_child b ch our with
  | Some (i, c) => b <= i /\ nth_error ch (i - b) = Some c /\ i <> our /\ c <> Empty
  | None => forall j c, nth_error ch j = Some c -> b + j <> our -> c = Empty
  end.
Proof.
  induction ch as [|x ch IH]; intros b our; cbn [get_other_non_empty_child].
  - intros [|j] c; discriminate.
  - destruct (Nat.eqb_spec b our) as [->|Hne]; cbn [negb andb].
    + specialize (IH (S our) our). destruct (get_other_non_empty_child (S our) ch our) as [[i c]|].
      * destruct IH as (H1 & H2 & H3 & H4). repeat split; auto; [lia|].
        replace (i - our) with (S (i - S our)) by lia. exact H2.
      * intros [|j] c Hj Hn; [lia|]. apply (IH j c); auto. lia.
    + destruct (node_is_empty x) eqn:E; cbn [negb].
      * specialize (IH (S b) our). destruct (get_other_non_empty_child (S b) ch our) as [[i c]|].
        -- destruct IH as (H1 & H2 & H3 & H4). repeat split; auto; [lia|].
           replace (i - b) with (S (i - S b)) by lia. exact H2.
        -- intros [|j] c Hj Hn.
           ++ cbn in Hj. injection Hj as <-. now apply node_is_empty_true.
           ++ apply (IH j c); auto. lia.
      * rewrite Nat.sub_diag. apply node_is_empty_false in E. auto.
Qed.

(** ** Delete *)

Definition hash_free (n : node) : Prop := forall k h, look n k <> Some (VHash h).
Definition bounded (n : node) : Prop := forall k x, look n k = Some x -> length k <= 64.

(** Canonical, or an extension over any non-empty canonical node (which the
    caller one level up will collapse). *)
Definition precanon (n : node) : Prop :=
  canon n \/ exists ns c, n = Ext ns c /\ ns <> [] /\ nibs_ok ns /\ canon c /\ c <> Empty.

Lemma look_ext_ext a b c k : look (Ext a (Ext b c)) k = look (Ext (a ++ b) c) k.
Proof.
  cbn [look]. destruct (strip a k) as [r|] eqn:S1.
  - apply strip_some in S1 as ->. destruct (strip b r) as [q|] eqn:S2.
    + apply strip_some in S2 as ->. now rewrite app_assoc, strip_app.
    + destruct (strip (a ++ b) (a ++ r)) as [q|] eqn:S3; auto.
      apply strip_some in S3. rewrite <- app_assoc in S3. apply app_inv_head in S3. subst.
      now rewrite strip_app in S2.
  - destruct (strip (a ++ b) k) as [q|] eqn:S3; auto.
    apply strip_some in S3. rewrite <- app_assoc in S3. subst. now rewrite strip_app in S1.
Qed.

Lemma look_ext_leaf a b v k : look (Ext a (Leaf b v)) k = look (Leaf (a ++ b) v) k.
Proof.
  cbn [look]. destruct (strip a k) as [r|] eqn:S1.
  - apply strip_some in S1 as ->. destruct (nibbles_eqb b r) eqn:E.
    + apply nibbles_eqb_eq in E as ->. now rewrite nibbles_eqb_refl.
    + apply nibbles_eqb_neq in E. replace (nibbles_eqb _ _) with false; auto.
      symmetry. apply nibbles_eqb_neq. intros H. apply app_inv_head in H. congruence.
  - replace (nibbles_eqb _ _) with false; auto. symmetry. apply nibbles_eqb_neq.
    intros <-. now rewrite strip_app in S1.
Qed.

Lemma hash_free_ext ns c : hash_free (Ext ns c) -> hash_free c.
Proof. intros H k h E. apply (H (ns ++ k) h). now rewrite look_ext_app. Qed.

Lemma hash_free_child ch v i c : hash_free (Branch ch v) -> nth_error ch i = Some c -> hash_free c.
Proof. intros H Hc k h E. apply (H (i :: k) h). now rewrite look_branch, Hc. Qed.

Lemma hash_free_not_hash h : ~ hash_free (Hash h).
Proof. intros H. now apply (H [] h). Qed.

Lemma bounded_ext ns c : bounded (Ext ns c) -> bounded c.
Proof.
  intros H k x E. specialize (H (ns ++ k) x). rewrite look_ext_app, app_length in H.
  specialize (H E). lia.
Qed.

Lemma bounded_child ch v i c : bounded (Branch ch v) -> nth_error ch i = Some c -> bounded c.
Proof.
  intros H Hc k x E. specialize (H (i :: k) x). rewrite look_branch, Hc in H. specialize (H E). cbn in H. lia.
Qed.

Lemma merge_ok a b : length a + length b <= 64 -> merge_nibbles a b = Ok (a ++ b).
Proof. intros H. unfold merge_nibbles. apply Nat.leb_le in H. now rewrite H. Qed.

(** One collapse step makes a pending extension canonical. *)
Lemma collapse_canon ns c key s :
  ns <> [] -> nibs_ok ns -> canon c -> c <> Empty -> hash_free (Ext ns c) -> bounded (Ext ns c) ->
  exists n', collapse_ext ns c key s = Ok n' /\ canon n' /\ n' <> Empty /\
    (forall k, look n' k = look (Ext ns c) k).
Proof.
  intros Hne Hns C NE HF HB. destruct c as [|h|ch v|ns2 c2|ns2 v]; cbn [collapse_ext].
  - congruence.
  - apply hash_free_ext in HF. now apply hash_free_not_hash in HF.
  - exists (Ext ns (Branch ch v)). repeat split; auto; [|discriminate].
    constructor; auto. exact I.
  - destruct (canon_ext_inv _ _ C) as (Hne2 & Hns2 & Hb2 & C2).
    destruct (canon_nonempty c2 C2) as (k & x & Hk); [destruct c2; easy|].
    rewrite merge_ok.
    + cbn. exists (Ext (ns ++ ns2) c2). repeat split; auto; [|discriminate|].
      * constructor; auto; [|now apply nibs_ok_app]. destruct ns; [congruence|discriminate].
      * intros k'. symmetry; apply look_ext_ext.
    + assert (length (ns ++ ns2 ++ k) <= 64) as HL.
      { apply (HB _ x). now rewrite !look_ext_app. }
      rewrite !app_length in HL. lia.
  - rewrite merge_ok.
    + cbn. exists (Leaf (ns ++ ns2) v). repeat split; auto; [|discriminate|].
      * constructor. apply nibs_ok_app. split; auto. now apply canon_leaf_inv in C.
      * intros k'. symmetry; apply look_ext_leaf.
    + assert (length (ns ++ ns2) <= 64) as HL.
      { apply (HB _ (Val v)). rewrite look_ext_app. cbn. now rewrite nibbles_eqb_refl. }
      now rewrite app_length in HL.
Qed.

Lemma try_collapse_canon n key s :
  precanon n -> hash_free n -> bounded n ->
  exists n', try_collapse_if_extension n key s = Ok n' /\ canon n' /\ (n = Empty <-> n' = Empty) /\
    (forall k, look n' k = look n k).
Proof.
  intros [C|(ns & c & -> & Hne & Hns & C & NE)] HF HB.
  - destruct n as [|h|ch v|ns c|ns v]; cbn [try_collapse_if_extension];
      try (eexists; split; [reflexivity|]; repeat split; auto; fail).
    destruct (canon_ext_inv _ _ C) as (Hne & Hns & Hb & Cc).
    destruct (collapse_canon ns c key s) as (n' & E & C' & NE' & L'); auto.
    { destruct c; easy. }
    exists n'. repeat split; auto; congruence.
  - destruct (collapse_canon ns c key s) as (n' & E & C' & NE' & L'); auto.
    exists n'. repeat split; auto; congruence.
Qed.

Lemma delete_ok n : forall k s,
  canon n -> hash_free n -> bounded n -> compat k n ->
  match look n k with
  | None => delete_intern n k s = Ok None
  | Some (VHash _) => False
  | Some (Val x) =>
      exists n', delete_intern n k s = Ok (Some (n', x)) /\ precanon n' /\
        (is_branch n -> is_branch n' \/ exists ns c, n' = Ext ns c) /\
        (forall k', look n' k' = if key_eq_dec k' k then None else look n k')
  end.
Proof.
  induction n as [ | h | ch w IH | ns c IH | ns w ] using node_ind'; intros k s C HF HB P.
  - reflexivity.
  - now apply hash_free_not_hash in HF.
  - apply compat_branch_inv in P as (i & k1 & c & -> & Hc & P).
    destruct (canon_branch_inv _ _ C) as (-> & HL16 & HC & Htwo).
    rewrite look_branch, delete_branch, Hc.
    specialize (IH _ _ Hc k1 s (HC _ _ Hc) (hash_free_child _ _ _ _ HF Hc) (bounded_child _ _ _ _ HB Hc) P).
    destruct (look c k1) as [[x|h]|] eqn:Lc; auto.
    2:{ now rewrite IH. }
    destruct IH as (u & E & PC & _ & LU). rewrite E. cbn [bind].
    assert (Nc : c <> Empty) by (intros ->; discriminate).
    assert (Hi16 : i < length ch) by (apply nth_error_Some; congruence).
    (* the deleted child's lookup, seen from the branch *)
    assert (Q : forall u' k', (forall q, look u' q = look u q) ->
              look (Branch (set_child ch i u') []) k' =
              (if key_eq_dec k' (i :: k1) then None else look (Branch ch []) k')).
    { intros u' k' Hu. destruct k' as [|j k']; [now rewrite if_key_eq_nil_cons|].
      rewrite !look_branch, nth_error_set_child. destruct (Nat.eqb_spec i j) as [<-|Hij].
      - apply Nat.ltb_lt in Hi16 as Hb. rewrite Hb, Hc, Hu, LU.
        destruct (key_eq_dec k' k1) as [->|Hne].
        + destruct (key_eq_dec (i :: k1) (i :: k1)); congruence.
        + destruct (key_eq_dec (i :: k') (i :: k1)); congruence.
      - destruct (key_eq_dec (j :: k') (i :: k1)); congruence. }
    destruct (node_is_empty u && (get_num_non_empty_children ch <=? 2)) eqn:Ecol.
    + apply andb_true_iff in Ecol as [Eu Ele].
      apply node_is_empty_true in Eu as ->. apply Nat.leb_le in Ele.
      pose proof (get_other_spec ch 0 i) as GO.
      destruct (get_other_non_empty_child 0 ch i) as [[m cm]|] eqn:Eo.
      * destruct GO as (_ & Hm & Hmi & Ncm). rewrite Nat.sub_0_r in Hm.
        exists (Ext [m] cm). split; auto. split; [|split].
        -- right. exists [m], cm. repeat split; auto; [discriminate| |eauto].
           constructor; [|constructor].
           assert (m < length ch) by (apply nth_error_Some; congruence). lia.
        -- intros _. right. eauto.
        -- intros k'. rewrite <- (Q Empty) by auto.
           destruct k' as [|j k']; [reflexivity|].
           rewrite look_branch, nth_error_set_child.
           change (look (Ext [m] cm) (j :: k')) with
             (match (if m =? j then Some k' else None) with Some k'' => look cm k'' | None => None end).
           destruct (Nat.eqb_spec i j) as [<-|Hij].
           ++ apply Nat.ltb_lt in Hi16 as Hb. rewrite Hb. destruct (Nat.eqb_spec m i); [congruence|reflexivity].
           ++ destruct (Nat.eqb_spec m j) as [<-|Hmj]; [now rewrite Hm|].
              destruct (nth_error ch j) as [cj|] eqn:Ej; auto.
              rewrite (count_le2_others ch i c m cm j cj); auto.
      * exfalso. destruct Htwo as (a & b & ca & cb & Hab & Ha & Hb & Na & Nb).
        destruct (Nat.eq_dec a i) as [->|Hai].
        -- apply Nb. apply (GO b cb); auto.
        -- apply Na. apply (GO a ca); auto.
    + assert (HFu : hash_free u).
      { intros q h Hq. rewrite LU in Hq. destruct (key_eq_dec q k1); [discriminate|].
        now apply (hash_free_child _ _ _ _ HF Hc) in Hq. }
      assert (HBu : bounded u).
      { intros q y Hq. rewrite LU in Hq. destruct (key_eq_dec q k1); [discriminate|].
        now apply (bounded_child _ _ _ _ HB Hc) in Hq. }
      destruct (try_collapse_canon u k1 s PC HFu HBu) as (u' & E' & C' & NE' & L').
      rewrite E'. cbn [bind]. exists (Branch (set_child ch i u') []).
      split; auto. split; [|split; [left; exact I|auto]].
      left. constructor.
      * now rewrite set_child_length.
      * intros j cj. rewrite nth_error_set_child. destruct (i =? j).
        -- destruct (i <? length ch); [|discriminate]. now intros [= <-].
        -- apply HC.
      * apply andb_false_iff in Ecol as [Eu|Egt].
        -- apply node_is_empty_false in Eu.
           assert (u' <> Empty) as Nu' by (rewrite <- NE'; auto).
           destruct Htwo as (a & b & ca & cb & Hab & Ha & Hb & Na & Nb).
           assert (Q2 : forall m cm, nth_error ch m = Some cm -> cm <> Empty ->
                exists cm', nth_error (set_child ch i u') m = Some cm' /\ cm' <> Empty).
           { intros m cm Hm Nm. rewrite nth_error_set_child. destruct (i =? m); eauto.
             destruct (Nat.ltb_spec i (length ch)); [eauto|lia]. }
           destruct (Q2 _ _ Ha Na) as (ca' & ? & ?). destruct (Q2 _ _ Hb Nb) as (cb' & ? & ?).
           exists a, b, ca', cb'. auto.
        -- apply Nat.leb_gt in Egt. rewrite (count_set_empty _ _ _ Hc) in Egt.
           apply node_is_empty_false in Nc. rewrite Nc in Egt.
           destruct (count_two (set_child ch i Empty)) as (a & b & ca & cb & Hab & Ha & Hb & Na & Nb); [lia|].
           assert (Q3 : forall m cm, nth_error (set_child ch i Empty) m = Some cm -> cm <> Empty ->
                nth_error (set_child ch i u') m = Some cm).
           { intros m cm. rewrite !nth_error_set_child. destruct (i =? m); auto.
             destruct (i <? length ch); congruence. }
           exists a, b, ca, cb. auto.
  - destruct (canon_ext_inv _ _ C) as (Hne & Hns & Hb & Cc).
    apply compat_ext_inv in P as [D|(k1 & -> & P)].
    + rewrite look_ext_diverge by auto. cbn [delete_intern].
      apply identical_diverge in D. now rewrite D.
    + rewrite look_ext_app. cbn [delete_intern]. rewrite identical_app.
      unfold truncate_front. rewrite skipn_app_exact.
      specialize (IH k1 s Cc (hash_free_ext _ _ HF) (bounded_ext _ _ HB) P).
      destruct (look c k1) as [[x|h]|] eqn:Lc; auto.
      2:{ now rewrite IH. }
      destruct IH as (u & E & PC & HBr & LU). rewrite E. cbn [bind].
      assert (is_branch c) as Hbr by (destruct c; easy).
      assert (Q : forall k', look (Ext ns u) k' = if key_eq_dec k' (ns ++ k1) then None else look (Ext ns c) k').
      { intros k'. cbn [look]. destruct (strip ns k') as [r|] eqn:S.
        - apply strip_some in S as ->. rewrite LU.
          destruct (key_eq_dec r k1) as [->|Hr].
          + destruct (key_eq_dec (ns ++ k1) (ns ++ k1)); congruence.
          + destruct (key_eq_dec (ns ++ r) (ns ++ k1)) as [Heq|]; auto.
            apply app_inv_head in Heq. congruence.
        - destruct (key_eq_dec k' (ns ++ k1)); auto. }
      destruct (HBr Hbr) as [Bu|(ns2 & c2 & ->)].
      * destruct u as [|h|ch v| |]; try easy. cbn [collapse_ext bind].
        exists (Ext ns (Branch ch v)). split; auto. split; [|split; [easy|auto]].
        left. destruct PC as [PC|(a & b & [=] & _)]. apply CExt; auto.
      * cbn [collapse_ext].
        assert (PC2 : ns2 <> [] /\ nibs_ok ns2 /\ canon c2 /\ c2 <> Empty).
        { destruct PC as [PC|(a & b & [= <- <-] & ? & ? & ? & ?)]; auto.
          apply canon_ext_inv in PC as (? & ? & ? & ?). repeat split; auto. now destruct c2. }
        destruct PC2 as (Hne2 & Hns2 & C2 & NE2).
        destruct (canon_nonempty c2 C2 NE2) as (q & y & Hq).
        rewrite merge_ok.
        2:{ assert (length (ns ++ ns2 ++ q) <= 64) as HL.
            { apply (HB _ y). specialize (Q (ns ++ ns2 ++ q)). rewrite !look_ext_app in Q.
              rewrite Hq in Q. rewrite look_ext_app. destruct (key_eq_dec _ _); [discriminate|auto]. }
            rewrite !app_length in HL. lia. }
        cbn [bind]. exists (Ext (ns ++ ns2) c2). split; auto. split; [|split; [easy|]].
        -- right. exists (ns ++ ns2), c2. repeat split; auto; [|now apply nibs_ok_app].
           destruct ns; [congruence|discriminate].
        -- intros k'. rewrite <- look_ext_ext. apply Q.
  - apply compat_leaf_inv in P as [->|D]; cbn [look delete_intern].
    + rewrite nibbles_eqb_refl. exists Empty. split; auto. split; [left; constructor|]. split; [easy|].
      intros k'. destruct (key_eq_dec k' ns) as [|Hne]; auto. cbn [look].
      assert (ns <> k') as Hn by congruence. apply nibbles_eqb_neq in Hn. now rewrite Hn.
    + apply diverge_neq, nibbles_eqb_neq in D. now rewrite D.
Qed.

Lemma trie_delete_ok n k s :
  canon n -> hash_free n -> bounded n -> compat k n ->
  exists n', trie_delete n k s = Ok (n', match look n k with Some (Val x) => Some x | _ => None end) /\
    canon n' /\ (forall k', look n' k' = if key_eq_dec k' k then None else look n k').
Proof.
  intros C HF HB P. pose proof (delete_ok n k s C HF HB P) as D. unfold trie_delete.
  destruct (look n k) as [[x|h]|] eqn:L; [|easy|].
  - destruct D as (u & E & PC & _ & LU). rewrite E. cbn [bind].
    assert (HFu : hash_free u).
    { intros q h Hq. rewrite LU in Hq. destruct (key_eq_dec q k); [discriminate|]. now apply HF in Hq. }
    assert (HBu : bounded u).
    { intros q y Hq. rewrite LU in Hq. destruct (key_eq_dec q k); [discriminate|]. now apply HB in Hq. }
    destruct (try_collapse_canon u [] s PC HFu HBu) as (u' & E' & C' & NE' & L').
    rewrite E'. cbn [bind]. exists u'. repeat split; auto. intros k'. now rewrite L', LU.
  - rewrite D. cbn [bind]. exists n. repeat split; auto.
    intros k'. destruct (key_eq_dec k' k) as [->|]; auto.
Qed.
