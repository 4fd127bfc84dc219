(** Proof devices for the trie model: exact lookup, canonical form, and the
    characterisation of insert/get/delete by exact lookup. *)

From Coq Require Import List Arith NArith Bool Lia.
From Verif.Mpt Require Import TrieModel TrieSpec.
Import ListNotations.

(** ** Induction principle for nodes *)
Section NodeInd.
  Variable P : node -> Prop.
  Hypothesis HE : P Empty.
  Hypothesis HH : forall h, P (Hash h).
  Hypothesis HB : forall ch v, (forall i c, nth_error ch i = Some c -> P c) -> P (Branch ch v).
  Hypothesis HX : forall ns c, P c -> P (Ext ns c).
  Hypothesis HL : forall ns v, P (Leaf ns v).

  Lemma node_ind' : forall n : node, P n.
  Proof.
    fix self 1. intros [|h|ch v|ns c|ns v].
    - apply HE.
    - apply HH.
    - apply HB. revert ch. fix go 1. intros [|x t] [|i] c H; cbn in H; try discriminate.
      + injection H as <-. apply self.
      + exact (go t i c H).
    - apply HX, self.
    - apply HL.
  Qed.
End NodeInd.

(** ** Lists of nibbles *)
Lemma nibbles_eqb_eq a : forall b, nibbles_eqb a b = true <-> a = b.
Proof.
  induction a as [|x a IH]; destruct b as [|y b]; cbn; try (split; congruence).
  rewrite andb_true_iff, IH, Nat.eqb_eq. split; [intros [-> ->]; auto | intros [= -> ->]; auto].
Qed.

Lemma nibbles_eqb_neq a b : nibbles_eqb a b = false <-> a <> b.
Proof.
  rewrite <- nibbles_eqb_eq. destruct (nibbles_eqb a b); split; congruence.
Qed.

Lemma nibbles_eqb_refl a : nibbles_eqb a a = true.
Proof. now apply nibbles_eqb_eq. Qed.

(** Two sequences that differ at a common index. *)
Fixpoint diverge (a b : nibbles) : Prop :=
  match a, b with
  | x :: a', y :: b' => x <> y \/ (x = y /\ diverge a' b')
  | _, _ => False
  end.

Lemma diverge_sym a : forall b, diverge a b -> diverge b a.
Proof. induction a; destruct b; cbn; intuition. Qed.

Lemma diverge_app_l p a b : diverge (p ++ a) (p ++ b) <-> diverge a b.
Proof. induction p; cbn; intuition. Qed.

Lemma diverge_split a : forall b, diverge a b <->
  exists p x y a' b', a = p ++ x :: a' /\ b = p ++ y :: b' /\ x <> y.
Proof.
  induction a as [|x a IH]; intros b; split.
  - intros [].
  - intros (p & x & y & a' & b' & H & _). destruct p; discriminate.
  - destruct b as [|y b]; [intros [] | cbn]. intros [H|[-> H]].
    + exists [], x, y, a, b. auto.
    + apply IH in H as (p & x' & y' & a' & b' & -> & -> & Hne).
      exists (y :: p), x', y', a', b'. auto.
  - intros (p & x' & y' & a' & b' & Ha & -> & Hne). destruct p as [|z p]; cbn in *.
    + injection Ha as -> ->. auto.
    + injection Ha as -> ->. right. split; auto. apply IH. eauto 10.
Qed.

Lemma diverge_or_prefix a : forall b,
  diverge a b \/ is_prefix a b \/ is_prefix b a.
Proof.
  induction a as [|x a IH]; intros b.
  - right; left. exists b; auto.
  - destruct b as [|y b].
    + right; right. exists (x :: a); auto.
    + destruct (Nat.eq_dec x y) as [->|Hne]; [|left; cbn; auto].
      destruct (IH b) as [H|[[c ->]|[c ->]]].
      * left; cbn; auto.
      * right; left; exists c; auto.
      * right; right; exists c; auto.
Qed.

Lemma diverge_neq a b : diverge a b -> a <> b.
Proof.
  rewrite diverge_split. intros (p & x & y & a' & b' & -> & -> & Hne) H.
  apply app_inv_head in H. congruence.
Qed.

Lemma identical_diverge a : forall b, identical_up_to_smallest a b = false <-> diverge a b.
Proof.
  induction a as [|x a IH]; destruct b as [|y b]; cbn; try (split; [discriminate|tauto]).
  rewrite andb_false_iff, IH, Nat.eqb_neq.
  destruct (Nat.eq_dec x y); intuition.
Qed.

Lemma identical_app a b : identical_up_to_smallest a (a ++ b) = true.
Proof. induction a; cbn; auto. now rewrite Nat.eqb_refl. Qed.

Lemma identical_refl a : identical_up_to_smallest a a = true.
Proof. rewrite <- (app_nil_r a) at 2. apply identical_app. Qed.

Lemma diff_idx_app p x y a b : x <> y -> diff_idx (p ++ x :: a) (p ++ y :: b) = length p.
Proof.
  intros H. induction p as [|z p IH]; cbn.
  - apply Nat.eqb_neq in H. now rewrite H.
  - now rewrite Nat.eqb_refl, IH.
Qed.

Lemma firstn_app_exact {A} (p q : list A) : firstn (length p) (p ++ q) = p.
Proof. now rewrite firstn_app, Nat.sub_diag, firstn_all, firstn_O, app_nil_r. Qed.

Lemma skipn_app_exact {A} (p q : list A) : skipn (length p) (p ++ q) = q.
Proof. now rewrite skipn_app, Nat.sub_diag, skipn_all. Qed.

(** ** Child arrays *)
Lemma set_child_length ch : forall i c, length (set_child ch i c) = length ch.
Proof. induction ch; destruct i; cbn; auto. Qed.

Lemma nth_error_set_child ch : forall i j c,
  nth_error (set_child ch i c) j =
  if Nat.eqb i j then (if i <? length ch then Some c else None) else nth_error ch j.
Proof.
  induction ch as [|x ch IH]; intros i j c.
  - destruct i, j; cbn; auto. now destruct (Nat.eqb i j).
  - destruct i, j; cbn [set_child nth_error Nat.eqb length]; auto.
    rewrite IH. now change (S i <? S (length ch)) with (i <? length ch).
Qed.

Lemma nth_error_repeat_Empty n : forall i, nth_error (repeat Empty n) i = if i <? n then Some Empty else None.
Proof.
  induction n; destruct i; cbn; auto. now rewrite IHn.
Qed.

Lemma nth_error_lt {A} (l : list A) i : i < length l -> exists x, nth_error l i = Some x.
Proof.
  intros H. destruct (nth_error l i) eqn:E; eauto. apply nth_error_None in E. lia.
Qed.

Lemma nth_error_ext {A} : forall l1 l2 : list A,
  (forall i, nth_error l1 i = nth_error l2 i) -> l1 = l2.
Proof.
  induction l1 as [|x l1 IH]; destruct l2 as [|y l2]; intros H; auto.
  - specialize (H 0). discriminate.
  - specialize (H 0). discriminate.
  - pose proof (H 0) as H0. cbn in H0. f_equal; [congruence|].
    apply IH. intros i. exact (H (S i)).
Qed.

(** ** Exact lookup *)
Fixpoint strip (p k : nibbles) : option nibbles :=
  match p, k with
  | [], _ => Some k
  | x :: p', y :: k' => if Nat.eqb x y then strip p' k' else None
  | _ :: _, [] => None
  end.

Lemma strip_some p : forall k r, strip p k = Some r <-> k = p ++ r.
Proof.
  induction p as [|x p IH]; intros k r; cbn.
  - split; congruence.
  - destruct k as [|y k]; [split; discriminate|].
    destruct (Nat.eqb_spec x y) as [->|Hne].
    + rewrite IH. split; [intros ->|intros [= ->]]; auto.
    + split; [discriminate | intros [= -> _]; congruence].
Qed.

Lemma strip_app p r : strip p (p ++ r) = Some r.
Proof. now apply strip_some. Qed.

Lemma strip_diverge p k : diverge p k -> strip p k = None.
Proof.
  destruct (strip p k) eqn:E; auto. apply strip_some in E. subst.
  intros H. rewrite <- (app_nil_r p) in H at 1. apply diverge_app_l in H. destruct H.
Qed.

Fixpoint look (n : node) (k : nibbles) {struct n} : option val_or_hash :=
  match n with
  | Empty => None
  | Hash h => match k with [] => Some (VHash h) | _ => None end
  | Branch ch v =>
      match k with
      | [] => match v with [] => None | _ => Some (Val v) end
      | i :: k' =>
          (fix at_child (l : list node) (i : nat) : option val_or_hash :=
             match l, i with
             | [], _ => None
             | c :: _, 0 => look c k'
             | _ :: t, S i' => at_child t i'
             end) ch i
      end
  | Ext ns c => match strip ns k with Some k' => look c k' | None => None end
  | Leaf ns v => if nibbles_eqb ns k then Some (Val v) else None
  end.

Lemma look_branch ch v i k :
  look (Branch ch v) (i :: k) = match nth_error ch i with Some c => look c k | None => None end.
Proof.
  cbn [look]. revert i. induction ch as [|c ch IH]; destruct i; cbn; auto.
Qed.

Lemma trie_get_branch ch v i k :
  trie_get (Branch ch v) (i :: k) = match nth_error ch i with Some c => trie_get c k | None => Panic end.
Proof.
  cbn [trie_get]. revert i. induction ch as [|c ch IH]; destruct i; cbn; auto.
Qed.

Lemma insert_branch ch v i k x :
  insert_rec (Branch ch v) (i :: k) x =
  match nth_error ch i with
  | Some c => bind (insert_rec c k x) (fun u => Ok (Branch (set_child ch i u) v))
  | None => Panic
  end.
Proof.
  cbn [insert_rec].
  assert (H : forall l, (fix at_child (ch : list node) (i : nat) {struct ch} : res node :=
     match ch with [] => Panic | c :: t => match i with 0 => insert_rec c k x | S i' => at_child t i' end end) l i
     = match nth_error l i with Some c => insert_rec c k x | None => Panic end).
  { revert i. intros i l. revert i. induction l as [|c l IH]; destruct i; cbn; auto. }
  rewrite H. destruct (nth_error ch i); auto.
Qed.

Lemma delete_branch ch v i k s :
  delete_intern (Branch ch v) (i :: k) s =
  match nth_error ch i with
  | None => Panic
  | Some c =>
      bind (delete_intern c k s)
        (fun r =>
           match r with
           | None => Ok None
           | Some (updated, deleted) =>
               if node_is_empty updated && (get_num_non_empty_children ch <=? 2) then
                 match get_other_non_empty_child 0 ch i with
                 | None => Panic
                 | Some (i, c) => Ok (Some (Ext [i] c, deleted))
                 end
               else
                 bind (try_collapse_if_extension updated k s)
                   (fun u => Ok (Some (Branch (set_child ch i u) v, deleted)))
           end)
  end.
Proof.
  cbn [delete_intern].
  assert (H : forall l, (fix at_child (ch : list node) (i : nat) {struct ch} : res (option (node * bytes)) :=
     match ch with [] => Panic | c :: t => match i with 0 => delete_intern c k s | S i' => at_child t i' end end) l i
     = match nth_error l i with Some c => delete_intern c k s | None => Panic end).
  { revert i. intros i l. revert i. induction l as [|c l IH]; destruct i; cbn; auto. }
  rewrite H. destruct (nth_error ch i); auto.
Qed.

(** ** Canonical tries *)
Definition branch_or_hash (n : node) : Prop :=
  match n with Branch _ _ | Hash _ => True | _ => False end.

Definition nibs_ok (k : nibbles) : Prop := Forall (fun n => n < 16) k.

Inductive canon : node -> Prop :=
| CEmpty : canon Empty
| CHash h : canon (Hash h)
| CLeaf ns v : nibs_ok ns -> canon (Leaf ns v)
| CExt ns c : ns <> [] -> nibs_ok ns -> branch_or_hash c -> canon c -> canon (Ext ns c)
| CBranch ch :
    length ch = 16 ->
    (forall i c, nth_error ch i = Some c -> canon c) ->
    (exists i j ci cj, i <> j /\ nth_error ch i = Some ci /\ nth_error ch j = Some cj /\
       ci <> Empty /\ cj <> Empty) ->
    canon (Branch ch []).

(** [k] can be inserted in / looked up in [n]: it is not a proper prefix nor a
    proper extension of any path of [n], and does not run into a hash node. *)
Inductive compat : nibbles -> node -> Prop :=
| PEmpty k : compat k Empty
| PLeafEq k v : compat k (Leaf k v)
| PLeaf k ns v : diverge ns k -> compat k (Leaf ns v)
| PExt k ns c : diverge ns k -> compat k (Ext ns c)
| PExtIn k ns c : compat k c -> compat (ns ++ k) (Ext ns c)
| PBranch i k ch v c : nth_error ch i = Some c -> compat k c -> compat (i :: k) (Branch ch v).


Lemma canon_ext_inv ns c : canon (Ext ns c) -> ns <> [] /\ nibs_ok ns /\ branch_or_hash c /\ canon c.
Proof. inversion 1; auto. Qed.

Lemma canon_branch_inv ch v : canon (Branch ch v) ->
  v = [] /\ length ch = 16 /\ (forall i c, nth_error ch i = Some c -> canon c) /\
  (exists i j ci cj, i <> j /\ nth_error ch i = Some ci /\ nth_error ch j = Some cj /\
       ci <> Empty /\ cj <> Empty).
Proof. inversion 1; auto. Qed.

Lemma canon_leaf_inv ns v : canon (Leaf ns v) -> nibs_ok ns.
Proof. inversion 1; auto. Qed.

Lemma compat_hash_inv k h : ~ compat k (Hash h).
Proof. inversion 1. Qed.

Lemma compat_leaf_inv k ns v : compat k (Leaf ns v) -> k = ns \/ diverge ns k.
Proof. inversion 1; auto. Qed.

Lemma compat_ext_inv k ns c : compat k (Ext ns c) ->
  diverge ns k \/ exists k', k = ns ++ k' /\ compat k' c.
Proof. inversion 1; subst; eauto. Qed.

Lemma compat_branch_inv k ch v : compat k (Branch ch v) ->
  exists i k' c, k = i :: k' /\ nth_error ch i = Some c /\ compat k' c.
Proof. inversion 1; subst; eauto 10. Qed.

Lemma look_ext_app ns c k : look (Ext ns c) (ns ++ k) = look c k.
Proof. cbn. now rewrite strip_app. Qed.

Lemma look_ext_diverge ns c k : diverge ns k -> look (Ext ns c) k = None.
Proof. intros H. cbn. now rewrite strip_diverge. Qed.

Lemma look_compat_get n : forall k, compat k n ->
  (look n k = None /\ trie_get n k = Panic) \/
  trie_get n k = Ok (match look n k with Some (Val v) => Some v | _ => None end).
Proof.
  induction n as [ | h | ch v IH | ns c IH | ns v ] using node_ind'; intros k H.
  - right. reflexivity.
  - now apply compat_hash_inv in H.
  - apply compat_branch_inv in H as (i & k' & c & -> & Hc & H).
    rewrite trie_get_branch, look_branch, Hc. eauto.
  - apply compat_ext_inv in H as [H|(k' & -> & H)]; cbn [trie_get look].
    + rewrite (strip_diverge _ _ H).
      destruct (Nat.ltb_spec (length k) (length ns)) as [Hlt|Hge]; [auto|right].
      apply diverge_split in H as (p & x & y & a' & b' & -> & -> & Hne).
      replace (identical_up_to_smallest _ _) with false; auto.
      symmetry. apply identical_diverge. rewrite app_length in *. cbn in *.
      rewrite firstn_app. rewrite firstn_all2 by lia.
      replace (length p + S (length a') - length p) with (S (length a')) by lia.
      apply diverge_app_l. cbn. auto.
    + rewrite strip_app, app_length.
      destruct (Nat.ltb_spec (length ns + length k') (length ns)) as [Hlt|Hge]; [lia|].
      rewrite firstn_app_exact, skipn_app_exact, identical_refl. eauto.
  - right. apply compat_leaf_inv in H as [->|H]; cbn.
    + now rewrite identical_refl, nibbles_eqb_refl.
    + apply diverge_neq in H as Hn. apply nibbles_eqb_neq in Hn.
      apply identical_diverge in H. now rewrite H, Hn.
Qed.

Lemma canon_nonempty n : canon n -> n <> Empty -> exists k v, look n k = Some v.
Proof.
  induction 1 as [| h | ns v Hn | ns c Hne Hn Hb Hc IH | ch Hl Hc IH Htwo]; intros HE.
  - congruence.
  - exists [], (VHash h). auto.
  - exists ns, (Val v). cbn. now rewrite nibbles_eqb_refl.
  - destruct IH as (k & v & Hk); [destruct c; easy|].
    exists (ns ++ k), v. now rewrite look_ext_app.
  - destruct Htwo as (i & j & ci & cj & Hij & Hi & Hj & Hci & Hcj).
    destruct (IH i ci Hi Hci) as (k & v & Hk).
    exists (i :: k), v. now rewrite look_branch, Hi.
Qed.

Lemma canon_branch_two ch : canon (Branch ch []) ->
  exists i j ki kj vi vj, i <> j /\ look (Branch ch []) (i :: ki) = Some vi /\
    look (Branch ch []) (j :: kj) = Some vj.
Proof.
  inversion 1 as [| | | | ch' Hl Hc Htwo]; subst.
  destruct Htwo as (i & j & ci & cj & Hij & Hi & Hj & Hci & Hcj).
  destruct (canon_nonempty ci (Hc _ _ Hi) Hci) as (ki & vi & Hki).
  destruct (canon_nonempty cj (Hc _ _ Hj) Hcj) as (kj & vj & Hkj).
  exists i, j, ki, kj, vi, vj. rewrite !look_branch, Hi, Hj. auto.
Qed.

Lemma look_leaf_some ns v k x : look (Leaf ns v) k = Some x -> k = ns /\ x = Val v.
Proof.
  cbn. destruct (nibbles_eqb ns k) eqn:E; [|discriminate].
  apply nibbles_eqb_eq in E. now intros [= <-].
Qed.

Lemma look_ext_some ns c k x : look (Ext ns c) k = Some x -> exists k', k = ns ++ k' /\ look c k' = Some x.
Proof.
  cbn. destruct (strip ns k) eqn:E; [|discriminate]. apply strip_some in E. eauto.
Qed.

Lemma app_two_prefix (p q : nibbles) i j a b a' b' :
  i <> j -> p ++ i :: a = q ++ a' -> p ++ j :: b = q ++ b' -> exists r, p = q ++ r.
Proof.
  revert q. induction p as [|x p IH]; intros q Hij H1 H2.
  - destruct q as [|y q]; [now exists []|]. cbn in *. congruence.
  - destruct q as [|y q]; [now exists (x :: p)|]. cbn in *.
    injection H1 as -> H1. injection H2 as H2.
    destruct (IH q Hij H1 H2) as [r ->]. now exists r.
Qed.

(** All keys of an extension over a canonical branch have the extension's path
    as a common prefix and two of them differ right after it. *)
Lemma canon_ext_branch_two ns ch : canon (Branch ch []) ->
  exists i j ki kj vi vj, i <> j /\ look (Ext ns (Branch ch [])) (ns ++ i :: ki) = Some vi /\
    look (Ext ns (Branch ch [])) (ns ++ j :: kj) = Some vj.
Proof.
  intros C. destruct (canon_branch_two _ C) as (i & j & ki & kj & vi & vj & Hij & Hi & Hj).
  exists i, j, ki, kj, vi, vj. now rewrite !look_ext_app.
Qed.

Lemma canon_ext_cases ns c : canon (Ext ns c) -> (exists h, c = Hash h) \/
  (exists ch, c = Branch ch [] /\ canon c).
Proof.
  intros C. apply canon_ext_inv in C as (_ & _ & Hb & Hc).
  destruct c as [|h|ch v| |]; try easy; [left; eauto|right].
  destruct (canon_branch_inv _ _ Hc) as (-> & _). eauto.
Qed.

(** A canonical trie is determined by its contents. *)
Lemma canon_unique n1 : forall n2, canon n1 -> canon n2 ->
  (forall k, look n1 k = look n2 k) -> n1 = n2.
Proof.
  induction n1 as [ | h | ch v IH | ns c IH | ns v ] using node_ind'; intros n2 C1 C2 E.
  - destruct n2; auto; exfalso;
      (destruct (canon_nonempty _ C2) as (k & x & Hk); [discriminate|]; rewrite <- E in Hk; discriminate).
  - destruct n2 as [|h2|ch2 v2|ns2 c2|ns2 v2].
    + specialize (E []). discriminate.
    + specialize (E []). cbn in E. congruence.
    + apply canon_branch_inv in C2 as (-> & _). specialize (E []). discriminate.
    + apply canon_ext_inv in C2 as (Hn & _). specialize (E []). cbn in E. destruct ns2; easy.
    + specialize (E []). cbn in E. destruct ns2; discriminate.
  - destruct (canon_branch_inv _ _ C1) as (-> & L1 & D1 & _).
    destruct (canon_branch_two _ C1) as (i & j & ki & kj & vi & vj & Hij & Hi & Hj).
    destruct n2 as [|h2|ch2 v2|ns2 c2|ns2 v2].
    + rewrite E in Hi. discriminate.
    + rewrite E in Hi. discriminate.
    + destruct (canon_branch_inv _ _ C2) as (-> & L2 & D2 & _).
      f_equal. apply nth_error_ext. intros m.
      destruct (nth_error ch m) as [c|] eqn:Em.
      * destruct (nth_error_lt ch2 m) as [c2 Em2].
        { assert (m < length ch) by (apply nth_error_Some; congruence). lia. }
        rewrite Em2. f_equal. eapply IH; eauto.
        intros k. specialize (E (m :: k)). now rewrite !look_branch, Em, Em2 in E.
      * apply nth_error_None in Em. symmetry. apply nth_error_None. lia.
    + destruct (canon_ext_inv _ _ C2) as (Hn & _). rewrite E in Hi, Hj.
      apply look_ext_some in Hi as (k1 & E1 & _). apply look_ext_some in Hj as (k2 & E2 & _).
      destruct ns2; [congruence|]. cbn in *. congruence.
    + rewrite E in Hi, Hj. apply look_leaf_some in Hi as [Hi _]. apply look_leaf_some in Hj as [Hj _].
      congruence.
  - destruct (canon_ext_inv _ _ C1) as (Hn & _ & Hb & Hc).
    destruct n2 as [|h2|ch2 v2|ns2 c2|ns2 v2].
    + destruct (canon_nonempty _ C1) as (k & x & Hk); [discriminate|]. rewrite E in Hk. discriminate.
    + specialize (E []). cbn in E. destruct ns; easy.
    + destruct (canon_branch_inv _ _ C2) as (-> & _).
      destruct (canon_branch_two _ C2) as (i & j & ki & kj & vi & vj & Hij & Hi & Hj).
      rewrite <- E in Hi, Hj.
      apply look_ext_some in Hi as (k1 & E1 & _). apply look_ext_some in Hj as (k2 & E2 & _).
      destruct ns; [congruence|]. cbn in *. congruence.
    + destruct (canon_ext_cases _ _ C1) as [[h ->]|(ch & -> & CB1)];
      destruct (canon_ext_cases _ _ C2) as [[h2 ->]|(ch2 & -> & CB2)].
      * pose proof (E (ns ++ [])) as E1. rewrite look_ext_app in E1. symmetry in E1.
        apply look_ext_some in E1 as (k1 & E1 & Hk1). cbn in Hk1. destruct k1; [|discriminate].
        rewrite !app_nil_r in E1. subst. congruence.
      * exfalso. destruct (canon_ext_branch_two ns2 _ CB2) as (i & j & ki & kj & vi & vj & Hij & Hi & Hj).
        rewrite <- E in Hi, Hj.
        apply look_ext_some in Hi as (k1 & E1 & Hi). apply look_ext_some in Hj as (k2 & E2 & Hj).
        cbn in Hi, Hj. destruct k1, k2; try discriminate. rewrite <- E2 in E1.
        apply app_inv_head in E1. congruence.
      * exfalso. destruct (canon_ext_branch_two ns _ CB1) as (i & j & ki & kj & vi & vj & Hij & Hi & Hj).
        rewrite E in Hi, Hj.
        apply look_ext_some in Hi as (k1 & E1 & Hi). apply look_ext_some in Hj as (k2 & E2 & Hj).
        cbn in Hi, Hj. destruct k1, k2; try discriminate. rewrite <- E2 in E1.
        apply app_inv_head in E1. congruence.
      * assert (P1 : exists r, ns = ns2 ++ r).
        { destruct (canon_ext_branch_two ns _ CB1) as (i & j & ki & kj & vi & vj & Hij & Hi & Hj).
          rewrite E in Hi, Hj.
          apply look_ext_some in Hi as (k1 & E1 & Hi). apply look_ext_some in Hj as (k2 & E2 & Hj).
          eapply app_two_prefix; eauto. }
        assert (P2 : exists r, ns2 = ns ++ r).
        { destruct (canon_ext_branch_two ns2 _ CB2) as (i & j & ki & kj & vi & vj & Hij & Hi & Hj).
          rewrite <- E in Hi, Hj.
          apply look_ext_some in Hi as (k1 & E1 & Hi). apply look_ext_some in Hj as (k2 & E2 & Hj).
          eapply app_two_prefix; eauto. }
        destruct P1 as [r1 P1]. destruct P2 as [r2 P2].
        assert (r1 = []).
        { subst ns. apply (f_equal (@length _)) in P2. rewrite !app_length in P2.
          destruct r1; auto. cbn in P2. lia. }
        subst r1. rewrite app_nil_r in P1. subst ns2. f_equal.
        apply IH; auto. intros k. specialize (E (ns ++ k)). now rewrite !look_ext_app in E.
    + exfalso. destruct (canon_ext_cases _ _ C1) as [[h ->]|(ch & -> & CB1)].
      * specialize (E (ns ++ [])). rewrite look_ext_app in E. cbn in E.
        destruct (nibbles_eqb ns2 (ns ++ [])); discriminate.
      * destruct (canon_ext_branch_two ns _ CB1) as (i & j & ki & kj & vi & vj & Hij & Hi & Hj).
        rewrite E in Hi, Hj.
        apply look_leaf_some in Hi as [Hi _]. apply look_leaf_some in Hj as [Hj _].
        rewrite <- Hj in Hi. apply app_inv_head in Hi. congruence.
  - assert (Hv : look (Leaf ns v) ns = Some (Val v)) by (cbn; now rewrite nibbles_eqb_refl).
    destruct n2 as [|h2|ch2 v2|ns2 c2|ns2 v2].
    + rewrite E in Hv. discriminate.
    + specialize (E []). cbn in E. destruct (nibbles_eqb ns []); discriminate.
    + exfalso. destruct (canon_branch_inv _ _ C2) as (-> & _).
      destruct (canon_branch_two _ C2) as (i & j & ki & kj & vi & vj & Hij & Hi & Hj).
      rewrite <- E in Hi, Hj.
      apply look_leaf_some in Hi as [Hi _]. apply look_leaf_some in Hj as [Hj _]. congruence.
    + exfalso. destruct (canon_ext_cases _ _ C2) as [[h ->]|(ch & -> & CB2)].
      * specialize (E (ns2 ++ [])). rewrite look_ext_app in E. cbn in E.
        destruct (nibbles_eqb ns (ns2 ++ [])); discriminate.
      * destruct (canon_ext_branch_two ns2 _ CB2) as (i & j & ki & kj & vi & vj & Hij & Hi & Hj).
        rewrite <- E in Hi, Hj.
        apply look_leaf_some in Hi as [Hi _]. apply look_leaf_some in Hj as [Hj _].
        rewrite <- Hj in Hi. apply app_inv_head in Hi. congruence.
    + rewrite E in Hv. apply look_leaf_some in Hv as [-> [= ->]]. auto.
Qed.
