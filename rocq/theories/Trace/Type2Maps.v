(** Facts about the ordered maps of Type2Model.v. *)
From Coq Require Import List Arith NArith Bool Lia.
From Verif.Trace Require Import Type2Model.
Import ListNotations.

(** A comparison is a strict total order. *)
Definition total_order {K : Type} (cmp : K -> K -> comparison) : Prop :=
  (forall a b, cmp a b = Eq <-> a = b) /\ (forall a b, cmp b a = CompOpp (cmp a b)) /\
  (forall a b c, cmp a b = Lt -> cmp b c = Lt -> cmp a c = Lt).

Lemma N_order : total_order N.compare.
Proof.
  split; [apply N.compare_eq_iff|]. split; [intros; apply N.compare_antisym|]. intros a b c. rewrite !N.compare_lt_iff. lia.
Qed.

Lemma bool_order : total_order bool_cmp.
Proof.
  split; [intros [] []; cbn; split; congruence|]. split; [intros [] []; reflexivity|]. intros [] [] []; cbn; congruence.
Qed.

Lemma lex_order {A : Type} (cmp : A -> A -> comparison) : total_order cmp -> total_order (lex cmp).
Proof.
  intros (He & Ho & Ht). split; [|split].
  - induction a as [|x a IH]; intros [|y b]; cbn [lex]; try (split; congruence).
    destruct (cmp x y) eqn:C.
    + apply He in C. subst y. rewrite IH. split; congruence.
    + split; [discriminate|]. intros E. assert (E' : x = y) by congruence. apply He in E'. congruence.
    + split; [discriminate|]. intros E. assert (E' : x = y) by congruence. apply He in E'. congruence.
  - induction a as [|x a IH]; intros [|y b]; cbn [lex]; try reflexivity.
    rewrite (Ho x y). destruct (cmp x y); cbn [CompOpp]; auto.
  - induction a as [|x a IH]; intros [|y b] [|z c]; cbn [lex]; try congruence.
    destruct (cmp x y) eqn:C; try discriminate.
    + apply He in C. subst y. destruct (cmp x z); try congruence. apply IH.
    + intros _. destruct (cmp y z) eqn:C'; try discriminate.
      * apply He in C'. subst z. rewrite C. reflexivity.
      * rewrite (Ht _ _ _ C C'). reflexivity.
Qed.

Section BTree.
  Context {K V : Type}.
  Variable cmp : K -> K -> comparison.
  Hypothesis order : total_order cmp.
  Implicit Types (m : list (K * V)).
  Let ceq : forall a b, cmp a b = Eq <-> a = b := proj1 order.
  Let copp : forall a b, cmp b a = CompOpp (cmp a b) := proj1 (proj2 order).
  Let ctrans : forall a b c, cmp a b = Lt -> cmp b c = Lt -> cmp a c = Lt := proj2 (proj2 order).

  Fixpoint sorted m : Prop :=
    match m with
    | [] => True
    | (k, _) :: m => (forall k' v', In (k', v') m -> cmp k k' = Lt) /\ sorted m
    end.

  Lemma crefl : forall a, cmp a a = Eq.
  Proof. intros a. now apply ceq. Qed.

  Lemma bm_get_insert : forall m k v k', bm_get cmp (bm_insert cmp m k v) k' = match cmp k' k with Eq => Some v | _ => bm_get cmp m k' end.
  Proof.
    induction m as [|[k0 v0] m IH]; intros k v k'; cbn [bm_insert bm_get].
    - destruct (cmp k' k); reflexivity.
    - destruct (cmp k k0) eqn:C; cbn [bm_get].
      + apply ceq in C. subst k0. destruct (cmp k' k); reflexivity.
      + destruct (cmp k' k) eqn:C'; auto. now rewrite (ctrans _ _ _ C' C).
      + rewrite IH. destruct (cmp k' k) eqn:C'; auto. apply ceq in C'. subst k'. now rewrite C.
  Qed.

  Lemma bm_insert_in : forall m k v k' v', In (k', v') (bm_insert cmp m k v) -> (k' = k /\ v' = v) \/ In (k', v') m.
  Proof.
    induction m as [|[k0 v0] m IH]; intros k v k' v'; cbn [bm_insert].
    - intros [E|[]]; inversion E; auto.
    - destruct (cmp k k0) eqn:C; cbn [In].
      + apply ceq in C. subst k0. intros [E|E]; [inversion E; auto|auto].
      + intros [E|E]; [inversion E; auto|auto].
      + intros [E|E]; [auto|]. apply IH in E. tauto.
  Qed.

  Lemma bm_remove_in : forall m k k' v', In (k', v') (bm_remove cmp m k) -> In (k', v') m.
  Proof.
    induction m as [|[k0 v0] m IH]; intros k k' v'; cbn [bm_remove]; [auto|].
    destruct (cmp k k0); cbn [In]; intuition eauto.
  Qed.

  Lemma bm_insert_sorted : forall m k v, sorted m -> sorted (bm_insert cmp m k v).
  Proof.
    induction m as [|[k0 v0] m IH]; intros k v; cbn [bm_insert sorted].
    - intros _. split; [intros ? ? []|auto].
    - intros [H1 H2]. destruct (cmp k k0) eqn:C; cbn [sorted].
      + auto.
      + split; [|auto]. intros k' v' [E|E]; [inversion E; subst; auto|]. eapply ctrans; eauto.
      + split; [|auto]. intros k' v' E. apply bm_insert_in in E as [[-> _]|E]; [rewrite copp, C; reflexivity|eauto].
  Qed.

  Lemma bm_remove_sorted : forall m k, sorted m -> sorted (bm_remove cmp m k).
  Proof.
    induction m as [|[k0 v0] m IH]; intros k; cbn [bm_remove sorted]; [auto|].
    intros [H1 H2]. destruct (cmp k k0); cbn [sorted]; auto. split; auto. intros k' v' E. apply bm_remove_in in E. eauto.
  Qed.

  Lemma bm_get_in : forall m k v, sorted m -> (bm_get cmp m k = Some v <-> In (k, v) m).
  Proof.
    induction m as [|[k0 v0] m IH]; intros k v; cbn [bm_get sorted In]; [intros _; split; [discriminate|intros []]|].
    intros [H1 H2]. destruct (cmp k k0) eqn:C.
    - apply ceq in C. subst k0. split; [intros E; left; congruence|]. intros [E|E]; [congruence|]. apply H1 in E. rewrite crefl in E. discriminate.
    - split; [discriminate|]. intros [E|E]; [inversion E; subst; rewrite crefl in C; discriminate|].
      apply H1 in E. rewrite copp, C in E. discriminate.
    - rewrite IH by auto. split; [auto|]. intros [E|E]; [inversion E; subst; rewrite crefl in C; discriminate|auto].
  Qed.

  Lemma bm_get_below : forall m k, (forall k' v', In (k', v') m -> cmp k k' = Lt) -> bm_get cmp m k = None.
  Proof. intros [|[k0 v0] m] k H; cbn; [auto|]. rewrite (H k0 v0); [auto|left; auto]. Qed.

  Lemma bm_get_remove : forall m k k', sorted m -> bm_get cmp (bm_remove cmp m k) k' = match cmp k' k with Eq => None | _ => bm_get cmp m k' end.
  Proof.
    induction m as [|[k0 v0] m IH]; intros k k'; cbn [bm_remove bm_get sorted]; [destruct (cmp k' k); auto|].
    intros [H1 H2]. destruct (cmp k k0) eqn:C; cbn [bm_get].
    - apply ceq in C. subst k0. destruct (cmp k' k) eqn:C'; auto.
      + apply ceq in C'. subst k'. now apply bm_get_below.
      + apply bm_get_below. intros k1 v1 E. apply H1 in E. eapply ctrans; eauto.
    - destruct (cmp k' k) eqn:C'; auto. apply ceq in C'. subst k'. now rewrite C.
    - rewrite IH by auto. destruct (cmp k' k) eqn:C'; auto. apply ceq in C'. subst k'. now rewrite C.
  Qed.

  Lemma sorted_ext : forall m m', sorted m -> sorted m' -> (forall k, bm_get cmp m k = bm_get cmp m' k) -> m = m'.
  Proof.
    induction m as [|[k v] m IH]; intros [|[k' v'] m'] S S' G.
    - reflexivity.
    - specialize (G k'). cbn in G. rewrite crefl in G. discriminate.
    - specialize (G k). cbn in G. rewrite crefl in G. discriminate.
    - destruct S as [S1 S2], S' as [S1' S2'].
      assert (E : k = k').
      { pose proof (G k) as Gk. pose proof (G k') as Gk'. cbn in Gk, Gk'. rewrite crefl in Gk, Gk'.
        destruct (cmp k k') eqn:C; [now apply ceq|discriminate|]. rewrite copp, C in Gk'. discriminate. }
      subst k'. pose proof (G k) as Gk. cbn in Gk. rewrite crefl in Gk. assert (v' = v) by congruence. subst v'. f_equal.
      apply IH; auto. intros x. specialize (G x). cbn in G. destruct (cmp x k) eqn:C; auto.
      + apply ceq in C. subst x. rewrite !bm_get_below; auto.
      + rewrite !bm_get_below; auto; intros k1 v1 E; [apply S1' in E|apply S1 in E]; eapply ctrans; eauto.
  Qed.
End BTree.
