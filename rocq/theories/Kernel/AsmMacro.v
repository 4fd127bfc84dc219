(** C52: macro expansion is hygienic, and it ends when no macro calls itself. *)
From Coq Require Import ZArith String Ascii List Bool Arith Lia DecimalString DecimalNat DecimalFacts.
From Verif Require Import Kernel.OptModel Kernel.StackModel Kernel.AsmModel Kernel.AsmProps.
Import ListNotations.
Local Open Scope nat_scope.
Local Open Scope list_scope.

(** * Specification *)

(** The ordinary local labels written in an item, at any depth; macro
    definitions do not count. *)
Fixpoint written_labels (i : aitem) : list string :=
  match i with
  | ALocal l => [l]
  | ConditionalBlock _ items | Repeat _ items => flat_map written_labels items
  | _ => []
  end.
Definition written (body : list aitem) : list string := flat_map written_labels body.
(** No ordinary label is written inside a repetition. *)
Fixpoint no_repeated_label (i : aitem) : Prop :=
  match i with
  | ConditionalBlock _ items => (fix all items := match items with [] => True | x :: r => no_repeated_label x /\ all r end) items
  | Repeat _ items => flat_map written_labels items = []
  | _ => True
  end.
Definition macro_labels (body : list aitem) : list string := flat_map (fun i => match i with AMacroLabel l => [l] | _ => [] end) body.
(** A macro writes no ordinary label and each of its own labels once. *)
Definition good_macro (m : macro) : Prop := written (m_items m) = [] /\ NoDup (macro_labels (m_items m)).
Definition user_name (l : string) : Prop := String.prefix "@" l = false.

(** The macro calls written in an item, by name and number of arguments. *)
Fixpoint calls (i : aitem) : list (string * nat) :=
  match i with
  | MacroCall name args => [(name, List.length args)]
  | ConditionalBlock _ items | Repeat _ items => flat_map calls items
  | _ => []
  end.

(** * Names of macro labels *)

Definition no_dot (s : string) : Prop := String.index 0 "." s = None.
Fixpoint uint_len (d : Decimal.uint) : nat :=
  match d with
  | Decimal.Nil => 0
  | Decimal.D0 d | Decimal.D1 d | Decimal.D2 d | Decimal.D3 d | Decimal.D4 d | Decimal.D5 d | Decimal.D6 d | Decimal.D7 d | Decimal.D8 d | Decimal.D9 d => S (uint_len d)
  end.

Lemma uint_dot_inj : forall d d' x x', (NilEmpty.string_of_uint d ++ "." ++ x = NilEmpty.string_of_uint d' ++ "." ++ x')%string -> d = d' /\ x = x'.
Proof.
  induction d; destruct d'; cbn; intros x x' H; try discriminate; try (injection H as H).
  1: (split; [reflexivity|exact H]).
  all: destruct (IHd _ _ _ H) as [-> ->]; split; reflexivity.
Qed.

Lemma actual_label_inj : forall n l n' l', actual_label n l = actual_label n' l' -> n = n' /\ l = l'.
Proof.
  intros n l n' l' H. unfold actual_label in H. cbn in H. injection H as H. unfold decimal in H.
  apply uint_dot_inj in H. destruct H as [Hd ->]. split; [|reflexivity].
  rewrite <- (DecimalNat.Unsigned.of_to n), <- (DecimalNat.Unsigned.of_to n'), Hd. reflexivity.
Qed.
Lemma actual_label_not_user : forall n l, ~ user_name (actual_label n l).
Proof. intros n l H. unfold user_name, actual_label in H. cbn in H. destruct (decimal n); cbn in H; discriminate. Qed.

(** * Unfolding *)

Definition expand_one (fuel : nat) (macros : list macro) (item : aitem) (counter : nat) : res (list aitem * nat) :=
  match item with
  | MacroDef _ _ _ => Good ([], counter)
  | MacroCall name args =>
      match get_macro macros name (List.length args) with
      | None => Bad
      | Some m => bind (mapM (instantiate counter m args) (m_items m)) (fun items => expand_macros fuel macros items (S counter))
      end
  | Repeat count items => if Z.ltb count (2^64) then repeat_expand (Z.to_nat count) (expand_macros fuel macros items) counter else Bad
  | ConditionalBlock _ items => expand_macros fuel macros items counter
  | _ => Good ([item], counter)
  end.
Lemma expand_nil : forall f macros c, expand_macros (S f) macros [] c = Good ([], c).
Proof. reflexivity. Qed.
Lemma expand_cons : forall f macros i r c, expand_macros (S f) macros (i :: r) c =
  bind (expand_one f macros i c) (fun '(e, c) => bind (expand_macros (S f) macros r c) (fun '(es, c) => Good (e ++ es, c))).
Proof. reflexivity. Qed.

(** * Hygiene *)

Definition generated (lo hi : nat) (l : string) : Prop := exists n x, lo <= n < hi /\ l = actual_label n x.
Lemma generated_weaken : forall lo hi lo' hi' l, lo' <= lo -> hi <= hi' -> generated lo hi l -> generated lo' hi' l.
Proof. intros lo hi lo' hi' l H1 H2 (n & x & Hn & ->). exists n, x. split; [lia|reflexivity]. Qed.
Lemma generated_disjoint : forall a b c d l, b <= c -> generated a b l -> generated c d l -> False.
Proof. intros a b c d l H (n & x & Hn & ->) (n' & x' & Hn' & E). apply actual_label_inj in E. lia. Qed.

(** What an expansion does to labels, for a list W of labels it may copy. *)
Definition hygienic (W : list string) (c : nat) (out : list aitem) (c' : nat) : Prop :=
  c <= c' /\ (forall l, In l (local_labels out) -> In l W \/ generated c c' l) /\
  (NoDup W -> (forall l hi, In l W -> ~ generated c hi l) -> NoDup (local_labels out)).

Lemma local_labels_app : forall a b, local_labels (a ++ b) = local_labels a ++ local_labels b.
Proof. intros. unfold local_labels. apply flat_map_app. Qed.
Lemma nodup_app : forall A (a b : list A), NoDup a -> NoDup b -> (forall x, In x a -> In x b -> False) -> NoDup (a ++ b).
Proof.
  induction a as [|x a IH]; intros b Ha Hb Hd; cbn; [exact Hb|]. inversion Ha; subst. constructor.
  - rewrite in_app_iff. intros [H|H]; [contradiction|]. apply (Hd x); [left; reflexivity|exact H].
  - apply IH; auto. intros y Hx Hy. apply (Hd y); [right; exact Hx|exact Hy].
Qed.
Lemma nodup_app_inv : forall A (a b : list A), NoDup (a ++ b) -> NoDup a /\ NoDup b /\ forall x, In x a -> In x b -> False.
Proof.
  induction a as [|x a IH]; intros b H; cbn in H.
  - split; [constructor|]. split; [exact H|contradiction].
  - inversion H; subst. destruct (IH _ H3) as (A1 & A2 & A3). rewrite in_app_iff in H2. split; [constructor; tauto|]. split; [exact A2|].
    intros y [<-|Hy] Hb; [tauto|eauto].
Qed.

Lemma hygienic_app : forall W1 W2 c1 c2 c3 o1 o2, hygienic W1 c1 o1 c2 -> hygienic W2 c2 o2 c3 -> hygienic (W1 ++ W2) c1 (o1 ++ o2) c3.
Proof.
  intros W1 W2 c1 c2 c3 o1 o2 (L1 & I1 & N1) (L2 & I2 & N2). split; [lia|]. split.
  - intros l Hl. rewrite local_labels_app, in_app_iff in Hl. rewrite in_app_iff. destruct Hl as [Hl|Hl].
    + destruct (I1 _ Hl) as [H|H]; [auto|]. right. eapply generated_weaken; [| |exact H]; lia.
    + destruct (I2 _ Hl) as [H|H]; [auto|]. right. eapply generated_weaken; [| |exact H]; lia.
  - intros Hn Hg. apply nodup_app_inv in Hn. destruct Hn as (Ha & Hb & Hd). rewrite local_labels_app. apply nodup_app.
    + apply N1; [exact Ha|]. intros l hi Hl. apply Hg. apply in_app_iff. auto.
    + apply N2; [exact Hb|]. intros l hi Hl Hc. apply (Hg l hi); [apply in_app_iff; auto|]. eapply generated_weaken; [| |exact Hc]; lia.
    + intros l H1 H2. apply I1 in H1. apply I2 in H2. destruct H1 as [H1|H1], H2 as [H2|H2].
      * eauto.
      * apply (Hg l c3); [apply in_app_iff; auto|]. eapply generated_weaken; [| |exact H2]; lia.
      * apply (Hg l c2); [apply in_app_iff; auto|]. eapply generated_weaken; [| |exact H1]; lia.
      * eapply (generated_disjoint c1 c2 c2 c3); eauto.
Qed.

Lemma no_written_clean : forall i, written_labels i = [] -> no_repeated_label i.
Proof.
  fix IH 1. intros i H. destruct i; cbn in *; try exact I; [|exact H].
  induction items as [|x r IHr]; [exact I|]. cbn in H. apply app_eq_nil in H. destruct H as [H1 H2]. split; [apply IH; exact H1|apply IHr; exact H2].
Qed.

Lemma written_instantiate : forall c m args i i', instantiate c m args i = Good i' -> written_labels i = [] ->
  written_labels i' = match i with AMacroLabel l => [actual_label c l] | _ => [] end /\ no_repeated_label i'.
Proof.
  intros c m args i i' H Hw. destruct i; cbn in H; cbn [written_labels] in Hw; try discriminate;
    try (injection H as <-; split; [try exact Hw; reflexivity|]; try exact I; apply no_written_clean; exact Hw).
  - binds H. injection H as <-. split; [reflexivity|exact I].
  - binds H. injection H as <-. split; [reflexivity|exact I].
  - destruct t; try (injection H as <-; split; [reflexivity|exact I]). binds H. injection H as <-. split; [reflexivity|exact I].
Qed.

Lemma written_instantiate_all : forall c m args items items', mapM (instantiate c m args) items = Good items' -> written items = [] ->
  written items' = map (actual_label c) (macro_labels items) /\ Forall no_repeated_label items'.
Proof.
  intros c m args items items' H. apply mapM_good in H. induction H as [|i i' items items' Hi _ IH]; intros Hw.
  - split; [reflexivity|constructor].
  - unfold written in Hw. cbn in Hw. apply app_eq_nil in Hw. destruct Hw as [Hw1 Hw2].
    destruct (written_instantiate _ _ _ _ _ Hi Hw1) as [E1 E2]. destruct (IH Hw2) as [E3 E4].
    split; [|constructor; assumption]. unfold written, macro_labels in *. cbn. rewrite E1, E3, map_app. destruct i; reflexivity.
Qed.

Lemma get_macro_in : forall macros name n m, get_macro macros name n = Some m -> In m macros /\ m_name m = name /\ List.length (m_params m) = n.
Proof.
  induction macros as [|x macros IH]; intros name n m H; cbn in H; [discriminate|].
  destruct (String.eqb name (m_name x) && (n =? List.length (m_params x))) eqn:E.
  - injection H as <-. apply andb_true_iff in E. destruct E as [E1 E2]. apply String.eqb_eq in E1. apply Nat.eqb_eq in E2. split; [left; reflexivity|]. auto.
  - destruct (IH _ _ _ H) as (A & B). split; [right; exact A|exact B].
Qed.

Lemma no_repeated_all : forall items,
  (fix all items := match items with [] => True | x :: r => no_repeated_label x /\ all r end) items <-> Forall no_repeated_label items.
Proof.
  induction items as [|x r IH]; split; intros H; try constructor; try exact I.
  - apply H. 
  - apply IH. apply H.
  - inversion H; assumption.
  - apply IH. inversion H; assumption.
Qed.

Lemma hygiene : forall fuel macros, Forall good_macro macros -> forall body c out c', Forall no_repeated_label body ->
  expand_macros fuel macros body c = Good (out, c') -> hygienic (written body) c out c'.
Proof.
  induction fuel as [|fuel IHf]; intros macros Hm body; [discriminate|].
  induction body as [|i body IHb]; intros c out c' Hr H.
  - rewrite expand_nil in H. injection H as <- <-. split; [lia|]. split; [contradiction|]. intros _ _. constructor.
  - rewrite expand_cons in H. binds H. destruct v as [e c1]. binds H. destruct v as [es c2]. injection H as <- <-.
    inversion Hr; subst. change (written (i :: body)) with (written_labels i ++ written body).
    apply (hygienic_app _ _ c c1 c2); [|apply IHb; assumption].
    assert (Hcopy : expand_one fuel macros i c = Good ([i], c) -> written_labels i = local_labels [i] -> hygienic (written_labels i) c e c1).
    { intros E' Hw. rewrite E' in E. injection E as <- <-. rewrite Hw. split; [lia|]. split; [auto|]. intros Hn _. exact Hn. }
    destruct i; try (apply Hcopy; reflexivity).
    + cbn in E. apply (IHf macros Hm items c e c1); [|exact E]. cbn in H1. apply no_repeated_all. exact H1.
    + cbn in E. injection E as <- <-. split; [lia|]. split; [contradiction|]. intros _ _. constructor.
    + cbn [expand_one] in E. destruct (get_macro macros name (List.length args)) as [m|] eqn:Em; [|discriminate]. binds E.
      apply get_macro_in in Em. destruct Em as (Em & _). rewrite Forall_forall in Hm. pose proof (Hm _ Em) as [Hw Hn].
      destruct (written_instantiate_all _ _ _ _ _ E1 Hw) as [Ew Ec].
      destruct (IHf macros (proj2 (Forall_forall _ _) Hm) _ _ _ _ Ec E) as (L & I & N). rewrite Ew in I, N. cbn [written_labels].
      split; [lia|]. split.
      * intros l Hl. right. destruct (I _ Hl) as [Hin|Hg].
        -- apply in_map_iff in Hin. destruct Hin as (x & <- & _). exists c, x. split; [lia|reflexivity].
        -- eapply generated_weaken; [| |exact Hg]; lia.
      * intros _ _. apply N.
        -- clear -Hn. induction Hn; cbn; constructor; [|assumption]. rewrite in_map_iff. intros (y & Hy & Hin). apply actual_label_inj in Hy. destruct Hy as [_ ->]. contradiction.
        -- intros l hi Hin (n & x & Hr' & Hx). apply in_map_iff in Hin. destruct Hin as (y & <- & _). apply actual_label_inj in Hx. lia.
    + cbn [expand_one] in E. destruct (Z.ltb count (2^64)); [|discriminate]. cbn in H1.
      assert (Hi : Forall no_repeated_label items).
      { clear -H1. induction items as [|x r IH]; constructor; cbn in H1; apply app_eq_nil in H1; destruct H1; [apply no_written_clean; assumption|auto]. }
      cbn [written_labels]. rewrite H1. clear -IHf Hm Hi H1 E. revert c c1 e E. induction (Z.to_nat count) as [|t IHt]; intros c c1 e E; cbn in E.
      * injection E as <- <-. split; [lia|]. split; [contradiction|]. intros _ _. constructor.
      * binds E. destruct v as [e1 k1]. binds E. destruct v as [e2 k2]. injection E as <- <-.
        change (@nil string) with (@nil string ++ []). apply (hygienic_app [] [] c k1 k2).
        -- pose proof (IHf macros Hm _ _ _ _ Hi E0) as Hh. unfold written in Hh. rewrite H1 in Hh. exact Hh.
        -- apply IHt. exact E1.
Qed.

(** The local labels of an expanded file are distinct, whatever macros it
    uses, and those of macros differ from every other label. *)
Theorem C52_hygiene : forall fuel macros body c out c', Forall good_macro macros ->
  Forall no_repeated_label body -> NoDup (written body) -> Forall user_name (written body) ->
  expand_macros fuel macros body c = Good (out, c') ->
  NoDup (local_labels out) /\
  forall l, In l (local_labels out) -> In l (written body) \/ (exists n x, c <= n < c' /\ l = actual_label n x /\ ~ user_name l).
Proof.
  intros fuel macros body c out c' Hm Hr Hn Hu H. destruct (hygiene _ _ Hm _ _ _ _ Hr H) as (_ & I & N). split.
  - apply N; [exact Hn|]. intros l hi Hl (n & x & _ & ->). rewrite Forall_forall in Hu. apply Hu in Hl. exact (actual_label_not_user _ _ Hl).
  - intros l Hl. destruct (I _ Hl) as [Hi|(n & x & Hb & ->)]; [auto|]. right. exists n, x. split; [exact Hb|]. split; [reflexivity|]. apply actual_label_not_user.
Qed.
Print Assumptions C52_hygiene.

(** * Termination *)

Fixpoint depth (i : aitem) : nat :=
  match i with
  | ConditionalBlock _ items | Repeat _ items => S (fold_right (fun x n => Nat.max (depth x) n) 0 items)
  | _ => 0
  end.
Definition depths (body : list aitem) : nat := fold_right (fun x n => Nat.max (depth x) n) 0 body.
Definition all_calls (body : list aitem) : list (string * nat) := flat_map calls body.

Lemma instantiate_shape : forall c m args i i', instantiate c m args i = Good i' -> calls i' = calls i /\ depth i' = depth i.
Proof.
  intros c m args i i' H. destruct i; cbn in H; try (injection H as <-; split; reflexivity).
  - binds H. injection H as <-. cbn. apply mapM_length in E. rewrite E. split; reflexivity.
  - binds H. injection H as <-. split; reflexivity.
  - destruct t; try (injection H as <-; split; reflexivity). binds H. injection H as <-. split; reflexivity.
Qed.
Lemma instantiate_all_shape : forall c m args items items', mapM (instantiate c m args) items = Good items' ->
  all_calls items' = all_calls items /\ depths items' = depths items.
Proof.
  intros c m args items items' H. apply mapM_good in H. induction H as [|i i' items items' Hi _ [IH1 IH2]]; [split; reflexivity|].
  apply instantiate_shape in Hi. destruct Hi as [E1 E2]. unfold all_calls, depths in *. cbn. rewrite E1, IH1, E2, IH2. split; reflexivity.
Qed.
Lemma mapM_no_fuel : forall A B (f : A -> res B) l, (forall a, f a <> Fuel) -> mapM f l <> Fuel.
Proof.
  intros A B f l H. induction l as [|a l IH]; cbn; [discriminate|]. specialize (H a). destruct (f a); cbn; try congruence. destruct (mapM f l); cbn; congruence.
Qed.
Lemma of_option_no_fuel : forall A (o : option A), of_option o <> Fuel.
Proof. destruct o; discriminate. Qed.
Lemma instantiate_no_fuel : forall c m args i, instantiate c m args i <> Fuel.
Proof.
  intros. destruct i; cbn; try discriminate.
  - match goal with |- bind ?r _ <> _ => assert (Hr : r <> Fuel) end.
    { apply mapM_no_fuel. intros []; try discriminate. apply of_option_no_fuel. }
    destruct (mapM _ args0); cbn; congruence.
  - match goal with |- bind ?r _ <> _ => assert (Hr : r <> Fuel) end.
    { apply mapM_no_fuel. intros []; try discriminate. destruct (get_arg (m_params m) args v); discriminate. }
    destruct (mapM _ after); cbn; congruence.
  - destruct t; try discriminate. destruct (get_arg (m_params m) args v); discriminate.
Qed.

Theorem C52_terminates : forall macros (rank : string -> nat -> nat),
  (forall m, In m macros -> forall n k, In (n, k) (all_calls (m_items m)) -> rank n k < rank (m_name m) (List.length (m_params m))) ->
  forall body, exists fuel0, forall fuel c, fuel0 <= fuel -> expand_macros fuel macros body c <> Fuel.
Proof.
  intros macros rank Hrank body.
  set (D := Nat.max (depths body) (fold_right (fun m n => Nat.max (depths (m_items m)) n) 0 macros)).
  set (R := S (fold_right (fun p n => Nat.max (rank (fst p) (snd p)) n) 0 (all_calls body))).
  exists (R * (D + 1) + D + 1).
  assert (Hmain : forall f r d b c, (forall n k, In (n, k) (all_calls b) -> rank n k < r) -> depths b <= d -> d <= D -> r * (D + 1) + d + 1 <= f -> expand_macros f macros b c <> Fuel).
  { induction f as [|f IHf]; intros r d b c Hc Hd HdD Hf; [lia|].
    revert c. induction b as [|i b IHb]; intros c; [rewrite expand_nil; discriminate|]. rewrite expand_cons.
    assert (Hone : expand_one f macros i c <> Fuel).
    { unfold depths in Hd. cbn in Hd. unfold all_calls in Hc. cbn in Hc.
      destruct i; cbn [expand_one]; try discriminate.
      - cbn [depth] in Hd. destruct d as [|d]; [lia|]. apply (IHf r d); try lia.
        + intros n k Hin. apply Hc. apply in_app_iff. left. exact Hin.
        + unfold depths. lia.
      - destruct (get_macro macros name (List.length args)) as [m|] eqn:Em; [|discriminate].
        destruct (mapM (instantiate c m args) (m_items m)) as [| |items] eqn:Ei; cbn [bind]; [|discriminate|].
        { exfalso. revert Ei. apply mapM_no_fuel. intros a. apply instantiate_no_fuel. }
        apply get_macro_in in Em. destruct Em as (Hin & Hname & Hlen).
        apply instantiate_all_shape in Ei. destruct Ei as [E1 E2].
        assert (Hlt : rank name (List.length args) < r) by (apply Hc; cbn; auto).
        apply (IHf (rank name (List.length args)) D).
        + intros n k Hnk. rewrite E1 in Hnk. specialize (Hrank m Hin n k Hnk). rewrite Hname, Hlen in Hrank. exact Hrank.
        + rewrite E2. unfold D. clear -Hin. induction macros as [|x l IH]; [contradiction|]. cbn. destruct Hin as [->|Hin]; [lia|]. specialize (IH Hin). lia.
        + lia.
        + nia.
      - destruct (Z.ltb count (2^64)); [|discriminate]. cbn [depth] in Hd. destruct d as [|d]; [lia|].
        assert (Hi : forall c, expand_macros f macros items c <> Fuel).
        { intros c0. apply (IHf r d); try lia; [|unfold depths; lia]. intros n k Hin. apply Hc. apply in_app_iff. left. exact Hin. }
        revert c. clear -Hi. induction (Z.to_nat count) as [|t IHt]; intros c; cbn; [discriminate|].
        specialize (Hi c). destruct (expand_macros f macros items c) as [| |[e c1]]; cbn; try congruence.
        specialize (IHt c1). destruct (repeat_expand t (expand_macros f macros items) c1) as [| |[e2 c2]]; cbn; congruence. }
    destruct (expand_one f macros i c) as [| |[e c1]]; cbn [bind]; try congruence.
    assert (Hb : expand_macros (S f) macros b c1 <> Fuel).
    { apply IHb; [intros n k Hin; apply Hc; unfold all_calls; cbn; apply in_app_iff; right; exact Hin|].
      unfold depths in *. cbn in Hd. lia. }
    destruct (expand_macros (S f) macros b c1) as [| |[e2 c2]]; cbn [bind]; congruence. }
  intros fuel c Hf. apply (Hmain fuel R (depths body) body c); try lia.
  - intros n k Hin. unfold R. clear -Hin. apply -> Nat.lt_succ_r. induction (all_calls body) as [|p l IH]; [contradiction|]. cbn. destruct Hin as [->|Hin]; [cbn; lia|]. specialize (IH Hin). lia.
Qed.
Print Assumptions C52_terminates.

(** More fuel changes nothing. *)
Theorem C52_fuel : forall fuel fuel' macros body c r, fuel <= fuel' -> expand_macros fuel macros body c = r -> r <> Fuel -> expand_macros fuel' macros body c = r.
Proof.
  induction fuel as [|f IHf]; intros f' macros body c r Hle H Hr; [cbn in H; congruence|].
  destruct f' as [|f']; [lia|]. assert (Hle' : f <= f') by lia.
  revert c r H Hr. induction body as [|i body IHb]; intros c r H Hr; [exact H|].
  rewrite expand_cons in H |- *.
  assert (Hone : expand_one f macros i c <> Fuel -> expand_one f' macros i c = expand_one f macros i c).
  { intros Hn. destruct i; cbn [expand_one] in *; try reflexivity.
    - eapply IHf; [exact Hle'|reflexivity|exact Hn].
    - destruct (get_macro macros name (List.length args)); [|reflexivity]. destruct (mapM (instantiate c m args) (m_items m)); cbn [bind] in *; try reflexivity.
      eapply IHf; [exact Hle'|reflexivity|exact Hn].
    - destruct (Z.ltb count (2^64)); [|reflexivity]. revert c Hn H Hr. generalize (Z.to_nat count). clear -IHf Hle'. intros t c Hn _ _. revert c Hn.
      induction t as [|t IHt]; intros c Hn; cbn in *; [reflexivity|].
      destruct (expand_macros f macros items c) as [| |[e c1]] eqn:E.
      + cbn in Hn. congruence.
      + rewrite (IHf f' macros items c Bad Hle' E) by discriminate. reflexivity.
      + rewrite (IHf f' macros items c _ Hle' E) by discriminate. cbn [bind] in *. rewrite IHt; [reflexivity|]. intros Hx. apply Hn. rewrite Hx. reflexivity. }
  destruct (expand_one f macros i c) as [| |[e c1]].
  - cbn in H. congruence.
  - rewrite Hone by discriminate. exact H.
  - rewrite Hone by discriminate. cbn [bind] in *.
    destruct (expand_macros (S f) macros body c1) as [| |[es c2]] eqn:E.
    + cbn in H. congruence.
    + rewrite (IHb c1 Bad E) by discriminate. exact H.
    + rewrite (IHb c1 _ E) by discriminate. exact H.
Qed.
Print Assumptions C52_fuel.

(** A macro that calls itself is never expanded (the code overflows its
    stack). *)
Theorem C52_recursive_macro_diverges : forall fuel c,
  expand_macros fuel [{| m_name := "spin"; m_params := []; m_items := [MacroCall "spin" []] |}] [MacroCall "spin" []] c = Fuel.
Proof. induction fuel as [|f IH]; intros c; [reflexivity|]. rewrite expand_cons. cbn [expand_one get_macro]. cbn. rewrite IH. reflexivity. Qed.
Print Assumptions C52_recursive_macro_diverges.

(** * Examples *)

Definition demo_macros : list macro :=
  [ {| m_name := "jump"; m_params := ["x"%string]; m_items := [APush (MacroVar "x"); AOp "JUMP"] |};
    {| m_name := "spin"; m_params := []; m_items := [AMacroLabel "start"; MacroCall "jump" [MacroLabel "start"]] |} ].
Example demo_good : Forall good_macro demo_macros.
Proof. repeat constructor; intros []. Qed.
Example demo_expansion : expand_macros 9 demo_macros [ALocal "here"; MacroCall "spin" []; Repeat 2 [MacroCall "spin" []]] 0 =
  Good ([ALocal "here"; ALocal "@0.start"; APush (Label "@0.start"); AOp "JUMP"; ALocal "@2.start"; APush (Label "@2.start"); AOp "JUMP";
         ALocal "@4.start"; APush (Label "@4.start"); AOp "JUMP"], 6).
Proof. vm_compute. reflexivity. Qed.
Example demo_rank : forall m, In m demo_macros -> forall n k, In (n, k) (all_calls (m_items m)) ->
  (fun n (_ : nat) => if String.eqb n "spin" then 1 else 0) n k < (fun n (_ : nat) => if String.eqb n "spin" then 1 else 0) (m_name m) (List.length (m_params m)).
Proof. intros m [<-|[<-|[]]] n k H; cbn in H; [contradiction|]. destruct H as [H|[]]. injection H as <- <-. cbn. lia. Qed.
(** The test two_files: a label push of file 2 with its shifted offset. *)
Example demo_link : link
  [ [AGlobal "function_1"; AOp "jumpdest"; AOp "ADD"; AOp "MUL"];
    [AGlobal "function_2"; AOp "JUMPDEST"; AOp "DIV"; ALocal "mylabel"; AOp "JUMPDEST"; AOp "MOD"; APush (Label "mylabel"); APush (Literal 300); AProverInput 7; AJumptable ["function_2"%string]] ] =
  Good {| k_code := [91; 1; 2; 91; 4; 91; 6; 98; 0; 0; 5; 97; 1; 44; 238; 0; 0; 3]%Z;
          k_globals := [("function_2"%string, 3); ("function_1"%string, 0)]; k_inputs := [(14, 7)] |}.
Proof. vm_compute. reflexivity. Qed.
