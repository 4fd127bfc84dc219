(** The swap sequences for permutations of the stack: C32. *)
From Coq Require Import List Bool Arith Lia Permutation.
From Verif Require Import Kernel.PermModel.
Import ListNotations.
Local Open Scope list_scope.

(** * Specification: SWAPn exchanges the top with the element n below it *)

Fixpoint update {T : Type} (i : nat) (x : T) (l : list T) : list T :=
  match l, i with
  | [], _ => []
  | _ :: r, O => x :: r
  | y :: r, S i' => y :: update i' x r
  end.
(** On a stack with its top first. *)
Definition swap_top {T : Type} (n : nat) (s : list T) : option (list T) :=
  match nth_error s 0, nth_error s n with
  | Some x, Some y => Some (update n x (update 0 y s))
  | _, _ => None
  end.
Fixpoint run_swaps {T : Type} (ns : list nat) (s : list T) : option (list T) :=
  match ns with
  | [] => Some s
  | n :: r => match swap_top n s with Some s' => run_swaps r s' | None => None end
  end.

Lemma nodup_app_r : forall {X} (l l' : list X), NoDup (l ++ l') -> NoDup l'.
Proof. induction l as [|x l IH]; intros l' H; [exact H|]. apply IH. cbn [app] in H. apply NoDup_cons_iff in H. apply H. Qed.
Lemma nodup_snoc : forall {X} (l : list X) x, NoDup l -> ~ In x l -> NoDup (l ++ [x]).
Proof. intros X l x N H. eapply Permutation_NoDup; [apply Permutation_cons_append|]. constructor; assumption. Qed.

Lemma NoDup_app_intro_local : forall {X} (l l' : list X), NoDup l -> NoDup l' -> (forall x, In x l -> In x l' -> False) -> NoDup (l ++ l').
Proof.
  induction l as [|x l IH]; intros l' N N' D; [exact N'|]. apply NoDup_cons_iff in N. destruct N as [NX N]. cbn [app]. constructor.
  - intros I. apply in_app_or in I. destruct I as [I|I]; [contradiction|]. apply (D x); [left; reflexivity|exact I].
  - apply IH; try assumption. intros y Y1 Y2. apply (D y); [right; exact Y1|exact Y2].
Qed.

Section Perm.
  Variable T : Type.
  Variable eqb : T -> T -> bool.
  Hypothesis EQ : forall x y, reflect (x = y) (eqb x y).

  Lemma eqb_same : forall x, eqb x x = true.
  Proof. intros x. destruct (EQ x x); [reflexivity|contradiction]. Qed.

  (** ** Multisets *)

  Lemma multiplicity_count : forall (dec : forall x y : T, {x = y} + {x <> y}) x l, multiplicity T eqb x l = count_occ dec l x.
  Proof.
    intros dec x. unfold multiplicity. induction l as [|y l IH]; [reflexivity|]. cbn [filter count_occ]. destruct (EQ x y), (dec y x); subst; try contradiction; cbn [length]; congruence.
  Qed.
  Definition T_dec : forall x y : T, {x = y} + {x <> y}.
  Proof. intros x y. destruct (EQ x y); [left|right]; assumption. Defined.

  Lemma is_permutation_spec : forall a b, is_permutation T eqb a b = true <-> Permutation a b.
  Proof.
    intros a b. unfold is_permutation. rewrite forallb_forall. rewrite (Permutation_count_occ T_dec). split.
    - intros H x. destruct (in_dec T_dec x (a ++ b)) as [I|N].
      + specialize (H x I). rewrite !(multiplicity_count T_dec) in H. apply Nat.eqb_eq. exact H.
      + rewrite !(proj1 (count_occ_not_In T_dec _ _)); [reflexivity| |]; intros K; apply N, in_or_app; auto.
    - intros H x _. rewrite !(multiplicity_count T_dec), H. apply Nat.eqb_refl.
  Qed.

  (** ** Cycles *)

  Lemma map_index : forall l : list T, map (nth_error l) (seq 0 (length l)) = map Some l.
  Proof. induction l as [|x l IH]; [reflexivity|]. cbn [length seq map nth_error]. f_equal. rewrite <- seq_shift, map_map. exact IH. Qed.

  Section Lists.
    Variables a b : list T.
    Definition A (i : nat) : option T := nth_error a i.
    Definition B (i : nat) : option T := nth_error b i.

    (** The value [h] goes to the first index of [l], the value there to the
        next, ..., the last to [y]. *)
    Fixpoint path (h : option T) (l : list nat) (y : nat) : Prop :=
      match l with [] => B y = h | z :: r => B z = h /\ path (A z) r y end.
    Definition cyc (c : list nat) : Prop := match c with [] => False | x :: l => path (A x) l x end.

    Lemma path_app : forall l1 h z l2 y, path h (l1 ++ z :: l2) y <-> path h l1 z /\ path (A z) l2 y.
    Proof. induction l1 as [|w l1 IH]; intros h z l2 y; cbn [app path]; [tauto|]. rewrite IH. tauto. Qed.

    Lemma cyc_split : forall X i Y, cyc (X ++ i :: Y) <-> path (A i) (Y ++ X) i.
    Proof.
      intros [|x X] i Y; cbn [app cyc]; [rewrite app_nil_r; tauto|]. rewrite !path_app. tauto.
    Qed.

    Definition cycles_ok (perm : list (list nat)) : Prop :=
      Forall cyc perm /\ NoDup (concat perm) /\ (forall k, In k (concat perm) -> k < length a) /\
      forall k, k < length a -> In k (concat perm) \/ A k = B k.

    (** ** find_permutation *)

    Hypothesis PERM : Permutation a b.

    Lemma same_len : length a = length b.
    Proof. apply Permutation_length. exact PERM. Qed.

    Definition loc_ok (loc : locations T) (L : list nat) : Prop :=
      forall v, NoDup (loc v) /\ forall k, In k (loc v) <-> In k L /\ B k = Some v.

    Lemma loc_perm : forall loc L L', Permutation L L' -> loc_ok loc L -> loc_ok loc L'.
    Proof.
      intros loc L L' P H v. destruct (H v) as [N K]. split; [exact N|]. intros k. rewrite K. split; intros [I E]; (split; [|exact E]).
      - eapply Permutation_in; eassumption.
      - eapply Permutation_in; [apply Permutation_sym|]; eassumption.
    Qed.

    Lemma pop_ok : forall loc L x j loc', NoDup L -> loc_ok loc L -> loc_pop T eqb loc x = Some (j, loc') ->
      exists L', Permutation L (j :: L') /\ B j = Some x /\ loc_ok loc' L'.
    Proof.
      intros loc L x j loc' ND H E. unfold loc_pop in E. destruct (rev (loc x)) as [|i r] eqn:R; [discriminate|]. injection E as -> <-.
      assert (LX : loc x = rev r ++ [j]) by (rewrite <- (rev_involutive (loc x)), R; reflexivity).
      assert (IJ : In j (loc x)) by (rewrite LX; apply in_or_app; right; left; reflexivity).
      destruct (proj1 (proj2 (H x) j) IJ) as [JL JB]. destruct (in_split _ _ JL) as (L1 & L2 & ->). exists (L1 ++ L2). split; [apply Permutation_sym, Permutation_middle|]. split; [exact JB|].
      assert (NJ : ~ In j (L1 ++ L2)) by (apply NoDup_remove_2; exact ND).
      assert (SPL : forall k, In k (L1 ++ j :: L2) <-> k = j \/ In k (L1 ++ L2)) by (intros k; rewrite !in_app_iff; cbn [In]; intuition congruence).
      intros v. destruct (EQ v x) as [->|NE].
      - destruct (H x) as [N K]. rewrite LX in N. apply NoDup_remove in N. rewrite app_nil_r in N. destruct N as [N1 N2]. split; [exact N1|]. intros k. split.
        + intros I. assert (In k (loc x)) as I2 by (rewrite LX; apply in_or_app; left; exact I). apply K in I2. destruct I2 as [I2 I3]. split; [|exact I3]. apply SPL in I2. destruct I2 as [->|I2]; [contradiction|exact I2].
        + intros [I I2]. assert (In k (loc x)) as I3 by (apply K; split; [apply SPL; right; exact I|exact I2]). rewrite LX in I3. apply in_app_or in I3. destruct I3 as [I3|[->|[]]]; [exact I3|contradiction].
      - destruct (H v) as [N K]. split; [exact N|]. intros k. rewrite K. split; intros [I E]; (split; [|exact E]).
        + apply SPL in I. destruct I as [->|I]; [congruence|exact I].
        + apply SPL. right. exact I.
    Qed.

    Lemma pop_some : forall loc L x, loc_ok loc L -> (exists k, In k L /\ B k = Some x) -> exists j loc', loc_pop T eqb loc x = Some (j, loc').
    Proof.
      intros loc L x H (k & I & E). unfold loc_pop. destruct (rev (loc x)) as [|i r] eqn:R; [|eauto].
      assert (In k (loc x)) as K by (apply H; auto). rewrite <- (rev_involutive (loc x)), R in K. destruct K.
    Qed.

    Definition unplaced (correct : index_set) (U : list nat) : Prop := forall k, In k U <-> k < length a /\ correct k = false.

    Lemma insert_unplaced : forall correct U j U', unplaced correct U -> Permutation U (j :: U') -> NoDup U -> unplaced (insert correct j) U'.
    Proof.
      intros correct U j U' H P N k. pose proof (Permutation_NoDup P N) as N'. apply NoDup_cons_iff in N'. destruct N' as [NJ _]. unfold insert. destruct (Nat.eqb_spec k j) as [->|NE].
      - split; [intros I; contradiction|intros [_ K]; discriminate].
      - pose proof (H k) as HK. split; intros I; [apply HK; eapply Permutation_in; [apply Permutation_sym; exact P|right; exact I]|]. apply HK in I. eapply Permutation_in in I; [|exact P]. destruct I as [I|I]; [congruence|exact I].
    Qed.

    Lemma extend_ok : forall fuel i j correct loc l U L,
      unplaced correct U -> NoDup (i :: U) -> Permutation (j :: L) (i :: U) -> loc_ok loc L -> Permutation (map A U) (map B L) ->
      path (A i) l j -> length U <= fuel ->
      exists correct' loc' l' U', extend_cycle T eqb fuel a i j correct loc (i :: l) = Some (correct', loc', i :: l ++ l') /\
        unplaced correct' U' /\ Permutation U (l' ++ U') /\ loc_ok loc' U' /\ Permutation (map A U') (map B U') /\ cyc (i :: l ++ l').
    Proof.
      induction fuel as [|fuel IH]; intros i j correct loc l U L UN ND PJ LO PM PA LU; cbn [extend_cycle]; destruct (Nat.eqb_spec j i) as [->|NE].
      1,3: (apply Permutation_cons_inv in PJ; exists correct, loc, [], U; rewrite app_nil_r; split; [reflexivity|]; split; [exact UN|]; split; [reflexivity|]; split; [eapply loc_perm; eassumption|]; split; [|exact PA];
        etransitivity; [exact PM|]; apply Permutation_map; exact PJ).
      - destruct U; [|cbn in LU; lia]. exfalso. apply Permutation_sym in PJ. apply Permutation_length_1_inv in PJ. injection PJ as E _. congruence.
      - assert (JU : In j U) by (assert (J : In j (i :: U)) by (eapply Permutation_in; [exact PJ|left; reflexivity]); destruct J as [J|J]; [congruence|exact J]).
        destruct (in_split _ _ JU) as (U1 & U2 & EU). set (U'' := U1 ++ U2). assert (PU : Permutation U (j :: U'')) by (rewrite EU; apply Permutation_sym, Permutation_middle).
        assert (PL : Permutation L (i :: U'')) by (apply (Permutation_cons_inv (a := j)); etransitivity; [exact PJ|]; etransitivity; [apply perm_skip; exact PU|apply perm_swap]).
        apply NoDup_cons_iff in ND. destruct ND as [NI NU].
        assert (NU2 : NoDup (j :: U'')) by (eapply Permutation_NoDup; eassumption). apply NoDup_cons_iff in NU2. destruct NU2 as [NJ NU2].
        assert (NI2 : ~ In i U'') by (intros K; apply NI; eapply Permutation_in; [apply Permutation_sym; exact PU|right; exact K]).
        assert (NL : NoDup L) by (eapply Permutation_NoDup; [apply Permutation_sym; exact PL|constructor; assumption]).
        assert (JN : j < length a) by (apply UN; exact JU). destruct (nth_error a j) as [x|] eqn:AX; [|apply nth_error_None in AX; lia].
        assert (EX : exists k, In k L /\ B k = Some x).
        { assert (I : In (A j) (map B L)) by (eapply Permutation_in; [exact PM|apply in_map; exact JU]). apply in_map_iff in I. destruct I as (k & E & I). exists k. split; [exact I|]. rewrite E. exact AX. }
        destruct (pop_some _ _ _ LO EX) as (j' & loc' & PO). rewrite PO. destruct (pop_ok _ _ _ _ _ NL LO PO) as (L' & PL' & BJ & LO').
        destruct (IH i j' (insert correct j) loc' (l ++ [j]) U'' L') as (c' & loc'' & l' & U' & E & H1 & H2 & H3 & H4 & H5).
        + eapply insert_unplaced; eassumption.
        + constructor; assumption.
        + etransitivity; [apply Permutation_sym; exact PL'|exact PL].
        + exact LO'.
        + apply (Permutation_cons_inv (a := A j)). change (A j :: map A U'') with (map A (j :: U'')). etransitivity; [apply Permutation_map, Permutation_sym; exact PU|].
          etransitivity; [exact PM|]. etransitivity; [apply Permutation_map; exact PL'|]. cbn [map]. rewrite BJ. unfold A. rewrite AX. reflexivity.
        + apply path_app. split; [exact PA|]. cbn [path]. rewrite BJ. unfold A. rewrite AX. reflexivity.
        + apply Permutation_length in PU. cbn [length] in PU. lia.
        + change (i :: l ++ [j]) with ((i :: l) ++ [j]) in E. cbn [app] in E |- *. rewrite <- app_assoc in E. exists c', loc'', (j :: l'), U'. split; [exact E|]. split; [exact H1|]. split; [etransitivity; [exact PU|]; cbn [app]; apply perm_skip; exact H2|].
          split; [exact H3|]. split; [exact H4|]. rewrite <- app_assoc in H5. exact H5.
    Qed.

    Lemma find_ok : forall fuel is correct loc perm U,
      length a <= fuel -> unplaced correct U -> NoDup (concat perm ++ U) -> loc_ok loc U -> Permutation (map A U) (map B U) ->
      Forall cyc perm -> (forall k, In k (concat perm) -> k < length a) -> (forall k, k < length a -> In k (concat perm) \/ In k U \/ A k = B k) ->
      (forall k, In k U -> In k is) -> Forall (fun i => i < length a) is ->
      exists perm', find_cycles T eqb fuel a is correct loc perm = Some perm' /\ cycles_ok perm'.
    Proof.
      intros fuel. induction is as [|i is IH]; intros correct loc perm U LF UN ND LO PM CY RG CV IS ISR; cbn [find_cycles].
      - exists perm. split; [reflexivity|]. assert (U = []) by (destruct U as [|u U]; [reflexivity|destruct (IS u); left; reflexivity]). subst U. rewrite app_nil_r in ND.
        split; [exact CY|]. split; [exact ND|]. split; [exact RG|]. intros k K. destruct (CV k K) as [H|[[]|H]]; auto.
      - inversion ISR as [|? ? IN ISR']. subst. destruct (correct i) eqn:CI.
        + apply (IH _ _ _ U); try assumption. intros k K. destruct (IS k K) as [->|H]; [|exact H]. apply UN in K. destruct K. congruence.
        + destruct (nth_error a i) as [x|] eqn:AX; [|apply nth_error_None in AX; lia].
          assert (IU : In i U) by (apply UN; auto). destruct (in_split _ _ IU) as (U1 & U2 & EU). set (U'' := U1 ++ U2). assert (PU : Permutation U (i :: U'')) by (rewrite EU; apply Permutation_sym, Permutation_middle).
          assert (NU : NoDup U) by (eapply nodup_app_r; exact ND).
          assert (EX : exists k, In k U /\ B k = Some x).
          { assert (I : In (A i) (map B U)) by (eapply Permutation_in; [exact PM|apply in_map; exact IU]). apply in_map_iff in I. destruct I as (k & E & I). exists k. split; [exact I|]. rewrite E. exact AX. }
          destruct (pop_some _ _ _ LO EX) as (j & loc' & PO). rewrite PO. destruct (pop_ok _ _ _ _ _ NU LO PO) as (L & PL & BJ & LO').
          destruct (extend_ok fuel i j (insert correct i) loc' [] U'' L) as (c' & loc'' & l' & U' & E & H1 & H2 & H3 & H4 & H5).
          * eapply insert_unplaced; eassumption.
          * eapply Permutation_NoDup; eassumption.
          * etransitivity; [apply Permutation_sym; exact PL|exact PU].
          * exact LO'.
          * apply (Permutation_cons_inv (a := A i)). change (A i :: map A U'') with (map A (i :: U'')). etransitivity; [apply Permutation_map, Permutation_sym; exact PU|].
            etransitivity; [exact PM|]. etransitivity; [apply Permutation_map; exact PL|]. cbn [map]. rewrite BJ. unfold A. rewrite AX. reflexivity.
          * cbn [path]. rewrite BJ. unfold A. rewrite AX. reflexivity.
          * assert (LL : length U <= length a).
            { rewrite <- (seq_length (length a) 0). apply NoDup_incl_length; [exact NU|]. intros k K. apply UN in K. apply in_seq. lia. }
            apply Permutation_length in PU. cbn [length] in PU. lia.
          * cbn [app] in *. rewrite E.
            assert (PW : Permutation U ((i :: l') ++ U')) by (etransitivity; [exact PU|]; apply perm_skip; exact H2).
            assert (PC : Permutation (concat perm ++ U) (concat (perm ++ [i :: l']) ++ U')) by (rewrite concat_app; cbn [concat]; rewrite app_nil_r, <- app_assoc; apply Permutation_app_head; exact PW).
            assert (INU : forall k, In k U <-> In k (i :: l') \/ In k U') by (intros k; rewrite <- in_app_iff; split; apply Permutation_in; [exact PW|apply Permutation_sym; exact PW]).
            assert (INC : forall k, In k (concat (perm ++ [i :: l'])) <-> In k (concat perm) \/ In k (i :: l')) by (intros k; rewrite concat_app, in_app_iff; cbn [concat]; rewrite app_nil_r; tauto).
            apply (IH _ _ _ U'); try assumption.
            -- eapply Permutation_NoDup; eassumption.
            -- apply Forall_app. split; [exact CY|]. constructor; [exact H5|constructor].
            -- intros k K. apply INC in K. destruct K as [K|K]; [apply RG; exact K|]. apply UN. apply INU. auto.
            -- intros k K. destruct (CV k K) as [H|[H|H]]; [left; apply INC; auto| |auto]. apply INU in H. destruct H; [left; apply INC; auto|auto].
            -- intros k K. destruct (IS k) as [->|H]; [apply INU; auto| |exact H]. exfalso. assert (ND' := Permutation_NoDup PW NU). cbn [app] in ND'. apply NoDup_cons_iff in ND'. apply (proj1 ND'). apply in_or_app. auto.
    Qed.

    (** Classification. *)
    Lemma classify_ok : forall is correct loc U P, NoDup (P ++ is) -> (forall k, In k (P ++ is) -> k < length a) ->
      (forall k, In k U <-> In k P /\ A k <> B k) -> (forall k, correct k = true <-> In k P /\ A k = B k) -> loc_ok loc U -> NoDup U ->
      exists U', let '(correct', loc') := classify T eqb a b is correct loc in
        NoDup U' /\ (forall k, In k U' <-> In k (P ++ is) /\ A k <> B k) /\ (forall k, correct' k = true <-> In k (P ++ is) /\ A k = B k) /\ loc_ok loc' U'.
    Proof.
      induction is as [|i is IH]; intros correct loc U P ND RG HU HC LO NU; cbn [classify].
      - exists U. rewrite app_nil_r. auto.
      - assert (IN : i < length a) by (apply RG; apply in_or_app; right; left; reflexivity).
        assert (NIP : ~ In i P) by (intros K; apply NoDup_remove_2 in ND; apply ND; apply in_or_app; auto).
        replace (P ++ i :: is) with ((P ++ [i]) ++ is) in * by (rewrite <- app_assoc; reflexivity).
        assert (INP : forall k, In k (P ++ [i]) <-> In k P \/ k = i) by (intros k; rewrite in_app_iff; cbn [In]; intuition congruence).
        unfold same_at. destruct (nth_error a i) as [x|] eqn:AX; [|apply nth_error_None in AX; lia]. destruct (nth_error b i) as [y|] eqn:BY; [|apply nth_error_None in BY; pose proof same_len; lia].
        destruct (EQ x y) as [->|NE].
        + apply (IH (insert correct i) loc U (P ++ [i])); try assumption.
          * intros k. rewrite HU, INP. split; [tauto|]. intros [[H| ->] K]; [auto|]. exfalso. apply K. unfold A, B. congruence.
          * intros k. rewrite INP. unfold insert. destruct (Nat.eqb_spec k i) as [->|NK]; [split; [intros _; split; [auto|unfold A, B; congruence]|reflexivity]|]. rewrite HC. intuition congruence.
        + apply (IH correct (loc_push T eqb loc y i) (U ++ [i]) (P ++ [i])); try assumption.
          * intros k. rewrite in_app_iff, HU, INP. cbn [In]. split; [intros [[H K]|[<-|[]]]; [auto|split; [auto|unfold A, B; congruence]]|]. intros [[H| ->] K]; auto.
          * intros k. rewrite HC, INP. split; [tauto|]. intros [[H| ->] K]; [auto|]. exfalso. apply NE. unfold A, B in K. congruence.
          * intros v. unfold loc_push. destruct (LO v) as [N K].
            assert (NIU : ~ In i U) by (intros Q; apply HU in Q; tauto).
            destruct (EQ v y) as [->|NV].
            -- split; [apply nodup_snoc; [exact N|intros Q; apply K in Q; tauto]|]. intros k. rewrite !in_app_iff, K. cbn [In]. split; [intros [[H1 H2]|[<-|[]]]; auto|]. intros [[H|[<-|[]]] Q]; auto.
            -- split; [exact N|]. intros k. rewrite in_app_iff, K. cbn [In]. split; [tauto|]. intros [[H|[<-|[]]] Q]; [auto|]. unfold B in Q. congruence.
          * apply nodup_snoc; [exact NU|intros Q; apply HU in Q; tauto].
    Qed.

    (** The misplaced values are the same on both sides. *)
    Lemma misplaced_perm : forall U, NoDup U -> (forall k, In k U <-> k < length a /\ A k <> B k) -> Permutation (map A U) (map B U).
    Proof.
      intros U NU HU.
      set (V := filter (fun k => same_at T eqb a k b k) (seq 0 (length a))).
      assert (HV : forall k, In k V <-> k < length a /\ A k = B k).
      { intros k. unfold V. rewrite filter_In, in_seq. unfold same_at, A, B. split.
        - intros [H K]. split; [lia|]. destruct (nth_error a k), (nth_error b k); try discriminate. destruct (EQ t t0); congruence.
        - intros [H K]. split; [lia|]. rewrite <- K. destruct (nth_error a k) as [x|] eqn:E; [apply eqb_same|]. apply nth_error_None in E. lia. }
      assert (P : Permutation (U ++ V) (seq 0 (length a))).
      { apply NoDup_Permutation; [|apply seq_NoDup|].
        - apply NoDup_app_intro_local; [exact NU|apply NoDup_filter, seq_NoDup|]. intros k K1 K2. apply HU in K1. apply HV in K2. tauto.
        - intros k. rewrite in_app_iff, HU, HV, in_seq. split; [intros [H|H]; lia|]. intros H. destruct (same_at T eqb a k b k) eqn:S.
          + right. apply HV. unfold V. apply filter_In. split; [apply in_seq; lia|exact S].
          + left. split; [lia|]. intros K. assert (IV : In k V) by (apply HV; split; [lia|exact K]). unfold V in IV. apply filter_In in IV. destruct IV. congruence. }
      apply (Permutation_app_inv_r (map A V)). replace (map A V) with (map B V) at 2 by (apply map_ext_in; intros k K; symmetry; apply HV; exact K).
      rewrite <- !map_app. etransitivity; [apply Permutation_map; exact P|]. etransitivity; [|apply Permutation_map, Permutation_sym; exact P].
      unfold A, B. rewrite map_index. rewrite same_len. rewrite map_index. apply Permutation_map. exact PERM.
    Qed.

    Lemma find_permutation_ok : exists perm, find_permutation T eqb a b = Some perm /\ cycles_ok perm.
    Proof.
      unfold find_permutation. rewrite (proj2 (is_permutation_spec a b) PERM).
      destruct (classify_ok (seq 0 (length a)) (fun _ => false) (fun _ => []) [] []) as [U H].
      - apply seq_NoDup.
      - intros k K. apply in_seq in K. lia.
      - intros k. split; [intros []|intros [[] _]].
      - intros k. split; [discriminate|intros [[] _]].
      - intros v. split; [constructor|]. intros k. split; [intros []|intros [[] _]].
      - constructor.
      - destruct (classify T eqb a b (seq 0 (length a)) (fun _ => false) (fun _ => [])) as [correct loc]. cbn [app] in H. destruct H as (NU & HU & HC & LO).
        assert (HU' : forall k, In k U <-> k < length a /\ A k <> B k) by (intros k; rewrite HU, in_seq; intuition lia).
        assert (HC' : forall k, correct k = true <-> k < length a /\ A k = B k) by (intros k; rewrite HC, in_seq; intuition lia).
        assert (DEC : forall k, k < length a -> A k = B k \/ A k <> B k).
        { intros k K. destruct (correct k) eqn:C; [left; apply HC'; exact C|right]. intros E. assert (correct k = true) by (apply HC'; auto). congruence. }
        assert (UN : unplaced correct U).
        { intros k. rewrite HU'. split; intros [H K]; (split; [exact H|]).
          - destruct (correct k) eqn:C; [|reflexivity]. apply HC' in C. tauto.
          - intros E. assert (correct k = true) by (apply HC'; auto). congruence. }
        apply find_ok with (U := U); try assumption; try lia.
        + destruct (correct 0) eqn:C0; cbn [concat app]; [|exact NU]. constructor; [|exact NU]. intros K. apply UN in K. destruct K. congruence.
        + apply misplaced_perm; assumption.
        + destruct (correct 0) eqn:C0; [|constructor]. apply HC' in C0. constructor; [|constructor]. cbn [cyc path]. symmetry. apply C0.
        + intros k. destruct (correct 0) eqn:C0; cbn [concat app]; [|intros []]. intros [<-|[]]. apply HC' in C0. apply C0.
        + intros k K. destruct (DEC k K) as [E|E]; [auto|]. right. left. apply HU'. auto.
        + intros k K. apply HU' in K. apply in_seq. lia.
        + apply Forall_forall. intros k K. apply in_seq in K. lia.
    Qed.

    (** ** combine_cycles *)

    Lemma contains_spec : forall l x, contains l x = true <-> In x l.
    Proof. intros l x. unfold contains. rewrite existsb_exists. split; [intros (y & I & E); apply Nat.eqb_eq in E; subst; exact I|intros I; exists x; split; [exact I|apply Nat.eqb_refl]]. Qed.
    Lemma position_split : forall l x p, position l x = Some p -> exists l1 l2, l = l1 ++ x :: l2 /\ length l1 = p.
    Proof.
      induction l as [|y l IH]; intros x p H; [discriminate|]. cbn [position] in H. destruct (Nat.eqb_spec y x) as [->|]; [injection H as <-; exists [], l; auto|].
      destruct (position l x) as [q|] eqn:E; [|discriminate]. injection H as <-. destruct (IH x q E) as (l1 & l2 & -> & <-). exists (y :: l1), l2. auto.
    Qed.
    Lemma position_in : forall l x, In x l -> exists p, position l x = Some p.
    Proof. induction l as [|y l IH]; intros x []; cbn [position]; [subst; rewrite Nat.eqb_refl; eauto|]. destruct (y =? x); [eauto|]. destruct (IH x H) as [p ->]. cbn. eauto. Qed.
    Lemma position_none : forall l x, position l x = None -> ~ In x l.
    Proof. intros l x H I. destruct (position_in l x I) as [p E]. congruence. Qed.

    Lemma split_first : forall (l1 : list nat) x l2, firstn (length l1 + 1) (l1 ++ x :: l2) = l1 ++ [x].
    Proof. induction l1 as [|y l1 IH]; intros x l2; [reflexivity|]. cbn [length Nat.add app firstn]. rewrite IH. reflexivity. Qed.
    Lemma split_rest : forall (l1 : list nat) x l2, skipn (length l1 + 1) (l1 ++ x :: l2) = l2.
    Proof. induction l1 as [|y l1 IH]; intros x l2; [reflexivity|]. cbn [length Nat.add app skipn]. apply IH. Qed.

    Lemma juggle : forall (X : list nat) i Y Z t W N P, Permutation (((X ++ [i]) ++ W ++ (Z ++ [t]) ++ Y) ++ N ++ P) ((X ++ i :: Y) ++ N ++ (Z ++ t :: W) ++ P).
    Proof.
      intros X i Y Z t W N P. apply (Permutation_count_occ Nat.eq_dec). intros k. rewrite !count_occ_app. cbn [count_occ]. destruct (Nat.eq_dec i k), (Nat.eq_dec t k); lia.
    Qed.

    Lemma join_ok : forall x perm joined new pos, Forall cyc perm -> Forall cyc new ->
      (joined = [] \/ exists X i Y, joined = X ++ i :: Y /\ length X = pos /\ cyc joined /\ A i = Some x) ->
      forall joined' new', join_cycles (positions_of T eqb a x) perm joined new pos = (joined', new') ->
      Forall cyc new' /\ (joined' = [] \/ cyc joined') /\ Permutation (concat (joined' :: new')) (concat (joined :: new ++ perm)).
    Proof.
      intros x. induction perm as [|c perm IH]; intros joined new pos CP CN CJ joined' new' E; cbn [join_cycles] in E.
      - injection E as <- <-. rewrite app_nil_r. split; [exact CN|]. split; [|reflexivity]. destruct CJ as [->|(X & i & Y & _ & _ & H & _)]; auto.
      - inversion CP as [|? ? CC CP']. subst. destruct (find (contains c) (positions_of T eqb a x)) as [term|] eqn:F.
        + apply find_some in F. destruct F as [F1 F2]. apply contains_spec in F2. destruct (position_in _ _ F2) as [np EP]. rewrite EP in E.
          assert (AT : A term = Some x).
          { unfold positions_of in F1. apply filter_In in F1. destruct F1 as [_ F1]. unfold A. destruct (nth_error a term) as [y|]; [|discriminate]. destruct (EQ y x); [congruence|discriminate]. }
          destruct (position_split _ _ _ EP) as (Z & W & EC & LZ).
          destruct joined as [|j0 joined].
          * destruct (IH c new np CP' CN) with (joined' := joined') (new' := new') as (H1 & H2 & H3); [right; exists Z, term, W; auto|exact E|]. split; [exact H1|]. split; [exact H2|].
            etransitivity; [exact H3|]. cbn [concat app]. rewrite !concat_app. cbn [concat]. rewrite !app_assoc. apply Permutation_app_tail. apply Permutation_app_comm.
          * destruct CJ as [CJ|(X & i & Y & EJ & LX & CJ & AI)]; [discriminate|]. rewrite EJ in *. subst pos np. rewrite EC, !split_first, !split_rest in E.
            destruct (IH ((X ++ [i]) ++ W ++ (Z ++ [term]) ++ Y) new (length X) CP' CN) with (joined' := joined') (new' := new') as (H1 & H2 & H3).
            -- right. exists X, i, (W ++ Z ++ term :: Y). split; [rewrite <- !app_assoc; reflexivity|]. split; [reflexivity|]. split; [|exact AI].
               rewrite <- !app_assoc. cbn [app]. apply cyc_split. rewrite EC in CC. apply cyc_split in CC. apply cyc_split in CJ.
               replace ((W ++ Z ++ term :: Y) ++ X) with ((W ++ Z) ++ term :: (Y ++ X)) by (rewrite <- !app_assoc; reflexivity). apply path_app. split; [rewrite AI, <- AT; exact CC|rewrite AT, <- AI; exact CJ].
            -- exact E.
            -- split; [exact H1|]. split; [exact H2|]. etransitivity; [exact H3|]. cbn [concat]. rewrite !concat_app. cbn [concat]. rewrite EC.
               apply juggle.
        + destruct (IH joined (new ++ [c]) pos CP') with (joined' := joined') (new' := new') as (H1 & H2 & H3); [apply Forall_app; split; [exact CN|constructor; [exact CC|constructor]]|exact CJ|exact E|].
          split; [exact H1|]. split; [exact H2|]. etransitivity; [exact H3|]. rewrite <- app_assoc. reflexivity.
    Qed.

    Lemma cycles_perm : forall p q, Forall cyc q -> Permutation (concat q) (concat p) -> cycles_ok p -> cycles_ok q.
    Proof.
      intros p q CQ P (_ & N & R & C). split; [exact CQ|]. split; [eapply Permutation_NoDup; [apply Permutation_sym; exact P|exact N]|].
      split; [intros k K; apply R; eapply Permutation_in; eassumption|]. intros k K. destruct (C k K) as [H|H]; [left; eapply Permutation_in; [apply Permutation_sym|]; eassumption|auto].
    Qed.

    Lemma combine_ok : forall keys perm, cycles_ok perm -> cycles_ok (combine_cycles T eqb keys perm a).
    Proof.
      intros keys perm H. unfold combine_cycles. destruct (length perm =? 1); [exact H|]. revert perm H. induction keys as [|x keys IH]; intros perm H; cbn [combine_over]; [exact H|].
      destruct (length (positions_of T eqb a x) =? 1); [apply IH; exact H|]. destruct (join_cycles (positions_of T eqb a x) perm [] [] 0) as [joined new] eqn:E.
      destruct (join_ok x perm [] [] 0 (proj1 H) (Forall_nil _) (or_introl eq_refl) _ _ E) as (H1 & H2 & H3). apply IH. eapply cycles_perm; [| |exact H].
      - destruct joined as [|j0 joined]; [exact H1|]. apply Forall_app. split; [exact H1|]. constructor; [|constructor]. destruct H2 as [H2|H2]; [discriminate|exact H2].
      - cbn [app concat] in H3. etransitivity; [|exact H3]. destruct joined as [|j0 joined]; [reflexivity|]. rewrite concat_app. cbn [concat]. rewrite app_nil_r. apply Permutation_app_comm.
    Qed.

    (** ** Transpositions *)

    Definition fswap (i : nat) (st : nat -> option T) : nat -> option T := fun k => if k =? 0 then st i else if k =? i then st 0 else st k.
    Definition fswaps (l : list nat) (st : nat -> option T) : nat -> option T := fold_left (fun s i => fswap i s) l st.
    Fixpoint carried (h : option T) (l : list nat) : option T := match l with [] => h | z :: r => carried (A z) r end.

    Fixpoint links (h : option T) (l : list nat) : Prop := match l with [] => True | z :: r => B z = h /\ links (A z) r end.
    Lemma path_links : forall l h y, path h l y <-> links h l /\ B y = carried h l.
    Proof. induction l as [|z l IH]; intros h y; cbn [path links carried]; [tauto|]. rewrite IH. tauto. Qed.

    (** Swapping the top with each index in turn carries the values along. *)
    Lemma star : forall l st, NoDup l -> ~ In 0 l -> (forall k, In k l -> st k = A k) -> links (st 0) l ->
      fswaps l st 0 = carried (st 0) l /\ (forall k, In k l -> fswaps l st k = B k) /\ forall k, k <> 0 -> ~ In k l -> fswaps l st k = st k.
    Proof.
      induction l as [|z l IH]; intros st ND N0 EQA LK; [cbn; split; [reflexivity|]; split; [intros k []|reflexivity]|].
      apply NoDup_cons_iff in ND. destruct ND as [NZ ND]. cbn [links] in LK. destruct LK as [BZ LK]. cbn [fswaps fold_left carried]. fold (fswaps l (fswap z st)).
      assert (Z0 : z <> 0) by (intros ->; apply N0; left; reflexivity).
      assert (S0 : fswap z st 0 = A z) by (unfold fswap; cbn; apply EQA; left; reflexivity).
      assert (SZ : fswap z st z = st 0) by (unfold fswap; rewrite (proj2 (Nat.eqb_neq z 0) Z0), Nat.eqb_refl; reflexivity).
      assert (SK : forall k, k <> 0 -> k <> z -> fswap z st k = st k) by (intros k K1 K2; unfold fswap; rewrite (proj2 (Nat.eqb_neq _ _) K1), (proj2 (Nat.eqb_neq _ _) K2); reflexivity).
      destruct (IH (fswap z st) ND) as (H1 & H2 & H3).
      - intros K. apply N0. right. exact K.
      - intros k K. rewrite SK; [apply EQA; right; exact K| |]; intros ->; [apply N0; right; exact K|contradiction].
      - rewrite S0. exact LK.
      - rewrite S0 in H1. split; [exact H1|]. split.
        + intros k [<-|K]; [|apply H2; exact K]. rewrite H3 by assumption. rewrite SZ. symmetry. exact BZ.
        + intros k K0 K. rewrite H3; [|exact K0|intros Q; apply K; right; exact Q]. apply SK; [exact K0|]. intros ->. apply K. left. reflexivity.
    Qed.

    Lemma list_nth : forall l : list nat, l = map (fun i => nth i l 0) (seq 0 (length l)).
    Proof. induction l as [|x l IH]; [reflexivity|]. cbn [length seq map nth]. f_equal. rewrite <- seq_shift, map_map. exact IH. Qed.
    Lemma rev_nths : forall x (l : list nat), rev l = map (fun i => nth (length (x :: l) - i) (x :: l) 0) (seq 1 (length (x :: l) - 1)).
    Proof.
      intros x l. rewrite (list_nth (rev l)), rev_length. cbn [length]. replace (S (length l) - 1) with (length l) by lia. rewrite <- seq_shift, map_map. apply map_ext_in. intros i I. apply in_seq in I.
      rewrite rev_nth by lia. replace (S (length l) - S i) with (S (length l - S i)) by lia. reflexivity.
    Qed.
    Lemma rotated_nth : forall (X Z : list nat) k, k < length (X ++ Z) -> nth ((k + length X) mod length (X ++ Z)) (X ++ Z) 0 = nth k (Z ++ X) 0.
    Proof.
      intros X Z k K. rewrite app_length in *. destruct (lt_dec k (length Z)) as [L|L].
      - rewrite Nat.mod_small by lia. rewrite app_nth2 by lia. rewrite app_nth1 by lia. f_equal. lia.
      - replace (k + length X) with ((k - length Z) + 1 * (length X + length Z)) by lia. rewrite Nat.mod_add by lia. rewrite Nat.mod_small by lia. rewrite app_nth1 by lia. rewrite app_nth2 by lia. reflexivity.
    Qed.

    Lemma transpositions_out : forall x l, ~ In 0 (x :: l) -> rev (cycle_transpositions (x :: l)) = x :: l ++ [x].
    Proof.
      intros x l N. unfold cycle_transpositions. destruct (position (x :: l) 0) as [p|] eqn:P.
      - exfalso. apply N. destruct (position_split _ _ _ P) as (l1 & l2 & -> & _). apply in_or_app. right. left. reflexivity.
      - set (n := length (x :: l)). assert (NP : 0 < n) by (unfold n; cbn; lia).
        replace (seq 0 (n + 1)) with (0 :: seq 1 (n - 1) ++ [n]).
        + cbn [map rev]. rewrite map_app, rev_app_distr. cbn [map rev app]. rewrite Nat.sub_0_r, Nat.sub_diag, Nat.mod_same by lia. rewrite (Nat.mod_small 0 n) by lia. change (nth 0 (x :: l) 0) with x. f_equal. f_equal.
          replace (map (fun i => nth ((n - i) mod n) (x :: l) 0) (seq 1 (n - 1))) with (rev l); [apply rev_involutive|].
          rewrite (rev_nths x l). apply map_ext_in. intros i I. apply in_seq in I. fold n. rewrite Nat.mod_small by lia. reflexivity.
        + change (0 :: seq 1 (n - 1) ++ [n]) with ((0 :: seq 1 (n - 1)) ++ [n]). change (0 :: seq 1 (n - 1)) with (seq 0 (S (n - 1))). replace (S (n - 1)) with n by lia. rewrite Nat.add_1_r. symmetry. apply seq_S.
    Qed.

    Lemma transpositions_in : forall X Y, ~ In 0 X -> rev (cycle_transpositions (X ++ 0 :: Y)) = Y ++ X.
    Proof.
      intros X Y N. unfold cycle_transpositions. destruct (position (X ++ 0 :: Y) 0) as [p|] eqn:P; [|exfalso; eapply position_none; [exact P|apply in_or_app; right; left; reflexivity]].
      assert (EP : p = length X).
      { clear - P N. revert p P. induction X as [|y X IH]; intros p P; cbn [app position Nat.eqb] in P; [injection P as <-; reflexivity|]. destruct y as [|y]; [exfalso; apply N; left; reflexivity|]. cbn [Nat.eqb] in P. destruct (position (X ++ 0 :: Y) 0) as [q|]; [|discriminate]. injection P as <-. cbn. f_equal. apply IH; [intros K; apply N; right; exact K|reflexivity]. }
      subst p. set (n := length (X ++ 0 :: Y)). assert (NX : n = length (0 :: Y ++ X)) by (unfold n; cbn [length]; rewrite !app_length; cbn; lia).
      rewrite <- (rev_involutive (Y ++ X)). f_equal. rewrite (rev_nths 0 (Y ++ X)). rewrite <- NX. apply map_ext_in. intros i I. apply in_seq in I.
      replace (n + length X - i) with ((n - i) + length X) by lia. unfold n at 2. rewrite (rotated_nth X (0 :: Y) (n - i)); [reflexivity|]. fold n. lia.
    Qed.

    Lemma fswaps_app : forall l l' st, fswaps (l ++ l') st = fswaps l' (fswaps l st).
    Proof. intros l l' st. unfold fswaps. apply fold_left_app. Qed.

    Lemma first_zero : forall c, In 0 c -> exists X Y, c = X ++ 0 :: Y /\ ~ In 0 X.
    Proof. induction c as [|y c IH]; intros H; [destruct H|]. destruct y as [|y]; [exists [], c; auto|]. destruct H as [H|H]; [discriminate|]. destruct (IH H) as (X & Y & -> & N). exists (S y :: X), Y. split; [reflexivity|]. intros [K|K]; [discriminate|contradiction]. Qed.

    Lemma cycle_done : forall c st, cyc c -> NoDup c -> (forall k, In k c -> st k = A k) ->
      (forall k, In k c -> fswaps (rev (cycle_transpositions c)) st k = B k) /\ (forall k, ~ In k c -> fswaps (rev (cycle_transpositions c)) st k = st k).
    Proof.
      intros c st CY ND EQA. destruct (in_dec Nat.eq_dec 0 c) as [I0|N0].
      - destruct (first_zero c I0) as (X & Y & -> & NX). rewrite transpositions_in by exact NX. apply cyc_split in CY. apply path_links in CY. destruct CY as [LK B0].
        assert (P : Permutation (X ++ 0 :: Y) (0 :: Y ++ X)) by (etransitivity; [apply Permutation_app_comm|reflexivity]).
        pose proof (Permutation_NoDup P ND) as ND'. apply NoDup_cons_iff in ND'. destruct ND' as [N0 ND'].
        assert (S0 : st 0 = A 0) by (apply EQA; apply in_or_app; right; left; reflexivity).
        destruct (star (Y ++ X) st ND' N0) as (H1 & H2 & H3).
        + intros k K. apply EQA. eapply Permutation_in; [apply Permutation_sym; exact P|right; exact K].
        + rewrite S0. exact LK.
        + split; intros k K.
          * eapply Permutation_in in K; [|exact P]. destruct K as [<-|K]; [rewrite H1, S0; symmetry; exact B0|apply H2; exact K].
          * apply H3; intros Q; apply K; [subst; exact I0|eapply Permutation_in; [apply Permutation_sym; exact P|right; exact Q]].
      - destruct c as [|x l]; [destruct CY|]. rewrite transpositions_out by exact N0. cbn [cyc] in CY. apply path_links in CY. destruct CY as [LK BX].
        apply NoDup_cons_iff in ND. destruct ND as [NX ND]. assert (X0 : x <> 0) by (intros ->; apply N0; left; reflexivity).
        cbn [fswaps fold_left]. fold (fswaps (l ++ [x]) (fswap x st)). rewrite fswaps_app. cbn [fswaps fold_left].
        assert (S0 : fswap x st 0 = A x) by (unfold fswap; cbn; apply EQA; left; reflexivity).
        assert (SX : fswap x st x = st 0) by (unfold fswap; rewrite (proj2 (Nat.eqb_neq x 0) X0), Nat.eqb_refl; reflexivity).
        assert (SK : forall g k, k <> 0 -> k <> x -> fswap x g k = g k) by (intros g k K1 K2; unfold fswap; rewrite (proj2 (Nat.eqb_neq _ _) K1), (proj2 (Nat.eqb_neq _ _) K2); reflexivity).
        destruct (star l (fswap x st) ND) as (H1 & H2 & H3).
        + intros K. apply N0. right. exact K.
        + intros k K. rewrite SK; [apply EQA; right; exact K| |]; intros ->; [apply N0; right; exact K|contradiction].
        + rewrite S0. exact LK.
        + fold (fswaps l (fswap x st)). rewrite S0 in H1.
          assert (F0 : fswap x (fswaps l (fswap x st)) 0 = st 0) by (unfold fswap at 1; cbn [Nat.eqb]; rewrite H3 by assumption; exact SX).
          assert (FX : fswap x (fswaps l (fswap x st)) x = B x) by (unfold fswap at 1; rewrite (proj2 (Nat.eqb_neq x 0) X0), Nat.eqb_refl, H1; symmetry; exact BX).
          split; intros k K.
          * destruct (Nat.eq_dec k x) as [->|NK]; [exact FX|]. destruct K as [K|K]; [congruence|]. rewrite SK; [apply H2; exact K| |exact NK]. intros ->. apply N0. right. exact K.
          * destruct (Nat.eq_dec k 0) as [->|K0]; [exact F0|]. assert (k <> x) by (intros ->; apply K; left; reflexivity). assert (~ In k l) by (intros Q; apply K; right; exact Q).
            rewrite SK, H3, SK by assumption. reflexivity.
    Qed.

    Lemma cycles_done : forall perm st, Forall cyc perm -> NoDup (concat perm) -> (forall k, In k (concat perm) -> st k = A k) ->
      (forall k, In k (concat perm) -> fswaps (rev (permutation_to_transpositions perm)) st k = B k) /\ (forall k, ~ In k (concat perm) -> fswaps (rev (permutation_to_transpositions perm)) st k = st k).
    Proof.
      induction perm as [|c perm IH]; intros st CY ND EQA; [split; [intros k []|reflexivity]|]. inversion CY as [|? ? CC CP]. subst. cbn [concat] in *. unfold permutation_to_transpositions in *. cbn [flat_map]. rewrite rev_app_distr, fswaps_app.
      assert (DJ : forall k, In k c -> ~ In k (concat perm)).
      { intros k K Q. clear - ND K Q. induction c as [|x c IH]; [destruct K|]. cbn [app] in ND. apply NoDup_cons_iff in ND. destruct ND as [NX ND]. destruct K as [->|K]; [apply NX; apply in_or_app; right; exact Q|apply IH; assumption]. }
      destruct (IH st CP (nodup_app_r _ _ ND)) as [H1 H2]; [intros k K; apply EQA; apply in_or_app; right; exact K|].
      assert (NC : NoDup c) by (apply (nodup_app_r (concat perm) c); eapply Permutation_NoDup; [apply Permutation_app_comm|exact ND]).
      destruct (cycle_done c (fswaps (rev (flat_map cycle_transpositions perm)) st) CC NC) as [H3 H4].
      - intros k K. rewrite H2 by (apply DJ; exact K). apply EQA. apply in_or_app. left. exact K.
      - split; intros k K.
        + destruct (in_dec Nat.eq_dec k c) as [I|I]; [apply H3; exact I|]. rewrite H4 by exact I. apply H1. apply in_app_or in K. destruct K; [contradiction|assumption].
        + rewrite H4 by (intros Q; apply K; apply in_or_app; left; exact Q). apply H2. intros Q. apply K. apply in_or_app. right. exact Q.
    Qed.

    (** Every transposition is a swap of the top with another element. *)
    Lemma cycle_range : forall c k, c <> [] -> NoDup c -> In k (cycle_transpositions c) -> In k c /\ k <> 0.
    Proof.
      intros c k CE ND K. apply in_rev in K. destruct (in_dec Nat.eq_dec 0 c) as [I0|N0].
      - destruct (first_zero c I0) as (X & Y & -> & NX). rewrite transpositions_in in K by exact NX.
        assert (P : Permutation (X ++ 0 :: Y) (0 :: Y ++ X)) by (etransitivity; [apply Permutation_app_comm|reflexivity]).
        pose proof (Permutation_NoDup P ND) as ND'. apply NoDup_cons_iff in ND'. destruct ND' as [N0 _].
        split; [eapply Permutation_in; [apply Permutation_sym; exact P|right; exact K]|]. intros ->. contradiction.
      - destruct c as [|x l]; [contradiction|]. rewrite transpositions_out in K by exact N0.
        assert (I : In k (x :: l)) by (destruct K as [<-|K]; [left; reflexivity|]; apply in_app_or in K; destruct K as [K|[<-|[]]]; [right; exact K|left; reflexivity]).
        split; [exact I|]. intros ->. contradiction.
    Qed.
    Lemma transpositions_range : forall perm k, cycles_ok perm -> In k (permutation_to_transpositions perm) -> 1 <= k < length a.
    Proof.
      intros perm k (CY & ND & RG & _) K. unfold permutation_to_transpositions in K. apply in_flat_map in K. destruct K as (c & IC & K).
      assert (CC : cyc c) by (eapply Forall_forall; eassumption). assert (NC : NoDup c).
      { destruct (in_split _ _ IC) as (p1 & p2 & ->). rewrite concat_app in ND. apply nodup_app_r in ND. cbn [concat] in ND. apply (nodup_app_r (concat p2)). eapply Permutation_NoDup; [apply Permutation_app_comm|exact ND]. }
      destruct (cycle_range c k) as [I N]; [intros ->; exact CC|exact NC|exact K|]. assert (k < length a) by (apply RG; apply in_concat; eauto). lia.
    Qed.
  End Lists.

  (** ** Lists *)

  Lemma update_length : forall i (x : T) l, length (update i x l) = length l.
  Proof. induction i as [|i IH]; intros x [|y l]; cbn [update length]; auto. Qed.
  Lemma update_nth : forall i (x : T) l k, i < length l -> nth_error (update i x l) k = if k =? i then Some x else nth_error l k.
  Proof.
    induction i as [|i IH]; intros x [|y l] k L; cbn [length] in L; try lia; destruct k as [|k]; cbn [update nth_error]; try reflexivity. rewrite IH by lia. reflexivity.
  Qed.
  Lemma swap_spec : forall n (s : list T), 0 < n < length s -> exists s', swap_top n s = Some s' /\ length s' = length s /\ forall k, nth_error s' k = fswap n (nth_error s) k.
  Proof.
    intros n s L. unfold swap_top. destruct (nth_error s 0) as [x|] eqn:E0; [|apply nth_error_None in E0; lia]. destruct (nth_error s n) as [y|] eqn:EN; [|apply nth_error_None in EN; lia].
    eexists. split; [reflexivity|]. split; [rewrite !update_length; reflexivity|]. intros k. rewrite update_nth by (rewrite update_length; lia). rewrite update_nth by lia. unfold fswap.
    destruct (Nat.eqb_spec k n) as [->|]; [destruct (Nat.eqb_spec n 0); [lia|rewrite E0; reflexivity]|]. destruct (Nat.eqb_spec k 0); [rewrite EN; reflexivity|reflexivity].
  Qed.
  Lemma fswaps_ext : forall ns f g, (forall k, f k = g k) -> forall k, fswaps ns f k = fswaps ns g k.
  Proof. induction ns as [|n ns IH]; intros f g H k; [apply H|]. cbn [fswaps fold_left]. apply IH. intros j. unfold fswap. rewrite !H. reflexivity. Qed.
  Lemma run_spec : forall ns (s : list T), Forall (fun n => 1 <= n < length s) ns -> exists s', run_swaps ns s = Some s' /\ length s' = length s /\ forall k, nth_error s' k = fswaps ns (nth_error s) k.
  Proof.
    induction ns as [|n ns IH]; intros s H; [exists s; auto|]. inversion H as [|? ? H1 H2]. subst. destruct (swap_spec n s H1) as (s1 & E & L & K). cbn [run_swaps]. rewrite E.
    destruct (IH s1) as (s' & E' & L' & K'); [rewrite L; exact H2|]. exists s'. split; [exact E'|]. split; [congruence|]. intros k. rewrite K'. cbn [fswaps fold_left]. apply fswaps_ext. exact K.
  Qed.
  Lemma nth_ext_all : forall l l' : list T, (forall k, nth_error l k = nth_error l' k) -> l = l'.
  Proof.
    induction l as [|x l IH]; intros [|y l'] H; [reflexivity|specialize (H 0); discriminate|specialize (H 0); discriminate|]. f_equal; [specialize (H 0); cbn in H; congruence|]. apply IH. intros k. apply (H (S k)).
  Qed.

  (** For any two rearrangements of one stack of at most 256 elements (written
      with the top last), whatever order the hash map is enumerated in: the
      swaps returned, the last of them first, are swaps of the top with
      another element that take one to the other.  For other pairs of stacks
      there is a panic. *)
  Theorem C32_permutation_swaps : forall keys src dst,
    (Permutation src dst -> length src <= 256 -> exists ops, get_stack_ops_for_perm T eqb keys src dst = Some ops /\
       Forall (fun n => 1 <= n < length src) ops /\ run_swaps (rev ops) (rev src) = Some (rev dst)) /\
    (~ Permutation src dst -> get_stack_ops_for_perm T eqb keys src dst = None).
  Proof.
    intros keys src dst. split.
    - intros P L. assert (PR : Permutation (rev src) (rev dst)) by (etransitivity; [apply Permutation_sym, Permutation_rev|]; etransitivity; [exact P|apply Permutation_rev]).
      unfold get_stack_ops_for_perm. destruct (find_permutation_ok (rev src) (rev dst) PR) as (perm & -> & OK). pose proof (combine_ok (rev src) (rev dst) keys perm OK) as OK'.
      set (p := combine_cycles T eqb keys perm (rev src)) in *. set (tr := permutation_to_transpositions p).
      assert (RG : forall k, In k tr -> 1 <= k < length src) by (intros k K; rewrite <- (rev_length src); eapply transpositions_range; eassumption).
      assert (EM : transpositions_to_stack_ops tr = tr).
      { unfold transpositions_to_stack_ops. rewrite <- (map_id tr) at 2. apply map_ext_in. intros k K. apply Nat.mod_small. specialize (RG k K). lia. }
      rewrite EM. exists tr. split; [reflexivity|]. split; [apply Forall_forall; exact RG|].
      destruct (run_spec (rev tr) (rev src)) as (s' & E & LS & K); [apply Forall_forall; intros k Q; apply in_rev in Q; rewrite rev_length; apply RG; exact Q|]. rewrite E. f_equal. apply nth_ext_all. intros k. rewrite K.
      destruct OK' as (CY & ND & RGE & CV). destruct (cycles_done (rev src) (rev dst) p (nth_error (rev src)) CY ND) as [H1 H2]; [reflexivity|].
      destruct (in_dec Nat.eq_dec k (concat p)) as [I|I]; [apply H1; exact I|]. unfold tr. rewrite H2 by exact I. destruct (lt_dec k (length (rev src))) as [LK|LK].
      + destruct (CV k LK) as [Q|Q]; [contradiction|exact Q].
      + transitivity (@None T); [|symmetry]; apply nth_error_None; [lia|]. rewrite <- (Permutation_length PR). lia.
    - intros NP. unfold get_stack_ops_for_perm, find_permutation. destruct (is_permutation T eqb (rev src) (rev dst)) eqn:E; [|reflexivity]. exfalso. apply NP. apply is_permutation_spec in E.
      etransitivity; [apply Permutation_rev|]. etransitivity; [exact E|apply Permutation_sym, Permutation_rev].
  Qed.
End Perm.
Print Assumptions C32_permutation_swaps.

(** A stack with a repeated element, and two cycles joined into one. *)
Example perm_cycles : find_permutation nat Nat.eqb [1; 2; 3; 4; 1] [3; 2; 1; 1; 4] = Some [[0; 3; 4; 2]].
Proof. vm_compute. reflexivity. Qed.
Example perm_combined : combine_cycles nat Nat.eqb [2; 1; 4; 3] [[0; 2]; [3; 4]] [1; 2; 3; 4; 1] = [[0; 3; 4; 2]].
Proof. vm_compute. reflexivity. Qed.
Example perm_ops : get_stack_ops_for_perm nat Nat.eqb [1; 2; 3] [2; 3; 1; 1] [1; 1; 3; 2] = Some [3; 1; 2] /\ run_swaps [2; 1; 3] [1; 1; 3; 2] = Some [2; 3; 1; 1].
Proof. split; vm_compute; reflexivity. Qed.
