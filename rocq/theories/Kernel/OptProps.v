(** The kernel optimizer: C29 (behaviour) and C30 (termination). *)
From Coq Require Import ZArith String List Bool Arith Lia.
From Coq Require Import ZifyBool ZifyNat.
From Verif Require Import Kernel.OptModel Kernel.OptSpec Kernel.OptSound Kernel.OptRules.
Import ListNotations.
Local Open Scope Z_scope.
Local Open Scope list_scope.

(** The two wrong rewrites: folding BYTE when the little-endian index differs
    from the EVM's, and De Morgan when the second operand duplicates the
    first. *)
Definition bad (window : list item) : bool :=
  match window with
  | [Push (Literal y); Push (Literal x); StandardOp op] => (op =? "BYTE")%string && negb (byte_fold_ok x y)
  | [_; StandardOp op1; op2; StandardOp op3; StandardOp op4] =>
      (op1 =? "NOT")%string && is_dup1 op2 && (op3 =? "NOT")%string && ((op4 =? "AND") || (op4 =? "OR"))%string
  | _ => false
  end.
Definition guarded (f : list item -> maybe) (window : list item) : maybe := if bad window then Keep else f window.

(** * The rules *)

Section Machine.
  Variable world : Type.
  Variable other : item -> world -> stack -> action world.
  Variable address : string -> Z.
  Hypothesis WB : well_behaved world other.

  Definition rewrites (window repl : list item) : Prop :=
    forall A B e w s, literals_ok (A ++ window ++ B) -> addresses_ok address (A ++ window ++ B) -> Forall word s ->
      match e with AtPosition pc => (pc <= length A)%nat | AtAddress _ => True end ->
      refines world other address (A ++ window ++ B) (A ++ repl ++ B) e w s.

  Lemma pure_rewrites : forall W W', Forall pure_item W -> Forall pure_item W' -> (0 < length W)%nat ->
    (literals_ok W -> (forall l, word (address l)) -> forall s s', Forall word s -> eff address W s = Some s' -> eff address W' s = Some s') -> rewrites W W'.
  Proof.
    intros W W' PW PW' L H A B e w s LIT (AD & _) Hs He. apply pure_window; try assumption. apply H; [|exact AD].
    unfold literals_ok in *. apply Forall_app in LIT. destruct LIT as [_ LIT]. apply Forall_app in LIT. tauto.
  Qed.

  (** What is shown of each rule. *)
  Definition from_window (window repl : list item) : Prop :=
    forall i, In i repl -> In i window \/ (exists x, i = Push (Literal x)) \/ i = StandardOp "AND" \/ i = StandardOp "OR".
  Definition rule_ok (f : list item -> maybe) : Prop := forall window repl, f window = Replace repl ->
    (length repl < length window)%nat /\ labels repl = labels window /\ from_window window repl /\
    (literals_ok window -> literals_ok repl) /\ (literals_ok window -> bad window = false -> rewrites window repl).

  Ltac lits H := unfold literals_ok in H; repeat match type of H with Forall _ (_ :: _) => let X := fresh "L" in inversion H as [|? ? X H']; clear H; rename H' into H; subst end.

  Lemma word_literal : forall x c, literals_ok (Push (Literal x) :: c) -> word x.
  Proof. intros x c H. inversion H. assumption. Qed.

  Lemma lit1 : forall x, word x -> literals_ok [Push (Literal x)].
  Proof. intros x H. repeat constructor; apply H. Qed.
  Lemma nolit : literals_ok [].
  Proof. constructor. Qed.
  Lemma from_push : forall w x, from_window w [Push (Literal x)].
  Proof. intros w x i [<-|[]]. right. left. eauto. Qed.

  Lemma if_better_ok : forall f, rule_ok f -> rule_ok (if_better f).
  Proof.
    intros f H window repl E. apply H. unfold if_better in E. destruct (f window); try discriminate. destruct (is_code_improved window l) as [[|]|]; try discriminate. exact E.
  Qed.

  Lemma unary_rule_ok : rule_ok unary_rule.
  Proof.
    intros window repl E. destruct window as [|[[x|l|l|l|l]|op0|l|l|f|n] [|[t|op|l'|l'|f'|n'] [|]]]; try discriminate E. cbn [unary_rule] in E.
    assert (G : forall f y, evm_unary op = Some f -> y = f x -> repl = [Push (Literal y)] ->
      (length repl < 2)%nat /\ labels repl = [] /\ from_window [Push (Literal x); StandardOp op] repl /\
      (literals_ok [Push (Literal x); StandardOp op] -> literals_ok repl) /\ (literals_ok [Push (Literal x); StandardOp op] -> bad [Push (Literal x); StandardOp op] = false -> rewrites [Push (Literal x); StandardOp op] repl)).
    { intros f y U -> ->. split; [cbn; lia|]. split; [reflexivity|]. split; [apply from_push|]. split.
      - intros L. apply lit1. eapply unary_word; [exact U|]. eapply word_literal. exact L.
      - intros _ _. apply pure_rewrites; [repeat constructor; apply (unary_pure _ _ U)|repeat constructor|cbn; lia|].
        intros _ _ s s' _ H. cbn [eff] in *. change (eff1 address (Push (Literal x)) s) with (Some (x :: s)) in H. cbv iota beta in H. rewrite (unary_eff _ _ _ _ U) in H. exact H. }
    destruct (op =? "ISZERO")%string eqn:E1.
    - apply String.eqb_eq in E1. subst op. eapply G; [reflexivity|reflexivity|]. injection E as <-. reflexivity.
    - destruct (op =? "NOT")%string eqn:E2; [|discriminate]. apply String.eqb_eq in E2. subst op. eapply G; [reflexivity|reflexivity|].
      assert (X : forall a b, Replace a = Replace b -> a = b) by congruence. apply X in E. subst repl. reflexivity.
  Qed.

  Lemma replace_inj : forall a b, Replace a = Replace b -> a = b.
  Proof. congruence. Qed.

  Lemma binary_rule_ok : rule_ok binary_rule.
  Proof.
    intros window repl E. destruct window as [|[[y|l|l|l|l]|op0|l|l|f|n] [|[[x|l'|l'|l'|l']|op1|l'|l'|f'|n'] [|[t|op|l''|l''|f''|n''] [|]]]]; try discriminate E. cbn [binary_rule] in E.
    destruct (fold_binary op x y) as [[res|]|] eqn:F; try discriminate. apply replace_inj in E. subst repl.
    split; [cbn; lia|]. split; [reflexivity|]. split; [apply from_push|].
    assert (K : forall L : literals_ok [Push (Literal y); Push (Literal x); StandardOp op], word x /\ word y).
    { intros L. inversion L as [|? ? L1 L2]. inversion L2. split; assumption. }
    assert (G : literals_ok [Push (Literal y); Push (Literal x); StandardOp op] -> (op <> "BYTE"%string \/ byte_fold_ok x y = true) -> exists f, evm_binary op = Some f /\ f x y = res).
    { intros L BY. destruct (K L). eapply fold_binary_ok; eassumption. }
    split.
    - intros L. apply lit1. destruct (K L) as [Hx Hy]. destruct (String.eqb_spec op "BYTE") as [->|N].
      + cbn in F. apply some_inj in F. apply some_inj in F. subst res. destruct (x <? 32); [|apply word_small; lia]. unfold u_byte. apply word_small. apply Z.mod_pos_bound. reflexivity.
      + destruct (G L (or_introl N)) as (f & B & <-). eapply binary_word; eassumption.
    - intros L BD. assert (BY : op <> "BYTE"%string \/ byte_fold_ok x y = true).
      { cbn [bad] in BD. destruct (String.eqb_spec op "BYTE"); [right; destruct (byte_fold_ok x y); [reflexivity|discriminate]|left; assumption]. }
      destruct (G L BY) as (f & B & R). apply pure_rewrites; [repeat constructor; apply (binary_pure _ _ B (binary_not_unary _ _ B))|repeat constructor|cbn; lia|].
      intros _ _ s s' _ H. cbn [eff] in *. change (eff1 address (Push (Literal y)) s) with (Some (y :: s)) in H. cbv iota beta in H. change (eff1 address (Push (Literal x)) (y :: s)) with (Some (x :: y :: s)) in H. cbv iota beta in H. rewrite (binary_eff _ _ _ _ B) in H. rewrite R in H. exact H.
  Qed.

  Lemma identity_rule_ok : rule_ok identity_rule.
  Proof.
    intros window repl E. destruct window as [|[[x|l|l|l|l]|op0|l|l|f|n] [|[t|op|l'|l'|f'|n'] [|]]]; try discriminate E. cbn [identity_rule] in E.
    assert (G : forall f, evm_binary op = Some f -> (forall a, word a -> f x a = a) -> repl = [] ->
      (length repl < 2)%nat /\ labels repl = [] /\ from_window [Push (Literal x); StandardOp op] repl /\
      (literals_ok [Push (Literal x); StandardOp op] -> literals_ok repl) /\ (literals_ok [Push (Literal x); StandardOp op] -> bad [Push (Literal x); StandardOp op] = false -> rewrites [Push (Literal x); StandardOp op] repl)).
    { intros f B ID ->. split; [cbn; lia|]. split; [reflexivity|]. split; [intros i []|]. split; [intros _; constructor|]. intros _ _.
      apply pure_rewrites; [repeat constructor; apply (binary_pure _ _ B (binary_not_unary _ _ B))|constructor|cbn; lia|].
      intros _ _ s s' Hs H. cbn [eff] in *. change (eff1 address (Push (Literal x)) s) with (Some (x :: s)) in H. cbv iota beta in H. rewrite (binary_eff _ _ _ _ B) in H. destruct s as [|a r]; [discriminate|].
      rewrite ID in H by (inversion Hs; assumption). exact H. }
    destruct (String.eqb_spec op "ADD") as [->|]; [|destruct (String.eqb_spec op "MUL") as [->|]; [|destruct (String.eqb_spec op "OR") as [->|]; [|destruct (String.eqb_spec op "XOR") as [->|]; [|discriminate]]]].
    - destruct (Z.eqb_spec x 0) as [->|]; [|discriminate]. eapply G; [reflexivity| |congruence]. intros a Ha. cbv beta. rewrite Z.add_0_l. apply Z.mod_small. exact Ha.
    - destruct (Z.eqb_spec x 1) as [->|]; [|discriminate]. eapply G; [reflexivity| |congruence]. intros a Ha. cbv beta. rewrite Z.mul_1_l. apply Z.mod_small. exact Ha.
    - destruct (Z.eqb_spec x 0) as [->|]; [|discriminate]. eapply G; [reflexivity| |congruence]. intros a Ha. reflexivity.
    - destruct (Z.eqb_spec x 0) as [->|]; [|discriminate]. eapply G; [reflexivity| |congruence]. intros a Ha. destruct a; reflexivity.
  Qed.

  Lemma find_some : forall v c q, find_label address v c = Some q -> exists l, In l (labels c) /\ address l = v.
  Proof.
    intros v. induction c as [|i c IH]; intros q H; [discriminate|]. cbn [find_label] in H. unfold labels in *. cbn [flat_map].
    destruct (declares i) as [l|].
    - destruct (Z.eqb_spec (address l) v) as [E|]; [exists l; split; [left; reflexivity|exact E]|]. destruct (find_label address v c) as [p|]; [|discriminate]. destruct (IH p eq_refl) as (m & Hm & Em). exists m. split; [right; exact Hm|exact Em].
    - destruct (find_label address v c) as [p|]; [|discriminate]. destruct (IH p eq_refl) as (m & Hm & Em). exists m. split; [exact Hm|exact Em].
  Qed.

  Lemma labels_app : forall a b, labels (a ++ b) = labels a ++ labels b.
  Proof. intros a b. apply flat_map_app. Qed.

  Lemma no_op_jump_rule_ok : rule_ok no_op_jump_rule.
  Proof.
    intros window repl E. destruct window as [|[[y|l|l'|l'|l']|op0|l'|l'|f|n] [|[t|op|l''|l''|f'|n'] [|decl [|]]]]; try discriminate E. cbn [no_op_jump_rule] in E.
    destruct (String.eqb_spec op "JUMP") as [->|]; [|discriminate]. cbn [andb] in E.
    assert (D : declares decl = Some l /\ repl = [decl]).
    { destruct decl as [?|?|m|m|?|?]; cbn [item_eqb orb] in E; try discriminate E; destruct (String.eqb_spec m l) as [->|]; try discriminate; injection E as <-; auto. }
    destruct D as [D ->]. clear E.
    split; [cbn; lia|]. split; [reflexivity|]. split; [intros i [<-|[]]; left; right; right; left; reflexivity|]. split; [intros _; destruct decl; try discriminate; repeat constructor|].
    intros _ _ A B e w s LIT (AD & ND & INJ) Hs He.
    change ([Push (Label l); StandardOp "JUMP"; decl] ++ B) with ([Push (Label l); StandardOp "JUMP"] ++ (decl :: B)) in *.
    change ([decl] ++ B) with ([] ++ (decl :: B)).
    apply window_refines; try assumption; [reflexivity|reflexivity|cbn; lia|].
    intros w0 s0 Hs0. right. exists 2%nat, 0%nat, s0. split; [lia|]. split; [|split; [cbn [nsteps length]; rewrite Nat.add_0_r; reflexivity|exact Hs0]].
    set (code := A ++ [Push (Label l); StandardOp "JUMP"] ++ decl :: B) in *.
    assert (N0 : nth_error code (length A) = Some (Push (Label l))) by (unfold code; rewrite nth_error_app2, Nat.sub_diag by lia; reflexivity).
    assert (N1 : nth_error code (S (length A)) = Some (StandardOp "JUMP")) by (unfold code; rewrite nth_error_app2 by lia; replace (S (length A) - length A)%nat with 1%nat by lia; reflexivity).
    assert (FL : find_label address (address l) code = Some (length A + 2)%nat).
    { assert (LC : labels code = labels A ++ l :: labels B) by (unfold code; rewrite !labels_app; unfold labels at 3; cbn [flat_map declares app]; rewrite D; reflexivity).
      unfold code. rewrite find_app. destruct (find_label address (address l) A) as [q|] eqn:FA.
      - exfalso. destruct (find_some _ _ _ FA) as (m & Hm & Em). assert (m = l) by (apply INJ; [rewrite LC; apply in_or_app; left; exact Hm|rewrite LC; apply in_or_app; right; left; reflexivity|exact Em]).
        subst m. rewrite LC in ND. apply NoDup_remove_2 in ND. apply ND. apply in_or_app. left. exact Hm.
      - cbn [app find_label declares]. rewrite D, Z.eqb_refl. reflexivity. }
    cbn [nsteps]. unfold step at 1. rewrite N0. unfold step. rewrite N1. cbn [String.eqb Ascii.eqb Bool.eqb]. change ("JUMP" =? "JUMP")%string with true. cbv iota. unfold jump. rewrite FL. reflexivity.
  Qed.

  Lemma push_eff : forall t, exists o : option Z, forall s, eff1 address (Push t) s = match o with Some v => Some (v :: s) | None => None end.
  Proof. intros [x|l|l|l|l]; [exists (Some x)|exists (Some (address l))|exists None|exists None|exists None]; reflexivity. Qed.

  Lemma swapped_pushes_rule_ok : rule_ok swapped_pushes_rule.
  Proof.
    intros window repl E. destruct window as [|[x|op0|l|l|f|n] [|[y|op1|l'|l'|f'|n'] [|[t|op|l''|l''|f''|n''] [|]]]]; try discriminate E. cbn [swapped_pushes_rule] in E.
    destruct (String.eqb_spec op "SWAP1") as [->|]; [|discriminate]. apply replace_inj in E. subst repl.
    split; [cbn; lia|]. split; [reflexivity|]. split; [intros i [<-|[<-|[]]]; left; [right; left; reflexivity|left; reflexivity]|].
    split; [intros L; inversion L as [|? ? L1 L2]; inversion L2; subst; repeat constructor; assumption|].
    intros _ _. apply pure_rewrites; [repeat constructor; apply swap1_pure|repeat constructor|cbn; lia|].
    intros _ _ s s' _ H. cbn [eff] in *. destruct (push_eff x) as [ox Ox], (push_eff y) as [oy Oy]. rewrite Ox in H. rewrite Oy. destruct ox as [vx|]; [|discriminate].
    rewrite Oy in H. destruct oy as [vy|]; [|discriminate]. rewrite swap1_eff in H. rewrite Ox. exact H.
  Qed.

  Lemma swaps_commutative_rule_ok : rule_ok swaps_commutative_rule.
  Proof.
    intros window repl E. destruct window as [|[x|op0|l|l|f|n] [|[t|op|l'|l'|f'|n'] [|]]]; try discriminate E. cbn [swaps_commutative_rule] in E.
    destruct (String.eqb_spec op0 "SWAP1") as [->|]; [|discriminate]. cbn [andb] in E. destruct (existsb (String.eqb op) _) eqn:C; [|discriminate]. apply replace_inj in E. subst repl.
    assert (G : exists f, evm_binary op = Some f /\ forall a b, f a b = f b a).
    { apply existsb_exists in C. destruct C as (o & Ho & Eo). apply String.eqb_eq in Eo. subst o.
      destruct Ho as [<-|[<-|[<-|[<-|[<-|[<-|[]]]]]]]; (eexists; split; [reflexivity|]); intros a b; cbv beta.
      - f_equal. ring.
      - f_equal. ring.
      - apply Z.land_comm.
      - apply Z.lor_comm.
      - apply Z.lxor_comm.
      - rewrite Z.eqb_sym. reflexivity. }
    destruct G as (f & B & CM). clear C.
    split; [cbn; lia|]. split; [reflexivity|]. split; [intros i [<-|[]]; left; right; left; reflexivity|]. split; [intros _; repeat constructor|].
    intros _ _. pose proof (binary_pure _ _ B (binary_not_unary _ _ B)) as PU. apply pure_rewrites; [repeat constructor; [apply swap1_pure|apply PU..]|repeat constructor; apply PU|cbn; lia|].
    intros _ _ s s' _ H. cbn [eff] in *. rewrite swap1_eff in H. rewrite (binary_eff _ _ _ _ B). destruct s as [|a [|b r]]; try discriminate. rewrite (binary_eff _ _ _ _ B) in H. rewrite CM. exact H.
  Qed.

  Lemma ignored_values_rule_ok : rule_ok ignored_values_rule.
  Proof.
    intros window repl E. destruct window as [|a [|[t|op|l'|l'|f'|n'] [|]]]; try discriminate E. cbn [ignored_values_rule] in E.
    destruct (is_push_or_dup a) eqn:PD; [|discriminate]. destruct (String.eqb_spec op "POP") as [->|]; [|discriminate]. apply replace_inj in E. subst repl.
    split; [cbn; lia|]. split; [unfold labels; cbn [flat_map declares]; destruct a; try discriminate; reflexivity|]. split; [intros i []|]. split; [intros _; constructor|].
    intros _ _. apply pure_rewrites; [constructor; [apply push_or_dup_pure; exact PD|constructor; [apply pop_pure|constructor]]|constructor|cbn; lia|].
    intros _ _ s s' _ H. cbn [eff] in *. destruct (eff1 address a s) as [s1|] eqn:E1; [|discriminate]. destruct (push_or_dup_eff _ _ _ _ PD E1) as [v ->]. rewrite pop_eff in H. exact H.
  Qed.

  Lemma de_morgan_rule_ok : rule_ok de_morgan_rule.
  Proof.
    intros window repl E. destruct window as [|op0 [|[t1|op1|l1|l1|f1|n1] [|op2 [|[t3|op3|l3|l3|f3|n3] [|[t4|op4|l4|l4|f4|n4] [|]]]]]]; try discriminate E. cbn [de_morgan_rule] in E.
    destruct (is_push_or_dup op0) eqn:P0; [|discriminate]. destruct (String.eqb_spec op1 "NOT") as [->|]; [|discriminate].
    destruct (is_push_or_dup op2) eqn:P2; [|discriminate]. destruct (String.eqb_spec op3 "NOT") as [->|]; [|discriminate]. cbn [andb] in E.
    assert (G : exists g g' o', (op4 = "AND" /\ o' = "OR" \/ op4 = "OR" /\ o' = "AND")%string /\ evm_binary op4 = Some g /\ evm_binary o' = Some g' /\
      repl = [op0; op2; StandardOp o'; StandardOp "NOT"] /\ forall a b, word a -> word b -> g (2^256 - 1 - a) (2^256 - 1 - b) = 2^256 - 1 - g' a b).
    { destruct (String.eqb_spec op4 "AND") as [->|]; [|destruct (String.eqb_spec op4 "OR") as [->|]; [|discriminate]]; apply replace_inj in E; subst repl; do 3 eexists;
        (split; [auto|]); (split; [reflexivity|]); (split; [reflexivity|]); (split; [reflexivity|]); [apply de_morgan_and|apply de_morgan_or]. }
    destruct G as (g & g' & o' & OO & B & B' & -> & DM). clear E.
    assert (NL : forall i, is_push_or_dup i = true -> declares i = None) by (intros []; try discriminate; reflexivity).
    split; [cbn; lia|]. split; [unfold labels; cbn [flat_map declares]; rewrite (NL _ P0), (NL _ P2); reflexivity|].
    split.
    { intros i [<-|[<-|[<-|[<-|[]]]]]; [left; left; reflexivity|left; right; right; left; reflexivity| |left; right; left; reflexivity]. right. right. destruct OO as [[_ ->]|[_ ->]]; auto. }
    split.
    { intros L. unfold literals_ok in *. inversion L as [|? ? La L1]; inversion L1 as [|? ? Lb L2]; inversion L2 as [|? ? Lc L3]; subst. repeat constructor; assumption. }
    intros L BD. assert (D1 : is_dup1 op2 = false).
    { destruct (is_dup1 op2) eqn:D; [|reflexivity]. exfalso. revert BD. cbn [bad]. rewrite D. destruct OO as [[-> _]|[-> _]]; destruct op0 as [[]| | | | |]; destruct op2 as [[]| | | | |]; try discriminate; cbn in *; try discriminate. }
    pose proof (push_or_dup_pure _ P0) as U0. pose proof (push_or_dup_pure _ P2) as U2. assert (UN : pure_item (StandardOp "NOT")) by (eapply unary_pure; reflexivity).
    pose proof (binary_pure _ _ B (binary_not_unary _ _ B)) as UB. pose proof (binary_pure _ _ B' (binary_not_unary _ _ B')) as UB'.
    apply pure_rewrites; [repeat (constructor; [assumption|]); constructor|repeat (constructor; [assumption|]); constructor|cbn; lia|].
    intros LW AD s s' Hs H. inversion LW as [|? ? La L1]; inversion L1 as [|? ? Lb L2]; inversion L2 as [|? ? Lc L3]; subst. cbn [eff] in *.
    assert (NOTE : forall s, eff1 address (StandardOp "NOT") s = match s with a :: r => Some (2^256 - 1 - a :: r) | _ => None end) by (intros [|a0 r0]; reflexivity).
    destruct (eff1 address op0 s) as [s1|] eqn:E0; [|discriminate]. pose proof (eff1_word _ _ _ _ AD La Hs E0) as W1. destruct (push_or_dup_eff _ _ _ _ P0 E0) as [a ->].
    rewrite NOTE in H. inversion W1 as [|? ? Wa _]. subst.
    destruct (eff1 address op2 (2^256 - 1 - a :: s)) as [s2|] eqn:E2; [|discriminate]. destruct (deep_eff _ _ _ a _ _ P2 D1 E2) as (b & -> & E2'). rewrite E2'.
    pose proof (eff1_word _ _ _ _ AD Lc W1 E2') as W2. inversion W2 as [|? ? Wb _]. subst.
    rewrite NOTE in H. rewrite (binary_eff _ _ _ _ B) in H. rewrite (binary_eff _ _ _ _ B'), NOTE. rewrite DM in H by assumption. exact H.
  Qed.
End Machine.

(** * Loops *)

Lemma window_split : forall (vec : list item) start W, (start + W <= length vec)%nat ->
  vec = firstn start vec ++ firstn W (skipn start vec) ++ skipn (start + W) vec /\ length (firstn W (skipn start vec)) = W /\ length (firstn start vec) = start.
Proof.
  intros vec start W L. split; [|split].
  - replace (skipn (start + W) vec) with (skipn W (skipn start vec)) by (clear; revert vec; induction start as [|k IH]; intros [|v vec]; cbn [skipn Nat.add]; [reflexivity|reflexivity|destruct W; reflexivity|apply IH]). rewrite firstn_skipn, firstn_skipn. reflexivity.
  - rewrite firstn_length, skipn_length. lia.
  - rewrite firstn_length. lia.
Qed.

Section Loops.
  Variable I : list item -> Prop.
  Variable R : list item -> list item -> Prop.
  Hypothesis R_refl : forall a, R a a.
  Hypothesis R_trans : forall a b c, I a -> R a b -> R b c -> R a c.
  Definition preserves (p : nat * (list item -> maybe)) : Prop := forall A window B repl, length window = fst p -> I (A ++ window ++ B) ->
    snd p window = Replace repl -> I (A ++ repl ++ B) /\ R (A ++ window ++ B) (A ++ repl ++ B).

  Lemma windows_preserve : forall W f, preserves (W, f) -> forall fuel vec start code', I vec -> replace_windows fuel W f vec start = Done code' -> I code' /\ R vec code'.
  Proof.
    intros W f P. induction fuel as [|fuel IH]; intros vec start code' HI E; [discriminate|]. cbn [replace_windows] in E.
    destruct (Nat.leb_spec (start + W) (length vec)) as [L|L]; [|injection E as <-; split; [exact HI|apply R_refl]].
    destruct (window_split vec start W L) as (S1 & S2 & _). destruct (f (firstn W (skipn start vec))) as [| |repl] eqn:F; [discriminate|eapply IH; eassumption|].
    rewrite S1 in HI. destruct (P _ _ _ _ S2 HI F) as [HI' HR]. destruct (IH _ _ _ HI' E) as [HI'' HR']. split; [exact HI''|]. rewrite S1. eapply R_trans; [exact HI|exact HR|exact HR'].
  Qed.

  Lemma passes_preserve : forall ps, Forall preserves ps -> forall fuel code code', I code -> run_passes fuel ps code = Done code' -> I code' /\ R code code'.
  Proof.
    induction 1 as [|[W f] ps P FP IH]; intros fuel code code' HI E; cbn [run_passes] in E; [injection E as <-; split; [exact HI|apply R_refl]|].
    destruct (replace_windows fuel W f code 0) as [| |c1] eqn:E1; try discriminate. destruct (windows_preserve _ _ P _ _ _ _ HI E1) as [H1 R1]. destruct (IH _ _ _ H1 E) as [H2 R2]. split; [exact H2|]. eapply R_trans; eassumption.
  Qed.

  Lemma loop_preserves : forall ps, Forall preserves ps -> forall n fuel code code', I code -> optimize_loop ps n fuel code = Done code' -> I code' /\ R code code'.
  Proof.
    intros ps FP. induction n as [|n IH]; intros fuel code code' HI E; [discriminate|]. cbn [optimize_loop] in E.
    destruct (run_passes fuel ps code) as [| |c1] eqn:E1; try discriminate. destruct (passes_preserve _ FP _ _ _ HI E1) as [H1 R1].
    destruct (code_eqb c1 code); [injection E as <-; split; assumption|]. destruct (IH _ _ _ H1 E) as [H2 R2]. split; [exact H2|]. eapply R_trans; eassumption.
  Qed.
End Loops.

(** Two lists of passes that agree on every window met run alike. *)
Section Same.
  Variable I : list item -> Prop.
  Variable g : (list item -> maybe) -> list item -> maybe.
  Variable quiet : Prop.
  Definition agrees (p : nat * (list item -> maybe)) : Prop := forall A window B, length window = fst p -> I (A ++ window ++ B) ->
    g (snd p) window = snd p window /\ (quiet -> snd p window <> Panic) /\ forall repl, snd p window = Replace repl -> I (A ++ repl ++ B).

  Lemma windows_agree : forall W f, agrees (W, f) -> forall fuel vec start, I vec ->
    replace_windows fuel W (g f) vec start = replace_windows fuel W f vec start /\ (quiet -> replace_windows fuel W f vec start <> Panicked) /\ forall c, replace_windows fuel W f vec start = Done c -> I c.
  Proof.
    intros W f P. induction fuel as [|fuel IH]; intros vec start HI; [repeat split; discriminate|]. cbn [replace_windows].
    destruct (Nat.leb_spec (start + W) (length vec)) as [L|L]; [|repeat split; try discriminate; intros c [= <-]; exact HI].
    destruct (window_split vec start W L) as (S1 & S2 & _). pose proof HI as HJ. rewrite S1 in HJ. destruct (P _ _ _ S2 HJ) as (E & NP & K). cbn [snd] in *. rewrite E.
    destruct (f (firstn W (skipn start vec))) as [| |repl]; [repeat split; intros; try discriminate; exfalso; apply (NP H); reflexivity|apply IH; exact HI|]. apply IH. apply K. reflexivity.
  Qed.

  Lemma passes_agree : forall ps, Forall agrees ps -> forall fuel code, I code ->
    run_passes fuel (map (fun p => (fst p, g (snd p))) ps) code = run_passes fuel ps code /\ (quiet -> run_passes fuel ps code <> Panicked) /\ forall c, run_passes fuel ps code = Done c -> I c.
  Proof.
    induction 1 as [|[W f] ps P FP IH]; intros fuel code HI; cbn [run_passes map fst snd]; [repeat split; try discriminate; intros c [= <-]; exact HI|].
    destruct (windows_agree _ _ P fuel code 0%nat HI) as (E & NP & K). rewrite E. destruct (replace_windows fuel W f code 0) as [| |c1]; [repeat split; discriminate|repeat split; intros; try discriminate; exfalso; apply (NP H); reflexivity|]. apply IH. apply K. reflexivity.
  Qed.

  Lemma loop_agrees : forall ps, Forall agrees ps -> forall n fuel code, I code ->
    optimize_loop (map (fun p => (fst p, g (snd p))) ps) n fuel code = optimize_loop ps n fuel code /\ (quiet -> optimize_loop ps n fuel code <> Panicked).
  Proof.
    intros ps FP. induction n as [|n IH]; intros fuel code HI; [split; [reflexivity|discriminate]|]. cbn [optimize_loop]. destruct (passes_agree _ FP fuel code HI) as (E & NP & K). rewrite E.
    destruct (run_passes fuel ps code) as [| |c1]; [split; [reflexivity|discriminate]|split; [reflexivity|intros H; exfalso; apply (NP H); reflexivity]|]. destruct (code_eqb c1 code); [split; [reflexivity|discriminate]|]. apply IH. apply K. reflexivity.
  Qed.
End Same.

(** * C29 *)

(** The optimizer without the two wrong rewrites. *)
Definition sound_passes : list (nat * (list item -> maybe)) := map (fun p => (fst p, guarded (snd p))) passes.

Lemma passes_ok : forall world other address, well_behaved world other -> Forall (fun p => rule_ok world other address (snd p)) passes.
Proof.
  intros world other address WB. unfold passes.
  apply Forall_cons; [apply if_better_ok, unary_rule_ok, WB|]. apply Forall_cons; [apply if_better_ok, binary_rule_ok, WB|].
  apply Forall_cons; [apply identity_rule_ok, WB|]. apply Forall_cons; [apply no_op_jump_rule_ok; exact WB|].
  apply Forall_cons; [apply swapped_pushes_rule_ok, WB|]. apply Forall_cons; [apply swaps_commutative_rule_ok, WB|].
  apply Forall_cons; [apply ignored_values_rule_ok, WB|]. apply Forall_cons; [apply de_morgan_rule_ok, WB|]. apply Forall_nil.
Qed.

(** The effect of [b] in place of [a], inside any program and entered from
    anywhere outside it or at any label. *)
Definition same_effect (world : Type) (other : item -> world -> stack -> action world) (address : string -> Z) (a b : list item) : Prop :=
  forall pre post e w s, literals_ok (pre ++ a ++ post) -> addresses_ok address (pre ++ a ++ post) -> Forall word s ->
    match e with AtPosition pc => (pc <= length pre)%nat | AtAddress _ => True end ->
    refines world other address (pre ++ a ++ post) (pre ++ b ++ post) e w s.

Lemma literals_app : forall a b, literals_ok (a ++ b) <-> literals_ok a /\ literals_ok b.
Proof. intros a b. apply Forall_app. Qed.

Theorem C29_without_wrong_rules : forall world other address, well_behaved world other -> forall n fuel code code',
  optimize_loop sound_passes n fuel code = Done code' -> same_effect world other address code code'.
Proof.
  intros world other address WB n fuel code code' E.
  pose (R := fun a b => labels b = labels a /\ (literals_ok a -> literals_ok b) /\ same_effect world other address a b).
  assert (G : True /\ R code code').
  { refine (loop_preserves (fun _ => True) R _ _ sound_passes _ n fuel code code' Logic.I E).
    - intros a. split; [reflexivity|]. split; [auto|]. intros pre post e w s _ _ _ _. apply refines_refl.
    - intros a b c _ (L1 & T1 & S1) (L2 & T2 & S2). split; [congruence|]. split; [auto|]. intros pre post e w s LIT AD Hs He.
      eapply refines_trans; [apply S1; assumption|]. apply S2; try assumption.
      + rewrite !literals_app in *. tauto.
      + destruct AD as (A1 & A2 & A3). rewrite !labels_app in A2, A3. split; [exact A1|]. rewrite !labels_app, L1. split; assumption.
    - unfold sound_passes. rewrite Forall_map. eapply Forall_impl; [|apply (passes_ok world other address WB)].
      intros [W f] OK A window B repl _ _ F. cbn [fst snd] in *. split; [exact Logic.I|]. unfold guarded in F. destruct (bad window) eqn:BD; [discriminate|].
      destruct (OK _ _ F) as (_ & L & _ & T & S). split; [rewrite !labels_app, L; reflexivity|]. split; [rewrite !literals_app; tauto|].
      intros pre post e w s LIT AD Hs He. rewrite <- !app_assoc in *. rewrite !(app_assoc pre A) in *. apply S; try assumption.
      + rewrite !literals_app in LIT. tauto.
      + destruct e; [rewrite app_length; lia|exact Logic.I]. }
  apply G.
Qed.
Print Assumptions C29_without_wrong_rules.

(** Programs on which neither wrong rule can fire: no BYTE, and no NOT or no
    DUP1. *)
Definition clean (code : list item) : Prop :=
  ~ In (StandardOp "BYTE") code /\ (~ In (StandardOp "NOT") code \/ ~ In (StandardOp "DUP1") code).

Lemma in_replaced : forall A window B repl i, from_window window repl -> In i (A ++ repl ++ B) -> (forall x, i <> Push (Literal x)) -> i <> StandardOp "AND" -> i <> StandardOp "OR" -> In i (A ++ window ++ B).
Proof.
  intros A window B repl i F H N1 N2 N3. apply in_app_iff in H. apply in_app_iff. destruct H as [H|H]; [left; exact H|right]. apply in_app_iff in H. apply in_app_iff. destruct H as [H|H]; [left|right; exact H].
  destruct (F i H) as [K|[[x K]|[K|K]]]; [exact K|exfalso; eapply N1; exact K|contradiction|contradiction].
Qed.

Lemma clean_not_bad : forall A window B, clean (A ++ window ++ B) -> bad window = false.
Proof.
  intros A window B (C1 & C2).
  assert (INC : forall i, In i window -> In i (A ++ window ++ B)) by (intros i H; apply in_app_iff; right; apply in_app_iff; left; exact H).
  assert (B1 : ~ In (StandardOp "BYTE") window) by (intros H; apply C1, INC, H).
  assert (B2 : ~ In (StandardOp "NOT") window \/ ~ In (StandardOp "DUP1") window) by (destruct C2 as [C2|C2]; [left|right]; intros H; apply C2, INC, H).
  clear C1 C2 INC. unfold bad.
  assert (K : forall o op1 op2 op3 op4, window = [o; StandardOp op1; op2; StandardOp op3; StandardOp op4] -> ((op1 =? "NOT") && is_dup1 op2 && (op3 =? "NOT") && ((op4 =? "AND") || (op4 =? "OR")))%string = false).
  { intros o op1 op2 op3 op4 ->. destruct (String.eqb_spec op1 "NOT") as [->|]; [|reflexivity]. destruct B2 as [B2|B2]; [exfalso; apply B2; right; left; reflexivity|].
    destruct op2 as [t|op2|l|l|f|k]; try reflexivity. cbn [is_dup1]. destruct (String.eqb_spec op2 "DUP1") as [->|]; [|reflexivity]. exfalso. apply B2. right. right. left. reflexivity. }
  assert (K2 : forall x y op, window = [Push (Literal y); Push (Literal x); StandardOp op] -> ((op =? "BYTE")%string && negb (byte_fold_ok x y)) = false).
  { intros x y op ->. destruct (String.eqb_spec op "BYTE") as [->|]; [|reflexivity]. exfalso. apply B1. right. right. left. reflexivity. }
  repeat match goal with |- match ?w with _ => _ end = false => is_var w; destruct w; try reflexivity end; first [eapply K2; reflexivity | eapply K; reflexivity].
Qed.

Theorem C29_optimizer_partial : forall world other address, well_behaved world other -> forall fuel code code',
  clean code -> optimize_asm fuel code = Done code' -> same_effect world other address code code'.
Proof.
  intros world other address WB fuel code code' CL E. eapply (C29_without_wrong_rules world other address WB fuel fuel). rewrite <- E. unfold optimize_asm.
  refine (proj1 (loop_agrees clean guarded False passes _ fuel fuel code CL)).
  eapply Forall_impl; [|apply (passes_ok world other address WB)]. intros [W f] OK A window B _ C. cbn [fst snd] in *. split; [|split; [contradiction|]].
  - unfold guarded. rewrite (clean_not_bad _ _ _ C). reflexivity.
  - intros repl F. destruct (OK _ _ F) as (_ & _ & FW & _). destruct C as (C1 & C2).
    split; [|destruct C2 as [C2|C2]; [left|right]]; intros H; [apply C1|apply C2|apply C2]; (eapply in_replaced; [exact FW|exact H|discriminate..]).
Qed.
Print Assumptions C29_optimizer_partial.

(** An optimized program: SWAP1 before ADD goes, 2 3 MUL is folded, the jump
    to the next instruction and the ignored value go. *)
Definition demo : list item :=
  [Push (Literal 2); Push (Literal 3); StandardOp "MUL"; StandardOp "SWAP1"; StandardOp "ADD"; Push (Label "f"); StandardOp "JUMP"; GlobalLabelDeclaration "f";
   StandardOp "DUP2"; StandardOp "POP"; Push (Literal 0); StandardOp "ADD"].
Example demo_optimized : optimize_asm 100 demo = Done [Push (Literal 6); StandardOp "ADD"; GlobalLabelDeclaration "f"].
Proof. vm_compute. reflexivity. Qed.
Definition no_other (i : item) (w : unit) (s : stack) : action unit := Fail unit.
Example demo_meets_hypotheses : clean demo /\ literals_ok demo /\ addresses_ok (fun _ => 7) demo /\ well_behaved unit no_other.
Proof.
  split; [split; [|left]; cbn; intuition discriminate|]. split; [repeat constructor; discriminate|]. split.
  - split; [intros _; split; [discriminate|reflexivity]|]. split; [repeat constructor; intros []|]. intros l l' [<-|[]] [<-|[]] _. reflexivity.
  - intros i w s w' s' _ [H|[[v H]|H]]; discriminate.
Qed.
Example demo_runs : run unit no_other (fun _ => 7) 20 demo 0 tt [10; 11] = Some (Some (tt, [16; 11])) /\ run unit no_other (fun _ => 7) 20 [Push (Literal 6); StandardOp "ADD"; GlobalLabelDeclaration "f"] 0 tt [10; 11] = Some (Some (tt, [16; 11])).
Proof. split; vm_compute; reflexivity. Qed.

(** ** The two wrong rewrites *)

(** 1 31 BYTE leaves byte 31 of 1, which is 1; it is folded to 0, because
    U256::byte counts from the least significant end. *)
Theorem C29_byte_refuted : exists code code', optimize_asm 100 code = Done code' /\ literals_ok code /\
  exists w s, run unit no_other (fun _ => 0) 10 code 0 tt [] = Some (Some (w, s)) /\ ~ refines unit no_other (fun _ => 0) code code' (AtPosition 0) tt [].
Proof.
  exists [Push (Literal 1); Push (Literal 31); StandardOp "BYTE"], [Push (Literal 0)]. split; [vm_compute; reflexivity|]. split; [repeat constructor; discriminate|].
  exists tt, [1]. split; [vm_compute; reflexivity|]. intros [H _]. destruct (H 10%nat (tt, [1]) ltac:(vm_compute; reflexivity)) as [[|[|n]] K]; discriminate.
Qed.
Print Assumptions C29_byte_refuted.

(** 3 NOT DUP1 NOT AND leaves 0; the rewritten 3 DUP1 OR NOT leaves the
    complement of 3. *)
Theorem C29_de_morgan_refuted : exists code code', optimize_asm 100 code = Done code' /\ literals_ok code /\ ~ In (StandardOp "BYTE") code /\
  exists w s, run unit no_other (fun _ => 0) 10 code 0 tt [] = Some (Some (w, s)) /\ ~ refines unit no_other (fun _ => 0) code code' (AtPosition 0) tt [].
Proof.
  exists [Push (Literal 3); StandardOp "NOT"; StandardOp "DUP1"; StandardOp "NOT"; StandardOp "AND"], [Push (Literal 3); StandardOp "DUP1"; StandardOp "OR"; StandardOp "NOT"].
  split; [vm_compute; reflexivity|]. split; [repeat constructor; discriminate|]. split; [cbn; intuition discriminate|].
  exists tt, [0]. split; [vm_compute; reflexivity|]. intros [H _]. destruct (H 10%nat (tt, [0]) ltac:(vm_compute; reflexivity)) as [n K].
  destruct n as [|[|[|[|[|n]]]]]; try discriminate K.
Qed.
Print Assumptions C29_de_morgan_refuted.

(** * C30 *)

(** The number of bytes the assembler emits (assembler.rs:341-380, 456-464). *)
Definition item_bytes (i : item) : Z :=
  match i with
  | Push (Literal n) => 1 + trimmed_len n
  | Push (Label _) => 1 + 3
  | Push _ => 1
  | StandardOp _ | ProverInput _ => 1
  | GlobalLabelDeclaration _ | LocalLabelDeclaration _ | Other _ => 0
  end.
Fixpoint bytes (code : list item) : Z := match code with [] => 0 | i :: r => item_bytes i + bytes r end.
Lemma bytes_app : forall a b, bytes (a ++ b) = bytes a + bytes b.
Proof. induction a as [|i a IH]; intros b; cbn [app bytes]; [reflexivity|]. rewrite IH. lia. Qed.
Lemma trimmed_nonneg : forall x, 0 <= trimmed_len x.
Proof. intros x. unfold trimmed_len. destruct (x =? 0); [lia|]. pose proof (Z.log2_nonneg x). pose proof (Z.div_pos (Z.log2 x) 8). lia. Qed.
Lemma item_bytes_nonneg : forall i, 0 <= item_bytes i.
Proof. intros [[x|l|l|l|l]|op|l|l|f|n]; cbn [item_bytes]; try lia. pose proof (trimmed_nonneg x). lia. Qed.

Lemma rule_bytes : forall p window repl, In p passes -> snd p window = Replace repl -> bytes repl < bytes window.
Proof.
  intros p window repl H E. unfold passes in H.
  destruct H as [<-|[<-|[<-|[<-|[<-|[<-|[<-|[<-|[]]]]]]]]]; cbn [snd] in E.
  - unfold if_better in E. destruct (unary_rule window) as [| |l] eqn:U; try discriminate. destruct (is_code_improved window l) as [[|]|] eqn:C; try discriminate. injection E as <-.
    destruct window as [|[[x|?|?|?|?]|?|?|?|?|?] [|[?|op|?|?|?|?] [|]]]; try discriminate U. cbn [unary_rule] in U.
    assert (D : exists v, l = [Push (Literal v)]) by (destruct (op =? "ISZERO")%string; [|destruct (op =? "NOT")%string; [|discriminate]]; apply replace_inj in U; subst l; eauto).
    destruct D as [v ->]. unfold is_code_improved in C. cbn [cost_estimate cost_estimate_item] in C. apply some_inj in C. cbn [bytes item_bytes]. lia.
  - unfold if_better in E. destruct (binary_rule window) as [| |l] eqn:U; try discriminate. destruct (is_code_improved window l) as [[|]|] eqn:C; try discriminate. injection E as <-.
    destruct window as [|[[y|?|?|?|?]|?|?|?|?|?] [|[[x|?|?|?|?]|?|?|?|?|?] [|[?|op|?|?|?|?] [|]]]]; try discriminate U. cbn [binary_rule] in U.
    destruct (fold_binary op x y) as [[v|]|]; try discriminate. apply replace_inj in U. subst l. unfold is_code_improved in C. cbn [cost_estimate cost_estimate_item] in C. apply some_inj in C. cbn [bytes item_bytes]. lia.
  - destruct window as [|[[x|?|?|?|?]|?|?|?|?|?] [|[?|op|?|?|?|?] [|]]]; try discriminate E. cbn [identity_rule] in E.
    assert (repl = []) by (repeat match type of E with (if ?c then _ else _) = _ => destruct c end; congruence). subst repl. cbn [bytes item_bytes]. pose proof (trimmed_nonneg x). lia.
  - destruct window as [|[[?|l|?|?|?]|?|?|?|?|?] [|[?|op|?|?|?|?] [|d [|]]]]; try discriminate E. cbn [no_op_jump_rule] in E. destruct (_ && _); [|discriminate]. injection E as <-. cbn [bytes item_bytes]. lia.
  - destruct window as [|[x|?|?|?|?|?] [|[y|?|?|?|?|?] [|[?|op|?|?|?|?] [|]]]]; try discriminate E. cbn [swapped_pushes_rule] in E. destruct (op =? "SWAP1")%string; [|discriminate]. injection E as <-. cbn [bytes]. change (item_bytes (StandardOp op)) with 1. lia.
  - destruct window as [|[?|op|?|?|?|?] [|[?|f|?|?|?|?] [|]]]; try discriminate E. cbn [swaps_commutative_rule] in E. destruct (_ && _); [|discriminate]. injection E as <-. cbn [bytes item_bytes]. lia.
  - destruct window as [|a [|[?|op|?|?|?|?] [|]]]; try discriminate E. cbn [ignored_values_rule] in E. destruct (_ && _); [|discriminate]. injection E as <-. cbn [bytes]. pose proof (item_bytes_nonneg a). change (item_bytes (StandardOp op)) with 1. lia.
  - destruct window as [|op0 [|[?|op1|?|?|?|?] [|op2 [|[?|op3|?|?|?|?] [|[?|op4|?|?|?|?] [|]]]]]]; try discriminate E. cbn [de_morgan_rule] in E. destruct (_ && _); [|discriminate]. injection E as <-. cbn [bytes].
    change (item_bytes (StandardOp op1)) with 1. change (item_bytes (StandardOp op3)) with 1. change (item_bytes (StandardOp op4)) with 1. change (item_bytes (StandardOp "NOT")) with 1. change (item_bytes (StandardOp (if (op4 =? "AND")%string then "OR" else "AND")%string)) with 1. lia.
Qed.

Lemma any_ok : Forall (fun p => rule_ok unit no_other (fun _ => 0) (snd p)) passes.
Proof. apply passes_ok. apply demo_meets_hypotheses. Qed.

Lemma passes_width : Forall (fun p => (2 <= fst p <= 5)%nat) passes.
Proof. repeat constructor. Qed.

Lemma item_eqb_refl : forall i, item_eqb i i = true.
Proof. intros [[x|l|l|l|l]|op|l|l|f|n]; cbn; rewrite ?String.eqb_refl, ?Z.eqb_refl, ?Nat.eqb_refl; reflexivity. Qed.
Lemma code_eqb_refl : forall c, code_eqb c c = true.
Proof. induction c as [|i c IH]; [reflexivity|]. cbn. rewrite item_eqb_refl. exact IH. Qed.

(** A pass leaves the code alone or makes it strictly shorter, in items and in
    bytes, with the same labels. *)
Definition shrinks (a b : list item) : Prop := labels b = labels a /\ (b = a \/ (length b < length a)%nat /\ bytes b < bytes a).
Lemma shrinks_refl : forall a, shrinks a a.
Proof. intros a. split; auto. Qed.
Lemma shrinks_trans : forall a b c, True -> shrinks a b -> shrinks b c -> shrinks a c.
Proof. intros a b c _ (L1 & S1) (L2 & S2). split; [congruence|]. destruct S1 as [->|S1]; [exact S2|]. destruct S2 as [->|S2]; [auto|]. right. lia. Qed.
Lemma passes_shrink : Forall (preserves (fun _ => True) shrinks) passes.
Proof.
  apply Forall_forall. intros p H A window B repl _ _ F. split; [exact Logic.I|]. pose proof (rule_bytes p _ _ H F). destruct (proj1 (Forall_forall _ _) any_ok p H _ _ F) as (L & LB & _).
  split; [rewrite !labels_app, LB; reflexivity|]. right. rewrite !app_length, !bytes_app. lia.
Qed.
Lemma run_shrinks : forall fuel code code', run_passes fuel passes code = Done code' -> shrinks code code'.
Proof. intros. eapply (passes_preserve (fun _ => True) shrinks shrinks_refl shrinks_trans passes passes_shrink); [exact Logic.I|eassumption]. Qed.

Theorem C30_never_grows : forall fuel code code', optimize_asm fuel code = Done code' ->
  labels code' = labels code /\ (length code' <= length code)%nat /\ bytes code' <= bytes code /\
  (code' <> code -> (length code' < length code)%nat /\ bytes code' < bytes code) /\
  exists fuel', run_passes fuel' passes code' = Done code'.
Proof.
  intros fuel code code' E. destruct (loop_preserves (fun _ => True) shrinks shrinks_refl shrinks_trans passes passes_shrink _ _ _ _ Logic.I E) as [_ (L & S)].
  split; [exact L|]. split; [destruct S as [->|S]; lia|]. split; [destruct S as [->|S]; lia|]. split; [destruct S as [->|S]; [contradiction|auto]|].
  exists fuel. clear L S. unfold optimize_asm in E. revert code E. generalize fuel at 1 as n. induction n as [|n IH]; intros code E; [discriminate|]. cbn [optimize_loop] in E.
  destruct (run_passes fuel passes code) as [| |c1] eqn:E1; try discriminate. destruct (code_eqb c1 code) eqn:Q; [|eapply IH; exact E]. injection E as ->.
  destruct (run_shrinks _ _ _ E1) as [_ [->|[S _]]]; [exact E1|]. exfalso. revert Q S. clear. revert code. induction code' as [|i c IH]; intros [|j d] Q S; cbn in *; try discriminate; try lia.
  apply andb_prop in Q. eapply IH; [apply Q|]. lia.
Qed.
Print Assumptions C30_never_grows.

(** ** Termination *)

Lemma windows_finish : forall W f, (1 <= W)%nat -> (forall window repl, f window = Replace repl -> (length repl < length window)%nat) ->
  forall fuel vec start, (start <= length vec)%nat -> (W * length vec - start < fuel)%nat ->
  replace_windows fuel W f vec start <> OutOfFuel /\ forall k, replace_windows (fuel + k) W f vec start = replace_windows fuel W f vec start.
Proof.
  intros W f HW SH. induction fuel as [|fuel IH]; intros vec start HS HF; [lia|]. cbn [replace_windows Nat.add].
  destruct (Nat.leb_spec (start + W) (length vec)) as [L|L]; [|split; [discriminate|reflexivity]].
  destruct (window_split vec start W L) as (_ & S2 & S3). destruct (f (firstn W (skipn start vec))) as [| |repl] eqn:F; [split; [discriminate|reflexivity]|apply IH; [lia|nia]|].
  pose proof (SH _ _ F) as SR. assert (LN : (length (firstn start vec ++ repl ++ skipn (start + W) vec) = length vec - W + length repl)%nat) by (rewrite !app_length, skipn_length; lia).
  apply IH; rewrite LN; [lia|]. assert (length vec - W + length repl <= length vec - 1)%nat by lia. nia.
Qed.

Lemma passes_finish : forall ps, Forall (fun p => (1 <= fst p <= 5)%nat /\ forall window repl, snd p window = Replace repl -> (length repl < length window)%nat) ps ->
  forall fuel code, (5 * length code < fuel)%nat -> run_passes fuel ps code <> OutOfFuel /\ forall k, run_passes (fuel + k) ps code = run_passes fuel ps code.
Proof.
  induction 1 as [|[W f] ps [HW SH] FP IH]; intros fuel code HF; cbn [run_passes fst snd] in *; [split; [discriminate|reflexivity]|].
  destruct (windows_finish W f ltac:(lia) SH fuel code 0%nat) as [N K]; [lia|nia|]. destruct (replace_windows fuel W f code 0) as [| |c1] eqn:E1; [congruence| |].
  - split; [discriminate|]. intros k. rewrite K. reflexivity.
  - assert (LC : (length c1 <= length code)%nat).
    { refine (proj2 (windows_preserve (fun _ => True) (fun a b => (length b <= length a)%nat) _ _ W f _ _ _ _ _ Logic.I E1)); [reflexivity|intros; lia|].
      intros A window B repl _ _ F. split; [exact Logic.I|]. pose proof (SH _ _ F). rewrite !app_length. lia. }
    destruct (IH fuel c1) as [N1 K1]; [lia|]. split; [exact N1|]. intros k. rewrite K. apply K1.
Qed.

Lemma passes_shorter : Forall (fun p => (1 <= fst p <= 5)%nat /\ forall window repl, snd p window = Replace repl -> (length repl < length window)%nat) passes.
Proof.
  apply Forall_forall. intros p H. split; [pose proof (proj1 (Forall_forall _ _) passes_width p H); cbn beta in *; lia|]. intros window repl F. apply (proj1 (Forall_forall _ _) any_ok p H _ _ F).
Qed.

Lemma loop_finish : forall n fuel code, (length code < n)%nat -> (5 * length code < fuel)%nat ->
  optimize_loop passes n fuel code <> OutOfFuel /\ forall j k, optimize_loop passes (n + j) (fuel + k) code = optimize_loop passes n fuel code.
Proof.
  induction n as [|n IH]; intros fuel code HN HF; [lia|]. cbn [optimize_loop Nat.add]. destruct (passes_finish passes passes_shorter fuel code HF) as [N K].
  destruct (run_passes fuel passes code) as [| |c1] eqn:E1; [congruence|split; [discriminate|]; intros j k; rewrite K; reflexivity|].
  destruct (code_eqb c1 code) eqn:Q; [split; [discriminate|]; intros j k; rewrite K, Q; reflexivity|].
  destruct (run_shrinks _ _ _ E1) as [_ [->|[S _]]]; [rewrite code_eqb_refl in Q; discriminate|].
  destruct (IH fuel c1) as [N1 K1]; [lia|lia|]. split; [exact N1|]. intros j k. rewrite K, Q. apply K1.
Qed.

(** The loops end on every program: with enough fuel the model never runs
    out, and more fuel changes nothing. *)
Theorem C30_terminates : forall code fuel, (5 * length code + 1 <= fuel)%nat ->
  optimize_asm fuel code <> OutOfFuel /\ optimize_asm fuel code = optimize_asm (5 * length code + 1) code.
Proof.
  intros code fuel H. unfold optimize_asm. destruct (loop_finish (5 * length code + 1) (5 * length code + 1) code) as [N K]; [lia|lia|].
  replace fuel with (5 * length code + 1 + (fuel - (5 * length code + 1)))%nat by lia. rewrite K. auto.
Qed.
Print Assumptions C30_terminates.

(** Without SHL and SHR no pass panics either. *)
Theorem C30_no_panic : forall code, ~ In (StandardOp "SHL") code -> ~ In (StandardOp "SHR") code ->
  exists code', optimize_asm (5 * length code + 1) code = Done code'.
Proof.
  intros code H1 H2.
  assert (G : optimize_asm (5 * length code + 1) code <> Panicked).
  { unfold optimize_asm. refine (proj2 (loop_agrees (fun c => ~ In (StandardOp "SHL") c /\ ~ In (StandardOp "SHR") c) (fun f => f) True passes _ _ _ code (conj H1 H2)) Logic.I).
    apply Forall_forall. intros p Hp A window B _ C. split; [reflexivity|]. split.
    - intros _ E. assert (NS : forall op, In (StandardOp op) window -> (op =? "SHL")%string = false /\ (op =? "SHR")%string = false).
      { intros op K. split; [destruct (String.eqb_spec op "SHL") as [->|]|destruct (String.eqb_spec op "SHR") as [->|]]; try reflexivity; exfalso; [apply (proj1 C)|apply (proj2 C)]; apply in_app_iff; right; apply in_app_iff; left; exact K. }
      clear C. unfold passes in Hp. destruct Hp as [<-|[<-|[<-|[<-|[<-|[<-|[<-|[<-|[]]]]]]]]]; cbn [snd] in E.
      + unfold if_better in E. destruct (unary_rule window) as [| |l] eqn:U; try discriminate.
        * destruct window as [|[[x|?|?|?|?]|?|?|?|?|?] [|[?|op|?|?|?|?] [|]]]; try discriminate U. cbn [unary_rule] in U. repeat match type of U with (if ?c then _ else _) = _ => destruct c end; discriminate.
        * destruct window as [|[[x|?|?|?|?]|?|?|?|?|?] [|[?|op|?|?|?|?] [|]]]; try discriminate U. cbn [unary_rule] in U.
          assert (D : exists v, l = [Push (Literal v)]) by (destruct (op =? "ISZERO")%string; [|destruct (op =? "NOT")%string; [|discriminate]]; apply replace_inj in U; subst l; eauto). destruct D as [v ->].
          unfold is_code_improved in E. cbn [cost_estimate cost_estimate_item] in E. destruct (_ <? _); discriminate.
      + unfold if_better in E. destruct (binary_rule window) as [| |l] eqn:U; try discriminate; destruct window as [|[[y|?|?|?|?]|?|?|?|?|?] [|[[x|?|?|?|?]|?|?|?|?|?] [|[?|op|?|?|?|?] [|]]]]; try discriminate U; cbn [binary_rule] in U.
        * destruct (NS op) as [N1 N2]; [right; right; left; reflexivity|]. unfold fold_binary in U. rewrite N1, N2 in U. repeat match type of U with match (if ?c then _ else _) with _ => _ end = _ => destruct c end; discriminate.
        * destruct (fold_binary op x y) as [[v|]|]; try discriminate. apply replace_inj in U. subst l. unfold is_code_improved in E. cbn [cost_estimate cost_estimate_item] in E. destruct (_ <? _); discriminate.
      + destruct window as [|[[x|?|?|?|?]|?|?|?|?|?] [|[?|op|?|?|?|?] [|]]]; try discriminate E. cbn [identity_rule] in E. repeat match type of E with (if ?c then _ else _) = _ => destruct c end; discriminate.
      + destruct window as [|[[?|l|?|?|?]|?|?|?|?|?] [|[?|op|?|?|?|?] [|d [|]]]]; try discriminate E. cbn [no_op_jump_rule] in E. destruct (_ && _); discriminate.
      + destruct window as [|[x|?|?|?|?|?] [|[y|?|?|?|?|?] [|[?|op|?|?|?|?] [|]]]]; try discriminate E. cbn [swapped_pushes_rule] in E. destruct (op =? "SWAP1")%string; discriminate.
      + destruct window as [|[?|op|?|?|?|?] [|[?|f|?|?|?|?] [|]]]; try discriminate E. cbn [swaps_commutative_rule] in E. destruct (_ && _); discriminate.
      + destruct window as [|a [|[?|op|?|?|?|?] [|]]]; try discriminate E. cbn [ignored_values_rule] in E. destruct (_ && _); discriminate.
      + destruct window as [|op0 [|[?|op1|?|?|?|?] [|op2 [|[?|op3|?|?|?|?] [|[?|op4|?|?|?|?] [|]]]]]]; try discriminate E. cbn [de_morgan_rule] in E. destruct (_ && _); discriminate.
    - intros repl F. destruct (proj1 (Forall_forall _ _) any_ok p Hp _ _ F) as (_ & _ & FW & _). destruct C as [C1 C2].
      split; intros K; [apply C1|apply C2]; (eapply in_replaced; [exact FW|exact K|discriminate..]). }
  destruct (C30_terminates code (5 * length code + 1) (Nat.le_refl _)) as [N _]. destruct (optimize_asm _ code) as [| |c]; [congruence|congruence|eauto].
Qed.
Print Assumptions C30_no_panic.
(** A constant shift by 2^64 or more does (U256's shift converts the amount to
    usize). *)
Example shift_panics : optimize_asm 100 [Push (Literal 1); Push (Literal (2 ^ 64)); StandardOp "SHL"] = Panicked.
Proof. vm_compute. reflexivity. Qed.
