(** Every rule of the optimizer rewrites a window to an equivalent one, with
    two exceptions. *)
From Coq Require Import ZArith String List Bool Arith Lia.
From Coq Require Import ZifyBool ZifyNat.
From Verif Require Import Kernel.OptModel Kernel.OptSpec Kernel.OptSound.
Import ListNotations.
Local Open Scope Z_scope.
Local Open Scope list_scope.

(** * Straight-line code *)

Section Eff.
  Variable address : string -> Z.

  Definition eff1 (i : item) (s : stack) : option stack :=
    match i with
    | Push (Literal x) => Some (x :: s)
    | Push (Label l) => Some (address l :: s)
    | StandardOp op => match pure_op op s with Result s' => Some s' | _ => None end
    | _ => None
    end.
  Fixpoint eff (c : list item) (s : stack) : option stack :=
    match c with [] => Some s | i :: r => match eff1 i s with Some s' => eff r s' | None => None end end.

  Definition pure_item (i : item) : Prop :=
    match i with
    | Push _ => True
    | StandardOp op => (op =? "JUMP")%string = false /\ (op =? "JUMPI")%string = false /\ forall s, pure_op op s <> NotPure
    | _ => False
    end.

  Lemma eff1_word : forall i s s', (forall l, word (address l)) -> match i with Push (Literal x) => word x | _ => True end ->
    Forall word s -> eff1 i s = Some s' -> Forall word s'.
  Proof.
    intros i s s' AD L H E. destruct i as [[x|l|l|l|l]|op|l|l|f|n]; try discriminate; cbn [eff1] in E.
    - injection E as <-. constructor; assumption.
    - injection E as <-. constructor; auto.
    - destruct (pure_op op s) as [| |s1] eqn:P; try discriminate. injection E as <-. eapply pure_word; eassumption.
  Qed.

  Lemma eff_word : forall c s s', (forall l, word (address l)) -> literals_ok c -> Forall word s -> eff c s = Some s' -> Forall word s'.
  Proof.
    induction c as [|i c IH]; intros s s' AD L H E; [injection E as <-; exact H|]. cbn [eff] in E. destruct (eff1 i s) as [s1|] eqn:E1; [|discriminate].
    inversion L as [|? ? L1 L2]. subst. eapply IH; [exact AD|exact L2| |exact E]. eapply eff1_word; eassumption.
  Qed.

  Lemma eff_app : forall a b s, eff (a ++ b) s = match eff a s with Some s' => eff b s' | None => None end.
  Proof. induction a as [|i a IH]; intros b s; [reflexivity|]. cbn [app eff]. destruct (eff1 i s); [apply IH|reflexivity]. Qed.

  Variable world : Type.
  Variable other : item -> world -> stack -> action world.

  Lemma eff_steps : forall W A B w s, Forall pure_item W ->
    match eff W s with
    | Some s' => nsteps world other address (length W) (A ++ W ++ B) (length A) w s = Next world (length A + length W) w s'
    | None => exists k, nsteps world other address k (A ++ W ++ B) (length A) w s = Stuck world
    end.
  Proof.
    induction W as [|i W IH]; intros A B w s H; [cbn [eff length nsteps]; rewrite Nat.add_0_r; reflexivity|].
    inversion H as [|? ? Hi HW]. subst. cbn [eff].
    assert (N : nth_error (A ++ (i :: W) ++ B) (length A) = Some i) by (rewrite nth_error_app2, Nat.sub_diag by lia; reflexivity).
    assert (ST : step world other address (A ++ (i :: W) ++ B) (length A) w s = match eff1 i s with Some s' => Next world (S (length A)) w s' | None => Stuck world end).
    { unfold step. rewrite N. destruct i as [[x|l|l|l|l]|op|l|l|f|n]; try reflexivity; try contradiction. destruct Hi as (J1 & J2 & NP). rewrite J1, J2. cbn [eff1].
      destruct (pure_op op s) as [| |s1] eqn:E; [exfalso; apply (NP s E)|reflexivity|reflexivity]. }
    destruct (eff1 i s) as [s1|].
    - specialize (IH (A ++ [i]) B w s1 HW). rewrite app_length in IH. cbn [length] in IH. replace ((A ++ [i]) ++ W ++ B) with (A ++ (i :: W) ++ B) in IH by (rewrite <- app_assoc; reflexivity).
      replace (length A + 1)%nat with (S (length A)) in IH by lia. destruct (eff W s1) as [s'|].
      + cbn [length nsteps]. rewrite ST, IH. f_equal. lia.
      + destruct IH as [k K]. exists (S k). cbn [nsteps]. rewrite ST. exact K.
    - exists 1%nat. cbn [nsteps]. rewrite ST. reflexivity.
  Qed.

  Lemma pure_labels : forall W, Forall pure_item W -> labels W = [].
  Proof.
    induction W as [|i W IH]; intros H; [reflexivity|]. inversion H as [|? ? Hi HW]. subst. unfold labels in *. cbn [flat_map]. rewrite IH by exact HW. destruct i; try contradiction; reflexivity.
  Qed.

  Lemma pure_window : forall A W W' B e w s, well_behaved world other -> Forall pure_item W -> Forall pure_item W' -> (0 < length W)%nat ->
    literals_ok (A ++ W ++ B) -> (forall l, word (address l)) ->
    (forall s s', Forall word s -> eff W s = Some s' -> eff W' s = Some s') ->
    Forall word s -> match e with AtPosition pc => (pc <= length A)%nat | AtAddress _ => True end ->
    refines world other address (A ++ W ++ B) (A ++ W' ++ B) e w s.
  Proof.
    intros A W W' B e w s WB PW PW' NE LIT AD H Hs He. apply window_refines; try assumption; [apply pure_labels; exact PW|apply pure_labels; exact PW'|].
    intros w0 s0 Hs0. pose proof (eff_steps W A B w0 s0 PW) as E1. pose proof (eff_steps W' A B w0 s0 PW') as E2. destruct (eff W s0) as [s'|] eqn:EW; [|left; exact E1].
    right. rewrite (H s0 s' Hs0 EW) in E2. exists (length W), (length W'), s'. split; [exact NE|]. split; [exact E1|]. split; [exact E2|].
    eapply eff_word; [exact AD| |exact Hs0|exact EW]. unfold literals_ok in *. apply Forall_app in LIT. destruct LIT as [_ LIT]. apply Forall_app in LIT. tauto.
  Qed.
End Eff.

(** * Arithmetic facts *)

Lemma pow_pos_spec : forall p x, word x -> pow_pos x p = (x ^ Zpos p) mod 2^256.
Proof.
  assert (E : W256 = 2^256) by reflexivity. intros p x Hx. set (M := 2^256) in *. assert (M0 : M <> 0) by discriminate.
  induction p as [p IH|p IH|]; cbn [pow_pos]; unfold overflowing_mul; rewrite ?E.
  - rewrite IH. rewrite <- Zmult_mod. rewrite Zmult_mod_idemp_r. f_equal. rewrite Pos2Z.inj_xI, Z.pow_add_r, Z.pow_mul_r by lia. rewrite Z.pow_1_r, Z.pow_2_r, Z.pow_mul_l. ring.
  - rewrite IH. rewrite <- Zmult_mod. f_equal. rewrite (Pos2Z.inj_xO p), (Z.mul_comm 2), Z.pow_mul_r by lia. rewrite Z.pow_2_r. reflexivity.
  - rewrite Z.pow_1_r. symmetry. apply Z.mod_small. exact Hx.
Qed.

Lemma overflowing_pow_spec : forall x y, word x -> 0 <= y -> overflowing_pow x y = (x ^ y) mod 2^256.
Proof. intros x y Hx Hy. destruct y as [|p|p]; [reflexivity|apply pow_pos_spec; exact Hx|lia]. Qed.

(** The windows on which folding BYTE is wrong. *)
Definition byte_fold_ok (x y : Z) : bool := (if x <? 32 then u_byte y x else 0) =? evm_byte x y.

Lemma fold_binary_ok : forall op x y res, word x -> word y -> fold_binary op x y = Some (Some res) ->
  (op <> "BYTE"%string \/ byte_fold_ok x y = true) -> exists f, evm_binary op = Some f /\ f x y = res.
Proof.
  intros op x y res Hx Hy H BY. unfold fold_binary in H. unfold evm_binary.
  assert (EW : W256 = 2^256) by reflexivity.
  repeat match type of H with (if ?c then _ else _) = _ => let E := fresh in destruct c eqn:E end; try discriminate H;
    try (match type of H with match ?o with _ => _ end = _ => let E := fresh in destruct o as [?r|] eqn:E; [|discriminate H] end);
    apply some_inj in H; apply some_inj in H; subst res; eexists; (split; [reflexivity|]); cbv beta; try reflexivity.
  - symmetry. apply overflowing_pow_spec; [exact Hx|apply Hy].
  - match goal with E : u_shl _ _ = Some _ |- _ => unfold u_shl in E; destruct (x <? 2^64); [|discriminate]; apply some_inj in E; subst end.
    destruct (x <? 256); [|reflexivity]. rewrite Z.shiftl_mul_pow2 by apply Hx. reflexivity.
  - match goal with E : u_shr _ _ = Some _ |- _ => unfold u_shr in E; destruct (x <? 2^64); [|discriminate]; apply some_inj in E; subst end.
    destruct (x <? 256); [|reflexivity]. rewrite Z.shiftr_div_pow2 by apply Hx. reflexivity.
  - unfold u256_from_bool. rewrite Z.gtb_ltb. reflexivity.
  - destruct BY as [N|BY]; [exfalso; apply N; apply String.eqb_eq; assumption|]. apply Z.eqb_eq in BY. symmetry. exact BY.
Qed.

Lemma fold_word : forall op f x y, evm_binary op = Some f -> word x -> word y -> word (f x y).
Proof. intros. eapply binary_word; eassumption. Qed.

Lemma not_bits : forall x, word x -> 2^256 - 1 - x = Z.ldiff (Z.ones 256) x.
Proof.
  intros x Hx. change (2^256 - 1) with (Z.ones 256). apply Z.sub_nocarry_ldiff. apply Z.bits_inj'. intros i Hi. rewrite Z.ldiff_spec, Z.bits_0.
  destruct (Z.lt_ge_cases i 256) as [L|L]; [rewrite Z.ones_spec_low by lia; apply andb_false_r|rewrite (word_high x i Hx L); reflexivity].
Qed.

Lemma de_morgan_and : forall a b, word a -> word b -> Z.land (2^256 - 1 - a) (2^256 - 1 - b) = 2^256 - 1 - Z.lor a b.
Proof.
  intros a b A B. rewrite !not_bits by (try apply word_lor; assumption). apply Z.bits_inj'. intros i Hi. rewrite Z.land_spec, !Z.ldiff_spec, Z.lor_spec.
  destruct (Z.testbit (Z.ones 256) i), (Z.testbit a i), (Z.testbit b i); reflexivity.
Qed.
Lemma de_morgan_or : forall a b, word a -> word b -> Z.lor (2^256 - 1 - a) (2^256 - 1 - b) = 2^256 - 1 - Z.land a b.
Proof.
  intros a b A B. rewrite !not_bits by (try apply word_land; assumption). apply Z.bits_inj'. intros i Hi. rewrite Z.lor_spec, !Z.ldiff_spec, Z.land_spec.
  destruct (Z.testbit (Z.ones 256) i), (Z.testbit a i), (Z.testbit b i); reflexivity.
Qed.

(** * Instructions *)

Lemma binary_pure : forall op f, evm_binary op = Some f -> evm_unary op = None -> pure_item (StandardOp op).
Proof.
  intros op f B U. cbn [pure_item]. split; [|split].
  - destruct (String.eqb_spec op "JUMP") as [->|]; [discriminate|reflexivity].
  - destruct (String.eqb_spec op "JUMPI") as [->|]; [discriminate|reflexivity].
  - intros s. unfold pure_op. rewrite U, B. destruct s as [|a [|b r]]; discriminate.
Qed.
Lemma unary_pure : forall op f, evm_unary op = Some f -> pure_item (StandardOp op).
Proof.
  intros op f U. cbn [pure_item]. split; [|split].
  - destruct (String.eqb_spec op "JUMP") as [->|]; [discriminate|reflexivity].
  - destruct (String.eqb_spec op "JUMPI") as [->|]; [discriminate|reflexivity].
  - intros s. unfold pure_op. rewrite U. destruct s; discriminate.
Qed.
Lemma binary_not_unary : forall op f, evm_binary op = Some f -> evm_unary op = None.
Proof.
  intros op f B. unfold evm_unary. destruct (String.eqb_spec op "ISZERO") as [->|]; [discriminate|]. destruct (String.eqb_spec op "NOT") as [->|]; [discriminate|]. reflexivity.
Qed.
Lemma pop_pure : pure_item (StandardOp "POP").
Proof. cbn [pure_item]. repeat split. intros [|a s]; discriminate. Qed.
Lemma swap1_pure : pure_item (StandardOp "SWAP1").
Proof. cbn [pure_item]. repeat split. intros [|a [|b s]]; discriminate. Qed.

Lemma prefix_app : forall s, String.prefix "DUP" s = true -> exists d, s = ("DUP" ++ d)%string.
Proof.
  intros s H.
  destruct s as [|a s]; [discriminate|]. cbn [String.prefix] in H. match type of H with (if ?c then _ else _) = _ => destruct c as [<-|] end; [|discriminate].
  destruct s as [|b s]; [discriminate|]. cbn [String.prefix] in H. match type of H with (if ?c then _ else _) = _ => destruct c as [<-|] end; [|discriminate].
  destruct s as [|c s]; [discriminate|]. cbn [String.prefix] in H. match type of H with (if ?c then _ else _) = _ => destruct c as [<-|] end; [|discriminate].
  exists s. reflexivity.
Qed.

Lemma dup_op : forall op s, String.prefix "DUP" op = true ->
  pure_op op s = match dup_of op with Some k => match nth_error s k with Some v => Result (v :: s) | None => Underflow end | None => Underflow end.
Proof.
  intros op s H. destruct (prefix_app op H) as [d ->]. unfold pure_op.
  change (evm_unary ("DUP" ++ d)%string) with (@None (Z -> Z)). change (evm_binary ("DUP" ++ d)%string) with (@None (Z -> Z -> Z)). rewrite H. reflexivity.
Qed.

Lemma push_or_dup_pure : forall i, is_push_or_dup i = true -> pure_item i.
Proof.
  intros [t|op|l|l|f|n] H; try discriminate; [exact I|]. cbn [is_push_or_dup] in H. cbn [pure_item]. split; [|split].
  - destruct (prefix_app op H) as [d ->]. reflexivity.
  - destruct (prefix_app op H) as [d ->]. reflexivity.
  - intros s. rewrite dup_op by exact H. destruct (dup_of op); [destruct (nth_error s n)|]; discriminate.
Qed.

Lemma push_or_dup_eff : forall ad i s s', is_push_or_dup i = true -> eff1 ad i s = Some s' -> exists v, s' = v :: s.
Proof.
  intros ad [[x|l|l|l|l]|op|l|l|f|n] s s' H E; try discriminate; cbn [eff1] in E.
  - injection E as <-. eauto.
  - injection E as <-. eauto.
  - rewrite dup_op in E by exact H. destruct (dup_of op) as [k|]; [|discriminate]. destruct (nth_error s k) as [v|]; [|discriminate]. injection E as <-. eauto.
Qed.

Definition is_dup1 (i : item) : bool := match i with StandardOp op => (op =? "DUP1")%string | _ => false end.
Lemma dup_of_0 : forall op, dup_of op = Some O -> op = "DUP1"%string.
Proof.
  intros op H. destruct (String.eqb_spec op "DUP1"%string) as [E|N]; [exact E|]. exfalso. apply String.eqb_neq in N. unfold dup_of, digits in H. cbn [map index_of] in H.
  change ("DUP" ++ "1")%string with "DUP1"%string in H. rewrite N in H.
  repeat match type of H with context [if ?c then _ else _] => destruct c; [discriminate H|] end. discriminate H.
Qed.
(** Anything but DUP1 does not look at the top. *)
Lemma deep_eff : forall ad i x y s s', is_push_or_dup i = true -> is_dup1 i = false -> eff1 ad i (x :: s) = Some s' ->
  exists v, s' = v :: x :: s /\ eff1 ad i (y :: s) = Some (v :: y :: s).
Proof.
  intros ad [[z|l|l|l|l]|op|l|l|f|n] x y s s' H D E; try discriminate; cbn [eff1] in *.
  - injection E as <-. eauto.
  - injection E as <-. eauto.
  - rewrite dup_op in E by exact H. rewrite dup_op by exact H. destruct (dup_of op) as [[|k]|] eqn:K; [|cbn [nth_error] in *|discriminate].
    + exfalso. apply dup_of_0 in K. subst op. discriminate.
    + destruct (nth_error s k) as [v|]; [|discriminate]. injection E as <-. eauto.
Qed.

Lemma binary_eff : forall ad op f s, evm_binary op = Some f -> eff1 ad (StandardOp op) s = match s with a :: b :: r => Some (f a b :: r) | _ => None end.
Proof.
  intros ad op f s B. cbn [eff1]. unfold pure_op. rewrite (binary_not_unary _ _ B), B. destruct s as [|a [|b r]]; reflexivity.
Qed.
Lemma unary_eff : forall ad op f s, evm_unary op = Some f -> eff1 ad (StandardOp op) s = match s with a :: r => Some (f a :: r) | _ => None end.
Proof. intros ad op f s U. cbn [eff1]. unfold pure_op. rewrite U. destruct s; reflexivity. Qed.
Lemma swap1_eff : forall ad s, eff1 ad (StandardOp "SWAP1") s = match s with a :: b :: r => Some (b :: a :: r) | _ => None end.
Proof. intros ad s. destruct s as [|a [|b r]]; reflexivity. Qed.
Lemma pop_eff : forall ad s, eff1 ad (StandardOp "POP") s = match s with a :: r => Some r | _ => None end.
Proof. intros ad s. destruct s; reflexivity. Qed.
