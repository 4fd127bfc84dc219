(** Simulation lemmas for window rewriting. *)
From Coq Require Import ZArith String List Bool Arith Lia.
From Coq Require Import ZifyBool ZifyNat.
From Verif Require Import Kernel.OptModel Kernel.OptSpec.
Import ListNotations.
Local Open Scope Z_scope.
Local Open Scope list_scope.

(** * Words *)

Lemma word_bits : forall x, 0 <= x -> (forall i, 256 <= i -> Z.testbit x i = false) -> word x.
Proof.
  intros x Hx H. assert (E : x = x mod 2^256).
  { apply Z.bits_inj'. intros i Hi. destruct (Z.lt_ge_cases i 256) as [L|L].
    - rewrite Z.mod_pow2_bits_low by lia. reflexivity.
    - rewrite Z.mod_pow2_bits_high by lia. apply H. exact L. }
  rewrite E. apply Z.mod_pos_bound. reflexivity.
Qed.

Lemma word_high : forall x i, word x -> 256 <= i -> Z.testbit x i = false.
Proof.
  intros x i [H0 H1] Hi. destruct (Z.eq_dec x 0) as [->|N]; [apply Z.bits_0|]. apply Z.bits_above_log2; [exact H0|].
  apply Z.log2_lt_pow2; [lia|]. apply Z.lt_le_trans with (2^256); [exact H1|]. apply Z.pow_le_mono_r; lia.
Qed.

Lemma word_land : forall a b, word a -> word b -> word (Z.land a b).
Proof.
  intros a b A B. apply word_bits; [apply Z.land_nonneg; left; apply A|]. intros i Hi. rewrite Z.land_spec, (word_high a), (word_high b) by assumption. reflexivity.
Qed.
Lemma word_lor : forall a b, word a -> word b -> word (Z.lor a b).
Proof.
  intros a b A B. apply word_bits; [apply Z.lor_nonneg; split; [apply A|apply B]|]. intros i Hi. rewrite Z.lor_spec, (word_high a), (word_high b) by assumption. reflexivity.
Qed.
Lemma word_lxor : forall a b, word a -> word b -> word (Z.lxor a b).
Proof.
  intros a b A B. apply word_bits; [apply Z.lxor_nonneg; split; intros _; [apply B|apply A]|]. intros i Hi. rewrite Z.lxor_spec, (word_high a), (word_high b) by assumption. reflexivity.
Qed.
Lemma word_mod : forall a, word (a mod 2^256).
Proof. intros a. apply Z.mod_pos_bound. reflexivity. Qed.
Lemma word_small : forall a, 0 <= a < 256 -> word a.
Proof. intros a H. split; [lia|]. apply Z.lt_le_trans with 256; [lia|]. discriminate. Qed.
Lemma word_bit : forall b : bool, word (if b then 1 else 0).
Proof. intros [|]; apply word_small; lia. Qed.

Lemma some_inj : forall {A} (x y : A), Some x = Some y -> x = y.
Proof. intros A x y H. congruence. Qed.

Lemma unary_word : forall op f a, evm_unary op = Some f -> word a -> word (f a).
Proof.
  intros op f a H A. unfold evm_unary in H. destruct (op =? "ISZERO")%string; [apply some_inj in H; subst f; apply word_bit|].
  destruct (op =? "NOT")%string; [|discriminate]. apply some_inj in H. subst f. unfold word in *. lia.
Qed.

Lemma binary_word : forall op f a b, evm_binary op = Some f -> word a -> word b -> word (f a b).
Proof.
  intros op f a b H A B. unfold evm_binary in H.
  repeat match type of H with (if ?c then _ else _) = _ => destruct c; [apply some_inj in H; subst f|] end; try discriminate; cbv beta;
    match goal with
    | |- word (Z.land _ _) => apply word_land; assumption
    | |- word (Z.lor _ _) => apply word_lor; assumption
    | |- word (Z.lxor _ _) => apply word_lxor; assumption
    | |- word (_ mod 2^256) => apply word_mod
    | |- word (if _ then 1 else 0) => apply word_bit
    | |- _ => idtac
    end.
  - destruct (Z.eqb_spec b 0); [apply word_small; lia|]. unfold word in *. split; [apply Z.div_pos; lia|]. apply Z.le_lt_trans with a; [apply Z.div_le_upper_bound; nia|lia].
  - destruct (Z.eqb_spec b 0); [apply word_small; lia|]. unfold word in *. pose proof (Z.mod_pos_bound a b ltac:(lia)). lia.
  - destruct (a <? 256); [apply word_mod|apply word_small; lia].
  - destruct (Z.ltb_spec a 256); [|apply word_small; lia]. unfold word in *. assert (1 <= 2 ^ a) by (change 1 with (2 ^ 0); apply Z.pow_le_mono_r; lia).
    split; [apply Z.div_pos; lia|]. apply Z.le_lt_trans with b; [apply Z.div_le_upper_bound; nia|lia].
  - unfold evm_byte. destruct (a <? 32); [|apply word_small; lia]. apply word_small. apply Z.mod_pos_bound. reflexivity.
Qed.

Lemma pure_word : forall op s s', Forall word s -> pure_op op s = Result s' -> Forall word s'.
Proof.
  intros op s s' H E. unfold pure_op in E. destruct (evm_unary op) as [f|] eqn:U.
  - destruct s as [|a r]; [discriminate|]. injection E as <-. inversion H; subst. constructor; [eapply unary_word; eassumption|assumption].
  - destruct (evm_binary op) as [f|] eqn:B.
    + destruct s as [|a [|b r]]; try discriminate. injection E as <-. inversion H as [|? ? Ha H']; subst. inversion H' as [|? ? Hb H'']; subst. constructor; [eapply binary_word; eassumption|assumption].
    + destruct (op =? "POP")%string; [destruct s; [discriminate|]; injection E as <-; inversion H; assumption|].
      destruct (String.prefix "DUP" op).
      * destruct (dup_of op) as [k|]; [|discriminate]. destruct (nth_error s k) as [v|] eqn:N; [|discriminate]. injection E as <-. constructor; [|exact H]. rewrite Forall_forall in H. apply H. eapply nth_error_In. exact N.
      * destruct (swap_of op) as [k|]; [|discriminate]. destruct s as [|a r]; [discriminate|]. destruct (nth_error (a :: r) (S k)) as [b|] eqn:N; [|discriminate]. injection E as <-.
        inversion H; subst. assert (Hb : word b) by (rewrite Forall_forall in H; apply H; eapply nth_error_In; exact N).
        unfold set_nth. apply Forall_app. assert (F : Forall word (b :: r)) by (constructor; assumption). split; [|constructor; [assumption|]].
        -- rewrite Forall_forall in *. intros x Hx. apply F. rewrite <- (firstn_skipn (S k) (b :: r)). apply in_or_app. left. exact Hx.
        -- rewrite Forall_forall in *. intros x Hx. apply F. rewrite <- (firstn_skipn (S (S k)) (b :: r)). apply in_or_app. right. exact Hx.
Qed.

Section Machine.
  Variable world : Type.
  Variable other : item -> world -> stack -> action world.
  Variable address : string -> Z.
  Hypothesis WB : well_behaved world other.

  Local Notation step := (step world other address).
  Local Notation run := (run world other address).
  Local Notation find_label := (find_label address).

  (** Exactly [n] instructions. *)
  Fixpoint nsteps (n : nat) (code : list item) (pc : nat) (w : world) (s : stack) : result world :=
    match n with
    | O => Next world pc w s
    | S n' => match step code pc w s with Next _ pc' w' s' => nsteps n' code pc' w' s' | r => r end
    end.

  Lemma nsteps_run : forall n code pc w s pc' w' s', nsteps n code pc w s = Next world pc' w' s' ->
    forall m, run (n + m) code pc w s = run m code pc' w' s'.
  Proof.
    induction n as [|n IH]; intros code pc w s pc' w' s' H m.
    - cbn in H. injection H as -> -> ->. reflexivity.
    - cbn [nsteps] in H. cbn [Nat.add OptSpec.run]. destruct (step code pc w s) as [q w1 s1| |]; try discriminate. apply IH. exact H.
  Qed.

  Lemma run_more : forall n code pc w s x, run n code pc w s = Some x -> forall k, run (n + k) code pc w s = Some x.
  Proof.
    induction n as [|n IH]; intros code pc w s x H k; [discriminate|]. cbn [Nat.add OptSpec.run] in *. destruct (step code pc w s); [apply IH; exact H|exact H|exact H].
  Qed.

  Lemma nsteps_short : forall n code pc w s pc' w' s' m x, nsteps n code pc w s = Next world pc' w' s' -> run m code pc w s = Some x -> (n < m)%nat.
  Proof.
    induction n as [|n IH]; intros code pc w s pc' w' s' m x H R; [destruct m; [discriminate|lia]|].
    destruct m as [|m]; [discriminate|]. cbn [nsteps OptSpec.run] in *. destruct (step code pc w s) as [q w1 s1| |]; try discriminate.
    specialize (IH _ _ _ _ _ _ _ _ _ H R). lia.
  Qed.

  Lemma nsteps_stuck : forall n code pc w s, nsteps n code pc w s = Stuck world -> exists m, run m code pc w s = Some None.
  Proof.
    induction n as [|n IH]; intros code pc w s H; [discriminate|]. cbn [nsteps] in H. destruct (step code pc w s) as [q w1 s1| |] eqn:E; try discriminate.
    - destruct (IH _ _ _ _ H) as [m Hm]. exists (S m). cbn [OptSpec.run]. rewrite E. exact Hm.
    - exists 1%nat. cbn [OptSpec.run]. rewrite E. reflexivity.
  Qed.

  Lemma run_det : forall n m code pc w s x y, run n code pc w s = Some x -> run m code pc w s = Some y -> x = y.
  Proof.
    intros n m code pc w s x y H1 H2. pose proof (run_more _ _ _ _ _ _ H1 m) as A. pose proof (run_more _ _ _ _ _ _ H2 n) as B. rewrite Nat.add_comm in B. congruence.
  Qed.

  (** ** Labels *)

  Lemma find_app : forall v a b, find_label v (a ++ b) = match find_label v a with Some q => Some q | None => option_map (fun q => (length a + q)%nat) (find_label v b) end.
  Proof.
    intros v. induction a as [|i a IH]; intros b; [cbn [app length Nat.add OptSpec.find_label]; destruct (find_label v b); reflexivity|].
    cbn [app OptSpec.find_label length]. rewrite IH. destruct (declares i) as [l|]; [destruct (address l =? v)%Z; [reflexivity|]|];
      (destruct (find_label v a); [reflexivity|]); destruct (find_label v b); reflexivity.
  Qed.

  Lemma find_none : forall v c, labels c = [] -> find_label v c = None.
  Proof.
    intros v. induction c as [|i c IH]; intros H; [reflexivity|]. cbn [OptSpec.find_label]. unfold labels in *. cbn [flat_map] in H. destruct (declares i); [discriminate|]. rewrite IH by exact H. reflexivity.
  Qed.

  Lemma find_bound : forall v c q, find_label v c = Some q -> (q < length c)%nat.
  Proof.
    intros v. induction c as [|i c IH]; intros q H; [discriminate|]. cbn [OptSpec.find_label length] in *.
    assert (T : forall o : option nat, (forall q, o = Some q -> (q < length c)%nat) -> option_map S o = Some q -> (q < S (length c))%nat).
    { intros [x|] Hx E; [|discriminate]. injection E as <-. specialize (Hx x eq_refl). lia. }
    destruct (declares i) as [l|]; [destruct (address l =? v)%Z; [injection H as <-; lia|]|]; eapply T; eauto.
  Qed.

  (** ** Replacing one window *)

  Section Window.
    Variables A W W' B : list item.
    Hypothesis LW : labels W = [].
    Hypothesis LW' : labels W' = [].
    Hypothesis NE : (0 < length W)%nat.
    Let code := A ++ W ++ B.
    Let code' := A ++ W' ++ B.
    (** The window runs straight through, or fails. *)
    Hypothesis EFF : forall w s, Forall word s ->
      (exists k, nsteps k code (length A) w s = Stuck world) \/
      (exists k k' s', (0 < k)%nat /\ nsteps k code (length A) w s = Next world (length A + length W) w s' /\
        nsteps k' code' (length A) w s = Next world (length A + length W') w s' /\ Forall word s').

    Definition tr (pc : nat) : nat := if (pc <=? length A)%nat then pc else (pc - length W + length W')%nat.
    Definition off (pc : nat) : Prop := (pc < length A)%nat \/ (length A + length W <= pc)%nat.

    Lemma find_tr : forall v, match find_label v code with Some q => off q /\ find_label v code' = Some (tr q) | None => find_label v code' = None end.
    Proof.
      intros v. unfold code, code'. rewrite !find_app, (find_none v W LW), (find_none v W' LW'). destruct (find_label v A) as [q|] eqn:E.
      - pose proof (find_bound _ _ _ E). unfold off, tr. split; [left; lia|]. replace (q <=? length A)%nat with true by lia. reflexivity.
      - destruct (find_label v B) as [q|]; cbn [option_map]; [|reflexivity]. unfold off, tr. split; [right; lia|].
        replace (length A + (length W + q) <=? length A)%nat with false by lia. f_equal. lia.
    Qed.

    Lemma nth_tr : forall pc, off pc -> nth_error code' (tr pc) = nth_error code pc.
    Proof.
      intros pc [H|H]; unfold tr, code, code'.
      - replace (pc <=? length A)%nat with true by lia. rewrite !nth_error_app1 by exact H. reflexivity.
      - replace (pc <=? length A)%nat with false by lia. rewrite !(nth_error_app2 A) by lia. rewrite !nth_error_app2 by lia. f_equal. lia.
    Qed.

    Definition fits (pc : nat) : Prop := (pc <= length A)%nat \/ (length A + length W <= pc)%nat.

    Lemma tr_S : forall pc, off pc -> fits (S pc) /\ tr (S pc) = S (tr pc).
    Proof. intros pc [H|H]; unfold fits, tr; split; try lia; [replace (S pc <=? length A)%nat with true by lia; replace (pc <=? length A)%nat with true by lia; reflexivity|replace (S pc <=? length A)%nat with false by lia; replace (pc <=? length A)%nat with false by lia; lia]. Qed.

    Lemma step_sim : forall pc w s, off pc -> Forall word s -> literals_ok code -> (forall l, word (address l)) ->
      match step code pc w s with
      | Next _ q w' s' => fits q /\ Forall word s' /\ step code' (tr pc) w s = Next world (tr q) w' s'
      | r => step code' (tr pc) w s = r
      end.
    Proof.
      intros pc w s O Hs LIT ADR. unfold OptSpec.step. rewrite nth_tr by exact O. destruct (tr_S pc O) as [F1 F2].
      assert (J : forall v w s, Forall word s -> match jump world address code v w s with
        | Next _ q w' s' => fits q /\ Forall word s' /\ jump world address code' v w s = Next world (tr q) w' s'
        | r => jump world address code' v w s = r end).
      { intros v w0 s0 H0. unfold jump. pose proof (find_tr v) as FT. destruct (find_label v code) as [q|]; [|rewrite FT; reflexivity].
        destruct FT as [O' ->]. split; [destruct O'; unfold fits; lia|]. split; [exact H0|reflexivity]. }
      assert (OT : forall i, match (match other i w s with
            | Continue _ w' s' => Next world (S pc) w' s' | JumpTo _ v w' s' => jump world address code v w' s' | Halt _ w' s' => Stop world w' s' | Fail _ => Stuck world end) with
        | Next _ q w' s' => fits q /\ Forall word s' /\ (match other i w s with
            | Continue _ w' s' => Next world (S (tr pc)) w' s' | JumpTo _ v w' s' => jump world address code' v w' s' | Halt _ w' s' => Stop world w' s' | Fail _ => Stuck world end) = Next world (tr q) w' s'
        | r => (match other i w s with
            | Continue _ w' s' => Next world (S (tr pc)) w' s' | JumpTo _ v w' s' => jump world address code' v w' s' | Halt _ w' s' => Stop world w' s' | Fail _ => Stuck world end) = r end).
      { intros i. destruct (other i w s) as [w' s'|v w' s'|w' s'|] eqn:E; [|apply J; eapply WB; [exact Hs|right; left; exists v; exact E]|reflexivity|reflexivity].
        split; [exact F1|]. split; [eapply WB; [exact Hs|left; exact E]|]. rewrite F2. reflexivity. }
      destruct (nth_error code pc) as [[t|op|l|l|f|n]|] eqn:E; [| | | |apply OT|reflexivity|reflexivity].
      - destruct t as [x|l|l|l|l]; try reflexivity; rewrite F2; (split; [exact F1|split; [|reflexivity]]); constructor; auto.
        unfold literals_ok in LIT. rewrite Forall_forall in LIT. apply (LIT (Push (Literal x))). eapply nth_error_In. exact E.
      - destruct (op =? "JUMP")%string; [destruct s as [|v r]; [reflexivity|apply J; inversion Hs; assumption]|].
        destruct (op =? "JUMPI")%string.
        + destruct s as [|v [|c r]]; try reflexivity. inversion Hs as [|? ? ? H']; inversion H'; subst. destruct (c =? 0)%Z; [rewrite F2; auto|apply J; assumption].
        + destruct (pure_op op s) as [| |s'] eqn:P; [apply OT|reflexivity|]. rewrite F2. split; [exact F1|]. split; [eapply pure_word; eassumption|reflexivity].
      - rewrite F2. auto.
      - rewrite F2. auto.
    Qed.

    Hypothesis LIT : literals_ok code.
    Hypothesis ADR : forall l, word (address l).

    Lemma tr_A : tr (length A) = length A.
    Proof. unfold tr. rewrite Nat.leb_refl. reflexivity. Qed.
    Lemma tr_end : tr (length A + length W) = (length A + length W')%nat.
    Proof. unfold tr. replace (length A + length W <=? length A)%nat with false by lia. lia. Qed.

    Lemma sim_forward : forall n pc w s r, fits pc -> Forall word s -> run n code pc w s = Some (Some r) -> exists n', run n' code' (tr pc) w s = Some (Some r).
    Proof.
      induction n as [n IH] using (well_founded_induction lt_wf). intros pc w s r F Hs R.
      destruct (Nat.eq_dec pc (length A)) as [->|N].
      - destruct (EFF w s Hs) as [[k K]|(k & k' & s' & K0 & K1 & K2 & Hs')].
        + exfalso. destruct (nsteps_stuck _ _ _ _ _ K) as [m M]. pose proof (run_det _ _ _ _ _ _ _ _ R M). discriminate.
        + pose proof (nsteps_short _ _ _ _ _ _ _ _ _ _ K1 R) as L. assert (E : n = (k + (n - k))%nat) by lia. rewrite E in R. rewrite (nsteps_run _ _ _ _ _ _ _ _ K1) in R.
          destruct (IH (n - k)%nat ltac:(lia) _ _ _ _ (or_intror (le_n _)) Hs' R) as [n' R']. exists (k' + n')%nat. rewrite tr_A. rewrite (nsteps_run _ _ _ _ _ _ _ _ K2). rewrite <- tr_end. exact R'.
      - assert (O : off pc) by (unfold fits, off in *; lia). destruct n as [|n]; [discriminate|]. cbn [OptSpec.run] in R. pose proof (step_sim pc w s O Hs LIT ADR) as SS.
        destruct (step code pc w s) as [q w' s'|w' s'|]; [|exists 1%nat; cbn [OptSpec.run]; rewrite SS; exact R|discriminate].
        destruct SS as (F' & Hs' & E). destruct (IH n ltac:(lia) q w' s' r F' Hs' R) as [n' R']. exists (S n'). cbn [OptSpec.run]. rewrite E. exact R'.
    Qed.

    Lemma sim_backward : forall m pc w s x, fits pc -> Forall word s -> run m code' (tr pc) w s = Some x -> exists n y, run n code pc w s = Some y /\ (y = x \/ y = None).
    Proof.
      induction m as [m IH] using (well_founded_induction lt_wf). intros pc w s x F Hs R.
      assert (OFF : forall pc s, off pc -> Forall word s -> run m code' (tr pc) w s = Some x -> exists n y, run n code pc w s = Some y /\ (y = x \/ y = None)).
      { clear pc s F Hs R. intros pc s O Hs R. destruct m as [|m]; [discriminate|]. cbn [OptSpec.run] in R. pose proof (step_sim pc w s O Hs LIT ADR) as SS.
        destruct (step code pc w s) as [q w' s'|w' s'|] eqn:E.
        - destruct SS as (F' & Hs' & E'). rewrite E' in R. destruct (IH m ltac:(lia) q w' s' x F' Hs' R) as (n & y & R' & Hy). exists (S n), y. cbn [OptSpec.run]. rewrite E. auto.
        - rewrite SS in R. injection R as <-. exists 1%nat, (Some (w', s')). cbn [OptSpec.run]. rewrite E. auto.
        - exists 1%nat, None. cbn [OptSpec.run]. rewrite E. auto. }
      destruct (Nat.eq_dec pc (length A)) as [->|N]; [|apply OFF; [unfold fits, off in *; lia|exact Hs|exact R]].
      destruct (EFF w s Hs) as [[k K]|(k & k' & s' & K0 & K1 & K2 & Hs')].
      - destruct (nsteps_stuck _ _ _ _ _ K) as [n M]. exists n, None. auto.
      - rewrite tr_A in R. assert (X : exists n y, run n code (length A + length W) w s' = Some y /\ (y = x \/ y = None)).
        { destruct k' as [|k'].
          - apply OFF; [right; lia|exact Hs'|]. cbn [nsteps] in K2. assert (E0 : length A = (length A + length W')%nat /\ s = s') by (injection K2; auto). destruct E0 as [E0 <-]. rewrite tr_end, <- E0. exact R.
          - pose proof (nsteps_short _ _ _ _ _ _ _ _ _ _ K2 R) as L. assert (E : m = (S k' + (m - S k'))%nat) by lia. rewrite E in R. rewrite (nsteps_run _ _ _ _ _ _ _ _ K2) in R.
            apply (IH (m - S k')%nat ltac:(lia) (length A + length W)%nat w s' x); [right; lia|exact Hs'|rewrite tr_end; exact R]. }
        destruct X as (n & y & R' & Hy). exists (k + n)%nat, y. rewrite (nsteps_run _ _ _ _ _ _ _ _ K1). auto.
    Qed.

    Lemma window_refines : forall e w s, Forall word s -> match e with AtPosition pc => (pc <= length A)%nat | AtAddress _ => True end ->
      refines world other address code code' e w s.
    Proof.
      intros e w s Hs He. unfold refines.
      assert (G : forall pc, fits pc -> (forall n r, run n code pc w s = Some (Some r) -> exists n', run n' code' (tr pc) w s = Some (Some r)) /\
        (forall n' x, run n' code' (tr pc) w s = Some x -> exists n y, run n code pc w s = Some y /\ (y = x \/ y = None))).
      { intros pc F. split; intros; [eapply sim_forward|eapply sim_backward]; eassumption. }
      destruct e as [pc|v]; cbn [entry_pos].
      - specialize (G pc (or_introl He)). unfold tr in G. replace (pc <=? length A)%nat with true in G by lia. exact G.
      - pose proof (find_tr v) as FT. destruct (find_label v code) as [q|]; [|rewrite FT; exact I]. destruct FT as [O ->]. apply G. unfold off, fits in *. lia.
    Qed.
  End Window.

  Lemma refines_refl : forall code e w s, refines world other address code code e w s.
  Proof.
    intros code e w s. unfold refines. destruct (entry_pos address e code) as [pc|]; [|exact I]. split; [intros n r H; exists n; exact H|]. intros n x H. exists n, x. auto.
  Qed.

  Lemma refines_trans : forall a b c e w s, refines world other address a b e w s -> refines world other address b c e w s -> refines world other address a c e w s.
  Proof.
    intros a b c e w s H1 H2. unfold refines in *.
    destruct (entry_pos address e a) as [pa|], (entry_pos address e b) as [pb|], (entry_pos address e c) as [pc|]; try contradiction; [|exact I].
    destruct H1 as [A1 A2], H2 as [B1 B2]. split.
    - intros n r R. destruct (A1 n r R) as [m M]. apply (B1 m r M).
    - intros n x R. destruct (B2 n x R) as (m & y & M & Hy). destruct (A2 m y M) as (k & z & K & Hz). exists k, z. split; [exact K|]. destruct Hz as [-> | ->]; [exact Hy|right; reflexivity].
  Qed.
End Machine.
