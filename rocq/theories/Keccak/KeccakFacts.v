(** What the constraints of the Keccak permutation table say. *)
From Coq Require Import ZArith List Lia Bool Arith.
From Coq Require Import ZifyBool ZifyNat.
From Verif Require Import Stark.Field Stark.ArithModel Stark.LogicModel Stark.MemModel Stark.MemSound Stark.Lookup
  Keccak.KeccakSpec Keccak.SpongeFacts Keccak.SpongeSound Keccak.KeccakModel.
Import ListNotations.
Local Open Scope Z_scope.

(** * Round flags *)

Definition at_round (r : row) (k : nat) : Prop := (k < 24)%nat /\ forall i, (i < 24)%nat -> r i = if (i =? k)%nat then 1 else 0.
Definition idle (r : row) : Prop := forall i, (i < 24)%nat -> r i = 0.

(** The fifty input and output words of a row. *)
Definition in_words (r : row) : list Z := map (fun i => r (reg_input_limb i)) (seq 0 50).
Definition out_words (r : row) : list Z := map (fun i => r (reg_output_limb i)) (seq 0 50).

Lemma in_xy : forall {A} (g : nat -> nat -> list A) x y e, (x < 5)%nat -> (y < 5)%nat -> In e (g x y) -> In e (for_xy g).
Proof. intros A g x y e Hx Hy H. unfold for_xy. apply in_flat_map. exists x. split; [apply in_seq; lia|]. apply in_flat_map. exists y. split; [apply in_seq; lia|exact H]. Qed.
Lemma in_xz : forall {A} (g : nat -> nat -> list A) x z e, (x < 5)%nat -> (z < 64)%nat -> In e (g x z) -> In e (for_xz g).
Proof. intros A g x z e Hx Hz H. unfold for_xz. apply in_flat_map. exists x. split; [apply in_seq; lia|]. apply in_flat_map. exists z. split; [apply in_seq; lia|exact H]. Qed.

Lemma any_bounds : forall r, (forall i, (i < 24)%nat -> bit (r i)) -> 0 <= any_flag r <= 24.
Proof.
  intros r H. unfold any_flag. pose proof (sum_bounds (fun i => r (reg_step i)) 1 (seq 0 NUM_ROUNDS)) as B. rewrite seq_length in B. unfold NUM_ROUNDS in *. apply B.
  intros x Hx. apply in_seq in Hx. destruct (H x ltac:(lia)) as [E|E]; unfold reg_step; rewrite E; lia.
Qed.
Lemma any_ge : forall r i, (forall i, (i < 24)%nat -> bit (r i)) -> (i < 24)%nat -> r i <= any_flag r.
Proof.
  intros r i H Hi. unfold any_flag. apply (sum_pos (fun i => r (reg_step i)) (seq 0 NUM_ROUNDS) i); [|apply in_seq; unfold NUM_ROUNDS; lia].
  intros x Hx. apply in_seq in Hx. unfold NUM_ROUNDS in Hx. destruct (H x ltac:(lia)) as [E|E]; unfold reg_step; rewrite E; lia.
Qed.
Lemma any_ge2 : forall r i j, (forall i, (i < 24)%nat -> bit (r i)) -> (i < 24)%nat -> (j < 24)%nat -> i <> j -> r i + r j <= any_flag r.
Proof.
  intros r i j H Hi Hj N. unfold any_flag.
  assert (G : forall l : list nat, NoDup l -> (forall k, In k l -> 0 <= r (reg_step k)) -> In i l -> In j l -> r i + r j <= sum (map (fun i => r (reg_step i)) l)).
  { induction l as [|a l IH]; intros ND P Hi' Hj'; [destruct Hi'|]. inversion ND; subst. cbn [map]. rewrite sum_cons. pose proof (P a (or_introl eq_refl)) as Pa.
    assert (P' : forall k, In k l -> 0 <= r (reg_step k)) by (intros; apply P; right; assumption).
    destruct Hi' as [->|Hi'], Hj' as [->|Hj']; [lia| | |].
    - pose proof (sum_pos (fun i => r (reg_step i)) l j P' Hj') as S. cbv beta in S. unfold reg_step in *. lia.
    - pose proof (sum_pos (fun i => r (reg_step i)) l i P' Hi') as S. cbv beta in S. unfold reg_step in *. lia.
    - specialize (IH H3 P' Hi' Hj'). unfold reg_step in *. lia. }
  apply G; [apply seq_NoDup| |apply in_seq; unfold NUM_ROUNDS; lia|apply in_seq; unfold NUM_ROUNDS; lia].
  intros k Hk. apply in_seq in Hk. unfold NUM_ROUNDS in Hk. destruct (H k ltac:(lia)) as [E|E]; unfold reg_step; rewrite E; lia.
Qed.
Lemma any_idle : forall r, idle r -> any_flag r = 0.
Proof. intros r H. apply sum_all_zero. intros i Hi. apply in_seq in Hi. apply H. unfold reg_step, NUM_ROUNDS in *. lia. Qed.
Lemma any_round : forall r k, at_round r k -> any_flag r = 1.
Proof.
  intros r k (Hk & H). unfold any_flag, NUM_ROUNDS, reg_step. rewrite (map_ext_in _ (fun i => if (i =? k)%nat then 1 else 0)) by (intros i Hi; apply in_seq in Hi; apply H; lia).
  clear H. do 24 (destruct k as [|k]; [reflexivity|]). lia.
Qed.
Lemma one_flag : forall r k, (forall i, (i < 24)%nat -> bit (r i)) -> (k < 24)%nat -> r k = 1 -> any_flag r = 1 -> at_round r k.
Proof.
  intros r k B Hk E A. split; [exact Hk|]. intros i Hi. destruct (Nat.eqb_spec i k) as [->|N]; [exact E|].
  pose proof (any_ge2 r i k B Hi Hk N). destruct (B i Hi) as [X|X]; [exact X|]. lia.
Qed.
Lemma no_flag : forall r, (forall i, (i < 24)%nat -> bit (r i)) -> any_flag r = 0 -> idle r.
Proof. intros r B A i Hi. pose proof (any_ge r i B Hi). destruct (B i Hi) as [X|X]; [exact X|]. lia. Qed.

Section Read.
  Variable t : list row.
  Hypothesis OK : keccak_table_ok t.
  Let HOLD : rows_hold eval_keccak t := proj1 OK.
  Let CAN : canonical_rows t := proj2 OK.

  Lemma kcan : forall i c, canonical (trow_at t i c).
  Proof. apply at_canonical. exact CAN. Qed.
  Lemma kall : forall i e, (i < length t)%nat -> In (All, e) (eval_keccak (trow_at t i) (tnext t i)) -> e mod P = 0.
  Proof. intros i e L I. specialize (HOLD i L). rewrite Forall_forall in HOLD. apply (HOLD _ I). reflexivity. Qed.
  Lemma kfirst : forall e, (0 < length t)%nat -> In (First, e) (eval_keccak (trow_at t 0) (tnext t 0)) -> e mod P = 0.
  Proof. intros e L I. specialize (HOLD 0%nat L). rewrite Forall_forall in HOLD. apply (HOLD _ I). reflexivity. Qed.
  Lemma kstep : forall i e, (S i < length t)%nat -> In (Transition, e) (eval_keccak (trow_at t i) (trow_at t (S i))) -> e mod P = 0.
  Proof.
    intros i e L I. specialize (HOLD i ltac:(lia)). rewrite Forall_forall in HOLD. unfold tnext in HOLD. rewrite Nat.mod_small in HOLD by exact L.
    apply (HOLD _ I). cbn [applies fst]. lia.
  Qed.
  Lemma kround : forall i e, (i < length t)%nat -> In (All, e) (eval_round (trow_at t i)) -> e mod P = 0.
  Proof. intros i e L I. apply (kall i e L). unfold eval_keccak. at_seg 2. exact I. Qed.

  Lemma flag_bits : forall i, (i < length t)%nat -> forall k, (k < 24)%nat -> bit (trow_at t i k).
  Proof.
    intros i L k Hk. apply bool_of_constraint; [apply kcan|]. apply (kall i); [exact L|]. unfold eval_keccak, eval_round_flags. cbv zeta. apply in_or_app. left. at_seg 0.
    apply in_map_iff. exists k. split; [reflexivity|]. apply in_seq. unfold NUM_ROUNDS. lia.
  Qed.

  Lemma flags_first : (0 < length t)%nat -> idle (trow_at t 0) \/ at_round (trow_at t 0) 0.
  Proof.
    intros L. set (r := trow_at t 0). pose proof (flag_bits 0 L) as B. fold r in B. pose proof (any_bounds r B) as AB.
    assert (H0 : (any_flag r * (r (reg_step 0) - 1)) mod P = 0).
    { apply kfirst; [exact L|]. unfold eval_keccak, eval_round_flags. cbv zeta. apply in_or_app. left. at_seg 1. left. reflexivity. }
    assert (H : forall i, (1 <= i < 24)%nat -> (any_flag r * r i) mod P = 0).
    { intros i Hi. apply kfirst; [exact L|]. unfold eval_keccak, eval_round_flags. cbv zeta. apply in_or_app. left. at_seg 2.
      apply in_map_iff. exists i. split; [reflexivity|]. apply in_seq. unfold NUM_ROUNDS. lia. }
    destruct (B 0%nat ltac:(lia)) as [E|E]; unfold reg_step in H0; rewrite E in H0.
    - apply small_zero in H0; [|unfold P; lia]. left. apply no_flag; [exact B|lia].
    - right. split; [lia|]. pose proof (any_ge r 0 B ltac:(lia)) as G. intros i Hi. destruct (Nat.eqb_spec i 0) as [->|N]; [exact E|].
      specialize (H i ltac:(lia)). destruct (B i Hi) as [X|X]; [exact X|]. rewrite X in H. apply small_zero in H; [|unfold P; lia]. lia.
  Qed.

  Lemma flags_step_eq : forall j, (S j < length t)%nat -> forall i, (i < 24)%nat ->
    any_flag (trow_at t (S j)) * (trow_at t (S j) ((i + 1) mod 24)%nat - trow_at t j i) + (any_flag (trow_at t (S j)) - 1) * any_flag (trow_at t j) * (trow_at t j 23%nat - 1) = 0.
  Proof.
    intros j L i Hi. set (lv := trow_at t j). set (nv := trow_at t (S j)). pose proof (flag_bits j ltac:(lia)) as BL. pose proof (flag_bits (S j) L) as BN. fold lv in BL. fold nv in BN.
    pose proof (any_bounds lv BL) as AL. pose proof (any_bounds nv BN) as AN. apply small_zero.
    - apply (kstep j); [exact L|]. unfold eval_keccak, eval_round_flags. cbv zeta. apply in_or_app. left. at_seg 3. apply in_map_iff. exists i. split; [reflexivity|]. apply in_seq. unfold NUM_ROUNDS. lia.
    - assert (M : ((i + 1) mod 24 < 24)%nat) by (apply Nat.mod_upper_bound; lia). pose proof (BN _ M) as B1. pose proof (BL i Hi) as B2. pose proof (BL 23%nat ltac:(lia)) as B3.
      set (x := nv ((i + 1) mod 24)%nat) in *. set (y := lv i) in *. set (w := lv 23%nat) in *. set (a := any_flag nv) in *. set (b := any_flag lv) in *. clearbody x y w a b. clear -B1 B2 B3 AL AN.
      unfold P. unfold bit in *. destruct B1 as [-> | ->], B2 as [-> | ->], B3 as [-> | ->]; nia.
  Qed.

  Lemma flags_step : forall j, (S j < length t)%nat ->
    (forall k, at_round (trow_at t j) k -> (k < 23)%nat -> at_round (trow_at t (S j)) (S k)) /\
    (at_round (trow_at t j) 23 -> idle (trow_at t (S j)) \/ at_round (trow_at t (S j)) 0) /\
    (idle (trow_at t j) -> idle (trow_at t (S j))).
  Proof.
    intros j L. pose proof (flags_step_eq j L) as EQ. set (lv := trow_at t j) in *. set (nv := trow_at t (S j)) in *.
    pose proof (flag_bits (S j) L) as BN. fold nv in BN. pose proof (any_bounds nv BN) as AN. repeat split.
    - lia.
    - destruct H as (_ & H). assert (A : any_flag lv = 1) by (apply (any_round lv k); split; [lia|exact H]).
      pose proof (EQ k ltac:(lia)) as E. rewrite (H k ltac:(lia)), (H 23%nat ltac:(lia)), A in E. rewrite Nat.eqb_refl in E.
      assert (N23 : (23 =? k)%nat = false) by lia. rewrite N23, (Nat.mod_small (k + 1)) in E by lia. replace (k + 1)%nat with (S k) in E by lia.
      assert (N1 : nv (S k) = 1 /\ any_flag nv = 1) by (destruct (BN (S k) ltac:(lia)) as [X|X]; rewrite X in E; lia).
      destruct N1 as [N1 A1]. apply (one_flag nv (S k) BN ltac:(lia) N1 A1).
    - intros H. destruct H as (_ & H). assert (A : any_flag lv = 1) by (apply (any_round lv 23); split; [lia|exact H]).
      assert (E : forall i, (i < 24)%nat -> any_flag nv * (nv ((i + 1) mod 24)%nat - (if (i =? 23)%nat then 1 else 0)) = 0).
      { intros i Hi. pose proof (EQ i Hi) as E. rewrite (H i Hi), (H 23%nat ltac:(lia)), A in E. cbn [Nat.eqb] in E. lia. }
      destruct (Z.eq_dec (any_flag nv) 0) as [Z0|NZ]; [left; apply no_flag; assumption|right].
      pose proof (E 23%nat ltac:(lia)) as E23. change ((23 + 1) mod 24)%nat with 0%nat in E23. cbn [Nat.eqb] in E23.
      split; [lia|]. intros i Hi. destruct (Nat.eqb_spec i 0) as [->|N0].
      + apply Z.mul_eq_0 in E23. lia.
      + pose proof (E (i - 1)%nat ltac:(lia)) as Ei. rewrite Nat.mod_small in Ei by lia. replace (i - 1 + 1)%nat with i in Ei by lia. assert (F : (i - 1 =? 23)%nat = false) by lia. rewrite F in Ei.
        apply Z.mul_eq_0 in Ei. lia.
    - intros H. pose proof (EQ 23%nat ltac:(lia)) as E0. assert (X : (any_flag nv * (any_flag lv - 1)) mod P = 0).
      { apply (kstep j); [exact L|]. unfold eval_keccak, eval_round_flags. cbv zeta. apply in_or_app. left. at_seg 4. left. reflexivity. }
      rewrite (any_idle lv H) in X. apply small_zero in X; [|unfold P; lia]. apply no_flag; [exact BN|lia].
  Qed.

  (** Rounds follow each other from the first row; after the last round of a
      permutation the table may stop for good. *)
  Lemma flags_shape : exists N, forall j, (j < length t)%nat -> if (j <? N)%nat then at_round (trow_at t j) (j mod 24) else idle (trow_at t j).
  Proof.
    assert (G : forall n, (n <= length t)%nat -> exists N, (N = n \/ (N < n /\ N mod 24 = 0))%nat /\ forall j, (j < n)%nat -> if (j <? N)%nat then at_round (trow_at t j) (j mod 24) else idle (trow_at t j)).
    { induction n as [|n IH]; intros L; [exists 0%nat; split; [left; reflexivity|intros; lia]|]. destruct (IH ltac:(lia)) as (N & HN & H).
      assert (EX : forall N', (N' = n \/ N' = S n)%nat -> N = n -> forall j, (j < n)%nat -> if (j <? N')%nat then at_round (trow_at t j) (j mod 24) else idle (trow_at t j)).
      { intros N' HN' -> j Hj. specialize (H j Hj). replace (j <? n)%nat with true in H by lia. replace (j <? N')%nat with true by lia. exact H. }
      destruct n as [|n].
      - destruct (flags_first ltac:(lia)) as [F|F].
        + exists 0%nat. split; [right; split; [lia|reflexivity]|]. intros j Hj. assert (j = 0%nat) by lia. subst. exact F.
        + exists 1%nat. split; [left; reflexivity|]. intros j Hj. assert (j = 0%nat) by lia. subst. exact F.
      - destruct (flags_step n ltac:(lia)) as (F1 & F2 & F3). destruct HN as [->|(HN & HM)].
        + pose proof (H n ltac:(lia)) as Hn. replace (n <? S n)%nat with true in Hn by lia.
          assert (K : (n mod 24 < 24)%nat) by (apply Nat.mod_upper_bound; lia).
          assert (CASE : (idle (trow_at t (S n)) /\ S n mod 24 = 0)%nat \/ at_round (trow_at t (S n)) (S n mod 24)).
          { destruct (Nat.eq_dec (n mod 24) 23) as [E|E].
            - assert (M : (S n mod 24 = 0)%nat) by (clear -E; lia). rewrite M. rewrite E in Hn. destruct (F2 Hn); [left|right]; auto.
            - right. assert (M : (S n mod 24 = S (n mod 24))%nat) by (clear -E K; lia). rewrite M. apply F1; [exact Hn|lia]. }
          destruct CASE as [(I & M)|R].
          * exists (S n). split; [right; split; [lia|exact M]|]. intros j Hj. destruct (Nat.eq_dec j (S n)) as [->|N]; [rewrite Nat.ltb_irrefl; exact I|]. apply EX; [auto|reflexivity|lia].
          * exists (S (S n)). split; [left; reflexivity|]. intros j Hj. destruct (Nat.eq_dec j (S n)) as [->|N]; [replace (S n <? S (S n))%nat with true by lia; exact R|]. apply EX; [auto|reflexivity|lia].
        + exists N. split; [right; split; [lia|exact HM]|]. intros j Hj. destruct (Nat.eq_dec j (S n)) as [->|NE]; [|apply H; lia].
          replace (S n <? N)%nat with false by lia. apply F3. pose proof (H n ltac:(lia)) as Hn. replace (n <? N)%nat with false in Hn by lia. exact Hn. }
    destruct (G (length t) (Nat.le_refl _)) as (N & _ & H). exists N. exact H.
  Qed.

  (** Between rounds the outputs become the inputs, at the same time. *)
  Lemma carry : forall j k, (S j < length t)%nat -> at_round (trow_at t j) k -> (k < 23)%nat ->
    in_words (trow_at t (S j)) = out_words (trow_at t j) /\ trow_at t (S j) K_TIMESTAMP = trow_at t j K_TIMESTAMP.
  Proof.
    intros j k L A Hk. set (lv := trow_at t j) in *. set (nv := trow_at t (S j)). pose proof (any_round lv k A) as A1. destruct A as (_ & A).
    assert (Z23 : lv (reg_step (NUM_ROUNDS - 1)) = 0) by (change (reg_step (NUM_ROUNDS - 1)) with 23%nat; rewrite A by lia; replace (23 =? k)%nat with false by lia; reflexivity). split.
    - unfold in_words, out_words. apply map_ext_in. intros i Hi. apply in_seq in Hi. unfold reg_input_limb, reg_output_limb.
      assert (X : (i / 2 mod 5 < 5)%nat) by (apply Nat.mod_upper_bound; lia). assert (Y : (i / 2 / 5 < 5)%nat) by (clear -Hi; lia). set (x := (i / 2 mod 5)%nat) in *. set (y := (i / 2 / 5)%nat) in *.
      assert (E : forall e, In (Transition, e) (for_xy (fun x y => let not_last_round := 1 - lv (reg_step (NUM_ROUNDS - 1)) in
        [ (Transition, not_last_round * (lv (reg_a_prime_prime_prime x y) - nv (reg_a x y)));
          (Transition, not_last_round * (lv (reg_a_prime_prime_prime x y + 1)%nat - nv (reg_a x y + 1)%nat)) ])) -> e mod P = 0).
      { intros e He. apply (kstep j); [exact L|]. unfold eval_keccak. do 3 (apply in_or_app; right). exact He. }
      cbv zeta in E. rewrite Z23 in E. assert (I2 : (i mod 2 = 0 \/ i mod 2 = 1)%nat) by (clear; lia). symmetry. apply canonical_eq; [apply kcan|apply kcan|]. fold lv nv. destruct I2 as [->| ->].
      + rewrite !Nat.add_0_r. rewrite <- (Z.mul_1_l (_ - _)). apply E. apply (in_xy _ x y); [exact X|exact Y|]. left. reflexivity.
      + rewrite <- (Z.mul_1_l (_ - _)). apply E. apply (in_xy _ x y); [exact X|exact Y|]. right. left. reflexivity.
    - apply canonical_eq; [apply kcan|apply kcan|]. assert (E : (any_flag lv * (1 - lv (reg_step (NUM_ROUNDS - 1))) * (tnext t j K_TIMESTAMP - lv K_TIMESTAMP)) mod P = 0).
      { apply (kall j); [lia|]. unfold eval_keccak. at_seg 1. left. reflexivity. }
      rewrite A1, Z23 in E. unfold tnext in E. rewrite Nat.mod_small in E by exact L. fold nv in E. rewrite <- (Z.mul_1_l (_ - _)). exact E.
  Qed.
End Read.
