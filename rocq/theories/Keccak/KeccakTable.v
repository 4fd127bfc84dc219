(** The Keccak permutation table: completeness (C85), and a wrong output (C86). *)
From Coq Require Import ZArith List Lia Bool Arith Permutation.
From Coq Require Import ZifyBool ZifyNat.
From Verif Require Import Stark.Field Stark.ArithModel Stark.ArithGen Stark.LogicModel Stark.MemModel Stark.MemSound Stark.Lookup Stark.BytePackProps
  Keccak.KeccakSpec Keccak.SpongeFacts Keccak.SpongeSound Keccak.SpongeGen Keccak.SpongeTable Keccak.SpongeSwap Keccak.KeccakModel Keccak.KeccakFacts Keccak.KeccakSound Keccak.KeccakProps Keccak.KeccakGaps Keccak.KeccakGen.
Import ListNotations.
Local Open Scope Z_scope.

(** * Constraints on neighbouring rows *)

Definition row_ok (r : row) : Prop := forall c, In c (eval_round r) -> snd c mod P = 0.
Definition continues (lv nv : row) : Prop := forall x y b, (x < 5)%nat -> (y < 5)%nat -> (b < 2)%nat -> nv (reg_a x y + b)%nat = lv (reg_a_prime_prime_prime x y + b)%nat.

Lemma horner_zero : forall g n lo, (forall z, g z = 0) -> horner g lo n = 0.
Proof. intros g n. induction n as [|n IH]; intros lo H; [reflexivity|]. rewrite horner_S, IH, H by exact H. reflexivity. Qed.

Lemma zero_row_ok : row_ok zero_row.
Proof.
  intros c Hc. rewrite round_parts in Hc. unfold round_head in Hc. rewrite !in_app_iff in Hc. destruct Hc as [[Hc|[Hc|[Hc|Hc]]]|Hc].
  - apply in_flat_map in Hc. destruct Hc as (x & _ & Hc). apply in_flat_map in Hc. destruct Hc as (y & _ & Hc). destruct Hc as [<-|[]]. reflexivity.
  - apply in_flat_map in Hc. destruct Hc as (x & _ & Hc). apply in_flat_map in Hc. destruct Hc as (y & _ & Hc). destruct Hc as [<-|[<-|[]]]; cbn [snd]; rewrite horner_zero by (intros; reflexivity); reflexivity.
  - apply in_flat_map in Hc. destruct Hc as (x & _ & Hc). apply in_flat_map in Hc. destruct Hc as (y & _ & Hc). destruct Hc as [<-|[]]. reflexivity.
  - apply in_flat_map in Hc. destruct Hc as (x & _ & Hc). apply in_flat_map in Hc. destruct Hc as (y & _ & Hc). destruct Hc as [<-|[<-|[]]]; cbn [snd]; rewrite horner_zero by (intros; reflexivity); reflexivity.
  - assert (RB : forall z, a3_bit zero_row z = 0). { intros z. unfold a3_bit, rc_bit. rewrite sum_all_zero by (intros; reflexivity). reflexivity. }
    destruct Hc as [<-|[<-|[<-|[<-|[]]]]]; cbn [snd]; rewrite horner_zero by (try exact RB; intros; reflexivity); reflexivity.
Qed.

(** What a row may be followed by. *)
Definition follows (lv nv : row) : Prop :=
  (exists k, (k < 23)%nat /\ at_round lv k /\ at_round nv (S k) /\ continues lv nv /\ nv K_TIMESTAMP = lv K_TIMESTAMP) \/
  (at_round lv 23 /\ (nv = zero_row \/ at_round nv 0)) \/ (lv = zero_row /\ nv = zero_row).

Lemma idle_zero : idle zero_row.
Proof. intros i _. reflexivity. Qed.

Lemma first_flags : forall r, r = zero_row \/ at_round r 0 -> any_flag r * (r 0%nat - 1) = 0 /\ forall i, (1 <= i < 24)%nat -> any_flag r * r i = 0.
Proof.
  intros r [->|A].
  - rewrite (any_idle _ idle_zero). split; [reflexivity|]. intros. reflexivity.
  - rewrite (any_round r 0 A). destruct A as [_ F]. split; [rewrite F by lia; reflexivity|]. intros i Hi. rewrite F by lia. replace (i =? 0)%nat with false by lia. reflexivity.
Qed.

Lemma step_flags : forall lv nv, follows lv nv ->
  (forall i, (i < 24)%nat -> any_flag nv * (nv ((i + 1) mod 24)%nat - lv i) + (any_flag nv - 1) * any_flag lv * (lv 23%nat - 1) = 0) /\ any_flag nv * (any_flag lv - 1) = 0.
Proof.
  intros lv nv [(k & Hk & A & B & _)|[(A & [->|B])|(-> & ->)]].
  - rewrite (any_round lv k A), (any_round nv (S k) B). split; [|reflexivity]. destruct A as [_ F], B as [_ G]. intros i Hi. rewrite (F i Hi), G by (apply Nat.mod_upper_bound; lia).
    destruct (Nat.eq_dec i 23) as [->|N]; [change ((23 + 1) mod 24)%nat with 0%nat; replace (0 =? S k)%nat with false by lia; replace (23 =? k)%nat with false by lia; lia|].
    rewrite Nat.mod_small by lia. destruct (Nat.eqb_spec i k) as [->|N2]; [replace (k + 1 =? S k)%nat with true by lia|replace (i + 1 =? S k)%nat with false by lia]; lia.
  - rewrite (any_round lv 23 A), (any_idle _ idle_zero). destruct A as [_ F]. split; [|reflexivity]. intros i Hi. rewrite (F 23%nat) by lia. rewrite Nat.eqb_refl. lia.
  - rewrite (any_round lv 23 A), (any_round nv 0 B). destruct A as [_ F], B as [_ G]. split; [|reflexivity]. intros i Hi. rewrite (F i Hi), (F 23%nat), G by (try lia; apply Nat.mod_upper_bound; lia). rewrite Nat.eqb_refl.
    destruct (Nat.eq_dec i 23) as [->|N]; [reflexivity|]. rewrite Nat.mod_small by lia. replace (i + 1 =? 0)%nat with false by lia. replace (i =? 23)%nat with false by lia. lia.
  - rewrite (any_idle _ idle_zero). split; [intros; reflexivity|reflexivity].
Qed.

Lemma row_flag_bits : forall r k, r = zero_row \/ at_round r k -> forall i, (i < 24)%nat -> r i * (r i - 1) = 0.
Proof. intros r k [->|[_ F]] i Hi; [reflexivity|]. rewrite F by exact Hi. destruct (i =? k)%nat; reflexivity. Qed.

Lemma row_holds : forall lv nv i n, row_ok lv -> (lv = zero_row \/ exists k, at_round lv k) -> (i = 0%nat -> lv = zero_row \/ at_round lv 0) ->
  (S i < n -> follows lv nv)%nat -> (i < n)%nat -> (S i = n -> lv = zero_row \/ at_round lv 23)%nat ->
  Forall (fun c => applies (fst c) i n = true -> snd c mod P = 0) (eval_keccak lv nv).
Proof.
  intros lv nv i n RO SH FI ST Hi LA. unfold eval_keccak. rewrite !Forall_app. split; [|split; [|split]].
  - unfold eval_round_flags. cbv zeta. rewrite !Forall_app. change (reg_step (NUM_ROUNDS - 1)) with 23%nat. unfold reg_step, NUM_ROUNDS. split; [|split; [|split; [|split]]].
    + rewrite Forall_map. apply Forall_forall. intros j Hj _. apply in_seq in Hj. cbn [snd]. destruct SH as [->|(k & A)]; [reflexivity|]. rewrite (row_flag_bits lv k (or_intror A) j) by lia. reflexivity.
    + constructor; [|constructor]. cbn [fst snd applies]. intros E. assert (i = 0%nat) by lia. rewrite (proj1 (first_flags lv (FI H))). reflexivity.
    + rewrite Forall_map. apply Forall_forall. intros j Hj E. apply in_seq in Hj. cbn [fst snd applies] in *. assert (i = 0%nat) by lia. rewrite (proj2 (first_flags lv (FI H)) j) by lia. reflexivity.
    + rewrite Forall_map. apply Forall_forall. intros j Hj E. apply in_seq in Hj. cbn [fst snd applies] in *. rewrite (proj1 (step_flags lv nv (ST ltac:(lia))) j) by lia. reflexivity.
    + constructor; [|constructor]. cbn [fst snd applies]. intros E. rewrite (proj2 (step_flags lv nv (ST ltac:(lia)))). reflexivity.
  - constructor; [|constructor]. cbn [fst snd]. intros _. change (reg_step (NUM_ROUNDS - 1)) with 23%nat.
    assert (G : lv = zero_row \/ at_round lv 23 -> (any_flag lv * (1 - lv 23%nat) * (nv K_TIMESTAMP - lv K_TIMESTAMP)) mod P = 0).
    { intros [->|A]; [rewrite (any_idle _ idle_zero); reflexivity|]. destruct A as [_ F]. rewrite (F 23%nat) by lia. rewrite Nat.eqb_refl, Z.sub_diag, Z.mul_0_r. reflexivity. }
    destruct (Nat.eq_dec (S i) n) as [E|E]; [apply G; apply LA; exact E|]. destruct (ST ltac:(lia)) as [(k & _ & _ & _ & _ & T)|[(A & _)|(Z0 & _)]]; [|apply G; right; exact A|apply G; left; exact Z0].
    rewrite T, Z.sub_diag, Z.mul_0_r. reflexivity.
  - apply Forall_forall. intros c Hc _. apply RO. exact Hc.
  - apply Forall_forall. intros c Hc E. unfold for_xy in Hc. apply in_flat_map in Hc. destruct Hc as (x & Hx & Hc). apply in_flat_map in Hc. destruct Hc as (y & Hy & Hc). apply in_seq in Hx. apply in_seq in Hy.
    change (reg_step (NUM_ROUNDS - 1)) with 23%nat in Hc. cbv zeta in Hc.
    assert (G : forall b, (b < 2)%nat -> (S i < n)%nat -> (1 - lv 23%nat) * (lv (reg_a_prime_prime_prime x y + b)%nat - nv (reg_a x y + b)%nat) = 0).
    { intros b Hb L. destruct (ST L) as [(k & Hk & A & _ & CN & _)|[(A & _)|(-> & ->)]].
      - rewrite (CN x y b) by lia. rewrite Z.sub_diag. apply Z.mul_0_r.
      - destruct A as [_ F]. rewrite (F 23%nat) by lia. rewrite Nat.eqb_refl. reflexivity.
      - reflexivity. }
    destruct Hc as [<-|[<-|[]]]; cbn [fst snd applies] in *.
    + pose proof (G 0%nat ltac:(lia) ltac:(lia)) as G0. rewrite !Nat.add_0_r in G0. rewrite G0. reflexivity.
    + rewrite (G 1%nat) by lia. reflexivity.
Qed.

(** * The rows of one permutation *)

Definition good_row (r : row) (k : nat) (ts : Z) : Prop := at_round r k /\ bits_are_bits r /\ row_ok r /\ (forall c, canonical (r c)) /\ r K_TIMESTAMP = ts.

Lemma good_outputs : forall r k ts, good_row r k ts -> forall x y, (x < 5)%nat -> (y < 5)%nat -> 0 <= r (reg_a_prime_prime_prime x y) < 2^32 /\ 0 <= r (reg_a_prime_prime_prime x y + 1)%nat < 2^32.
Proof. intros r k ts (A & B & O & C & _). apply (row_words r k C); [|exact B|exact A]. intros e He. apply (O _ He). Qed.

Lemma built_row : forall (g h : nat -> nat -> Z) k ts, (k < 24)%nat -> canonical ts -> (forall x y, (x < 5)%nat -> (y < 5)%nat -> 0 <= g x y < 2^32 /\ 0 <= h x y < 2^32) ->
  exists R, R = generate_trace_row_for_round (write (set zero_row K_TIMESTAMP ts) START_A (for_xy (fun x y => [g x y; h x y]))) k /\
    good_row R k ts /\ (forall x y, (x < 5)%nat -> (y < 5)%nat -> R (reg_a x y) = g x y /\ R (reg_a x y + 1)%nat = h x y).
Proof.
  intros g h k ts HK CT H. set (vs := for_xy (fun x y => [g x y; h x y])). assert (LV : length vs = 50%nat) by apply xy_length. set (r0 := write (set zero_row K_TIMESTAMP ts) START_A vs).
  assert (W : forall x y b, (x < 5)%nat -> (y < 5)%nat -> (b < 2)%nat -> r0 (reg_a x y + b)%nat = nth b [g x y; h x y] 0).
  { intros x y b Hx Hy Hb. unfold r0. rewrite write_in by (rewrite LV; unfold reg_a; lia). replace (reg_a x y + b - START_A)%nat with (x * 10 + (y * 2 + b))%nat by (unfold reg_a; lia). apply xy_nth; assumption. }
  assert (W0 : forall x y, (x < 5)%nat -> (y < 5)%nat -> r0 (reg_a x y) = g x y) by (intros x y Hx Hy; specialize (W x y 0%nat Hx Hy ltac:(lia)); rewrite Nat.add_0_r in W; exact W).
  assert (W1 : forall x y, (x < 5)%nat -> (y < 5)%nat -> r0 (reg_a x y + 1)%nat = h x y) by (intros x y Hx Hy; exact (W x y 1%nat Hx Hy ltac:(lia))).
  destruct (generated_round r0 k HK) as (R & E & A & B & O & C & T & AA).
  - intros i Hi. unfold r0. rewrite write_out by (unfold START_A; lia). rewrite set_neq by (unfold K_TIMESTAMP; lia). reflexivity.
  - intros x y Hx Hy. rewrite W0, W1 by assumption. apply H; assumption.
  - intros c. unfold r0. apply write_canonical.
    + intros d. unfold set. apply write_canonical; [intros; split; [apply Z.le_refl|reflexivity]|constructor; [exact CT|constructor]].
    + apply Forall_forall. intros v Hv. unfold vs, for_xy in Hv. apply in_flat_map in Hv. destruct Hv as (x & Hx & Hv). apply in_flat_map in Hv. destruct Hv as (y & Hy & Hv). apply in_seq in Hx. apply in_seq in Hy.
      destruct (H x y ltac:(lia) ltac:(lia)) as [H1 H2]. destruct Hv as [<-|[<-|[]]]; unfold canonical, P; lia.
  - exists R. split; [exact E|]. split.
    + split; [exact A|]. split; [exact B|]. split; [exact O|]. split; [exact C|]. rewrite T. unfold r0. rewrite write_out by (unfold START_A, K_TIMESTAMP; lia). apply set_eq.
    + intros x y Hx Hy. rewrite <- W0, <- W1 by assumption. split; [|apply AA; (assumption || lia)]. pose proof (AA x y 0%nat Hx Hy ltac:(lia)) as X. rewrite !Nat.add_0_r in X. exact X.
Qed.

Lemma rounds_ok : forall ts, canonical ts -> forall n a prev, good_row prev a ts -> (a + n < 24)%nat ->
  let rows := generate_rounds prev ts (seq (S a) n) in
  length rows = n /\ forall i, (i < n)%nat -> good_row (nth i rows zero_row) (S a + i) ts /\ continues (nth i (prev :: rows) zero_row) (nth i rows zero_row).
Proof.
  intros ts CT n. induction n as [|n IH]; intros a prev GP L; [split; [reflexivity|intros; lia]|]. cbv zeta. cbn [seq generate_rounds].
  destruct (built_row (fun x y => prev (reg_a_prime_prime_prime x y)) (fun x y => prev (reg_a_prime_prime_prime x y + 1)%nat) (S a) ts ltac:(lia) CT (good_outputs prev a ts GP)) as (R & E & G & A).
  unfold copy_output_to_input. rewrite <- E. destruct (IH (S a) R G ltac:(lia)) as [LR H]. set (rows := generate_rounds R ts (seq (S (S a)) n)) in *. clearbody rows. clear E. split; [cbn [length]; lia|].
  intros i Hi. destruct i as [|i].
  - cbn [nth]. rewrite Nat.add_0_r. split; [exact G|]. intros x y b Hx Hy Hb. destruct (A x y Hx Hy) as [A0 A1]. destruct b as [|[|b]]; [rewrite !Nat.add_0_r; exact A0|exact A1|lia].
  - destruct (H i ltac:(lia)) as [H1 H2]. split; [replace (S a + S i)%nat with (S (S a) + i)%nat by lia; exact H1|exact H2].
Qed.

Definition valid_kinput (i : list Z * Z) : Prop := length (fst i) = 25%nat /\ Forall (fun w => 0 <= w < 2^64) (fst i) /\ canonical (snd i).

Lemma perm_ok : forall inp ts, valid_kinput (inp, ts) ->
  let rows := generate_trace_rows_for_perm inp ts in
  length rows = 24%nat /\ (forall m, (m < 24)%nat -> good_row (nth m rows zero_row) m ts) /\ (forall m, (m < 23)%nat -> continues (nth m rows zero_row) (nth (S m) rows zero_row)) /\
  k_inputs (nth 0 rows zero_row) = words_of inp ++ [ts].
Proof.
  intros inp ts (LI & FI & CT). cbn [fst snd] in *. cbv zeta. unfold generate_trace_rows_for_perm. cbv zeta.
  assert (NI : forall i, 0 <= nth i inp 0 < 2^64) by (intros; apply nth64; exact FI).
  destruct (built_row (fun x y => nth (y * 5 + x) inp 0 mod 2^32) (fun x y => nth (y * 5 + x) inp 0 / 2^32) 0 ts ltac:(lia) CT) as (R & E & G & A).
  { intros x y _ _. specialize (NI (y * 5 + x)%nat). split; [apply Z.mod_pos_bound; lia|]. split; [apply Z.div_pos; lia|apply Z.div_lt_upper_bound; lia]. }
  rewrite <- E. destruct (rounds_ok ts CT 23 0 R G ltac:(lia)) as [LR H]. set (rows := generate_rounds R ts (seq 1 23)) in *. clearbody rows. clear E. split; [cbn [length]; lia|]. split; [|split].
  - intros m Hm. destruct m as [|m]; [exact G|]. apply (H m ltac:(lia)).
  - intros m Hm. apply (H m Hm).
  - cbn [nth]. destruct G as (_ & _ & _ & _ & T). unfold k_inputs. rewrite T. apply (f_equal (fun q => q ++ [ts])). unfold words_of.
    transitivity (flat_map (fun i => [R (reg_input_limb (2 * i)); R (reg_input_limb (2 * i + 1))]) (seq 0 25)); [symmetry; apply (pairs_map (fun i => R (reg_input_limb i)) 25 0)|].
    assert (EI : inp = map (fun i => nth i inp 0) (seq 0 25)) by (apply nth_ext with (d := 0) (d' := 0); [rewrite map_length, seq_length; exact LI|intros i Hi; rewrite (nth_map_seq (fun i => nth i inp 0)) by lia; reflexivity]).
    rewrite EI at 1. rewrite !flat_map_concat_map, map_map. f_equal. apply map_ext_in. intros i Hi. apply in_seq in Hi. unfold reg_input_limb. destruct (limb_index i) as (E1 & E2 & E3 & E4). rewrite E1, E2, E3, E4, Nat.add_0_r.
    destruct (A (i mod 5)%nat (i / 5)%nat (m5 i) ltac:(apply Nat.div_lt_upper_bound; lia)) as [A0 A1]. rewrite A0, A1. replace (i / 5 * 5 + i mod 5)%nat with i by (clear; lia). reflexivity.
Qed.

(** * C85, completeness *)

Lemma flat_nth_list : forall {A B} (L : A -> list B) d dA m l i z, (forall a, In a l -> length (L a) = m) -> (i < length l)%nat -> (z < m)%nat -> nth (i * m + z) (flat_map L l) d = nth z (L (nth i l dA)) d.
Proof.
  intros A B L d dA m l. induction l as [|a l IH]; intros i z H Hi Hz; [cbn [length] in Hi; lia|]. cbn [flat_map length] in *. destruct i as [|i].
  - rewrite app_nth1 by (rewrite H by (left; reflexivity); lia). reflexivity.
  - rewrite app_nth2 by (rewrite H by (left; reflexivity); lia). rewrite H by (left; reflexivity). replace (S i * m + z - m)%nat with (i * m + z)%nat by lia. cbn [nth]. apply IH; [intros; apply H; right; assumption|lia|exact Hz].
Qed.
Lemma flat_length_list : forall {A B} (L : A -> list B) m l, (forall a, In a l -> length (L a) = m) -> length (flat_map L l) = (length l * m)%nat.
Proof. intros A B L m l. induction l as [|a l IH]; intros H; [reflexivity|]. cbn [flat_map length]. rewrite app_length, H, IH by (intros; apply H; right; assumption) || (left; reflexivity). lia. Qed.

Lemma filter_one : forall (f : row -> bool) l i, (i < length l)%nat -> (forall j, (j < length l)%nat -> f (nth j l zero_row) = (j =? i)%nat) -> filter f l = [nth i l zero_row].
Proof.
  intros f l. induction l as [|a l IH]; intros i Hi H; [cbn [length] in Hi; lia|]. cbn [filter length] in *. pose proof (H 0%nat ltac:(lia)) as H0. cbn [nth] in H0. rewrite H0. destruct i as [|i].
  - cbn [Nat.eqb nth]. f_equal. assert (G : forall j, (j < length l)%nat -> f (nth j l zero_row) = false) by (intros j Hj; apply (H (S j)); lia). clear -G. induction l as [|b l IH]; [reflexivity|]. cbn [filter]. pose proof (G 0%nat ltac:(cbn [length]; lia)) as G0. cbn [nth] in G0. rewrite G0. apply IH. intros j Hj. apply (G (S j)). cbn [length]. lia.
  - cbn [Nat.eqb nth]. apply IH; [lia|]. intros j Hj. apply (H (S j)). lia.
Qed.

Lemma outputs_by_inputs : forall (ks : list kperm) inputs, (forall i, In i inputs -> valid_kinput i) -> (forall k, In k ks -> kp_out k = keccak_f_words (kp_in k)) ->
  map (fun i => words_of (fst i) ++ [snd i]) inputs = map (fun k => kp_in k ++ [kp_time k]) ks -> length ks = length inputs ->
  map (fun k => kp_out k ++ [kp_time k]) ks = map (fun i => words_of (keccak_f (fst i)) ++ [snd i]) inputs.
Proof.
  intros ks. induction ks as [|k ks IH]; intros inputs V KF EI LK; destruct inputs as [|i inputs]; try discriminate LK; [reflexivity|]. cbn [map] in *. rewrite (IH inputs); [|intros; apply V; right; assumption|intros; apply KF; right; assumption|apply (f_equal (@tl _)) in EI; exact EI|cbn [length] in LK; lia].
  apply (f_equal (hd [])) in EI. cbn [hd] in EI. apply app_inj_tail in EI. destruct EI as [E1 E2]. rewrite <- E2, (KF k (or_introl eq_refl)), <- E1. unfold keccak_f_words. destruct (V i (or_introl eq_refl)) as (V1 & V2 & _). rewrite words_lanes by assumption. reflexivity.
Qed.

Definition perm_rows (L : list Z * Z -> list row) (i : list Z * Z) : Prop :=
  length (L i) = 24%nat /\ (forall m, (m < 24)%nat -> good_row (nth m (L i) zero_row) m (snd i)) /\ (forall m, (m < 23)%nat -> continues (nth m (L i) zero_row) (nth (S m) (L i) zero_row)) /\ k_inputs (nth 0 (L i) zero_row) = words_of (fst i) ++ [snd i].

Lemma table_complete : forall (L : list Z * Z -> list row) inputs pad t, (forall i, In i inputs -> valid_kinput i) -> (forall i, In i inputs -> perm_rows L i) -> t = flat_map L inputs ++ repeat zero_row pad ->
  keccak_table_ok t /\ (forall r, In r t -> bits_are_bits r) /\
  map k_inputs (starts t) = map (fun i => words_of (fst i) ++ [snd i]) inputs /\
  map k_outputs (ends t) = map (fun i => words_of (keccak_f (fst i)) ++ [snd i]) inputs.
Proof.
  intros L inputs pad t V PO T.
  set (rows := flat_map L inputs) in *. assert (LR : length rows = (length inputs * 24)%nat) by (apply flat_length_list; intros a Ha; apply PO; exact Ha).
  assert (AT : forall i, (i < length t)%nat -> ((i / 24 < length inputs)%nat /\ trow_at t i = nth (i mod 24)%nat (L (nth (i / 24)%nat inputs ([], 0))) zero_row) \/ (length inputs <= i / 24)%nat /\ trow_at t i = zero_row).
  { intros i Hi. unfold trow_at. rewrite T. destruct (Nat.lt_ge_cases i (length rows)) as [B|B].
    - left. assert (Q : (i / 24 < length inputs)%nat) by (clear -B LR; lia). split; [exact Q|]. rewrite app_nth1 by exact B. replace i with (i / 24 * 24 + i mod 24)%nat at 1 by (clear; lia).
      apply (flat_nth_list L zero_row ([], 0) 24); [intros a Ha; apply PO; exact Ha|exact Q|apply Nat.mod_upper_bound; lia].
    - right. split; [clear -B LR; lia|]. rewrite app_nth2 by exact B. destruct (Nat.lt_ge_cases (i - length rows) pad) as [C|C].
      + clear -C. revert C. generalize (i - length rows)%nat. induction pad as [|p IH]; intros q C; [lia|]. destruct q as [|q]; [reflexivity|]. cbn [repeat nth]. apply IH. lia.
      + apply nth_overflow. rewrite repeat_length. exact C. }
  assert (IN : forall q, (q < length inputs)%nat -> In (nth q inputs ([], 0)) inputs) by (intros; apply nth_In; assumption).
  assert (M24 : forall i, (i mod 24 < 24)%nat) by (intros; apply Nat.mod_upper_bound; lia).
  assert (ROWS : forall r, In r t -> bits_are_bits r /\ row_ok r /\ forall c, canonical (r c)).
  { intros r Hr. rewrite T in Hr. apply in_app_or in Hr. destruct Hr as [Hr|Hr].
    - apply in_flat_map in Hr. destruct Hr as (i & Hi & Hr). destruct (PO i Hi) as (LL & G & _). apply In_nth with (d := zero_row) in Hr. destruct Hr as (m & Hm & <-). destruct (G m ltac:(lia)) as (_ & B & O & C & _). auto.
    - apply repeat_spec in Hr. subst r. split; [|split; [exact zero_row_ok|intros; split; [apply Z.le_refl|reflexivity]]]. repeat split; intros; left; reflexivity. }
  assert (OK : keccak_table_ok t).
  { split.
    - intros i Hi. apply row_holds; [apply ROWS; apply nth_In; exact Hi| | | |exact Hi|].
      + destruct (AT i Hi) as [(Q & E)|(_ & E)]; [right; rewrite E; exists (i mod 24)%nat; apply (PO _ (IN _ Q)); apply M24|left; exact E].
      + intros ->. destruct (AT 0%nat Hi) as [(Q & E)|(_ & E)]; [right; rewrite E; apply (PO _ (IN _ Q)); change (0 mod 24)%nat with 0%nat; lia|left; exact E].
      + intros LS. unfold tnext. rewrite Nat.mod_small by exact LS. destruct (AT i Hi) as [(Q & E)|(Q & E)]; destruct (AT (S i) LS) as [(Q' & E')|(Q' & E')].
        * destruct (Nat.eq_dec (i mod 24) 23) as [M|M].
          -- right. left. split; [rewrite E, M; apply (PO _ (IN _ Q)); lia|]. right. rewrite E'. replace (S i mod 24)%nat with 0%nat by (clear -M; lia). apply (PO _ (IN _ Q')). lia.
          -- left. exists (i mod 24)%nat. pose proof (M24 i). split; [lia|]. assert (ME : (S i mod 24 = S (i mod 24) /\ S i / 24 = i / 24)%nat) by (clear -M; lia). destruct ME as [M1 M2]. rewrite E, E', M1, M2.
             destruct (PO _ (IN _ Q)) as (_ & G & CN & _). destruct (G (i mod 24)%nat ltac:(lia)) as (G1 & _ & _ & _ & G2). destruct (G (S (i mod 24)) ltac:(lia)) as (G3 & _ & _ & _ & G4). split; [exact G1|]. split; [exact G3|]. split; [apply CN; lia|]. rewrite G2, G4. reflexivity.
        * right. left. assert (M : (i mod 24 = 23)%nat) by (clear -Q Q'; lia). split; [rewrite E, M; apply (PO _ (IN _ Q)); lia|left; exact E'].
        * exfalso. clear -Q Q'. lia.
        * right. right. split; assumption.
      + intros LS. destruct (AT i Hi) as [(Q & E)|(_ & E)]; [|left; exact E]. right. assert (M : (i mod 24 = 23)%nat).
        { assert (LT : length t = (length inputs * 24 + pad)%nat) by (rewrite T, app_length, repeat_length, LR; reflexivity). clear -Q LS LT. lia. }
        rewrite E, M. apply (PO _ (IN _ Q)). lia.
    - unfold canonical_rows. apply Forall_forall. intros r Hr. apply ROWS. exact Hr. }
  assert (BITS : forall r, In r t -> bits_are_bits r) by (intros r Hr; apply ROWS; exact Hr). split; [exact OK|]. split; [exact BITS|].
  assert (ONE : forall i, In i inputs -> starts (L i) = [nth 0 (L i) zero_row] /\ ends (L i) = [nth 23 (L i) zero_row]).
  { intros i Hi. destruct (PO i Hi) as (LL & G & _). unfold starts, ends, k_filter_inputs, k_filter_outputs, reg_step. split; apply filter_one; try (rewrite LL; lia); intros j Hj; rewrite LL in Hj; destruct (G j Hj) as ((_ & F) & _); rewrite F by lia.
    - rewrite Nat.eqb_sym. destruct (j =? 0)%nat; reflexivity.
    - rewrite Nat.eqb_sym. destruct (j =? 23)%nat; reflexivity. }
  assert (ZS : starts (repeat zero_row pad) = [] /\ ends (repeat zero_row pad) = []) by (clear; induction pad as [|p [IH1 IH2]]; [split; reflexivity|]; split; assumption).
  assert (ST : map k_inputs (starts t) = map (fun i => words_of (fst i) ++ [snd i]) inputs /\ length (ends t) = length inputs).
  { rewrite T. unfold starts, ends in *. rewrite !filter_app. destruct ZS as [-> ->]. rewrite !app_nil_r. unfold rows. clear -ONE PO. induction inputs as [|i inputs IH]; [split; reflexivity|]. cbn [flat_map]. rewrite !filter_app.
    destruct (ONE i (or_introl eq_refl)) as [-> ->]. destruct IH as [I1 I2]; [intros; apply PO; right; assumption|intros; apply ONE; right; assumption|]. rewrite map_app, app_length, I1, I2. destruct (PO i (or_introl eq_refl)) as (_ & _ & _ & K). cbn [map app length]. rewrite K. split; reflexivity. }
  destruct ST as [ST LE]. split; [exact ST|].
  destruct (table_lookups t OK BITS) as (ks & rest & _ & EI & EO & KF). rewrite ST in EI.
  assert (LK : length ks = length inputs) by (apply (f_equal (@length _)) in EO; rewrite !map_length, LE in EO; symmetry; exact EO).
  assert (R0 : rest = []) by (apply (f_equal (@length _)) in EI; rewrite app_length, !map_length in EI; destruct rest; [reflexivity|cbn [length] in EI; lia]). rewrite R0, app_nil_r in EI. rewrite EO. clear -EI KF V LK.
  apply outputs_by_inputs; assumption.
Qed.

Theorem C85_complete : forall inputs min_rows, Forall valid_kinput inputs ->
  let t := k_generate_trace_rows inputs min_rows in
  keccak_table_ok t /\ (forall r, In r t -> bits_are_bits r) /\
  map k_inputs (starts t) = map (fun i => words_of (fst i) ++ [snd i]) inputs /\
  map k_outputs (ends t) = map (fun i => words_of (keccak_f (fst i)) ++ [snd i]) inputs.
Proof.
  intros inputs min_rows V. rewrite Forall_forall in V. apply (table_complete (fun i => generate_trace_rows_for_perm (fst i) (snd i)) inputs (next_power_of_two (Nat.max (length inputs * NUM_ROUNDS) min_rows) - length (flat_map (fun i => generate_trace_rows_for_perm (fst i) (snd i)) inputs))); [exact V| |unfold k_generate_trace_rows; reflexivity].
  intros [inp ts] Hi. exact (perm_ok inp ts (V _ Hi)).
Qed.
Print Assumptions C85_complete.

(** Two states, and the table of their permutations. *)
Definition two_inputs : list (list Z * Z) := [(repeat 1 25, 5); (map (fun i => 2 ^ Z.of_nat i) (seq 0 25), 9)].
Lemma two_valid : Forall valid_kinput two_inputs.
Proof.
  unfold two_inputs. assert (G : forall l ts, forallb (fun w => (0 <=? w) && (w <? 2^64)) l = true -> length l = 25%nat -> canonical ts -> valid_kinput (l, ts)).
  { intros l ts F LL CT. split; [exact LL|]. split; [|exact CT]. apply Forall_forall. intros w Hw. rewrite forallb_forall in F. specialize (F w Hw). lia. }
  constructor; [|constructor; [|constructor]]; (apply G; [reflexivity|reflexivity|split; [discriminate|reflexivity]]).
Qed.
Theorem C85_case : let t := k_generate_trace_rows two_inputs 0 in
  keccak_table_ok t /\ (forall r, In r t -> bits_are_bits r) /\ length (starts t) = 2%nat /\ length (ends t) = 2%nat.
Proof.
  destruct (C85_complete two_inputs 0 two_valid) as (A & B & C & D). cbv zeta. split; [exact A|]. split; [exact B|].
  apply (f_equal (@length _)) in C. apply (f_equal (@length _)) in D. rewrite !map_length in C, D. split; [exact C|exact D].
Qed.
Print Assumptions C85_case.

(** * C86: wrong outputs *)

(** For every state and every pair of field elements that is not the first
    lane of its permutation, the table serves a wrong output for the state. *)
Theorem C86_any_state_refuted : forall inp ts lo hi, valid_kinput (inp, ts) -> canonical lo -> canonical hi ->
  exists t, keccak_table_ok t /\ map k_inputs (starts t) = [words_of inp ++ [ts]] /\ map k_outputs (ends t) = [[lo; hi] ++ skipn 2 (words_of (keccak_f inp)) ++ [ts]].
Proof.
  intros inp ts lo hi V CL CH. destruct (C85_complete [(inp, ts)] 0 (Forall_cons _ V (Forall_nil _))) as (OK & BITS & SI & SO). cbv zeta in *. set (t := k_generate_trace_rows [(inp, ts)] 0) in *. clearbody t. cbn [map fst snd] in SI, SO.
  destruct (filtered_rows t OK) as (m & p & HM & HP & ES & EE & AR).
  assert (LP : p = 1%nat) by (apply (f_equal (@length _)) in SO; rewrite map_length, EE, map_length, seq_length in SO; exact SO). assert (LM : m = 1%nat) by (apply (f_equal (@length _)) in SI; rewrite map_length, ES, map_length, seq_length in SI; exact SI). subst p m.
  cbn [seq map] in ES, EE. change (24 * 0)%nat with 0%nat in *. change (0 + 23)%nat with 23%nat in *.
  pose proof (AR 0%nat 23%nat ltac:(lia) ltac:(lia)) as A23. change (24 * 0 + 23)%nat with 23%nat in A23.
  assert (NZ : k_filter_outputs (trow_at t 23) mod P <> 0) by (destruct A23 as [_ F]; unfold k_filter_outputs, reg_step; rewrite F by lia; discriminate).
  destruct (C86_first_lane_refuted t 23 lo hi OK ltac:(lia) NZ CL CH) as (t' & OK' & LT & SAME & KI & FI & FO & KO). exists t'. split; [exact OK'|].
  assert (MAPT : forall u : list row, u = map (trow_at u) (seq 0 (length u))).
  { intros u. apply nth_ext with (d := zero_row) (d' := trow_at u (length u)); [rewrite map_length, seq_length; reflexivity|]. intros i Hi. rewrite map_nth, seq_nth by exact Hi. reflexivity. }
  assert (KIN : forall i, k_inputs (trow_at t' i) = k_inputs (trow_at t i) /\ k_filter_inputs (trow_at t' i) = k_filter_inputs (trow_at t i) /\ k_filter_outputs (trow_at t' i) = k_filter_outputs (trow_at t i)).
  { intros i. destruct (Nat.eq_dec i 23) as [->|N]; [auto|rewrite (SAME i N); auto]. }
  split.
  - rewrite <- SI. unfold starts. rewrite (MAPT t'), (MAPT t), LT. clear -KIN. induction (seq 0 (length t)) as [|i l IH]; [reflexivity|]. cbn [map filter]. destruct (KIN i) as (K1 & K2 & _). rewrite K2.
    destruct (negb _); [cbn [map]; rewrite K1|]; rewrite IH; reflexivity.
  - assert (EE' : ends t' = [trow_at t' 23]).
    { assert (X : forall l, map k_filter_inputs (map (trow_at t') l) = map k_filter_inputs (map (trow_at t) l)) by (intros l; rewrite !map_map; apply map_ext; intros i; apply KIN).
      assert (Y : forall l, (forall i, In i l -> (i < length t)%nat) -> NoDup l -> filter (fun r => negb (k_filter_outputs r mod P =? 0)) (map (trow_at t') l) = map (trow_at t') (filter (fun i => negb (k_filter_outputs (trow_at t i) mod P =? 0)) l)).
      { clear -KIN. induction l as [|i l IH]; intros HL ND; [reflexivity|]. cbn [map filter]. destruct (KIN i) as (_ & _ & K3). rewrite K3. inversion ND; subst. destruct (negb _); cbn [map]; rewrite IH by (try assumption; intros; apply HL; right; assumption); reflexivity. }
      destruct (filtered_rows t' OK') as (m' & p' & HM' & HP' & ES' & EEp & AR').
      assert (PL : length (ends t') = length (ends t)).
      { unfold ends. rewrite (MAPT t'), (MAPT t), LT. clear -KIN. induction (seq 0 (length t)) as [|i l IH]; [reflexivity|]. cbn [map filter]. destruct (KIN i) as (_ & _ & K3). rewrite K3. destruct (negb _); cbn [length]; rewrite IH; reflexivity. }
      rewrite EE, EEp, map_length, seq_length in PL. cbn [length] in PL. subst p'. rewrite EEp. reflexivity. }
    rewrite EE'. cbn [map]. rewrite KO. rewrite EE in SO. cbn [map] in SO. apply (f_equal (hd [])) in SO. cbn [hd] in SO. rewrite SO. apply (f_equal (fun q => [q])). apply (f_equal (fun q => [lo; hi] ++ q)).
    pose proof (keccak_f_length inp) as LK. destruct (keccak_f inp) as [|w ls]; [discriminate LK|]. cbn [words_of flat_map app skipn]. reflexivity.
Qed.
Print Assumptions C86_any_state_refuted.

Lemma heads_differ : forall W l ts lo hi, W <> [] -> lo <> hd 0 W -> [lo; hi] ++ l <> W ++ [ts].
Proof. intros [|w W] l ts lo hi N D X; [apply N; reflexivity|]. injection X as E _. apply D. exact E. Qed.

Lemma keccak_f_words_of : forall inp, valid_kinput (inp, 0) -> keccak_f_words (words_of inp) = words_of (keccak_f inp).
Proof. intros inp V. unfold keccak_f_words. rewrite words_lanes by apply V. reflexivity. Qed.

Lemma words_of_nonempty : forall l, length l = 25%nat -> words_of l <> [].
Proof. intros [|w l] H X; [discriminate H|discriminate X]. Qed.

Lemma wrong_output_of : forall inp ts W, words_of (keccak_f inp) = W -> W <> [] -> valid_kinput (inp, ts) -> exists t j, keccak_table_ok t /\ (j < length t)%nat /\ k_filter_outputs (trow_at t j) mod P <> 0 /\
  map k_inputs (starts t) = [words_of inp ++ [ts]] /\ k_outputs (trow_at t j) <> W ++ [ts].
Proof.
  intros inp ts W EW NW V. pose (lo := if hd 0 W =? 0 then 1 else 0). assert (CL : canonical lo) by (unfold lo; destruct (hd 0 W =? 0); split; (discriminate || reflexivity || apply Z.le_refl)). assert (NE : lo <> hd 0 W) by (unfold lo; destruct (Z.eqb_spec (hd 0 W) 0); lia). clearbody lo.
  assert (C0 : canonical 0) by (split; [apply Z.le_refl|reflexivity]).
  destruct (C86_any_state_refuted inp ts lo 0 V CL C0) as (t & OK & SI & SO). rewrite EW in SO. clear EW.
  destruct (ends t) as [|r l] eqn:EE; [discriminate SO|]. cbn [map] in SO. apply (f_equal (hd [])) in SO. unfold hd in SO at 1 2.
  assert (Hr : In r (ends t)) by (rewrite EE; left; reflexivity). unfold ends in Hr. apply filter_In in Hr. destruct Hr as [Hr FR]. apply In_nth with (d := zero_row) in Hr. destruct Hr as (j & Hj & EJ).
  exists t, j. assert (EJ' : trow_at t j = r) by exact EJ. rewrite EJ'. split; [exact OK|]. split; [exact Hj|]. split; [apply Z.eqb_neq; apply negb_true_iff; exact FR|]. split; [exact SI|].
  rewrite SO. apply heads_differ; assumption.
Qed.

Lemma wrong_output : forall inp ts, valid_kinput (inp, ts) -> exists t j, keccak_table_ok t /\ (j < length t)%nat /\ k_filter_outputs (trow_at t j) mod P <> 0 /\
  map k_inputs (starts t) = [words_of inp ++ [ts]] /\ k_outputs (trow_at t j) <> keccak_f_words (words_of inp) ++ [ts].
Proof.
  intros inp ts V. assert (V0 : valid_kinput (inp, 0)) by (destruct V as (V1 & V2 & _); split; [exact V1|]; split; [exact V2|split; [apply Z.le_refl|reflexivity]]). rewrite (keccak_f_words_of inp V0).
  exact (wrong_output_of inp ts _ eq_refl (words_of_nonempty _ (keccak_f_length inp)) V).
Qed.

Theorem C86_wrong_output_refuted : exists t j ws ts, keccak_table_ok t /\ (j < length t)%nat /\ k_filter_outputs (trow_at t j) mod P <> 0 /\ length ws = 50%nat /\
  map k_inputs (starts t) = [ws ++ [ts]] /\ k_outputs (trow_at t j) <> keccak_f_words ws ++ [ts].
Proof.
  assert (V : valid_kinput (repeat 0 25, 5)) by (split; [reflexivity|]; split; [apply Forall_forall; intros w Hw; apply repeat_spec in Hw; subst; lia|split; [discriminate|reflexivity]]).
  destruct (wrong_output _ _ V) as (t & j & A & B & C & D & E). exists t, j, (words_of (repeat 0 25)), 5. repeat (split; [assumption || reflexivity|]). exact E.
Qed.
Print Assumptions C86_wrong_output_refuted.
