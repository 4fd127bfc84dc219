(** The Keccak permutation table: soundness (C85). *)
From Coq Require Import ZArith List Lia Bool Arith Permutation.
From Coq Require Import ZifyBool ZifyNat.
From Verif Require Import Stark.Field Stark.ArithModel Stark.LogicModel Stark.LogicProps Stark.MemModel Stark.MemSound Stark.Lookup Stark.BytePackProps
  Keccak.KeccakSpec Keccak.SpongeModel Keccak.SpongeFacts Keccak.SpongeSound Keccak.SpongeProps Keccak.SpongeTable Keccak.SpongeSwap Keccak.KeccakModel Keccak.KeccakFacts Keccak.KeccakSound.
Import ListNotations.
Local Open Scope Z_scope.

(** * Words and lanes *)

Lemma pairs_map : forall {A} (g : nat -> A) n a, flat_map (fun i => [g (2 * i)%nat; g (2 * i + 1)%nat]) (seq a n) = map g (seq (2 * a) (2 * n)).
Proof.
  intros A g n. induction n as [|n IH]; intros a; [reflexivity|]. replace (2 * S n)%nat with (S (S (2 * n))) by lia. cbn [seq flat_map map app]. rewrite IH.
  replace (2 * S a)%nat with (S (S (2 * a))) by lia. replace (2 * a + 1)%nat with (S (2 * a)) by lia. reflexivity.
Qed.

Lemma limb_index : forall i, ((2 * i / 2 = i) /\ (2 * i mod 2 = 0) /\ ((2 * i + 1) / 2 = i) /\ ((2 * i + 1) mod 2 = 1))%nat.
Proof. intros i. lia. Qed.

Lemma in_lanes : forall r, lanes_of (in_words r) = build (lane_in r).
Proof.
  intros r. unfold lanes_of, build, lane_in. apply map_ext_in. intros i Hi. apply in_seq in Hi. unfold in_words.
  rewrite !(nth_map_seq (fun i => r (reg_input_limb i))) by lia. cbn [Nat.add]. unfold reg_input_limb. destruct (limb_index i) as (E1 & E2 & E3 & E4). rewrite E1, E2, E3, E4, Nat.add_0_r. reflexivity.
Qed.

Lemma out_lanes : forall r, (forall x y, (x < 5)%nat -> (y < 5)%nat -> 0 <= r (reg_a_prime_prime_prime x y) < 2^32 /\ 0 <= r (reg_a_prime_prime_prime x y + 1)%nat < 2^32) ->
  words_of (build (lane_out r)) = out_words r.
Proof.
  intros r H. unfold words_of, build, out_words. transitivity (flat_map (fun i => [r (reg_output_limb (2 * i)); r (reg_output_limb (2 * i + 1))]) (seq 0 25)); [|apply (pairs_map (fun i => r (reg_output_limb i)) 25 0)].
  rewrite !flat_map_concat_map, map_map. f_equal.
  apply map_ext_in. intros i Hi. apply in_seq in Hi. unfold reg_output_limb. destruct (limb_index i) as (E1 & E2 & E3 & E4). rewrite E1, E2, E3, E4, Nat.add_0_r.
  destruct (H (i mod 5)%nat (i / 5)%nat (m5 i) ltac:(apply Nat.div_lt_upper_bound; lia)) as [L1 L2]. unfold lane_out.
  set (lo := r (reg_a_prime_prime_prime (i mod 5) (i / 5))) in *. set (hi := r (reg_a_prime_prime_prime (i mod 5) (i / 5) + 1)%nat) in *. clearbody lo hi.
  rewrite (Z.mul_comm (2^32)), Z_mod_plus_full, Z_div_plus_full by lia. rewrite Z.mod_small, Z.div_small by exact L1. reflexivity.
Qed.

Lemma words_lanes : forall ls, Forall (fun w => 0 <= w < 2^64) ls -> length ls = 25%nat -> lanes_of (words_of ls) = ls.
Proof.
  intros ls _ L. do 26 (destruct ls as [|? ls]; try discriminate L). cbn [words_of flat_map app lanes_of seq map nth Nat.mul Nat.add].
  assert (J : forall w, w mod 2^32 + 2^32 * (w / 2^32) = w) by (intros w; pose proof (Z.div_mod w (2^32) ltac:(lia)); lia). rewrite !J. reflexivity.
Qed.

(** * C85: soundness *)

Definition starts (t : list row) : list row := filter (fun r => negb (k_filter_inputs r mod P =? 0)) t.
Definition ends (t : list row) : list row := filter (fun r => negb (k_filter_outputs r mod P =? 0)) t.

Section Table.
  Variable t : list row.
  Hypothesis OK : keccak_table_ok t.
  Hypothesis BITS : forall r, In r t -> bits_are_bits r.

  Lemma round_of : forall j k, (j < length t)%nat -> at_round (trow_at t j) k -> lanes_of (out_words (trow_at t j)) = round k (lanes_of (in_words (trow_at t j))) /\ words_of (round k (lanes_of (in_words (trow_at t j)))) = out_words (trow_at t j).
  Proof.
    intros j k L A. assert (CAN : forall c, canonical (trow_at t j c)) by (intros c; apply kcan; exact OK).
    assert (CON : forall e, In (All, e) (eval_round (trow_at t j)) -> e mod P = 0) by (intros e; apply (kround t OK j e L)).
    assert (B : bits_are_bits (trow_at t j)) by (apply BITS; apply nth_In; exact L).
    rewrite in_lanes, <- (row_round _ k CAN CON B A). pose proof (out_lanes _ (row_words _ k CAN CON B A)) as W. split; [|exact W]. rewrite <- W. apply words_lanes; [|reflexivity].
    unfold build. rewrite Forall_map. apply Forall_forall. intros i Hi. apply in_seq in Hi. pose proof (row_words _ k CAN CON B A (i mod 5)%nat (i / 5)%nat (m5 i) ltac:(apply Nat.div_lt_upper_bound; lia)). unfold lane_out. lia.
  Qed.

  Lemma chain : forall s, (s + 23 < length t)%nat -> (forall m, (m < 24)%nat -> at_round (trow_at t (s + m)) m) ->
    forall m, (m < 24)%nat -> lanes_of (in_words (trow_at t (s + m))) = fold_left (fun s ir => round ir s) (seq 0 m) (lanes_of (in_words (trow_at t s))) /\ trow_at t (s + m) K_TIMESTAMP = trow_at t s K_TIMESTAMP.
  Proof.
    intros s L A. induction m as [|m IH]; intros Hm; [rewrite Nat.add_0_r; split; reflexivity|]. destruct (IH ltac:(lia)) as [I1 I2].
    rewrite Nat.add_succ_r. destruct (carry t OK (s + m) m ltac:(lia) (A m ltac:(lia)) ltac:(lia)) as [C1 C2]. rewrite C2. split; [|exact I2].
    rewrite C1. destruct (round_of (s + m) m ltac:(lia) (A m ltac:(lia))) as [R _]. rewrite R, I1, seq_S, fold_left_app. reflexivity.
  Qed.

  Lemma permutation_of : forall s, (s + 23 < length t)%nat -> (forall m, (m < 24)%nat -> at_round (trow_at t (s + m)) m) ->
    k_outputs (trow_at t (s + 23)) = keccak_f_words (in_words (trow_at t s)) ++ [trow_at t s K_TIMESTAMP].
  Proof.
    intros s L A. destruct (chain s L A 23 ltac:(lia)) as [C1 C2]. unfold k_outputs. fold (out_words (trow_at t (s + 23))). rewrite C2. f_equal.
    destruct (round_of (s + 23) 23 ltac:(lia) (A 23%nat ltac:(lia))) as [_ R]. rewrite <- R, C1. unfold keccak_f_words, keccak_f. rewrite (seq_S 23 0), fold_left_app. reflexivity.
  Qed.

  (** Every output of the table is the permutation of an input of the table
      with the same timestamp, 23 rows above. *)
  Theorem every_output : forall j, (j < length t)%nat -> k_filter_outputs (trow_at t j) mod P <> 0 ->
    (23 <= j)%nat /\ k_filter_inputs (trow_at t (j - 23)) = 1 /\
    exists ws ts, k_inputs (trow_at t (j - 23)) = ws ++ [ts] /\ length ws = 50%nat /\ k_outputs (trow_at t j) = keccak_f_words ws ++ [ts].
  Proof.
    intros j L NZ. destruct (flags_shape t OK) as (N & SH). pose proof (SH j L) as Sj. destruct (Nat.ltb_spec j N) as [LN|LN].
    - assert (E : (j mod 24 = 23)%nat).
      { destruct Sj as [_ F]. unfold k_filter_outputs, reg_step in NZ. rewrite F in NZ by lia. destruct (Nat.eqb_spec 23 (j mod 24)) as [E|E]; [symmetry; exact E|]. exfalso. apply NZ. reflexivity. }
      assert (G : (23 <= j)%nat) by (clear -E; lia).
      assert (A : forall m, (m < 24)%nat -> at_round (trow_at t (j - 23 + m)) m).
      { intros m Hm. pose proof (SH (j - 23 + m)%nat ltac:(lia)) as S. replace (j - 23 + m <? N)%nat with true in S by lia. replace ((j - 23 + m) mod 24)%nat with m in S by (clear -E Hm G; lia). exact S. }
      split; [exact G|]. split.
      + destruct (A 0%nat ltac:(lia)) as [_ F]. rewrite Nat.add_0_r in F. unfold k_filter_inputs, reg_step. rewrite F by lia. reflexivity.
      + exists (in_words (trow_at t (j - 23))), (trow_at t (j - 23) K_TIMESTAMP). split; [reflexivity|]. split; [unfold in_words; rewrite map_length, seq_length; reflexivity|].
        pose proof (permutation_of (j - 23) ltac:(lia) A) as PO. replace (j - 23 + 23)%nat with j in PO by lia. exact PO.
    - exfalso. apply NZ. unfold k_filter_outputs, reg_step. rewrite Sj by lia. reflexivity.
  Qed.

  (** The filtered rows, in order. *)
  Lemma filtered_rows : exists m p : nat, (p <= m <= S p)%nat /\ (24 * p <= length t)%nat /\
    starts t = map (fun q => trow_at t (24 * q)) (seq 0 m) /\ ends t = map (fun q => trow_at t (24 * q + 23)) (seq 0 p) /\
    (forall q k, (q < p)%nat -> (k < 24)%nat -> at_round (trow_at t (24 * q + k)) k).
  Proof.
    destruct (flags_shape t OK) as (N & SH). set (M := Nat.min N (length t)). exists ((M + 23) / 24)%nat, (M / 24)%nat.
    assert (W : forall n, t = firstn n t ++ skipn n t) by (intros; symmetry; apply firstn_skipn).
    assert (G : forall n, (n <= length t)%nat -> starts (map (trow_at t) (seq 0 n)) = map (fun q => trow_at t (24 * q)) (seq 0 ((Nat.min N n + 23) / 24)) /\ ends (map (trow_at t) (seq 0 n)) = map (fun q => trow_at t (24 * q + 23)) (seq 0 (Nat.min N n / 24))).
    { induction n as [|n IH]; intros Hn; [rewrite Nat.min_0_r; split; reflexivity|]. destruct (IH ltac:(lia)) as [I1 I2]. rewrite seq_S, map_app. unfold starts, ends in *. rewrite !filter_app, I1, I2. cbn [Nat.add map filter].
      unfold k_filter_inputs at 1, k_filter_outputs at 1, reg_step. pose proof (SH n ltac:(lia)) as Sn. destruct (Nat.ltb_spec n N) as [L|L].
      - replace (Nat.min N n) with n by lia. replace (Nat.min N (S n)) with (S n) by lia. destruct Sn as [K F]. rewrite !F by lia. split.
        + destruct (Nat.eqb_spec 0 (n mod 24)) as [E|E].
          * replace (negb (1 mod P =? 0)) with true by reflexivity. replace ((S n + 23) / 24)%nat with (S ((n + 23) / 24)) by (clear -E; lia). rewrite seq_S, map_app. cbn [Nat.add map]. replace (24 * ((n + 23) / 24))%nat with n by (clear -E; lia). reflexivity.
          * replace (negb (0 mod P =? 0)) with false by reflexivity. rewrite app_nil_r. replace ((S n + 23) / 24)%nat with ((n + 23) / 24)%nat by (clear -E; lia). reflexivity.
        + destruct (Nat.eqb_spec 23 (n mod 24)) as [E|E].
          * replace (negb (1 mod P =? 0)) with true by reflexivity. replace (S n / 24)%nat with (S (n / 24)) by (clear -E; lia). rewrite seq_S, map_app. cbn [Nat.add map]. replace (24 * (n / 24) + 23)%nat with n by (clear -E; lia). reflexivity.
          * replace (negb (0 mod P =? 0)) with false by reflexivity. rewrite app_nil_r. replace (S n / 24)%nat with (n / 24)%nat by (clear -E; lia). reflexivity.
      - replace (Nat.min N (S n)) with (Nat.min N n) by lia. rewrite !Sn by lia. replace (negb (0 mod P =? 0)) with false by reflexivity. rewrite !app_nil_r. split; reflexivity. }
    destruct (G (length t) (Nat.le_refl _)) as [G1 G2]. fold M in G1, G2.
    assert (T : map (trow_at t) (seq 0 (length t)) = t).
    { clear. assert (X : forall l pre : list row, map (fun i => nth i (pre ++ l) zero_row) (seq (length pre) (length l)) = l).
      { induction l as [|a l IH]; intros pre; [reflexivity|]. cbn [length seq map]. f_equal; [rewrite app_nth2, Nat.sub_diag by lia; reflexivity|].
        specialize (IH (pre ++ [a])). rewrite <- app_assoc, app_length in IH. cbn [length app] in IH. rewrite Nat.add_1_r in IH. exact IH. }
      apply (X t []). }
    rewrite T in G1, G2. split; [clear; lia|]. split; [unfold M; clear; lia|]. split; [exact G1|]. split; [exact G2|].
    intros q k Hq Hk. assert (B : (24 * q + k < M)%nat) by (clear -Hq Hk; lia). pose proof (SH (24 * q + k)%nat ltac:(lia)) as S. replace (24 * q + k <? N)%nat with true in S by lia.
    replace ((24 * q + k) mod 24)%nat with k in S by (clear -Hk; lia). exact S.
  Qed.

  Theorem table_lookups : exists ks : list kperm, exists rest : list (list Z), (length rest <= 1)%nat /\
    map k_inputs (starts t) = map (fun k => kp_in k ++ [kp_time k]) ks ++ rest /\
    map k_outputs (ends t) = map (fun k => kp_out k ++ [kp_time k]) ks /\
    forall k, In k ks -> kp_out k = keccak_f_words (kp_in k).
  Proof.
    destruct filtered_rows as (m & p & Hm & Hp & S & E & A). 
    exists (map (fun q => {| kp_in := in_words (trow_at t (24 * q)); kp_out := keccak_f_words (in_words (trow_at t (24 * q))); kp_time := trow_at t (24 * q) K_TIMESTAMP |}) (seq 0 p)).
    exists (map (fun q => k_inputs (trow_at t (24 * q))) (seq p (m - p))). rewrite S, E, !map_map. cbn [kp_in kp_out kp_time]. repeat split.
    - rewrite map_length, seq_length. lia.
    - replace m with (p + (m - p))%nat at 1 by lia. rewrite seq_app, map_app. reflexivity.
    - apply map_ext_in. intros q Hq. apply in_seq in Hq. apply permutation_of; [lia|]. intros k Hk. apply A; lia.
    - intros k Hk. apply in_map_iff in Hk. destruct Hk as (q & <- & _). reflexivity.
  Qed.
End Table.

(** The table proves Keccak-f, if the cells that stand for bits are bits. *)
Theorem C85_outputs_partial : forall t j, keccak_table_ok t -> (forall r, In r t -> bits_are_bits r) ->
  (j < length t)%nat -> k_filter_outputs (trow_at t j) mod P <> 0 ->
  (23 <= j)%nat /\ k_filter_inputs (trow_at t (j - 23)) = 1 /\
  exists ws ts, k_inputs (trow_at t (j - 23)) = ws ++ [ts] /\ length ws = 50%nat /\ k_outputs (trow_at t j) = keccak_f_words ws ++ [ts].
Proof. intros t j OK B. apply every_output; assumption. Qed.
Print Assumptions C85_outputs_partial.

(** What the lookups see: the outputs, in order, of the inputs, but for at most
    one permutation that the end of the table cuts off. *)
Theorem C85_lookups_partial : forall t, keccak_table_ok t -> (forall r, In r t -> bits_are_bits r) ->
  exists ks rest, (length rest <= 1)%nat /\ map k_inputs (starts t) = map (fun k => kp_in k ++ [kp_time k]) ks ++ rest /\
    map k_outputs (ends t) = map (fun k => kp_out k ++ [kp_time k]) ks /\ forall k, In k ks -> kp_out k = keccak_f_words (kp_in k).
Proof. intros t OK B. apply table_lookups; assumption. Qed.
Print Assumptions C85_lookups_partial.

(** The sponge table, the logic table and the Keccak table together: the CPU
    sees the Keccak-256 digest of what memory served. *)
Theorem C85_hash_tables_partial : forall t i lt kt,
  sponge_table_ok t -> 136 * Z.of_nat (length t) < P -> (S i < length t)%nat -> sp_looked_filter (trow_at t i) mod P <> 0 -> digest_is_bytes (trow_at t i) ->
  logic_table_ok lt ->
  (forall r j, In r t -> (j < num_logic_ctls)%nat -> sp_logic_filter r mod P <> 0 -> exists q, In q lt /\ l_ctl_filter q mod P <> 0 /\ reduced (sp_logic j r) = reduced (l_ctl_data q)) ->
  keccak_table_ok kt -> (forall r, In r kt -> bits_are_bits r) ->
  Permutation (map (fun r => reduced (sp_keccak_inputs r)) (active_rows t)) (map k_inputs (starts kt)) ->
  Permutation (map (fun r => reduced (sp_keccak_outputs r)) (active_rows t)) (map k_outputs (ends kt)) ->
  NoDup (map (fun r => r S_TIMESTAMP mod P) (active_rows t)) ->
  exists s c g v ts m, (s <= i)%nat /\ Forall byte m /\ sp_looked_data (trow_at t i) = hash_claim keccak_f_words c g v ts m /\ reads_message t s i c g v ts m.
Proof.
  intros t i lt kt OK SM Hi NZ DB LT LL KT KB PI PO ND. destruct (table_lookups kt KT KB) as (ks & rest & LR & EI & EO & KF).
  assert (R0 : rest = []).
  { pose proof (Permutation_length PI) as L1. pose proof (Permutation_length PO) as L2. rewrite EI, app_length, !map_length in L1. rewrite EO, !map_length in L2. destruct rest; [reflexivity|]. cbn [length] in L1. lia. }
  rewrite R0, app_nil_r in EI. rewrite EI in PI. rewrite EO in PO. apply (C83_sponge_tables_partial keccak_f_words t i lt ks); try assumption. split; assumption.
Qed.
Print Assumptions C85_hash_tables_partial.
