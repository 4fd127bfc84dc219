(** What the constraints of the sponge table say, row by row. *)
From Coq Require Import ZArith List Lia Bool Arith.
From Coq Require Import ZifyBool ZifyNat.
From Verif Require Import Stark.Field Stark.ArithModel Stark.LogicModel Stark.MemModel Stark.MemSound Stark.Lookup Keccak.SpongeModel.
Import ListNotations.
Local Open Scope Z_scope.

Definition bit (x : Z) : Prop := x = 0 \/ x = 1.

Record local_ok (r : row) : Prop := {
  lo_full : bit (r S_FULL);
  lo_pad : forall i, (i < 136)%nat -> bit (is_pad r i);
  lo_mono : forall i, (S i < 136)%nat -> is_pad r i = 1 -> is_pad r (S i) = 1;
  lo_excl : ~ (r S_FULL = 1 /\ is_final r = 1) }.

Definition start_ok (r : row) : Prop :=
  r S_ABSORBED = 0 /\ (forall i, (i < 34)%nat -> rate r i = 0) /\ (forall i, (i < 16)%nat -> capacity r i = 0).

(** The padding byte the row must have at [i], if [i] is padding. *)
Definition pad_byte (r : row) (i : nat) : Z :=
  if (i =? 135)%nat then (if is_pad r 134 =? 1 then 0x80 else 0x81)
  else if (0 <? i)%nat && (is_pad r (i - 1) =? 1) then 0 else 1.

Definition state_in (r : row) (i : nat) : Z := if (i <? 34)%nat then rate r i else capacity r (i - 34).
Definition state_out (r : row) (i : nat) : Z := if (i <? 8)%nat then le4 (digest r) i else partial r (i - 8).

Definition is_active (r : row) : Prop := r S_FULL = 1 \/ is_final r = 1.

Record step_ok (lv nv : row) : Prop := {
  st_final : is_final lv = 1 -> start_ok nv;
  st_keep : lv S_FULL = 1 -> nv S_CONTEXT = lv S_CONTEXT /\ nv S_SEGMENT = lv S_SEGMENT /\ nv S_VIRT = lv S_VIRT /\ nv S_TIMESTAMP = lv S_TIMESTAMP;
  st_absorbed : lv S_FULL = 1 -> nv S_ABSORBED = (lv S_ABSORBED + 136) mod P;
  st_state : lv S_FULL = 1 -> forall i, (i < 50)%nat -> state_in nv i = state_out lv i mod P;
  st_pad : forall i, (i < 136)%nat -> is_pad lv i = 1 -> block_byte lv i = pad_byte lv i;
  st_dummy : ~ is_active lv -> ~ is_active nv }.

Definition counter_ok (t : list row) : Prop :=
  ((0 < length t)%nat -> trow_at t 0 S_RANGE_COUNTER = 0) /\
  (forall i, (S i < length t)%nat -> trow_at t (S i) S_RANGE_COUNTER - trow_at t i S_RANGE_COUNTER = 0 \/ trow_at t (S i) S_RANGE_COUNTER - trow_at t i S_RANGE_COUNTER = 1) /\
  ((0 < length t)%nat -> trow_at t (length t - 1) S_RANGE_COUNTER = 255).

Definition meaning (t : list row) : Prop :=
  (forall i, (i < length t)%nat -> local_ok (trow_at t i)) /\
  ((0 < length t)%nat -> start_ok (trow_at t 0)) /\
  (forall i, (S i < length t)%nat -> step_ok (trow_at t i) (trow_at t (S i))).

Tactic Notation "at_seg" integer(n) := do n (apply in_or_app; right); try (apply in_or_app; left).

Lemma eq_of_diff : forall a b, canonical a -> canonical b -> (a - b) mod P = 0 -> a = b.
Proof. exact canonical_eq. Qed.

Lemma mod_eq : forall a b, canonical a -> (a - b) mod P = 0 -> a = b mod P.
Proof.
  intros a b C H. apply canonical_eq; [exact C|apply Z.mod_pos_bound; reflexivity|]. rewrite Zminus_mod_idemp_r. exact H.
Qed.

Section Read.
  Variable t : list row.
  Hypothesis HOLD : rows_hold eval_sponge t.
  Hypothesis CAN : canonical_rows t.

  Lemma cell_can : forall i c, canonical (trow_at t i c).
  Proof. apply at_canonical. exact CAN. Qed.

  Lemma read_all : forall i e, (i < length t)%nat -> In (All, e) (eval_sponge (trow_at t i) (tnext t i)) -> e mod P = 0.
  Proof. intros i e L I. specialize (HOLD i L). rewrite Forall_forall in HOLD. apply (HOLD _ I). reflexivity. Qed.
  Lemma read_first : forall e, (0 < length t)%nat -> In (First, e) (eval_sponge (trow_at t 0) (tnext t 0)) -> e mod P = 0.
  Proof. intros e L I. specialize (HOLD 0%nat L). rewrite Forall_forall in HOLD. apply (HOLD _ I). reflexivity. Qed.
  Lemma read_last : forall e, (0 < length t)%nat -> In (Last, e) (eval_sponge (trow_at t (length t - 1)) (tnext t (length t - 1))) -> e mod P = 0.
  Proof. intros e L I. specialize (HOLD (length t - 1)%nat ltac:(lia)). rewrite Forall_forall in HOLD. apply (HOLD _ I). cbn [applies fst]. lia. Qed.
  Lemma read_step : forall i e, (S i < length t)%nat -> In (Transition, e) (eval_sponge (trow_at t i) (trow_at t (S i))) -> e mod P = 0.
  Proof.
    intros i e L I. specialize (HOLD i ltac:(lia)). rewrite Forall_forall in HOLD. unfold tnext in HOLD. rewrite Nat.mod_small in HOLD by exact L.
    apply (HOLD _ I). cbn [applies fst]. lia.
  Qed.

  Lemma read_local : forall i, (i < length t)%nat -> local_ok (trow_at t i).
  Proof.
    intros i L. set (r := trow_at t i).
    assert (B1 : bit (r S_FULL)).
    { apply bool_of_constraint; [apply cell_can|]. apply (read_all i); [exact L|]. unfold eval_sponge. cbv zeta. at_seg 0. cbn [In]. tauto. }
    assert (B2 : forall j, (j < 136)%nat -> bit (is_pad r j)).
    { intros j Hj. apply bool_of_constraint; [apply cell_can|]. apply (read_all i); [exact L|]. unfold eval_sponge. cbv zeta. at_seg 1.
      apply in_map_iff. exists j. split; [reflexivity|]. apply in_seq. unfold KECCAK_RATE_BYTES. lia. }
    constructor; [exact B1|exact B2| |].
    - intros j Hj E. assert (H : (is_pad r j * (is_pad r (S j) - 1)) mod P = 0).
      { apply (read_all i); [exact L|]. unfold eval_sponge. cbv zeta. at_seg 2. apply in_map_iff. exists (S j). split; [replace (S j - 1)%nat with j by lia; reflexivity|]. apply in_seq. unfold KECCAK_RATE_BYTES. lia. }
      destruct (B2 (S j) Hj) as [E2|E2]; [|exact E2]. rewrite E, E2 in H. discriminate H.
    - intros [E1 E2]. assert (H : (is_final r * r S_FULL) mod P = 0).
      { apply (read_all i); [exact L|]. unfold eval_sponge. cbv zeta. at_seg 3. cbn [In]. tauto. }
      rewrite E1, E2 in H. discriminate H.
  Qed.

  Lemma read_start : (0 < length t)%nat -> start_ok (trow_at t 0).
  Proof.
    intros L. split; [|split].
    - apply canonical_zero; [apply cell_can|]. apply read_first; [exact L|]. unfold eval_sponge. cbv zeta. at_seg 3. cbn [In]. tauto.
    - intros i Hi. apply canonical_zero; [apply cell_can|]. apply read_first; [exact L|]. unfold eval_sponge. cbv zeta. at_seg 4. apply in_map_iff. exists i. split; [reflexivity|]. apply in_seq. unfold KECCAK_RATE_U32S. lia.
    - intros i Hi. apply canonical_zero; [apply cell_can|]. apply read_first; [exact L|]. unfold eval_sponge. cbv zeta. at_seg 5. apply in_map_iff. exists i. split; [reflexivity|]. apply in_seq. unfold KECCAK_CAPACITY_U32S. lia.
  Qed.

  Lemma read_next : forall i, (S i < length t)%nat -> step_ok (trow_at t i) (trow_at t (S i)).
  Proof.
    intros i L. pose proof (read_local i ltac:(lia)) as LO. pose proof (read_local (S i) L) as LN. set (lv := trow_at t i) in *. set (nv := trow_at t (S i)) in *.
    assert (R : forall e, In (Transition, e) (eval_sponge lv nv) -> e mod P = 0) by (intros e; apply read_step; exact L).
    assert (CL : forall c, canonical (lv c)) by (intros c; apply cell_can). assert (CN : forall c, canonical (nv c)) by (intros c; apply cell_can).
    unfold eval_sponge in R. cbv zeta in R. constructor.
    - intros F. split; [|split].
      + apply canonical_zero; [apply CN|]. rewrite <- (Z.mul_1_l (nv S_ABSORBED)), <- F. apply R. at_seg 6. cbn [In]. tauto.
      + intros j Hj. apply canonical_zero; [apply CN|]. rewrite <- (Z.mul_1_l (rate nv j)), <- F. apply R. at_seg 7. apply in_map_iff. exists j. split; [reflexivity|]. apply in_seq. unfold KECCAK_RATE_U32S. lia.
      + intros j Hj. apply canonical_zero; [apply CN|]. rewrite <- (Z.mul_1_l (capacity nv j)), <- F. apply R. at_seg 8. apply in_map_iff. exists j. split; [reflexivity|]. apply in_seq. unfold KECCAK_CAPACITY_U32S. lia.
    - intros F. assert (K : forall c, In (Transition, lv S_FULL * (lv c - nv c)) (eval_sponge lv nv) -> nv c = lv c).
      { intros c I. symmetry. apply eq_of_diff; [apply CL|apply CN|]. apply R in I. rewrite F, Z.mul_1_l in I. exact I. }
      repeat split; apply K; unfold eval_sponge; cbv zeta; at_seg 9; cbn [In]; tauto.
    - intros F. apply mod_eq; [apply CN|]. assert (H : (lv S_FULL * (lv S_ABSORBED + Z.of_nat KECCAK_RATE_BYTES - nv S_ABSORBED)) mod P = 0) by (apply R; at_seg 13; cbn [In]; tauto).
      rewrite F, Z.mul_1_l in H. change (Z.of_nat KECCAK_RATE_BYTES) with 136 in H.
      replace (nv S_ABSORBED - (lv S_ABSORBED + 136)) with (- (lv S_ABSORBED + 136 - nv S_ABSORBED)) by ring. apply Z.mod_opp_l_z; [discriminate|exact H].
    - intros F j Hj. apply mod_eq; [unfold state_in, rate, capacity; destruct (j <? 34)%nat; apply CN|].
      rewrite <- (Z.mul_1_l (_ - _)), <- F. unfold state_in, state_out. destruct (Nat.ltb_spec j 34) as [A|A]; destruct (Nat.ltb_spec j 8) as [B|B]; try lia.
      + apply R. at_seg 10. apply in_map_iff. exists j. split; [reflexivity|]. apply in_seq. unfold KECCAK_DIGEST_U32S. lia.
      + apply R. at_seg 11. apply in_map_iff. exists (j - 8)%nat. unfold KECCAK_DIGEST_U32S, KECCAK_RATE_U32S. split; [replace (8 + (j - 8))%nat with j by lia; reflexivity|]. apply in_seq. lia.
      + apply R. at_seg 12. apply in_map_iff. exists (j - 34)%nat. unfold KECCAK_DIGEST_U32S, KECCAK_RATE_U32S, KECCAK_CAPACITY_U32S. split; [replace (34 - 8 + (j - 34))%nat with (j - 8)%nat by lia; reflexivity|]. apply in_seq. lia.
    - intros j Hj Ej. unfold pad_byte. destruct (Nat.eqb_spec j 135) as [->|N].
      + destruct (lo_pad _ LO 134 ltac:(lia)) as [E4|E4]; rewrite E4; cbn [Z.eqb].
        * assert (H : (has_single_padding_byte lv * (block_byte lv (KECCAK_RATE_BYTES - 1) - 0x81)) mod P = 0) by (apply R; at_seg 13; cbn [In]; tauto).
          unfold has_single_padding_byte in H. change (KECCAK_RATE_BYTES - 1)%nat with 135%nat in H. change (KECCAK_RATE_BYTES - 2)%nat with 134%nat in H. rewrite Ej, E4 in H.
          rewrite Z.mul_1_l in H. apply eq_of_diff; [apply CL|split; [discriminate|reflexivity]|exact H].
        * assert (H : (is_final lv * (has_single_padding_byte lv - 1) * (block_byte lv (KECCAK_RATE_BYTES - 1) - 0x80)) mod P = 0) by (apply R; at_seg 15; cbn [In]; tauto).
          unfold has_single_padding_byte, is_final in H. change (KECCAK_RATE_BYTES - 1)%nat with 135%nat in H. change (KECCAK_RATE_BYTES - 2)%nat with 134%nat in H. rewrite Ej, E4 in H.
          apply field_integral in H. destruct H as [H|H]; [discriminate H|]. apply eq_of_diff; [apply CL|split; [discriminate|reflexivity]|exact H].
      + assert (H1 : (is_first_padding_byte lv j * (block_byte lv j - 1)) mod P = 0).
        { apply R. at_seg 14. apply in_flat_map. exists j. split; [apply in_seq; unfold KECCAK_RATE_BYTES; lia|]. left. reflexivity. }
        assert (H2 : (is_pad lv j * (is_first_padding_byte lv j - 1) * block_byte lv j) mod P = 0).
        { apply R. at_seg 14. apply in_flat_map. exists j. split; [apply in_seq; unfold KECCAK_RATE_BYTES; lia|]. right. left. reflexivity. }
        assert (C1 : canonical 1) by (split; [discriminate|reflexivity]).
        unfold is_first_padding_byte in H1, H2. rewrite Ej in H1, H2. destruct (Nat.ltb_spec 0 j) as [J|J]; cbn [andb].
        * destruct (lo_pad _ LO (j - 1)%nat ltac:(lia)) as [E4|E4]; rewrite E4 in *; cbn [Z.eqb].
          -- apply eq_of_diff; [apply CL|exact C1|]. rewrite Z.mul_1_l in H1. exact H1.
          -- apply field_integral in H2. destruct H2 as [H2|H2]; [discriminate H2|]. apply canonical_zero; [apply CL|exact H2].
        * apply eq_of_diff; [apply CL|exact C1|]. rewrite Z.mul_1_l in H1. exact H1.
    - intros D A. assert (H : ((1 - lv S_FULL - is_final lv) * (nv S_FULL + is_final nv)) mod P = 0) by (apply R; at_seg 15; cbn [In]; tauto).
      unfold is_active in *. destruct (lo_full _ LO) as [E1|E1]; [|tauto]. destruct (lo_pad _ LO 135 ltac:(lia)) as [E2|E2]; [|tauto]. change (is_final lv = 0) in E2. rewrite E1, E2 in H.
      destruct (lo_full _ LN) as [E3|E3]; destruct (lo_pad _ LN 135 ltac:(lia)) as [E4|E4]; pose proof (lo_excl _ LN) as X;
        [change (is_final nv = 0) in E4|change (is_final nv = 1) in E4|change (is_final nv = 0) in E4|change (is_final nv = 1) in E4]; rewrite E3, E4 in *; try discriminate H; try tauto.
  Qed.

  Lemma read_meaning : meaning t.
  Proof. split; [exact read_local|]. split; [exact read_start|exact read_next]. Qed.

  Lemma read_counter : Z.of_nat (length t) < P ->
    ((0 < length t)%nat -> trow_at t 0 S_RANGE_COUNTER mod P = 0) /\
    (forall i, (S i < length t)%nat -> ((trow_at t (S i) S_RANGE_COUNTER - trow_at t i S_RANGE_COUNTER) * (trow_at t (S i) S_RANGE_COUNTER - trow_at t i S_RANGE_COUNTER) - (trow_at t (S i) S_RANGE_COUNTER - trow_at t i S_RANGE_COUNTER)) mod P = 0) /\
    ((0 < length t)%nat -> (trow_at t (length t - 1) S_RANGE_COUNTER - 255) mod P = 0).
  Proof.
    intros _. split; [|split].
    - intros L. apply read_first; [exact L|]. unfold eval_sponge. cbv zeta. at_seg 0. cbn [In]. tauto.
    - intros i L. apply (read_step i); [exact L|]. unfold eval_sponge. cbv zeta. at_seg 0. cbn [In]. tauto.
    - intros L. change 255 with (Z.of_nat (BYTE_RANGE_MAX - 1)). apply read_last; [exact L|]. unfold eval_sponge. cbv zeta. at_seg 0. cbn [In]. tauto.
  Qed.
End Read.

Lemma block_range : forall t, sponge_table_ok t -> 136 * Z.of_nat (length t) < P -> forall i j, (j < 136)%nat -> 0 <= block_byte (trow_at t i) j < 256.
Proof.
  intros t (HOLD & LOOK & CAN) SM i j Hj. destruct (Nat.lt_ge_cases i (length t)) as [L|L].
  - destruct (read_counter t HOLD ltac:(lia)) as (A & B & C).
    assert (R : 0 <= trow_at t i (S_BLOCK + j)%nat <= 255).
    { apply (logup_range t sp_cols S_RANGE_COUNTER S_RC_FREQUENCIES 255); try assumption.
      - unfold P. lia.
      - lia.
      - apply nth_In. exact L.
      - unfold sp_cols. apply in_seq. unfold KECCAK_RATE_BYTES. lia. }
    unfold block_byte. lia.
  - unfold block_byte, trow_at. rewrite nth_overflow by exact L. unfold zero_row. lia.
Qed.

(** * The other direction *)

Lemma zmod : forall a, a = 0 -> a mod P = 0.
Proof. intros a ->. reflexivity. Qed.

Lemma diff_mod : forall a b, a = b mod P -> (a - b) mod P = 0.
Proof. intros a b ->. rewrite Zminus_mod_idemp_l, Z.sub_diag. reflexivity. Qed.
Lemma diff_mod_l : forall a b, b = a mod P -> (a - b) mod P = 0.
Proof. intros a b ->. rewrite Zminus_mod_idemp_r, Z.sub_diag. reflexivity. Qed.

Lemma write_meaning : forall t, meaning t -> counter_ok t -> rows_hold eval_sponge t.
Proof.
  intros t (LOC & START & STEP) (C1 & C2 & C3) i L. set (n := length t) in *.
  assert (LO := LOC i L). set (lv := trow_at t i) in *.
  assert (ST : applies Transition i n = true -> tnext t i = trow_at t (S i) /\ step_ok lv (trow_at t (S i)) /\ local_ok (trow_at t (S i)) /\ (S i < n)%nat).
  { cbn [applies]. intros A. assert (S i < n)%nat by lia. split; [unfold tnext; fold n; rewrite Nat.mod_small by assumption; reflexivity|].
    split; [apply STEP; assumption|]. split; [apply LOC; assumption|assumption]. }
  assert (FI : applies First i n = true -> i = 0%nat) by (cbn [applies]; intros A; lia).
  assert (LA : applies Last i n = true -> i = (n - 1)%nat) by (cbn [applies]; intros A; lia).
  set (nv := tnext t i) in *. unfold eval_sponge. cbv zeta. change KECCAK_RATE_BYTES with 136%nat. change KECCAK_RATE_U32S with 34%nat. change KECCAK_CAPACITY_U32S with 16%nat. change KECCAK_DIGEST_U32S with 8%nat.
  change (136 - 1)%nat with 135%nat. change (136 - 2)%nat with 134%nat. change (34 - 8)%nat with 26%nat.
  assert (BF := lo_full _ LO). assert (BP := lo_pad _ LO). assert (BL : bit (is_final lv)) by (apply (BP 135%nat); lia).
  rewrite !Forall_app. repeat match goal with |- _ /\ _ => split end;
    try (rewrite Forall_map; apply Forall_forall; intros j Hj; apply in_seq in Hj; cbn [fst snd]; intros A).
  - repeat (apply Forall_cons); [..|apply Forall_nil]; cbn [fst snd]; intros A.
    + apply FI in A. unfold lv. rewrite A, C1 by lia. reflexivity.
    + destruct (ST A) as (-> & _ & _ & Hn). unfold lv. destruct (C2 i Hn) as [-> | ->]; reflexivity.
    + apply LA in A. unfold lv. rewrite A, C3 by lia. reflexivity.
    + destruct BF as [-> | ->]; reflexivity.
  - destruct (BP j ltac:(lia)) as [-> | ->]; reflexivity.
  - destruct j as [|j]; [lia|]. replace (S j - 1)%nat with j by lia. pose proof (lo_mono _ LO j ltac:(lia)) as M. destruct (BP j ltac:(lia)) as [-> | E]; [reflexivity|]. rewrite (M E). rewrite Z.sub_diag, Z.mul_0_r. reflexivity.
  - repeat (apply Forall_cons); [..|apply Forall_nil]; cbn [fst snd]; intros A.
    + pose proof (lo_excl _ LO) as X. destruct BL as [-> | E]; [reflexivity|]. destruct BF as [-> | E2]; [rewrite Z.mul_0_r; reflexivity|tauto].
    + apply FI in A. destruct (START ltac:(lia)) as (S1 & _). unfold lv. rewrite A, S1. reflexivity.
  - apply FI in A. destruct (START ltac:(lia)) as (_ & S1 & _). unfold lv. rewrite A, S1 by lia. reflexivity.
  - apply FI in A. destruct (START ltac:(lia)) as (_ & _ & S1). unfold lv. rewrite A, S1 by lia. reflexivity.
  - apply Forall_cons; [|apply Forall_nil]; cbn [fst snd]; intros A. destruct (ST A) as (-> & S1 & _). destruct BL as [-> | E]; [reflexivity|]. destruct (st_final _ _ S1 E) as (-> & _). rewrite Z.mul_0_r. reflexivity.
  - destruct (ST A) as (-> & S1 & _). destruct BL as [-> | E]; [reflexivity|]. destruct (st_final _ _ S1 E) as (_ & H & _). rewrite H by lia. rewrite Z.mul_0_r. reflexivity.
  - destruct (ST A) as (-> & S1 & _). destruct BL as [-> | E]; [reflexivity|]. destruct (st_final _ _ S1 E) as (_ & _ & H). rewrite H by lia. rewrite Z.mul_0_r. reflexivity.
  - repeat (apply Forall_cons); [..|apply Forall_nil]; cbn [fst snd]; intros A; destruct (ST A) as (-> & S1 & _); destruct BF as [-> | E]; try reflexivity;
      destruct (st_keep _ _ S1 E) as (K1 & K2 & K3 & K4); rewrite ?K1, ?K2, ?K3, ?K4, Z.sub_diag, Z.mul_0_r; reflexivity.
  - destruct (ST A) as (-> & S1 & _). destruct BF as [-> | E]; [reflexivity|]. rewrite E, Z.mul_1_l. apply diff_mod. pose proof (st_state _ _ S1 E j ltac:(lia)) as H. unfold state_in, state_out in H.
    replace (j <? 34)%nat with true in H by lia. replace (j <? 8)%nat with true in H by lia. exact H.
  - destruct (ST A) as (-> & S1 & _). destruct BF as [-> | E]; [reflexivity|]. rewrite E, Z.mul_1_l. apply diff_mod. pose proof (st_state _ _ S1 E (8 + j)%nat ltac:(lia)) as H. unfold state_in, state_out in H.
    replace (8 + j <? 34)%nat with true in H by lia. replace (8 + j <? 8)%nat with false in H by lia. replace (8 + j - 8)%nat with j in H by lia. exact H.
  - destruct (ST A) as (-> & S1 & _). destruct BF as [-> | E]; [reflexivity|]. rewrite E, Z.mul_1_l. apply diff_mod. pose proof (st_state _ _ S1 E (34 + j)%nat ltac:(lia)) as H. unfold state_in, state_out in H.
    replace (34 + j <? 34)%nat with false in H by lia. replace (34 + j <? 8)%nat with false in H by lia. replace (34 + j - 34)%nat with j in H by lia. replace (34 + j - 8)%nat with (26 + j)%nat in H by lia. exact H.
  - repeat (apply Forall_cons); [..|apply Forall_nil]; cbn [fst snd]; intros A; destruct (ST A) as (-> & S1 & _).
    + destruct BF as [-> | E]; [reflexivity|]. rewrite E, Z.mul_1_l. apply diff_mod_l. exact (st_absorbed _ _ S1 E).
    + unfold has_single_padding_byte. change (KECCAK_RATE_BYTES - 1)%nat with 135%nat. change (KECCAK_RATE_BYTES - 2)%nat with 134%nat. pose proof (st_pad _ _ S1 135%nat ltac:(lia)) as H. unfold pad_byte in H. cbn [Nat.eqb] in H.
      pose proof (lo_mono _ LO 134%nat ltac:(lia)) as M. destruct (BP 134%nat ltac:(lia)) as [E4|E4]; destruct (BP 135%nat ltac:(lia)) as [E5|E5]; rewrite E4, E5 in *; cbn [Z.eqb] in *; try reflexivity; try (specialize (M eq_refl); discriminate).
      rewrite H by reflexivity. reflexivity.
  - apply Forall_forall. intros c Hc. apply in_flat_map in Hc. destruct Hc as (j & Hj & Hc). apply in_seq in Hj.
    assert (H := fun A => st_pad _ _ (proj1 (proj2 (ST A))) j ltac:(lia)). unfold pad_byte in H. replace (j =? 135)%nat with false in H by lia.
    assert (Bj := BP j ltac:(lia)). cbn [In] in Hc. destruct Hc as [<- | [<- | []]]; cbn [fst snd]; intros A; specialize (H A); unfold is_first_padding_byte; destruct (Nat.ltb_spec 0 j) as [J|J]; cbn [andb] in H.
    + pose proof (lo_mono _ LO (j - 1)%nat ltac:(lia)) as M. replace (S (j - 1)) with j in M by lia.
      destruct (BP (j - 1)%nat ltac:(lia)) as [E1|E1]; rewrite E1 in *.
      * destruct Bj as [-> | E]; [reflexivity|]. rewrite (H E). cbn [Z.eqb]. rewrite Z.mul_0_r. reflexivity.
      * rewrite (M eq_refl). reflexivity.
    + destruct Bj as [-> | E]; [reflexivity|]. rewrite (H E). rewrite Z.mul_0_r. reflexivity.
    + destruct Bj as [-> | E]; [reflexivity|]. rewrite (H E), E. destruct (BP (j - 1)%nat ltac:(lia)) as [E1|E1]; rewrite E1; reflexivity.
    + destruct Bj as [-> | E]; [reflexivity|]. rewrite (H E), E. reflexivity.
  - repeat (apply Forall_cons); [..|apply Forall_nil]; cbn [fst snd]; intros A; destruct (ST A) as (-> & S1 & LN & _).
    + unfold has_single_padding_byte. change (KECCAK_RATE_BYTES - 1)%nat with 135%nat. change (KECCAK_RATE_BYTES - 2)%nat with 134%nat. pose proof (st_pad _ _ S1 135%nat ltac:(lia)) as H. unfold pad_byte in H. cbn [Nat.eqb] in H.
      destruct BL as [-> | E5]; [reflexivity|]. change (is_pad lv 135 = 1) in E5. rewrite (H E5), E5. unfold is_final. change (KECCAK_RATE_BYTES - 1)%nat with 135%nat. rewrite E5.
      destruct (BP 134%nat ltac:(lia)) as [-> | ->]; reflexivity.
    + pose proof (st_dummy _ _ S1) as H. unfold is_active in H. destruct BF as [E1|E1]; destruct BL as [E2|E2]; rewrite E1, E2 in *; try reflexivity; [|exfalso; apply (lo_excl _ LO); auto].
      assert (N : ~ (trow_at t (S i) S_FULL = 1 \/ is_final (trow_at t (S i)) = 1)) by (apply H; intros [X|X]; discriminate).
      destruct (lo_full _ LN) as [-> | E]; [|tauto]. destruct (lo_pad _ LN 135%nat ltac:(lia)) as [E|E]; [|exfalso; apply N; right; exact E].
      change (is_final (trow_at t (S i)) = 0) in E. rewrite E. reflexivity.
Qed.
