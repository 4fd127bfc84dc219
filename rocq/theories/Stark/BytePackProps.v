(** The byte packing table: C28, and its recursive evaluation for C51. *)
From Coq Require Import ZArith List Lia Bool Arith Znumtheory.
From Coq Require Import ZifyBool ZifyNat.
From Verif Require Import Stark.Field Stark.ArithModel Stark.LogicModel Stark.MemModel Stark.MemSound Stark.Lookup Stark.BytePackModel Stark.ArithGen Stark.LogicProps.
Import ListNotations.
Local Open Scope Z_scope.

(** * Specification *)

(** The big-endian value of a byte string. *)
Definition be_val (bytes : list Z) : Z := fold_left (fun a b => a * 256 + b) bytes 0.

(** A transfer of 1 to 32 bytes between a word and memory. *)
Definition valid_transfer (o : bp_op) : Prop :=
  (1 <= length (bp_bytes o) <= 32)%nat /\ Forall (fun b => 0 <= b < 256) (bp_bytes o).

(** What the CPU sees of it: the word is the big-endian value of the bytes. *)
Definition packed (o : bp_op) : list Z :=
  [b2z (bp_is_read o); bp_context o; bp_segment o; bp_virt o; Z.of_nat (length (bp_bytes o)); bp_timestamp o] ++ limbs32 (be_val (bp_bytes o)).

(** What memory sees of it: byte k is accessed at virtual address virt + k. *)
Definition accesses (o : bp_op) : list (list Z) :=
  map (fun k => [b2z (bp_is_read o); bp_context o; bp_segment o; bp_virt o + Z.of_nat k; nth k (bp_bytes o) 0; 0; 0; 0; 0; 0; 0; 0; bp_timestamp o])
    (seq 0 (length (bp_bytes o))).

(** The memory operations a row looks up. *)
Definition row_accesses (r : row) : list (list Z) :=
  map (fun i => bp_looking_memory i r) (filter (fun i => negb (bp_looking_memory_filter i r mod P =? 0)) (seq 0 32)).

(** * Sums of flags *)

Lemma sum_delta : forall (f : nat -> Z) k w l, NoDup l -> (forall i, In i l -> f i = if (i =? k)%nat then w else 0) ->
  sum (map f l) = if existsb (Nat.eqb k) l then w else 0.
Proof.
  intros f k w. induction l as [|a l IH]; intros ND H; [reflexivity|]. cbn [map existsb]. rewrite sum_cons. inversion ND as [|? ? NI ND']. subst.
  rewrite (IH ND' (fun i Hi => H i (or_intror Hi))), (H a (or_introl eq_refl)). rewrite (Nat.eqb_sym k a). destruct (Nat.eqb_spec a k) as [->|N]; [|cbn [orb]; ring].
  cbn [orb]. destruct (existsb (Nat.eqb k) l) eqn:E; [|ring]. exfalso. apply NI. apply existsb_exists in E. destruct E as (x & Hx & Ex). apply Nat.eqb_eq in Ex. congruence.
Qed.

Lemma in_seq_existsb : forall k s n, existsb (Nat.eqb k) (seq s n) = (s <=? k)%nat && (k <? s + n)%nat.
Proof.
  intros k s n. apply eq_true_iff_eq. rewrite existsb_exists. split.
  - intros (x & Hx & E). apply Nat.eqb_eq in E. subst x. apply in_seq in Hx. lia.
  - intros H. exists k. rewrite Nat.eqb_refl. split; [apply in_seq; lia|reflexivity].
Qed.

(** Bits summing to one have exactly one that is set. *)
Lemma one_flag : forall (f : nat -> Z) l, (forall i, In i l -> f i = 0 \/ f i = 1) -> NoDup l -> sum (map f l) = 1 ->
  exists k, In k l /\ forall i, In i l -> f i = if (i =? k)%nat then 1 else 0.
Proof.
  intros f. induction l as [|a l IH]; intros B ND S; [discriminate|]. cbn [map] in S. rewrite sum_cons in S. inversion ND as [|? ? NI ND']. subst.
  destruct (B a (or_introl eq_refl)) as [E|E].
  - destruct (IH (fun i Hi => B i (or_intror Hi)) ND' ltac:(lia)) as (k & Hk & F). exists k. split; [right; exact Hk|].
    intros i [<-|Hi]; [|apply F; exact Hi]. rewrite E. destruct (Nat.eqb_spec a k) as [->|]; [contradiction|reflexivity].
  - exists a. split; [left; reflexivity|]. intros i [<-|Hi]; [rewrite Nat.eqb_refl; exact E|].
    destruct (Nat.eqb_spec i a) as [->|]; [contradiction|].
    pose proof (sum_pos f l i (fun x Hx => ltac:(destruct (B x (or_intror Hx)); lia)) Hi). destruct (B i (or_intror Hi)); lia.
Qed.

Lemma no_flag : forall (f : nat -> Z) l, (forall i, In i l -> f i = 0 \/ f i = 1) -> sum (map f l) = 0 -> forall i, In i l -> f i = 0.
Proof.
  intros f l B S i Hi. pose proof (sum_pos f l i (fun x Hx => ltac:(destruct (B x Hx); lia)) Hi). destruct (B i Hi); lia.
Qed.

(** * Byte strings *)

Fixpoint le_val (l : list Z) : Z := match l with [] => 0 | b :: r => b + 256 * le_val r end.

Lemma le_val_app : forall a b, le_val (a ++ b) = le_val a + 256 ^ Z.of_nat (length a) * le_val b.
Proof. induction a as [|x a IH]; intros b; [cbn; destruct (le_val b); reflexivity|]. cbn [app le_val length]. rewrite IH, Nat2Z.inj_succ, Z.pow_succ_r by lia. ring. Qed.

Lemma be_val_rev : forall l, be_val (rev l) = le_val l.
Proof.
  intros l. unfold be_val. rewrite <- fold_left_rev_right, rev_involutive. induction l as [|b l IH]; [reflexivity|]. cbn [fold_right le_val]. rewrite IH. ring.
Qed.

Lemma le_val_bound : forall l, Forall (fun b => 0 <= b < 256) l -> 0 <= le_val l < 256 ^ Z.of_nat (length l).
Proof.
  induction l as [|b l IH]; intros H; [cbn; lia|]. inversion H. subst. specialize (IH H3). cbn [le_val length]. rewrite Nat2Z.inj_succ, Z.pow_succ_r by lia. lia.
Qed.

Lemma Forall_firstn' : forall {A} (Q : A -> Prop) n l, Forall Q l -> Forall Q (firstn n l).
Proof. intros A Q n l H. rewrite Forall_forall in *. intros x Hx. apply H. rewrite <- (firstn_skipn n l). apply in_or_app. left. exact Hx. Qed.
Lemma Forall_skipn' : forall {A} (Q : A -> Prop) n l, Forall Q l -> Forall Q (skipn n l).
Proof. intros A Q n l H. rewrite Forall_forall in *. intros x Hx. apply H. rewrite <- (firstn_skipn n l). apply in_or_app. right. exact Hx. Qed.

Lemma le_val_div : forall n l, Forall (fun b => 0 <= b < 256) l -> (n <= length l)%nat ->
  le_val l / 256 ^ Z.of_nat n = le_val (skipn n l) /\ le_val l mod 256 ^ Z.of_nat n = le_val (firstn n l).
Proof.
  intros n l H L. pose proof (le_val_bound _ (Forall_firstn' _ n _ H)) as B. rewrite firstn_length_le in B by exact L.
  assert (E : le_val l = le_val (firstn n l) + 256 ^ Z.of_nat n * le_val (skipn n l)).
  { rewrite <- (firstn_skipn n l) at 1. rewrite le_val_app, firstn_length_le by exact L. reflexivity. }
  split.
  - symmetry. apply Z.div_unique with (le_val (firstn n l)); [left; exact B|lia].
  - symmetry. apply Z.mod_unique with (le_val (skipn n l)); [left; exact B|lia].
Qed.

Lemma pow_256_32 : forall i : nat, 256 ^ Z.of_nat (4 * i) = 2 ^ (32 * Z.of_nat i).
Proof. intros i. change 256 with (2 ^ 8). rewrite <- Z.pow_mul_r by lia. f_equal. lia. Qed.

Lemma limbs_of_bytes : forall l, length l = 32%nat -> Forall (fun b => 0 <= b < 256) l ->
  limbs32 (le_val l) = map (fun i => le_val (firstn 4 (skipn (i * 4) l))) (seq 0 8).
Proof.
  intros l L H. unfold limbs32. apply map_ext_in. intros i Hi. apply in_seq in Hi.
  rewrite <- pow_256_32. rewrite (proj1 (le_val_div (4 * i) l H ltac:(lia))). rewrite (Nat.mul_comm 4 i).
  change (2 ^ 32) with (256 ^ Z.of_nat 4). rewrite (proj2 (le_val_div 4 (skipn (i * 4) l) (Forall_skipn' _ _ _ H) ltac:(rewrite skipn_length; lia))). reflexivity.
Qed.

Lemma le_val_zeros : forall n, le_val (repeat 0 n) = 0.
Proof. induction n as [|n IH]; [reflexivity|]. cbn [repeat le_val]. rewrite IH. reflexivity. Qed.

(** * Soundness *)

Definition lv_bytes (r : row) : list Z := map (value_byte r) (seq 0 32).

Lemma skipn_map : forall {A B} (f : A -> B) n l, skipn n (map f l) = map f (skipn n l).
Proof. intros A B f. induction n as [|n IH]; intros l; [reflexivity|]. destruct l; [reflexivity|]. cbn [skipn map]. apply IH. Qed.

Lemma limb_row : forall r i, (i < 8)%nat ->
  sum (map (fun j => 2 ^ Z.of_nat (8 * j) * value_byte r (i * 4 + j)) (seq 0 4)) = le_val (firstn 4 (skipn (i * 4) (lv_bytes r))).
Proof.
  intros r i Hi. unfold lv_bytes. rewrite skipn_map, firstn_map.
  assert (E : firstn 4 (skipn (i * 4) (seq 0 32)) = map (fun j => i * 4 + j)%nat (seq 0 4)).
  { do 8 (destruct i as [|i]; [reflexivity|]). lia. }
  rewrite E. cbn [seq map le_val sum fold_right]. set (a := (i * 4)%nat). cbn [Nat.mul Nat.add]. change (2 ^ Z.of_nat 0) with 1. change (2 ^ Z.of_nat 8) with 256.
  change (2 ^ Z.of_nat 16) with (256 * 256). change (2 ^ Z.of_nat 24) with (256 * 256 * 256). ring.
Qed.

Lemma rev_nth' : forall (l : list Z) k, (k < length l)%nat -> nth k (rev l) 0 = nth (length l - 1 - k) l 0.
Proof. intros l k H. rewrite rev_nth by exact H. f_equal. lia. Qed.

(** A row with a single length flag, byte cells, and zeros above the length. *)
Lemma row_meaning : forall r k, (k < 32)%nat ->
  (forall i, (i < 32)%nat -> index_len r i = if (i =? k)%nat then 1 else 0) ->
  (forall i, (i < 32)%nat -> 0 <= value_byte r i < 256) ->
  (forall i, (k < i < 32)%nat -> value_byte r i = 0) ->
  r B_IS_READ = 0 \/ r B_IS_READ = 1 ->
  let o := {| bp_is_read := r B_IS_READ =? 1; bp_context := r B_CONTEXT; bp_segment := r B_SEGMENT; bp_virt := r B_VIRTUAL;
              bp_timestamp := r B_TIMESTAMP; bp_bytes := rev (firstn (S k) (lv_bytes r)) |} in
  valid_transfer o /\ bp_looked_data r = packed o /\ rev (row_accesses r) = accesses o.
Proof.
  intros r k Hk IDX BYT ZER IR o.
  assert (LL : length (lv_bytes r) = 32%nat) by (unfold lv_bytes; rewrite map_length, seq_length; reflexivity).
  assert (LF : length (firstn (S k) (lv_bytes r)) = S k) by (rewrite firstn_length_le; lia).
  assert (LO : length (bp_bytes o) = S k) by (unfold o; cbn [bp_bytes]; rewrite rev_length; exact LF).
  assert (FB : Forall (fun b => 0 <= b < 256) (lv_bytes r)).
  { apply Forall_forall. intros b Hb. apply in_map_iff in Hb. destruct Hb as (i & <- & Hi). apply in_seq in Hi. apply BYT. lia. }
  assert (RD : b2z (bp_is_read o) = r B_IS_READ).
  { unfold o. cbn [bp_is_read]. destruct IR as [-> | ->]; reflexivity. }
  assert (SUMW : forall (w : nat -> Z) s n, (s + n <= 32)%nat -> sum (map (fun i => w i * index_len r i) (seq s n)) = if (s <=? k)%nat && (k <? s + n)%nat then w k else 0).
  { intros w s n B. rewrite (sum_delta _ k (w k)); [rewrite in_seq_existsb; reflexivity|apply seq_NoDup|].
    intros i Hi. apply in_seq in Hi. rewrite IDX by lia. destruct (Nat.eqb_spec i k) as [->|]; ring. }
  split; [|split].
  - split; [lia|]. unfold o. cbn [bp_bytes]. apply Forall_rev. apply Forall_firstn'. exact FB.
  - unfold bp_looked_data, packed. rewrite LO, RD. f_equal.
    + f_equal. f_equal. f_equal. f_equal. f_equal. unfold NUM_BYTES. rewrite (SUMW (fun i => Z.of_nat (i + 1))) by lia.
      replace ((0 <=? k)%nat && (k <? 0 + 32)%nat) with true by lia. lia.
    + unfold o. cbn [bp_bytes]. rewrite be_val_rev.
      assert (E : le_val (firstn (S k) (lv_bytes r)) = le_val (lv_bytes r)).
      { rewrite <- (firstn_skipn (S k) (lv_bytes r)) at 2. rewrite le_val_app.
        replace (skipn (S k) (lv_bytes r)) with (repeat 0 (32 - S k)); [rewrite le_val_zeros; ring|].
        unfold lv_bytes. rewrite skipn_map. apply (nth_ext _ _ 0 0); [rewrite repeat_length, map_length, skipn_length, seq_length; reflexivity|].
        intros n Hn. rewrite repeat_length in Hn. rewrite nth_repeat.
        assert (HS : skipn (S k) (seq 0 32) = seq (S k) (32 - S k)).
        { clear -Hk. do 32 (destruct k as [|k]; [reflexivity|]). lia. }
        rewrite HS. rewrite (nth_indep _ 0 (value_byte r 0)) by (rewrite map_length, seq_length; exact Hn). rewrite map_nth, seq_nth by exact Hn. symmetry. apply ZER. lia. }
      rewrite E, limbs_of_bytes by assumption. apply map_ext_in. intros i Hi. apply in_seq in Hi. apply limb_row. lia.
  - assert (FIL : filter (fun i => negb (bp_looking_memory_filter i r mod P =? 0)) (seq 0 32) = seq 0 (S k)).
    { assert (F : forall i, In i (seq 0 32) -> negb (bp_looking_memory_filter i r mod P =? 0) = (i <=? k)%nat).
      { intros i Hi. apply in_seq in Hi. unfold bp_looking_memory_filter, NUM_BYTES.
        pose proof (SUMW (fun _ => 1) i (32 - i)%nat ltac:(lia)) as S1.
        rewrite (map_ext _ (fun i => 1 * index_len r i)) by (intros; ring). rewrite S1. replace ((i <=? k)%nat && (k <? i + (32 - i))%nat) with (i <=? k)%nat by lia.
        destruct (i <=? k)%nat; reflexivity. }
      rewrite (filter_ext_in _ _ _ F). clear -Hk. do 32 (destruct k as [|k]; [reflexivity|]). lia. }
    unfold row_accesses. rewrite FIL, <- map_rev. unfold accesses. rewrite LO.
    assert (RS : rev (seq 0 (S k)) = map (fun j => k - j)%nat (seq 0 (S k))).
    { clear -Hk. do 32 (destruct k as [|k]; [reflexivity|]). lia. }
    rewrite RS, map_map. apply map_ext_in. intros j Hj. apply in_seq in Hj. unfold bp_looking_memory. rewrite RD.
    change (bp_context o) with (r B_CONTEXT). change (bp_segment o) with (r B_SEGMENT). change (bp_timestamp o) with (r B_TIMESTAMP). change (bp_virt o) with (r B_VIRTUAL).
    cbn [app repeat]. unfold NUM_BYTES. rewrite (SUMW Z.of_nat) by lia. replace ((0 <=? k)%nat && (k <? 0 + 32)%nat) with true by lia.
    f_equal. f_equal. f_equal. f_equal; [lia|]. f_equal.
    unfold o. cbn [bp_bytes]. rewrite rev_nth' by lia. rewrite LF.
    assert (NF : forall m, (m < S k)%nat -> nth m (firstn (S k) (lv_bytes r)) 0 = value_byte r m).
    { intros m Hm. transitivity (nth m (lv_bytes r) 0).
      - rewrite <- (firstn_skipn (S k) (lv_bytes r)) at 2. rewrite app_nth1 by lia. reflexivity.
      - unfold lv_bytes. rewrite (nth_indep _ 0 (value_byte r 0)) by (rewrite map_length, seq_length; lia). rewrite map_nth, seq_nth by lia. reflexivity. }
    rewrite NF by lia. f_equal. lia.
Qed.

Section Table.
  Variable t : list row.
  Hypothesis OK : bp_table_ok t.
  Hypothesis LEN : Z.of_nat (length t) <= 2^32.

  Lemma bp_holds : forall i k e, (i < length t)%nat -> In (k, e) (eval_byte_packing (trow_at t i) (tnext t i)) -> applies k i (length t) = true -> e mod P = 0.
  Proof.
    intros i k e Hi HI A. destruct OK as (H & _). specialize (H i Hi). rewrite Forall_forall in H. apply (H _ HI A).
  Qed.

  Lemma tnext_S : forall i, (S i < length t)%nat -> tnext t i = trow_at t (S i).
  Proof. intros i H. unfold tnext. rewrite Nat.mod_small by exact H. reflexivity. Qed.

  Lemma bp_bytes_range : forall r i, In r t -> (i < 32)%nat -> 0 <= value_byte r i < 256.
  Proof.
    intros r i Hr Hi. destruct OK as (_ & LOOK & CAN).
    pose proof (logup_range t bp_cols B_RANGE_COUNTER B_RC_FREQUENCIES 255 CAN LOOK) as R.
    assert (B : 0 <= r (B_VALUE + i)%nat <= 255); [|unfold value_byte; lia].
    apply R; [| | | | | |exact Hr|].
    - change (Z.of_nat (length bp_cols)) with 32. unfold P. lia.
    - unfold P. lia.
    - unfold P. lia.
    - intros L. apply (bp_holds 0 First); [exact L|left; reflexivity|reflexivity].
    - intros j Hj. rewrite <- (tnext_S j Hj). apply (bp_holds j Transition); [lia|right; left; reflexivity|]. cbn [applies]. lia.
    - intros L. apply (bp_holds (length t - 1) Last); [lia|right; right; left; reflexivity|]. cbn [applies]. lia.
    - unfold bp_cols, NUM_BYTES. apply in_seq. unfold B_VALUE. lia.
  Qed.

  Lemma bool_cell : forall x, canonical x -> (x * (x - 1)) mod P = 0 -> x = 0 \/ x = 1.
  Proof.
    intros x C H. unfold canonical in C. apply field_integral in H. destruct H as [H|H]; apply small_zero in H; unfold P in *; lia.
  Qed.

  Lemma sound_row : forall r, In r t ->
    (forall i, (i < 32)%nat -> bp_looking_memory_filter i r = 0 \/ bp_looking_memory_filter i r = 1) /\
    (bp_looked_filter r = 0 /\ row_accesses r = [] \/
     bp_looked_filter r = 1 /\ exists o, valid_transfer o /\ bp_looked_data r = packed o /\ rev (row_accesses r) = accesses o).
  Proof.
    intros r Hr. pose proof (fun i => bp_bytes_range r i Hr) as BYT. assert (Hr' := Hr). apply (In_nth _ _ zero_row) in Hr'. destruct Hr' as (n & Hn & En).
    fold (trow_at t n) in En.
    assert (CAN : forall c, canonical (r c)) by (destruct OK as (_ & _ & C); unfold canonical_rows in C; rewrite Forall_forall in C; apply C; exact Hr).
    assert (H : forall e, In (All, e) (eval_byte_packing r (tnext t n)) -> e mod P = 0).
    { intros e He. rewrite <- En in He. apply (bp_holds n All e Hn He). reflexivity. }
    set (nv := tnext t n) in *. clearbody nv. clear n Hn En.
    assert (IR : r B_IS_READ = 0 \/ r B_IS_READ = 1).
    { apply bool_cell; [apply CAN|]. apply H. unfold eval_byte_packing. do 5 right. left. reflexivity. }
    assert (IB : forall i, (i < 32)%nat -> index_len r i = 0 \/ index_len r i = 1).
    { intros i Hi. apply bool_cell; [apply CAN|]. apply H. unfold eval_byte_packing. apply in_or_app. right. apply in_or_app. left.
      apply in_map_iff. exists i. split; [reflexivity|]. apply in_seq. unfold NUM_BYTES. lia. }
    assert (IB' : forall i, In i (seq 0 32) -> index_len r i = 0 \/ index_len r i = 1) by (intros i Hi; apply in_seq in Hi; apply IB; lia).
    assert (FB : sum (map (index_len r) (seq 0 32)) = 0 \/ sum (map (index_len r) (seq 0 32)) = 1).
    { apply bool_cell.
      - pose proof (sum_bounds (index_len r) 1 (seq 0 32) (fun i Hi => ltac:(destruct (IB' i Hi); lia))) as B. rewrite seq_length in B. unfold canonical, P. lia.
      - apply H. unfold eval_byte_packing. do 3 right. left. reflexivity. }
    destruct FB as [F0|F1].
    - assert (Z0 : forall i, (i < 32)%nat -> index_len r i = 0) by (intros i Hi; apply (no_flag _ _ IB' F0); apply in_seq; lia).
      assert (MF : forall i, (i < 32)%nat -> bp_looking_memory_filter i r = 0).
      { intros i Hi. unfold bp_looking_memory_filter, NUM_BYTES. apply sum_all_zero. intros j Hj. apply in_seq in Hj. apply Z0. lia. }
      split; [left; apply MF; assumption|]. left. split; [exact F0|]. unfold row_accesses.
      rewrite (filter_ext_in _ (fun _ => false)); [cbn [seq filter map]; reflexivity|]. intros i Hi. apply in_seq in Hi. rewrite MF by lia. reflexivity.
    - destruct (one_flag _ _ IB' (seq_NoDup _ _) F1) as (k & Hk & IDX0). apply in_seq in Hk.
      assert (IDX : forall i, (i < 32)%nat -> index_len r i = if (i =? k)%nat then 1 else 0) by (intros i Hi; apply IDX0; apply in_seq; lia).
      split.
      + intros i Hi. unfold bp_looking_memory_filter, NUM_BYTES. rewrite (sum_delta _ k 1); [|apply seq_NoDup|].
        * destruct (existsb (Nat.eqb k) (seq i (32 - i))); auto.
        * intros j Hj. apply in_seq in Hj. apply IDX. lia.
      + right. split; [exact F1|]. eexists. apply row_meaning with (k := k); [lia|exact IDX|exact BYT| |exact IR].
        intros i Hi. assert (E : (index_len r k * value_byte r i) mod P = 0).
        { apply H. unfold eval_byte_packing. apply in_or_app. right. apply in_or_app. right. apply in_or_app. right.
          apply in_flat_map. exists k. split; [apply in_seq; unfold NUM_BYTES; lia|]. apply in_map_iff. exists i. split; [reflexivity|]. apply in_seq. unfold NUM_BYTES. lia. }
        rewrite IDX in E by lia. rewrite Nat.eqb_refl, Z.mul_1_l in E. apply canonical_zero; [apply CAN|exact E].
  Qed.
End Table.

(** C28: in an accepted table every row either is invisible to the CPU and to
    memory, or is a transfer: the CPU sees the big-endian word of 1 to 32
    bytes, and memory sees each byte exactly once, at its address. *)
Theorem C28_byte_packing_sound : forall t r, bp_table_ok t -> Z.of_nat (length t) <= 2^32 -> In r t ->
  (forall i, (i < 32)%nat -> bp_looking_memory_filter i r = 0 \/ bp_looking_memory_filter i r = 1) /\
  (bp_looked_filter r = 0 /\ row_accesses r = [] \/
   bp_looked_filter r = 1 /\ exists o, valid_transfer o /\ bp_looked_data r = packed o /\ rev (row_accesses r) = accesses o).
Proof. intros t r OK LEN. apply sound_row; assumption. Qed.
Print Assumptions C28_byte_packing_sound.

(** * Completeness *)

Definition row_for (o : bp_op) : row :=
  write (set (set (set (set (set (set zero_row B_IS_READ (b2z (bp_is_read o))) B_CONTEXT (bp_context o)) B_SEGMENT (bp_segment o)) B_VIRTUAL (bp_virt o))
    B_TIMESTAMP (bp_timestamp o)) (B_INDEX_LEN + (length (bp_bytes o) - 1)) 1) B_VALUE (rev (bp_bytes o)).

Lemma set_eq : forall r c v, set r c v c = v.
Proof. intros r c v. unfold set. rewrite write_in by (cbn [length]; lia). rewrite Nat.sub_diag. reflexivity. Qed.
Lemma set_neq : forall r c v d, d <> c -> set r c v d = r d.
Proof. intros r c v d H. unfold set. apply write_out. cbn [length]. lia. Qed.

Definition op_ok (o : bp_op) : Prop :=
  (length (bp_bytes o) <= 32)%nat /\ Forall (fun b => 0 <= b < 256) (bp_bytes o) /\
  canonical (bp_context o) /\ canonical (bp_segment o) /\ canonical (bp_virt o) /\ canonical (bp_timestamp o).
Definition nonempty (o : bp_op) : bool := negb (length (bp_bytes o) =? 0)%nat.

Section RowFor.
  Variable o : bp_op.
  Hypothesis OK : op_ok o.
  Hypothesis NE : nonempty o = true.

  Lemma lenb : (1 <= length (bp_bytes o) <= 32)%nat.
  Proof. destruct OK as (H & _). unfold nonempty in NE. lia. Qed.

  Ltac cell := unfold row_for; pose proof lenb; rewrite write_out by (rewrite rev_length; unfold B_IS_READ, B_CONTEXT, B_SEGMENT, B_VIRTUAL, B_TIMESTAMP, B_VALUE, B_INDEX_LEN in *; lia);
    repeat (rewrite set_neq by (unfold B_IS_READ, B_CONTEXT, B_SEGMENT, B_VIRTUAL, B_TIMESTAMP, B_VALUE, B_INDEX_LEN in *; lia)); try rewrite set_eq.
  Lemma rf_read : row_for o B_IS_READ = b2z (bp_is_read o). Proof. cell. reflexivity. Qed.
  Lemma rf_context : row_for o B_CONTEXT = bp_context o. Proof. cell. reflexivity. Qed.
  Lemma rf_segment : row_for o B_SEGMENT = bp_segment o. Proof. cell. reflexivity. Qed.
  Lemma rf_virtual : row_for o B_VIRTUAL = bp_virt o. Proof. cell. reflexivity. Qed.
  Lemma rf_timestamp : row_for o B_TIMESTAMP = bp_timestamp o. Proof. cell. reflexivity. Qed.
  Lemma rf_index : forall i, (i < 32)%nat -> index_len (row_for o) i = if (i =? length (bp_bytes o) - 1)%nat then 1 else 0.
  Proof.
    intros i Hi. unfold index_len. destruct (Nat.eqb_spec i (length (bp_bytes o) - 1)) as [->|N]; cell; reflexivity.
  Qed.
  Lemma rf_value : forall i, (i < 32)%nat -> value_byte (row_for o) i = nth i (rev (bp_bytes o)) 0.
  Proof.
    intros i Hi. unfold value_byte. destruct (Nat.lt_ge_cases i (length (bp_bytes o))) as [L|L].
    - unfold row_for. rewrite write_in by (rewrite rev_length; lia). f_equal. lia.
    - rewrite nth_overflow by (rewrite rev_length; exact L). cell. reflexivity.
  Qed.

  Lemma rf_canonical : forall c, canonical (row_for o c).
  Proof.
    intros c. destruct OK as (L & FB & C1 & C2 & C3 & C4). assert (Z0 : canonical 0) by (split; [discriminate|reflexivity]). assert (Z1 : canonical 1) by (split; [discriminate|reflexivity]).
    assert (W : forall r s vs, (forall c, canonical (r c)) -> Forall canonical vs -> forall c, canonical (write r s vs c)).
    { clear. intros r s vs H V c. unfold write. destruct ((s <=? c)%nat && (c <? s + length vs)%nat) eqn:E; [|apply H]. rewrite Forall_forall in V. apply V. apply nth_In. lia. }
    assert (Sg : forall r s v, (forall c, canonical (r c)) -> canonical v -> forall c, canonical (set r s v c)) by (intros; apply W; [assumption|constructor; [assumption|constructor]]).
    unfold row_for. apply W.
    - repeat (apply Sg; try assumption); [intros; exact Z0|destruct (bp_is_read o); assumption].
    - apply Forall_rev. revert FB. apply Forall_impl. intros b Hb. unfold canonical, P. lia.
  Qed.
End RowFor.

Lemma generate_row : forall o, op_ok o -> generate_row_for_op o = Some (row_for o).
Proof.
  intros o (L & _). unfold generate_row_for_op, NUM_BYTES. replace (length (bp_bytes o) <=? 32)%nat with true by lia. reflexivity.
Qed.

Lemma all_some_map : forall {A B} (f : A -> option B) (g : A -> B) l, (forall x, In x l -> f x = Some (g x)) -> all_some (map f l) = Some (map g l).
Proof.
  intros A B f g. induction l as [|a l IH]; intros H; [reflexivity|]. cbn [map all_some]. rewrite (H a (or_introl eq_refl)), IH by (intros; apply H; right; assumption). reflexivity.
Qed.

Lemma count_nonneg : forall v l, 0 <= count v l.
Proof.
  intros v l. unfold count. induction l as [|x l IH]; [cbn; lia|]. cbn [map]. rewrite sum_cons. pose proof (b2z_bounds (x =? v)). lia.
Qed.

Section Complete.
  Variable ops : list bp_op.
  Variable n : nat.
  Hypothesis OPS : Forall op_ok ops.
  Hypothesis NES : forall o, In o ops -> nonempty o = true.
  Hypothesis SOME : ops <> [].
  Hypothesis Hn : (length ops <= n)%nat.
  Hypothesis H256 : (256 <= n)%nat.

  Let rows : list row := map row_for ops ++ repeat zero_row (n - length ops).
  Let g (i : nat) : row :=
    set (set (trow_at rows i) B_RANGE_COUNTER (Z.of_nat (Nat.min i 255))) B_RC_FREQUENCIES
      ((if (i <=? 255)%nat then count (Z.of_nat i) (cells_in bp_cols rows) else 0) mod P).

  Lemma rows_length : length rows = n.
  Proof. unfold rows. rewrite app_length, map_length, repeat_length. lia. Qed.

  Lemma rows_at : forall i, (exists o, In o ops /\ nth_error ops i = Some o /\ trow_at rows i = row_for o) \/ (length ops <= i)%nat /\ trow_at rows i = zero_row.
  Proof.
    intros i. destruct (nth_error ops i) as [o|] eqn:E.
    - left. exists o. split; [apply (nth_error_In _ _ E)|]. split; [reflexivity|]. assert (L : (i < length ops)%nat) by (apply nth_error_Some; congruence).
      unfold trow_at, rows. rewrite app_nth1 by (rewrite map_length; exact L). rewrite (nth_indep _ zero_row (row_for o)) by (rewrite map_length; exact L). rewrite map_nth. f_equal. apply nth_error_nth. exact E.
    - right. apply nth_error_None in E. split; [exact E|]. unfold trow_at, rows. rewrite app_nth2 by (rewrite map_length; exact E). apply nth_repeat.
  Qed.

  Lemma g_cell : forall i c, (c < 69)%nat -> g i c = trow_at rows i c.
  Proof. intros i c H. unfold g. rewrite !set_neq by (unfold B_RC_FREQUENCIES, B_RANGE_COUNTER; lia). reflexivity. Qed.
  Lemma g_index : forall i j, (j < 32)%nat -> index_len (g i) j = index_len (trow_at rows i) j.
  Proof. intros i j H. apply g_cell. unfold B_INDEX_LEN. lia. Qed.
  Lemma g_value : forall i j, (j < 32)%nat -> value_byte (g i) j = value_byte (trow_at rows i) j.
  Proof. intros i j H. apply g_cell. unfold B_VALUE. lia. Qed.
  Lemma g_counter : forall i, g i B_RANGE_COUNTER = Z.of_nat (Nat.min i 255).
  Proof. intros i. unfold g. rewrite set_neq by discriminate. apply set_eq. Qed.

  Lemma op_in : forall o, In o ops -> op_ok o.
  Proof. rewrite Forall_forall in OPS. exact OPS. Qed.

  Lemma g_canonical : forall i c, canonical (g i c).
  Proof.
    intros i c. unfold g. destruct (Nat.eq_dec c B_RC_FREQUENCIES) as [->|N1].
    - rewrite set_eq. apply Z.mod_pos_bound. reflexivity.
    - rewrite set_neq by exact N1. destruct (Nat.eq_dec c B_RANGE_COUNTER) as [->|N2].
      + rewrite set_eq. unfold canonical, P. lia.
      + rewrite set_neq by exact N2. destruct (rows_at i) as [(o & Ho & _ & ->)|(_ & ->)]; [|split; [discriminate|reflexivity]].
        apply rf_canonical; first [apply op_in; exact Ho|apply NES; exact Ho].
  Qed.

  Lemma g_byte : forall i j, (j < 32)%nat -> 0 <= value_byte (g i) j < 256.
  Proof.
    intros i j Hj. rewrite g_value by exact Hj. destruct (rows_at i) as [(o & Ho & _ & ->)|(_ & ->)]; [|unfold value_byte, zero_row; lia].
    rewrite rf_value by (try apply op_in; try apply NES; assumption). destruct (op_in o Ho) as (_ & FB & _). apply Forall_rev in FB.
    destruct (Nat.lt_ge_cases j (length (rev (bp_bytes o)))) as [L|L]; [|rewrite nth_overflow by exact L; lia]. rewrite Forall_forall in FB. apply FB. apply nth_In. exact L.
  Qed.

  Lemma g_flag : forall i, (exists k, (k < 32)%nat /\ (i < length ops)%nat /\ (forall j, (j < 32)%nat -> index_len (g i) j = if (j =? k)%nat then 1 else 0) /\ forall j, (k < j < 32)%nat -> value_byte (g i) j = 0) \/
    ((length ops <= i)%nat /\ forall j, (j < 32)%nat -> index_len (g i) j = 0).
  Proof.
    intros i. destruct (rows_at i) as [(o & Ho & En & E)|(L & E)].
    - left. pose proof (lenb o (op_in o Ho) (NES o Ho)) as B. exists (length (bp_bytes o) - 1)%nat. split; [lia|]. split; [apply nth_error_Some; congruence|].
      split; intros j Hj; [rewrite g_index by exact Hj|rewrite g_value by lia]; rewrite E.
      + apply rf_index; [apply op_in; exact Ho|apply NES; exact Ho|exact Hj].
      + rewrite rf_value by (try apply op_in; try apply NES; try assumption; lia). apply nth_overflow. rewrite rev_length. lia.
    - right. split; [exact L|]. intros j Hj. rewrite g_index, E by exact Hj. reflexivity.
  Qed.

  Lemma g_sum : forall i, sum (map (index_len (g i)) (seq 0 32)) = if (i <? length ops)%nat then 1 else 0.
  Proof.
    intros i. destruct (g_flag i) as [(k & Hk & Hi & IDX & _)|(Hi & IDX)].
    - rewrite (sum_delta _ k 1); [|apply seq_NoDup|intros j Hj; apply in_seq in Hj; apply IDX; lia]. rewrite in_seq_existsb. replace ((0 <=? k)%nat && (k <? 0 + 32)%nat) with true by lia. replace (i <? length ops)%nat with true by lia. reflexivity.
    - rewrite sum_all_zero by (intros j Hj; apply in_seq in Hj; apply IDX; lia). replace (i <? length ops)%nat with false by lia. reflexivity.
  Qed.

  Lemma table_at : forall i, (i < n)%nat -> trow_at (map g (seq 0 n)) i = g i.
  Proof.
    intros i Hi. unfold trow_at. rewrite (nth_indep _ zero_row (g 0%nat)) by (rewrite map_length, seq_length; exact Hi). rewrite map_nth, seq_nth by exact Hi. reflexivity.
  Qed.

  Lemma g_constraints : rows_hold eval_byte_packing (map g (seq 0 n)).
  Proof.
    intros i Hi. rewrite map_length, seq_length in *. rewrite table_at by exact Hi. unfold tnext. rewrite map_length, seq_length.
    rewrite table_at by (apply Nat.mod_upper_bound; lia). set (nv := g (S i mod n)).
    assert (IB : forall j, (j < 32)%nat -> index_len (g i) j = 0 \/ index_len (g i) j = 1).
    { intros j Hj. destruct (g_flag i) as [(k & _ & _ & IDX & _)|(_ & IDX)]; rewrite IDX by exact Hj; [destruct (j =? k)%nat|]; auto. }
    assert (L1 : (0 < length ops)%nat) by (destruct ops; [congruence|cbn [length]; lia]).
    unfold eval_byte_packing. cbv zeta. change NUM_BYTES with 32%nat. rewrite !Forall_app. split; [|split; [|split]].
    - rewrite g_sum, g_counter. repeat (apply Forall_cons); [..|apply Forall_nil]; cbn [fst snd applies]; intros A.
      + replace i with 0%nat by lia. reflexivity.
      + unfold nv. rewrite Nat.mod_small by lia. rewrite g_counter. destruct (Nat.le_gt_cases (S i) 255).
        * rewrite !Nat.min_l by lia. replace (Z.of_nat (S i) - Z.of_nat i) with 1 by lia. reflexivity.
        * rewrite !Nat.min_r by lia. rewrite Z.sub_diag. reflexivity.
      + change (Z.of_nat (BYTE_RANGE_MAX - 1)) with 255. rewrite Nat.min_r by lia. reflexivity.
      + destruct (i <? length ops)%nat; reflexivity.
      + replace (i <? length ops)%nat with true by lia. reflexivity.
      + rewrite g_cell by (unfold B_IS_READ; lia). destruct (rows_at i) as [(o & Ho & _ & ->)|(_ & ->)]; [|reflexivity].
        rewrite rf_read by (try apply op_in; try apply NES; assumption). destruct (bp_is_read o); reflexivity.
    - rewrite Forall_map. apply Forall_forall. intros j Hj _. apply in_seq in Hj. cbn [snd]. destruct (IB j ltac:(unfold NUM_BYTES in *; lia)) as [-> | ->]; reflexivity.
    - apply Forall_cons; [|apply Forall_nil]. cbn [fst snd applies]. intros A. unfold nv, NUM_BYTES. rewrite Nat.mod_small by lia. rewrite !g_sum.
      destruct (Nat.ltb_spec (S i) (length ops)); [replace (i <? length ops)%nat with true by lia; reflexivity|reflexivity].
    - apply Forall_forall. intros c Hc _. apply in_flat_map in Hc. destruct Hc as (a & Ha & Hc). apply in_map_iff in Hc. destruct Hc as (b & <- & Hb). apply in_seq in Ha. apply in_seq in Hb. unfold NUM_BYTES in *. cbn [snd].
      destruct (g_flag i) as [(k & _ & _ & IDX & V)|(_ & IDX)]; rewrite IDX by lia; [|reflexivity].
      destruct (Nat.eqb_spec a k) as [->|]; [|reflexivity]. rewrite V by lia. reflexivity.
  Qed.

  Lemma cells_g : cells_in bp_cols (map g (seq 0 n)) = cells_in bp_cols rows.
  Proof.
    assert (E : rows = map (trow_at rows) (seq 0 n)).
    { apply (nth_ext _ _ zero_row zero_row); [rewrite map_length, seq_length; apply rows_length|]. intros i Hi. rewrite rows_length in Hi.
      rewrite (nth_indep (map _ _) zero_row (trow_at rows 0)) by (rewrite map_length, seq_length; exact Hi). rewrite map_nth, seq_nth by exact Hi. reflexivity. }
    transitivity (cells_in bp_cols (map (trow_at rows) (seq 0 n))); [|rewrite <- E; reflexivity]. clear E.
    unfold cells_in. induction (seq 0 n) as [|i l IH]; [reflexivity|]. cbn [map flat_map]. apply (f_equal2 (@app Z)); [|exact IH].
    apply map_ext_in. intros c Hc. apply g_cell. unfold bp_cols, B_VALUE, NUM_BYTES in Hc. apply in_seq in Hc. lia.
  Qed.

  Lemma g_logup : logup bp_cols B_RANGE_COUNTER B_RC_FREQUENCIES (map g (seq 0 n)).
  Proof.
    apply honest_logup with (M := 255%nat); [lia|intros i _; apply g_counter| |].
    - intros i _. rewrite cells_g. unfold g. rewrite set_eq. set (x := if (i <=? 255)%nat then _ else _). rewrite Zminus_mod_idemp_l, Z.sub_diag. reflexivity.
    - intros i c _ Hc. unfold bp_cols, NUM_BYTES, B_VALUE in Hc. apply in_seq in Hc. pose proof (g_byte i (c - 37) ltac:(lia)) as B. unfold value_byte, B_VALUE in B. replace (37 + (c - 37))%nat with c in B by lia. lia.
  Qed.

  Lemma g_ok : bp_table_ok (map g (seq 0 n)).
  Proof.
    split; [apply g_constraints|]. split; [apply g_logup|]. unfold canonical_rows. rewrite Forall_map. apply Forall_forall. intros i _ c. apply g_canonical.
  Qed.

  Lemma g_means : forall i o, nth_error ops i = Some o -> bp_looked_data (g i) = packed o /\ rev (row_accesses (g i)) = accesses o.
  Proof.
    intros i o E. destruct (rows_at i) as [(o' & Ho & En & Er)|(L & _)]; [|apply nth_error_None in L; congruence].
    assert (o' = o) by congruence. subst o'. pose proof (lenb o (op_in o Ho) (NES o Ho)) as B. pose proof (op_in o Ho) as OKo. pose proof (NES o Ho) as NEo.
    destruct (g_flag i) as [(k & Hk & _ & IDX & V)|(L & _)]; [|assert (i < length ops)%nat by (apply nth_error_Some; congruence); lia].
    assert (K : S k = length (bp_bytes o)).
    { pose proof (IDX k Hk) as I1. rewrite g_index, Er, rf_index in I1 by assumption. rewrite Nat.eqb_refl in I1. destruct (Nat.eqb_spec k (length (bp_bytes o) - 1)); [lia|discriminate]. }
    assert (G : forall c, (c < 69)%nat -> g i c = row_for o c) by (intros c Hc; rewrite g_cell, Er by exact Hc; reflexivity).
    pose proof (row_meaning (g i) k Hk IDX (g_byte i) V) as M.
    assert (IR : g i B_IS_READ = b2z (bp_is_read o)) by (rewrite G by (unfold B_IS_READ; lia); apply rf_read; assumption).
    specialize (M ltac:(rewrite IR; destruct (bp_is_read o); auto)). cbv zeta in M.
    assert (LB : rev (firstn (S k) (lv_bytes (g i))) = bp_bytes o).
    { rewrite <- (rev_involutive (bp_bytes o)). f_equal. assert (LL : length (lv_bytes (g i)) = 32%nat) by (unfold lv_bytes; rewrite map_length, seq_length; reflexivity).
      apply (nth_ext _ _ 0 0); [rewrite firstn_length_le, rev_length; lia|]. intros j Hj. rewrite firstn_length_le in Hj by lia.
      transitivity (nth j (lv_bytes (g i)) 0).
      - rewrite <- (firstn_skipn (S k) (lv_bytes (g i))) at 2. rewrite app_nth1 by (rewrite firstn_length_le; lia). reflexivity.
      - unfold lv_bytes. rewrite (nth_indep _ 0 (value_byte (g i) 0)) by (rewrite map_length, seq_length; lia). rewrite map_nth, seq_nth by lia.
        rewrite g_value, Er by lia. apply rf_value; [assumption|assumption|lia]. }
    rewrite LB in M. rewrite (G B_CONTEXT), (G B_SEGMENT), (G B_VIRTUAL), (G B_TIMESTAMP), IR in M by (unfold B_CONTEXT, B_SEGMENT, B_VIRTUAL, B_TIMESTAMP; lia).
    rewrite rf_context, rf_segment, rf_virtual, rf_timestamp in M by assumption.
    assert (EO : {| bp_is_read := b2z (bp_is_read o) =? 1; bp_context := bp_context o; bp_segment := bp_segment o; bp_virt := bp_virt o; bp_timestamp := bp_timestamp o; bp_bytes := bp_bytes o |} = o).
    { destruct o as [b ? ? ? ? ?]. cbn. destruct b; reflexivity. }
    rewrite EO in M. tauto.
  Qed.

  Lemma g_visible : filter (fun r => negb (bp_looked_filter r mod P =? 0)) (map g (seq 0 n)) = map g (seq 0 (length ops)).
  Proof.
    replace n with (length ops + (n - length ops))%nat at 1 by lia. rewrite seq_app, map_app, filter_app.
    assert (A : forall l, (forall i, In i l -> (i < length ops)%nat) -> filter (fun r => negb (bp_looked_filter r mod P =? 0)) (map g l) = map g l).
    { induction l as [|i l IH]; intros H; [reflexivity|]. cbn [map filter]. unfold bp_looked_filter at 1. unfold NUM_BYTES. rewrite g_sum.
      replace (i <? length ops)%nat with true by (specialize (H i (or_introl eq_refl)); lia). cbn [negb]. replace (1 mod P =? 0) with false by reflexivity. cbn [negb]. rewrite IH by (intros; apply H; right; assumption). reflexivity. }
    assert (B : forall l, (forall i, In i l -> (length ops <= i)%nat) -> filter (fun r => negb (bp_looked_filter r mod P =? 0)) (map g l) = []).
    { induction l as [|i l IH]; intros H; [reflexivity|]. cbn [map filter]. unfold bp_looked_filter at 1. unfold NUM_BYTES. rewrite g_sum.
      replace (i <? length ops)%nat with false by (specialize (H i (or_introl eq_refl)); lia). replace (0 mod P =? 0) with true by reflexivity. cbn [negb]. apply IH. intros; apply H; right; assumption. }
    rewrite A, B, app_nil_r; [reflexivity| |]; intros i Hi; apply in_seq in Hi; lia.
  Qed.

  Lemma g_generated : bp_generate_range_checks rows = Some (map g (seq 0 n)).
  Proof.
    unfold bp_generate_range_checks. replace (forallb _ rows) with true; [rewrite rows_length; reflexivity|].
    symmetry. apply forallb_forall. intros r Hr. apply forallb_forall. intros c Hc. apply (In_nth _ _ zero_row) in Hr. destruct Hr as (i & Hi & <-). fold (trow_at rows i).
    unfold bp_cols, NUM_BYTES, B_VALUE in Hc. apply in_seq in Hc. pose proof (g_byte i (c - 37) ltac:(lia)) as B. rewrite g_value in B by lia. unfold value_byte, B_VALUE in B. replace (37 + (c - 37))%nat with c in B by lia.
    change (Z.of_nat BYTE_RANGE_MAX) with 256. lia.
  Qed.
End Complete.

(** C28, completeness: the generated table is accepted and shows exactly the
    non-empty transfers, provided there is one. *)
Theorem C28_byte_packing_complete : forall ops min_rows, Forall op_ok ops -> existsb nonempty ops = true ->
  exists t, bp_generate_trace ops min_rows = Some t /\ bp_table_ok t /\ (exists k, length t = Nat.pow 2 k) /\ (min_rows <= length t)%nat /\
    map bp_looked_data (filter (fun r => negb (bp_looked_filter r mod P =? 0)) t) = map packed (filter nonempty ops) /\
    map (fun r => rev (row_accesses r)) (filter (fun r => negb (bp_looked_filter r mod P =? 0)) t) = map accesses (filter nonempty ops).
Proof.
  intros ops min_rows OK EX. unfold bp_generate_trace, bp_generate_trace_rows. cbv zeta.
  destruct (next_power_of_two_spec (Nat.max (Nat.max (length ops) BYTE_RANGE_MAX) min_rows)) as [L K].
  set (n := next_power_of_two _) in *. clearbody n.
  change (fun o : bp_op => negb (length (bp_bytes o) =? 0)%nat) with nonempty.
  set (fo := filter nonempty ops) in *.
  assert (FOK : Forall op_ok fo) by (apply Forall_forall; intros o Ho; apply filter_In in Ho; rewrite Forall_forall in OK; apply OK; tauto).
  assert (FNE : forall o, In o fo -> nonempty o = true) by (intros o Ho; apply filter_In in Ho; tauto).
  assert (FS : fo <> []).
  { apply existsb_exists in EX. destruct EX as (o & Ho & En). intros E. assert (I : In o fo) by (apply filter_In; auto). rewrite E in I. destruct I. }
  assert (FL : (length fo <= length ops)%nat) by (unfold fo; clear; induction ops as [|o l IH]; [reflexivity|]; cbn [filter]; destruct (nonempty o); cbn [length]; lia).
  rewrite (all_some_map _ row_for) by (intros o Ho; apply generate_row; rewrite Forall_forall in FOK; apply FOK; exact Ho). rewrite map_length.
  assert (H1 : (length fo <= n)%nat) by lia. assert (H2 : (256 <= n)%nat) by (change 256%nat with BYTE_RANGE_MAX; lia). clearbody fo.
  rewrite g_generated by assumption. eexists. split; [reflexivity|]. split; [apply g_ok; assumption|].
  split; [rewrite map_length, seq_length; exact K|]. split; [rewrite map_length, seq_length; lia|].
  rewrite g_visible by assumption.
  assert (R : forall (B : Type) (f : row -> B) (h : bp_op -> B) (g : nat -> row), (forall i o, nth_error fo i = Some o -> f (g i) = h o) -> map f (map g (seq 0 (length fo))) = map h fo).
  { clear. intros B f h. induction fo as [|o l IH]; intros g H; [reflexivity|]. cbn [length seq map]. f_equal; [apply H; reflexivity|].
    rewrite <- seq_shift. rewrite (map_map S g). apply (IH (fun i => g (S i))). intros i o' E. apply H. exact E. }
  split; apply R; intros i o E; apply (g_means fo n FOK FNE) in E; tauto.
Qed.
Print Assumptions C28_byte_packing_complete.

Definition op3 : bp_op := {| bp_is_read := true; bp_context := 2; bp_segment := 5; bp_virt := 100; bp_timestamp := 9; bp_bytes := [1; 2; 255] |}.
Definition op0 : bp_op := {| bp_is_read := false; bp_context := 0; bp_segment := 0; bp_virt := 0; bp_timestamp := 0; bp_bytes := [] |}.
Example C28_example : Forall op_ok [op0; op3] /\ existsb nonempty [op0; op3] = true /\
  packed op3 = [1; 2; 5; 100; 3; 9; 66303; 0; 0; 0; 0; 0; 0; 0] /\
  accesses op3 = [[1; 2; 5; 100; 1; 0; 0; 0; 0; 0; 0; 0; 9]; [1; 2; 5; 101; 2; 0; 0; 0; 0; 0; 0; 0; 9]; [1; 2; 5; 102; 255; 0; 0; 0; 0; 0; 0; 0; 9]].
Proof.
  split; [|split; [reflexivity|split; vm_compute; reflexivity]].
  repeat constructor; cbn; lia || discriminate.
Qed.

(** Without a non-empty transfer the generated table is not accepted: the
    constraint on the first row's filter fails. *)
Theorem C28_no_transfer_refuted : exists t, bp_generate_trace [] 0 = Some t /\ ~ bp_table_ok t.
Proof.
  destruct (bp_generate_trace [] 0) as [t|] eqn:E; [|exfalso; revert E; vm_compute; discriminate].
  exists t. split; [reflexivity|]. intros (H & _).
  assert (F : nth_error (map (fun r : row => (sum (map (index_len r) (seq 0 32)) - 1) mod P =? 0) t) 0 = Some false /\ length t = 256%nat).
  { assert (X : option_map (fun t => (nth_error (map (fun r : row => (sum (map (index_len r) (seq 0 32)) - 1) mod P =? 0) t) 0, length t)) (bp_generate_trace [] 0) = Some (Some false, 256%nat)) by (vm_compute; reflexivity).
    rewrite E in X. cbn [option_map] in X. injection X. auto. }
  destruct F as [F L]. destruct t as [|r t]; [discriminate|]. cbn [map nth_error] in F. injection F. intros F1.
  specialize (H 0%nat ltac:(cbn [length]; lia)). rewrite Forall_forall in H.
  specialize (H (First, sum (map (index_len r) (seq 0 NUM_BYTES)) - 1)). cbn [fst snd] in H.
  rewrite Z.eqb_neq in F1. apply F1. apply H; [|reflexivity]. unfold eval_byte_packing. do 4 right. left. reflexivity.
Qed.
Print Assumptions C28_no_transfer_refuted.

(** * The recursive verifier's evaluation (C51) *)

Lemma same_app : forall a b c d, same_constraints a b -> same_constraints c d -> same_constraints (a ++ c) (b ++ d).
Proof. intros. apply Forall2_app; assumption. Qed.
Lemma add_many : forall l, add_many_extension l = sum l.
Proof.
  intros l. unfold add_many_extension. enough (H : forall a, fold_left add_extension l a = a + sum l) by (rewrite H; ring).
  induction l as [|x l IH]; intros a; [cbn; ring|]. cbn [fold_left]. rewrite IH, sum_cons. unfold add_extension. ring.
Qed.

Theorem C51_byte_packing_circuit : forall lv nv, same_constraints (eval_byte_packing lv nv) (eval_byte_packing_circuit lv nv).
Proof.
  intros lv nv. unfold eval_byte_packing, eval_byte_packing_circuit. cbv zeta. rewrite !add_many.
  apply same_app; [|apply same_app; [|apply same_app]].
  - repeat (apply Forall2_cons); [..|apply Forall2_nil]; (split; [reflexivity|]); cbn [fst snd]; unfold mul_sub_extension, sub_extension, add_const_extension.
    1,2,3,4,6: apply zero_mod; ring.
    set (x := sum _). clearbody x. change (neg 1) with (P - 1). replace (x - 1 - (x + (P - 1))) with (- 1 * P) by ring. apply Z.mod_mul. discriminate.
  - apply same_map. intros i _. split; [reflexivity|]. apply zero_mod. cbn [snd]. unfold mul_sub_extension. ring.
  - constructor; [|constructor]. split; [reflexivity|]. apply zero_mod. reflexivity.
  - induction (seq 0 (NUM_BYTES - 1)) as [|i l IH]; [constructor|]. cbn [flat_map]. apply same_app; [|exact IH].
    apply same_map. intros j _. split; [reflexivity|]. apply zero_mod. reflexivity.
Qed.
Print Assumptions C51_byte_packing_circuit.
