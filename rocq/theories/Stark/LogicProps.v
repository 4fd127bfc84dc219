(** The logic table computes AND, OR and XOR: C25. *)
From Coq Require Import ZArith List Lia Bool Arith.
From Coq Require Import ZifyBool ZifyNat.
From Verif Require Import Stark.Field Stark.ArithModel Stark.LogicModel.
Import ListNotations.
Local Open Scope Z_scope.

(** * Specification *)

(** The little-endian 32-bit limbs of a 256-bit integer. *)
Definition limbs32 (x : Z) : list Z := map (fun i => (x / 2 ^ (32 * Z.of_nat i)) mod 2^32) (seq 0 8).

(** What the CPU has to find for an operation: its EVM opcode, its operands
    and the bitwise result. *)
Definition bitop (op : logic_op) : bool -> bool -> bool :=
  match op with LAnd => andb | LOr => orb | LXor => xorb end.
Definition evm_opcode (op : logic_op) : Z := match op with LAnd => 0x16 | LOr => 0x17 | LXor => 0x18 end.

(** [c] is the bitwise combination of [a] and [b]. *)
Definition is_bitwise (f : bool -> bool -> bool) (a b c : Z) : Prop :=
  0 <= c < 2^256 /\ forall i, 0 <= i -> Z.testbit c i = f (Z.testbit a i) (Z.testbit b i).

Definition lword (a : Z) : Prop := 0 <= a < 2^256.

Definition shows (v : list Z) (op : logic_op) (a b : Z) : Prop :=
  exists c, is_bitwise (bitop op) a b c /\ v = evm_opcode op :: limbs32 a ++ limbs32 b ++ limbs32 c.

(** * Lists of bits *)

Fixpoint bits_val (l : list bool) : Z := match l with [] => 0 | b :: r => b2z b + 2 * bits_val r end.
Fixpoint zipb (f : bool -> bool -> bool) (l m : list bool) : list bool :=
  match l, m with x :: l', y :: m' => f x y :: zipb f l' m' | _, _ => [] end.

Lemma bits_val_bound : forall l, 0 <= bits_val l < 2 ^ Z.of_nat (length l).
Proof.
  induction l as [|b l IH]; [cbn; lia|]. cbn [bits_val length]. rewrite Nat2Z.inj_succ, Z.pow_succ_r by lia. destruct b; cbn [b2z]; lia.
Qed.

Lemma bits_val_skipn : forall k l, bits_val (skipn k l) = bits_val l / 2 ^ Z.of_nat k.
Proof.
  induction k as [|k IH]; intros l; [cbn [skipn]; rewrite Z.div_1_r; reflexivity|].
  destruct l as [|b l]; [cbn [skipn bits_val]; rewrite Z.div_0_l by (apply Z.pow_nonzero; lia); reflexivity|].
  cbn [skipn bits_val]. rewrite IH, Nat2Z.inj_succ, Z.pow_succ_r by lia. rewrite <- Z.div_div by (try apply Z.pow_pos_nonneg; lia). f_equal.
  apply Z.div_unique with (b2z b); destruct b; cbn [b2z]; lia.
Qed.

Lemma bits_val_firstn : forall k l, bits_val (firstn k l) = bits_val l mod 2 ^ Z.of_nat k.
Proof.
  induction k as [|k IH]; intros l; [cbn [firstn bits_val]; rewrite Z.mod_1_r; reflexivity|].
  destruct l as [|b l]; [cbn [firstn bits_val]; rewrite Z.mod_0_l by (apply Z.pow_nonzero; lia); reflexivity|].
  cbn [firstn bits_val]. rewrite IH, Nat2Z.inj_succ, Z.pow_succ_r by lia.
  assert (0 < 2 ^ Z.of_nat k) by (apply Z.pow_pos_nonneg; lia). set (q := 2 ^ Z.of_nat k) in *. clearbody q.
  apply Z.mod_unique with (bits_val l / q).
  - left. pose proof (Z.mod_pos_bound (bits_val l) q ltac:(lia)). destruct b; cbn [b2z]; lia.
  - pose proof (Z.div_mod (bits_val l) q ltac:(lia)). nia.
Qed.

Lemma bits_val_testbit : forall l i, Z.testbit (bits_val l) (Z.of_nat i) = nth i l false.
Proof.
  induction l as [|b l IH]; intros i; [cbn [bits_val]; rewrite Z.bits_0; destruct i; reflexivity|].
  cbn [bits_val]. destruct i as [|i].
  - cbn [nth]. change (Z.of_nat 0) with 0. replace (b2z b + 2 * bits_val l) with (2 * bits_val l + Z.b2z b) by (destruct b; cbn [b2z Z.b2z]; ring). apply Z.testbit_0_r.
  - cbn [nth]. rewrite Nat2Z.inj_succ. replace (b2z b + 2 * bits_val l) with (2 * bits_val l + Z.b2z b) by (destruct b; cbn [b2z Z.b2z]; ring).
    rewrite Z.testbit_succ_r by lia. apply IH.
Qed.

Lemma bits_of_val : forall n x, 0 <= x < 2 ^ Z.of_nat n -> bits_val (map (fun i => Z.testbit x (Z.of_nat i)) (seq 0 n)) = x.
Proof.
  intros n x Hx. apply Z.bits_inj'. intros i Hi. rewrite <- (Z2Nat.id i) by exact Hi. rewrite bits_val_testbit.
  destruct (le_lt_dec n (Z.to_nat i)) as [L|L].
  - rewrite nth_overflow by (rewrite map_length, seq_length; exact L). symmetry.
    destruct (Z.eq_dec x 0) as [->|N]; [apply Z.bits_0|]. apply Z.bits_above_log2; [lia|]. apply Z.log2_lt_pow2; [lia|].
    apply Z.lt_le_trans with (2 ^ Z.of_nat n); [lia|]. apply Z.pow_le_mono_r; lia.
  - set (g := fun i : nat => Z.testbit x (Z.of_nat i)). rewrite (nth_indep _ false (g 0%nat)) by (rewrite map_length, seq_length; exact L).
    rewrite (map_nth g), seq_nth by exact L. reflexivity.
Qed.

Lemma zipb_length : forall f l m, length l = length m -> length (zipb f l m) = length l.
Proof. induction l as [|x l IH]; destruct m; intros H; cbn in *; try lia. f_equal. apply IH. lia. Qed.
Lemma zipb_skipn : forall f k l m, skipn k (zipb f l m) = zipb f (skipn k l) (skipn k m).
Proof. induction k as [|k IH]; [reflexivity|]. destruct l as [|x l], m as [|y m]; cbn [skipn zipb]; try reflexivity; [destruct (skipn k l); reflexivity|apply IH]. Qed.
Lemma zipb_firstn : forall f k l m, firstn k (zipb f l m) = zipb f (firstn k l) (firstn k m).
Proof. induction k as [|k IH]; [reflexivity|]. destruct l as [|x l], m as [|y m]; cbn [firstn zipb]; try reflexivity. f_equal. apply IH. Qed.
Lemma zipb_nth : forall f l m i, f false false = false -> length l = length m -> nth i (zipb f l m) false = f (nth i l false) (nth i m false).
Proof.
  induction l as [|x l IH]; destruct m as [|y m]; intros i F H; cbn in H; try lia; [destruct i; cbn; rewrite F; reflexivity|].
  destruct i as [|i]; cbn [zipb nth]; [reflexivity|]. apply IH; [exact F|lia].
Qed.

Lemma bitop_false : forall op, bitop op false false = false.
Proof. destruct op; reflexivity. Qed.

Lemma zip_bitwise : forall op l m, length l = 256%nat -> length m = 256%nat ->
  is_bitwise (bitop op) (bits_val l) (bits_val m) (bits_val (zipb (bitop op) l m)).
Proof.
  intros op l m Hl Hm. split.
  - pose proof (bits_val_bound (zipb (bitop op) l m)) as B. rewrite zipb_length, Hl in B by congruence. exact B.
  - intros i Hi. rewrite <- (Z2Nat.id i) by exact Hi. rewrite !bits_val_testbit. apply zipb_nth; [apply bitop_false|congruence].
Qed.

(** The linear combination of the constraint is the bitwise operation. *)
Lemma combine_bits : forall l m, length l = length m ->
  bits_val (zipb orb l m) = bits_val l + bits_val m - bits_val (zipb andb l m) /\
  bits_val (zipb xorb l m) = bits_val l + bits_val m - 2 * bits_val (zipb andb l m).
Proof.
  induction l as [|x l IH]; destruct m as [|y m]; intros H; cbn in H; try lia; [split; reflexivity|].
  destruct (IH m ltac:(lia)) as [A B]. cbn [zipb bits_val]. rewrite A, B. destruct x, y; cbn [b2z orb andb xorb]; split; ring.
Qed.

(** * Cells that are bits *)

Definition cell_bits (r : row) (start n : nat) : list bool := map (fun c => r c =? 1) (seq start n).

Definition boolean_on (r : row) (start n : nat) : Prop := forall c, (start <= c < start + n)%nat -> r c = 0 \/ r c = 1.

Lemma cells_b2z : forall r start n, boolean_on r start n -> read_value n r start = map b2z (cell_bits r start n).
Proof.
  intros r start n H. unfold read_value, cell_bits. rewrite map_map. apply map_ext_in. intros c Hc. apply in_seq in Hc.
  destruct (H c ltac:(lia)) as [E|E]; rewrite E; reflexivity.
Qed.

Lemma cell_bits_chunk : forall r start n i k, (i + k <= n)%nat -> cell_bits r (start + i) k = firstn k (skipn i (cell_bits r start n)).
Proof.
  intros r start n i k H. unfold cell_bits. rewrite skipn_map, firstn_map. f_equal.
  assert (G : forall i n s, (i <= n)%nat -> skipn i (seq s n) = seq (s + i) (n - i)).
  { induction i0 as [|i0 IH]; intros m s L; [cbn [skipn]; f_equal; lia|]. destruct m as [|m]; [lia|]. cbn [seq skipn]. rewrite IH by lia. f_equal; lia. }
  assert (G2 : forall k n s, (k <= n)%nat -> firstn k (seq s n) = seq s k).
  { induction k0 as [|k0 IH]; intros m s L; [reflexivity|]. destruct m as [|m]; [lia|]. cbn [seq firstn]. f_equal. apply IH. lia. }
  rewrite G by lia. rewrite G2 by lia. reflexivity.
Qed.

Lemma limb_from_b2z : forall l i, 0 <= i -> limb_from_bits i (map b2z l) = 2 ^ i * bits_val l.
Proof.
  induction l as [|b l IH]; intros i Hi; cbn [map limb_from_bits bits_val]; [ring|]. rewrite IH, Z.pow_add_r by lia. change (2 ^ 1) with 2. ring.
Qed.

Lemma land_from_b2z : forall l m i, 0 <= i -> land_from_bits i (map b2z l) (map b2z m) = 2 ^ i * bits_val (zipb andb l m).
Proof.
  induction l as [|x l IH]; destruct m as [|y m]; intros i Hi; cbn [map land_from_bits zipb bits_val]; try ring.
  rewrite IH, Z.pow_add_r by lia. change (2 ^ 1) with 2. destruct x, y; cbn [b2z andb]; ring.
Qed.

Lemma limb_chunk : forall r start i, boolean_on r start 256 -> (i < 8)%nat ->
  chunk r start i = map b2z (firstn 32 (skipn (32 * i) (cell_bits r start 256))).
Proof.
  intros r start i H Hi. unfold chunk, PACKED_LIMB_BITS. rewrite cells_b2z by (intros c Hc; apply H; lia). f_equal. apply cell_bits_chunk. lia.
Qed.

Lemma limb_value : forall l i, bits_val (firstn 32 (skipn (32 * i) l)) = (bits_val l / 2 ^ (32 * Z.of_nat i)) mod 2^32.
Proof. intros l i. rewrite bits_val_firstn, bits_val_skipn. do 2 f_equal. f_equal. lia. Qed.

Lemma ctl_limbs : forall r start, boolean_on r start 256 ->
  map (fun i => limb_from_bits_le (chunk r start i)) (seq 0 PACKED_LEN) = limbs32 (bits_val (cell_bits r start 256)).
Proof.
  intros r start H. unfold limbs32, PACKED_LEN. apply map_ext_in. intros i Hi. apply in_seq in Hi.
  rewrite limb_chunk by (assumption || lia). unfold limb_from_bits_le. rewrite limb_from_b2z by lia. rewrite limb_value. ring.
Qed.

(** The three flag patterns. *)
Definition flag_of (op : logic_op) : nat := match op with LAnd => L_IS_AND | LOr => L_IS_OR | LXor => L_IS_XOR end.
Definition flags_are (r : row) (op : logic_op) : Prop :=
  r L_IS_AND = b2z (match op with LAnd => true | _ => false end) /\
  r L_IS_OR = b2z (match op with LOr => true | _ => false end) /\
  r L_IS_XOR = b2z (match op with LXor => true | _ => false end).

(** The value of the polynomial of result limb i on a row with flags of [op]. *)
Lemma limb_result : forall r op i, flags_are r op -> boolean_on r L_INPUT0 256 -> boolean_on r L_INPUT1 256 -> (i < 8)%nat ->
  (r L_IS_OR + r L_IS_XOR) * (limb_from_bits_le (chunk r L_INPUT0 i) + limb_from_bits_le (chunk r L_INPUT1 i)) +
  (r L_IS_AND - r L_IS_OR - r L_IS_XOR * 2) * land_from_bits 0 (chunk r L_INPUT0 i) (chunk r L_INPUT1 i)
  = (bits_val (zipb (bitop op) (cell_bits r L_INPUT0 256) (cell_bits r L_INPUT1 256)) / 2 ^ (32 * Z.of_nat i)) mod 2^32.
Proof.
  intros r op i (F1 & F2 & F3) B0 B1 Hi. rewrite !limb_chunk by assumption. unfold limb_from_bits_le.
  rewrite !limb_from_b2z, land_from_b2z by lia. rewrite <- limb_value, zipb_skipn, zipb_firstn.
  set (l := firstn 32 _). set (m := firstn 32 (skipn (32 * i) (cell_bits r L_INPUT1 256))).
  assert (L : length l = length m). { unfold l, m. rewrite !firstn_length, !skipn_length. unfold cell_bits. rewrite !map_length, !seq_length. reflexivity. }
  destruct (combine_bits l m L) as [A B]. rewrite F1, F2, F3. destruct op; cbn [b2z bitop]; [ring|rewrite A; ring|rewrite B; ring].
Qed.

Lemma row_data : forall r op, flags_are r op -> boolean_on r L_INPUT0 256 -> boolean_on r L_INPUT1 256 ->
  (forall i, (i < 8)%nat -> r (L_RESULT + i)%nat = (bits_val (zipb (bitop op) (cell_bits r L_INPUT0 256) (cell_bits r L_INPUT1 256)) / 2 ^ (32 * Z.of_nat i)) mod 2^32) ->
  l_ctl_data r = evm_opcode op :: limbs32 (bits_val (cell_bits r L_INPUT0 256)) ++ limbs32 (bits_val (cell_bits r L_INPUT1 256)) ++
    limbs32 (bits_val (zipb (bitop op) (cell_bits r L_INPUT0 256) (cell_bits r L_INPUT1 256))).
Proof.
  intros r op (F1 & F2 & F3) B0 B1 R. unfold l_ctl_data. rewrite !ctl_limbs by assumption. cbn [app]. f_equal.
  - rewrite F1, F2, F3. destruct op; reflexivity.
  - f_equal. f_equal. unfold limbs32, read_value, PACKED_LEN. change (seq L_RESULT 8) with (map (fun i => L_RESULT + i)%nat (seq 0 8)).
    rewrite map_map. apply map_ext_in. intros i Hi. apply in_seq in Hi. apply R. lia.
Qed.

(** * C25, soundness *)

Theorem C25_logic_sound : forall t r, logic_table_ok t -> In r t -> l_ctl_filter r mod P <> 0 ->
  exists op a b, lword a /\ lword b /\ shows (l_ctl_data r) op a b.
Proof.
  intros t r OK Hr NZ. unfold logic_table_ok in OK. rewrite Forall_forall in OK. destruct (OK r Hr) as [C K]. clear OK Hr t.
  unfold eval_logic in K. apply Forall_app in K. destruct K as [KF K]. apply Forall_app in K. destruct K as [KS K].
  apply Forall_app in K. destruct K as [K0 K]. apply Forall_app in K. destruct K as [K1 KR].
  assert (BB : forall start, Forall (fun c : constr => snd c mod P = 0) (map (fun b => (All, b * (b - 1))) (read_value VAL_BITS r start)) -> boolean_on r start 256).
  { intros start H c Hc. rewrite Forall_map, Forall_forall in H. apply bool_of_constraint; [apply C|]. apply (H (r c)). unfold read_value. apply in_map, in_seq. exact Hc. }
  pose proof (BB _ K0) as B0. pose proof (BB _ K1) as B1.
  assert (FB : forall f, In f [L_IS_AND; L_IS_OR; L_IS_XOR] -> r f = 0 \/ r f = 1).
  { intros f Hf. rewrite Forall_map, Forall_forall in KF. apply bool_of_constraint; [apply C|]. apply (KF (r f)). cbn in Hf |- *. intuition (subst; auto). }
  apply Forall_cons_iff in KS. destruct KS as [KS _]. cbn [snd] in KS. unfold l_ctl_filter in NZ.
  assert (FO : exists op, flags_are r op).
  { destruct (FB L_IS_AND ltac:(cbn; auto)) as [E1|E1], (FB L_IS_OR ltac:(cbn; auto)) as [E2|E2], (FB L_IS_XOR ltac:(cbn; auto)) as [E3|E3];
      unfold flags_are; rewrite E1, E2, E3 in *; try (exfalso; apply NZ; reflexivity); try (exfalso; vm_compute in KS; discriminate).
    - exists LXor. repeat split. - exists LOr. repeat split. - exists LAnd. repeat split. }
  destruct FO as [op F]. exists op, (bits_val (cell_bits r L_INPUT0 256)), (bits_val (cell_bits r L_INPUT1 256)).
  assert (LN : forall s, length (cell_bits r s 256) = 256%nat) by (intros s; unfold cell_bits; rewrite map_length, seq_length; reflexivity).
  assert (LW : forall s, lword (bits_val (cell_bits r s 256))).
  { intros s. pose proof (bits_val_bound (cell_bits r s 256)) as B. rewrite LN in B. exact B. }
  split; [apply LW|]. split; [apply LW|].
  exists (bits_val (zipb (bitop op) (cell_bits r L_INPUT0 256) (cell_bits r L_INPUT1 256))).
  split; [apply zip_bitwise; apply LN|]. apply row_data; try assumption.
  intros i Hi. rewrite Forall_map, Forall_forall in KR. specialize (KR i ltac:(apply in_seq; unfold PACKED_LEN; lia)). cbn [snd] in KR.
  rewrite (limb_result r op i F B0 B1 Hi) in KR.
  assert (B : forall x, 0 <= x mod 2^32 < 2^32) by (intros x; apply Z.mod_pos_bound; lia).
  specialize (B (bits_val (zipb (bitop op) (cell_bits r L_INPUT0 256) (cell_bits r L_INPUT1 256)) / 2 ^ (32 * Z.of_nat i))).
  pose proof (C (L_RESULT + i)%nat) as CR. unfold canonical in CR. apply small_zero in KR; unfold P in *; lia.
Qed.
Print Assumptions C25_logic_sound.

(** * C25, completeness *)

Definition lop_ok (o : logic_operation) : Prop := lword (l_input0 o) /\ lword (l_input1 o).

Section Row.
  Variable o : logic_operation.
  Hypothesis H : lop_ok o.
  Let a := l_input0 o.
  Let b := l_input1 o.
  Let op := l_operator o.

  Lemma row_input0 : forall i, (i < 256)%nat -> l_into_row o (L_INPUT0 + i)%nat = b2z (Z.testbit a (Z.of_nat i)).
  Proof.
    intros i Hi. unfold l_into_row, write at 1. destruct (Nat.leb_spec L_RESULT (L_INPUT0 + i)); [unfold L_RESULT, L_INPUT0 in *; lia|]. cbn [andb].
    unfold write at 1. destruct (Nat.leb_spec L_INPUT1 (L_INPUT0 + i)); [unfold L_INPUT1, L_INPUT0 in *; lia|]. cbn [andb].
    unfold write at 1. rewrite map_length, seq_length. destruct (Nat.leb_spec L_INPUT0 (L_INPUT0 + i)); [|lia].
    destruct (Nat.ltb_spec (L_INPUT0 + i) (L_INPUT0 + 256)); [|lia]. cbn [andb]. replace (L_INPUT0 + i - L_INPUT0)%nat with i by lia.
    set (g := fun i : nat => b2z (Z.testbit (l_input0 o) (Z.of_nat i))). rewrite (nth_indep _ 0 (g 0%nat)) by (rewrite map_length, seq_length; lia).
    rewrite (map_nth g), seq_nth by lia. reflexivity.
  Qed.

  Lemma row_input1 : forall i, (i < 256)%nat -> l_into_row o (L_INPUT1 + i)%nat = b2z (Z.testbit b (Z.of_nat i)).
  Proof.
    intros i Hi. unfold l_into_row, write at 1. destruct (Nat.leb_spec L_RESULT (L_INPUT1 + i)); [unfold L_RESULT, L_INPUT1 in *; lia|]. cbn [andb].
    unfold write at 1. rewrite map_length, seq_length. destruct (Nat.leb_spec L_INPUT1 (L_INPUT1 + i)); [|lia].
    destruct (Nat.ltb_spec (L_INPUT1 + i) (L_INPUT1 + 256)); [|lia]. cbn [andb]. replace (L_INPUT1 + i - L_INPUT1)%nat with i by lia.
    set (g := fun i : nat => b2z (Z.testbit (l_input1 o) (Z.of_nat i))). rewrite (nth_indep _ 0 (g 0%nat)) by (rewrite map_length, seq_length; lia).
    rewrite (map_nth g), seq_nth by lia. reflexivity.
  Qed.

  Lemma row_flag : forall c, (c < 3)%nat -> l_into_row o c = b2z (c =? flag_of op)%nat.
  Proof.
    intros c Hc. unfold l_into_row. cbv zeta. unfold write at 1. destruct (Nat.leb_spec L_RESULT c); [unfold L_RESULT in *; lia|]. cbn [andb].
    unfold write at 1. destruct (Nat.leb_spec L_INPUT1 c); [unfold L_INPUT1 in *; lia|]. cbn [andb].
    unfold write at 1. destruct (Nat.leb_spec L_INPUT0 c); [unfold L_INPUT0 in *; lia|]. cbn [andb].
    unfold flag_of, op. destruct (l_operator o), c as [|[|[|c]]]; try lia; reflexivity.
  Qed.

  Lemma row_flags : flags_are (l_into_row o) op.
  Proof. unfold flags_are. rewrite !row_flag by (cbv; lia). unfold flag_of. destruct op; repeat split. Qed.

  Lemma result_bitwise : is_bitwise (bitop op) a b (logic_result op a b).
  Proof.
    destruct H as [Ha Hb]. fold a in Ha. fold b in Hb. unfold lword in *.
    assert (T : forall i, 0 <= i -> Z.testbit (logic_result op a b) i = bitop op (Z.testbit a i) (Z.testbit b i)).
    { intros i Hi. unfold logic_result, bitop. destruct op; [apply Z.land_spec|apply Z.lor_spec|apply Z.lxor_spec]. }
    split; [|exact T].
    assert (P0 : 0 <= logic_result op a b).
    { unfold logic_result. destruct op; [apply Z.land_nonneg; lia|apply Z.lor_nonneg; lia|apply Z.lxor_nonneg; lia]. }
    split; [exact P0|]. rewrite <- (bits_of_val 256 a), <- (bits_of_val 256 b) in T by assumption.
    destruct (zip_bitwise op (map (fun i => Z.testbit a (Z.of_nat i)) (seq 0 256)) (map (fun i => Z.testbit b (Z.of_nat i)) (seq 0 256))) as [B T2].
    1,2: rewrite map_length, seq_length; reflexivity.
    rewrite (bits_of_val 256 a), (bits_of_val 256 b) in * by assumption.
    assert (E : logic_result op a b = bits_val (zipb (bitop op) (map (fun i => Z.testbit a (Z.of_nat i)) (seq 0 256)) (map (fun i => Z.testbit b (Z.of_nat i)) (seq 0 256)))).
    { apply Z.bits_inj'. intros i Hi. rewrite T, T2 by exact Hi. reflexivity. }
    rewrite E. apply B.
  Qed.

  Lemma bitwise_unique : forall f x y c d, is_bitwise f x y c -> is_bitwise f x y d -> c = d.
  Proof. intros f x y c d [_ A] [_ B]. apply Z.bits_inj'. intros i Hi. rewrite A, B by exact Hi. reflexivity. Qed.

  Lemma row_result : forall i, (i < 8)%nat -> l_into_row o (L_RESULT + i)%nat = (logic_result op a b / 2 ^ (32 * Z.of_nat i)) mod 2^32.
  Proof.
    intros i Hi. unfold l_into_row. cbv zeta. fold a. fold b. fold op. set (res := logic_result op a b).
    unfold write at 1. set (L := flat_map _ (seq 0 4)). replace (length L) with 8%nat by reflexivity.
    destruct (Nat.leb_spec L_RESULT (L_RESULT + i)); [|lia]. destruct (Nat.ltb_spec (L_RESULT + i) (L_RESULT + 8)); [|lia]. cbn [andb].
    replace (L_RESULT + i - L_RESULT)%nat with i by lia.
    assert (LO : forall k : Z, 0 <= k -> (res / 2 ^ (64 * k)) mod 2^64 mod 2^32 = (res / 2 ^ (32 * (2 * k))) mod 2^32).
    { intros k Hk. replace (32 * (2 * k)) with (64 * k) by ring. set (q := res / 2 ^ (64 * k)). clearbody q.
      change (2^64) with (2^32 * 2^32). rewrite Z.rem_mul_r by lia. rewrite (Z.mul_comm (2^32) (_ mod _)), Z.mod_add by lia. apply Z.mod_mod. lia. }
    assert (HI : forall k : Z, 0 <= k -> Z.shiftr ((res / 2 ^ (64 * k)) mod 2^64) 32 = (res / 2 ^ (32 * (2 * k + 1))) mod 2^32).
    { intros k Hk. rewrite Z.shiftr_div_pow2 by lia. replace (32 * (2 * k + 1)) with (64 * k + 32) by ring. rewrite Z.pow_add_r by lia.
      rewrite <- Z.div_div by (try apply Z.pow_pos_nonneg; try lia; apply Z.pow_nonzero; lia). set (q := res / 2 ^ (64 * k)). clearbody q.
      change (2^64) with (2^32 * 2^32). rewrite Z.rem_mul_r by lia. rewrite (Z.mul_comm (2^32) (_ mod _)), Z.div_add by lia.
      rewrite (Z.div_small (q mod 2^32)) by (apply Z.mod_pos_bound; lia). reflexivity. }
    unfold L. cbn [seq flat_map app].
    do 8 (destruct i as [|i]; [cbn [nth]; first [exact (LO 0 ltac:(lia))|exact (HI 0 ltac:(lia))|exact (LO 1 ltac:(lia))|exact (HI 1 ltac:(lia))|exact (LO 2 ltac:(lia))|exact (HI 2 ltac:(lia))|exact (LO 3 ltac:(lia))|exact (HI 3 ltac:(lia))]|]). lia.
  Qed.

  Lemma row_zero : forall c, (523 <= c)%nat -> l_into_row o c = 0.
  Proof.
    intros c Hc. unfold l_into_row. cbv zeta. unfold write at 1. set (L := flat_map _ (seq 0 4)). replace (length L) with 8%nat by reflexivity.
    destruct (Nat.ltb_spec c (L_RESULT + 8)); [unfold L_RESULT in *; lia|]. rewrite andb_false_r.
    unfold write at 1. rewrite map_length, seq_length. destruct (Nat.ltb_spec c (L_INPUT1 + 256)); [unfold L_INPUT1 in *; lia|]. rewrite andb_false_r.
    unfold write at 1. rewrite map_length, seq_length. destruct (Nat.ltb_spec c (L_INPUT0 + 256)); [unfold L_INPUT0 in *; lia|]. rewrite andb_false_r.
    unfold set, write. cbn [length]. match goal with |- context [if ?x then _ else _] => destruct x eqn:E end; [|reflexivity].
    destruct (l_operator o); unfold L_IS_AND, L_IS_OR, L_IS_XOR in E; lia.
  Qed.

  Lemma row_bool0 : boolean_on (l_into_row o) L_INPUT0 256.
  Proof. intros c Hc. replace c with (L_INPUT0 + (c - L_INPUT0))%nat by lia. rewrite row_input0 by lia. destruct (Z.testbit _ _); cbn; auto. Qed.
  Lemma row_bool1 : boolean_on (l_into_row o) L_INPUT1 256.
  Proof. intros c Hc. replace c with (L_INPUT1 + (c - L_INPUT1))%nat by lia. rewrite row_input1 by lia. destruct (Z.testbit _ _); cbn; auto. Qed.

  Lemma row_bits0 : cell_bits (l_into_row o) L_INPUT0 256 = map (fun i => Z.testbit a (Z.of_nat i)) (seq 0 256).
  Proof.
    unfold cell_bits. replace (seq L_INPUT0 256) with (map (fun i => L_INPUT0 + i)%nat (seq 0 256)) by reflexivity.
    rewrite map_map. apply map_ext_in. intros i Hi. apply in_seq in Hi. rewrite row_input0 by lia. destruct (Z.testbit _ _); reflexivity.
  Qed.
  Lemma row_bits1 : cell_bits (l_into_row o) L_INPUT1 256 = map (fun i => Z.testbit b (Z.of_nat i)) (seq 0 256).
  Proof.
    unfold cell_bits. replace (seq L_INPUT1 256) with (map (fun i => L_INPUT1 + i)%nat (seq 0 256)) by reflexivity.
    rewrite map_map. apply map_ext_in. intros i Hi. apply in_seq in Hi. rewrite row_input1 by lia. destruct (Z.testbit _ _); reflexivity.
  Qed.

  Lemma zip_is_result : bits_val (zipb (bitop op) (cell_bits (l_into_row o) L_INPUT0 256) (cell_bits (l_into_row o) L_INPUT1 256)) = logic_result op a b.
  Proof.
    destruct H as [Ha Hb]. fold a in Ha. fold b in Hb. unfold lword in *.
    apply (bitwise_unique (bitop op) a b); [|apply result_bitwise].
    pose proof (zip_bitwise op (cell_bits (l_into_row o) L_INPUT0 256) (cell_bits (l_into_row o) L_INPUT1 256)) as Z0.
    rewrite row_bits0, row_bits1, (bits_of_val 256 a), (bits_of_val 256 b) in Z0 by assumption. rewrite row_bits0, row_bits1.
    apply Z0; rewrite map_length, seq_length; reflexivity.
  Qed.

  Lemma row_canonical : forall c, canonical (l_into_row o c).
  Proof.
    assert (BZ : forall x, canonical (b2z x)) by (intros [|]; split; (discriminate || reflexivity)).
    assert (M : forall x, canonical (x mod 2^32)) by (intros x; pose proof (Z.mod_pos_bound x (2^32) ltac:(lia)); unfold canonical, P; lia).
    intros c. destruct (le_lt_dec 523 c) as [L|L]; [rewrite row_zero by exact L; split; (discriminate || reflexivity)|].
    destruct (le_lt_dec 515 c) as [L2|L2]; [replace c with (L_RESULT + (c - 515))%nat by (unfold L_RESULT; lia); rewrite row_result by lia; apply M|].
    destruct (le_lt_dec 259 c) as [L3|L3]; [replace c with (L_INPUT1 + (c - 259))%nat by (unfold L_INPUT1; lia); rewrite row_input1 by lia; apply BZ|].
    destruct (le_lt_dec 3 c) as [L4|L4]; [replace c with (L_INPUT0 + (c - 3))%nat by (unfold L_INPUT0; lia); rewrite row_input0 by lia; apply BZ|].
    rewrite row_flag by lia. apply BZ.
  Qed.

  Lemma row_constraints_ok : Forall (fun c => snd c mod P = 0) (eval_logic (l_into_row o)).
  Proof.
    assert (BO : forall x, x = 0 \/ x = 1 -> (x * (x - 1)) mod P = 0) by (intros x [->| ->]; reflexivity).
    pose proof row_flags as F. unfold eval_logic. destruct F as (F1 & F2 & F3).
    apply Forall_app; split; [|apply Forall_app; split; [|apply Forall_app; split; [|apply Forall_app; split]]].
    - rewrite F1, F2, F3. destruct op; repeat constructor.
    - rewrite F1, F2, F3. destruct op; repeat constructor.
    - rewrite Forall_map, Forall_forall. intros x Hx. unfold read_value in Hx. apply in_map_iff in Hx. destruct Hx as (c & <- & Hc). apply in_seq in Hc. apply BO, row_bool0. exact Hc.
    - rewrite Forall_map, Forall_forall. intros x Hx. unfold read_value in Hx. apply in_map_iff in Hx. destruct Hx as (c & <- & Hc). apply in_seq in Hc. apply BO, row_bool1. exact Hc.
    - rewrite Forall_map, Forall_forall. intros i Hi. apply in_seq in Hi. unfold PACKED_LEN in Hi. cbn [snd].
      rewrite (limb_result (l_into_row o) op i row_flags row_bool0 row_bool1) by lia. rewrite zip_is_result, row_result by lia. rewrite Z.sub_diag. reflexivity.
  Qed.

  Lemma row_shows : l_ctl_filter (l_into_row o) = 1 /\ shows (l_ctl_data (l_into_row o)) op a b.
  Proof.
    destruct row_flags as (F1 & F2 & F3). split.
    - unfold l_ctl_filter. rewrite F1, F2, F3. destruct op; reflexivity.
    - exists (logic_result op a b). split; [apply result_bitwise|].
      rewrite (row_data (l_into_row o) op row_flags row_bool0 row_bool1).
      + rewrite zip_is_result, row_bits0, row_bits1. destruct H as [Ha Hb]. rewrite !bits_of_val by assumption. reflexivity.
      + intros i Hi. rewrite zip_is_result. apply row_result. exact Hi.
  Qed.
End Row.

Lemma zero_row_ok : (forall c, canonical (zero_row c)) /\ Forall (fun c => snd c mod P = 0) (eval_logic zero_row).
Proof.
  split; [intros c; split; (discriminate || reflexivity)|]. apply Forall_forall. 
  assert (E : forallb (fun c => snd c mod P =? 0) (eval_logic zero_row) = true) by (vm_compute; reflexivity).
  rewrite forallb_forall in E. intros c Hc. specialize (E c Hc). lia.
Qed.

Lemma next_power_of_two_spec : forall n, (n <= next_power_of_two n)%nat /\ exists k, next_power_of_two n = Nat.pow 2 k.
Proof.
  intros n. split; [|exists (Nat.log2_up n); reflexivity]. unfold next_power_of_two. destruct n as [|[|n]]; [cbn; lia|cbn; lia|].
  apply Nat.log2_up_spec. lia.
Qed.

(** For every list of operations the generated table is accepted, its length
    is a power of two at least [min_rows], and its visible rows are the
    operations with their results, in order. *)
Theorem C25_logic_complete : forall ops min_rows, Forall lop_ok ops ->
  let t := l_generate_trace_rows ops min_rows in
  logic_table_ok t /\ (exists k, length t = Nat.pow 2 k) /\ (min_rows <= length t)%nat /\
  Forall2 (fun v o => shows v (l_operator o) (l_input0 o) (l_input1 o))
    (map l_ctl_data (filter (fun r => negb (l_ctl_filter r =? 0)) t)) ops.
Proof.
  intros ops min_rows H t. unfold t, l_generate_trace_rows. cbv zeta.
  destruct (next_power_of_two_spec (Nat.max (length ops) min_rows)) as [L [k K]].
  set (m := next_power_of_two (Nat.max (length ops) min_rows)) in *. clearbody m.
  split; [|split; [|split]].
  - apply Forall_app. split.
    + rewrite Forall_map. revert H. apply Forall_impl. intros o Ho. split; [apply row_canonical; exact Ho|apply row_constraints_ok; exact Ho].
    + apply Forall_forall. intros r Hr. apply repeat_spec in Hr. subst r. apply zero_row_ok.
  - exists k. rewrite app_length, map_length, repeat_length. lia.
  - rewrite app_length, map_length, repeat_length. lia.
  - rewrite filter_app. replace (filter _ (repeat zero_row _)) with (@nil row).
    2: { symmetry. generalize (m - length ops)%nat. induction n as [|n IH]; [reflexivity|exact IH]. }
    rewrite app_nil_r. clear L. induction H as [|o ops Ho H IH]; [constructor|].
    cbn [map filter]. destruct (row_shows o Ho) as [F S]. rewrite F. cbn [Z.eqb negb map]. constructor; [exact S|exact IH].
Qed.
Print Assumptions C25_logic_complete.

(** The operation's result, used by the CPU, is the bitwise one. *)
Theorem C25_result : forall o, lop_ok o -> is_bitwise (bitop (l_operator o)) (l_input0 o) (l_input1 o) (logic_result (l_operator o) (l_input0 o) (l_input1 o)).
Proof. intros o Ho. apply result_bitwise. exact Ho. Qed.
Print Assumptions C25_result.

Example C25_example : exists t r a b, logic_table_ok t /\ In r t /\ l_ctl_filter r mod P <> 0 /\ shows (l_ctl_data r) LXor a b /\ a = 2^256 - 1 /\ b = 2^200 + 5.
Proof.
  set (o := {| l_operator := LXor; l_input0 := 2^256 - 1; l_input1 := 2^200 + 5 |}).
  assert (Ho : lop_ok o) by (repeat split; (discriminate || reflexivity)).
  destruct (C25_logic_complete [o] 0 (Forall_cons _ Ho (Forall_nil _))) as (OK & _ & _ & _).
  destruct (row_shows o Ho) as [F S].
  exists (l_generate_trace_rows [o] 0), (l_into_row o), (2^256 - 1), (2^200 + 5).
  split; [exact OK|]. split; [left; reflexivity|]. split; [rewrite F; discriminate|]. split; [exact S|]. split; reflexivity.
Qed.

(** * The circuit version of the constraints (C51) *)

(** Two lists of constraints have the same kinds and are equal in the field. *)
Definition same_constraints (l m : list constr) : Prop :=
  Forall2 (fun c d => fst c = fst d /\ (snd c - snd d) mod P = 0) l m.

Lemma same_map : forall {A} (f g : A -> constr) l, (forall x, In x l -> fst (f x) = fst (g x) /\ (snd (f x) - snd (g x)) mod P = 0) -> same_constraints (map f l) (map g l).
Proof.
  induction l as [|x l IH]; intros H; cbn [map]; constructor; [apply H; left; reflexivity|apply IH; intros y Hy; apply H; right; exact Hy].
Qed.

Lemma limb_rec_eq : forall l acc i, limb_from_bits_rec acc i l = acc + limb_from_bits i l.
Proof. induction l as [|b l IH]; intros acc i; cbn [limb_from_bits_rec limb_from_bits]; [ring|]. rewrite IH. unfold mul_const_add_extension. ring. Qed.
Lemma land_rec_eq : forall l m acc i, land_from_bits_rec acc i l m = acc + land_from_bits i l m.
Proof.
  induction l as [|x l IH]; destruct m as [|y m]; intros acc i; cbn [land_from_bits_rec land_from_bits]; try ring.
  rewrite IH. unfold arithmetic_extension. ring.
Qed.

Lemma zero_mod : forall x y, x = y -> (x - y) mod P = 0.
Proof. intros x y ->. rewrite Z.sub_diag. reflexivity. Qed.

Theorem C51_logic_circuit : forall lv, same_constraints (eval_logic lv) (eval_logic_circuit lv).
Proof.
  intros lv. unfold eval_logic, eval_logic_circuit. cbv zeta.
  repeat apply Forall2_app.
  - apply same_map. intros x _. split; [reflexivity|]. apply zero_mod. unfold mul_sub_extension. cbn [snd]. ring.
  - constructor; [|constructor]. split; [reflexivity|]. apply zero_mod. unfold mul_sub_extension, add_many_extension, add_extension. cbn [snd fold_left]. ring.
  - apply same_map. intros x _. split; [reflexivity|]. apply zero_mod. unfold mul_sub_extension. cbn [snd]. ring.
  - apply same_map. intros x _. split; [reflexivity|]. apply zero_mod. unfold mul_sub_extension. cbn [snd]. ring.
  - apply same_map. intros i _. split; [reflexivity|]. cbn [snd]. unfold limb_from_bits_le_recursive, limb_from_bits_le. rewrite !limb_rec_eq, land_rec_eq.
    unfold mul_add_extension, mul_extension, sub_extension, add_extension, mul_const_add_extension.
    match goal with |- (?l - ?r) mod P = 0 => replace (l - r) with (lv L_IS_XOR * land_from_bits 0 (chunk lv L_INPUT0 i) (chunk lv L_INPUT1 i) * P) by ring end.
    apply Z.mod_mul. unfold P; lia.
Qed.
Print Assumptions C51_logic_circuit.
