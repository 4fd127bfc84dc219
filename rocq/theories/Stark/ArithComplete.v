(** Trace generation for any list of operations yields an accepted table
    whose visible rows are the operations, in order. *)
From Coq Require Import ZArith Znumtheory List Lia Bool.
From Coq Require Import ZifyBool ZifyNat.
From Verif Require Import Stark.Field Stark.ArithModel Stark.ArithSpec Stark.PolyProofs Stark.ArithSound Stark.ArithTrace Stark.ArithEmbed Stark.ArithGen Stark.ArithGenByte Stark.ArithGenMod Stark.ArithGenRows.
Import ListNotations.
Local Open Scope Z_scope.

(** The operands are 256-bit words; the opcode of a range check is a field
    element. *)
Definition op_ok (o : operation) : Prop :=
  match o with
  | BinaryOperation _ a b => word a /\ word b
  | TernaryOperation _ a b c => word a /\ word b /\ word c
  | RangeCheckOperation a b c opcode r => word a /\ word b /\ word c /\ word r /\ canonical opcode
  end.

(** What the CPU must find: opcode, three inputs and the output.  Written
    from the opcode numbers of the EVM and the Yellow Paper functions. *)
Definition expected (o : operation) : Z * (Z * Z * Z) * Z :=
  match o with
  | BinaryOperation op a b =>
    match op with
    | Add => (0x01, (a, b, 0), evm_add a b)
    | Mul => (0x02, (a, b, 0), evm_mul a b)
    | Sub => (0x03, (a, b, 0), evm_sub a b)
    | Div => (0x04, (a, b, 0), evm_div a b)
    | Mod => (0x06, (a, b, 0), evm_mod a b)
    | Lt => (0x10, (a, b, 0), evm_lt a b)
    | Gt => (0x11, (a, b, 0), evm_gt a b)
    | AddFp254 => (0x0c, (a, b, bn254_base), (a + b) mod bn254_base)
    | MulFp254 => (0x0d, (a, b, bn254_base), (a * b) mod bn254_base)
    | SubFp254 => (0x0e, (a, b, bn254_base), (a - b) mod bn254_base)
    | Byte => (0x1a, (a, b, 0), evm_byte a b)
    | Shl => (0x1b, (a, b, if a <? 256 then 2 ^ a else 0), evm_shl a b)
    | Shr => (0x1c, (a, b, if a <? 256 then 2 ^ a else 0), evm_shr a b)
    end
  | TernaryOperation op a b c =>
    match op with
    | AddMod => (0x08, (a, b, c), evm_addmod a b c)
    | MulMod => (0x09, (a, b, c), evm_mulmod a b c)
    | SubMod => (0x0f, (a, b, c), kernel_submod a b c)
    end
  | RangeCheckOperation a b c opcode r => (opcode, (a, b, c), r)
  end.

Definition op_flag (o : operation) : nat :=
  match o with
  | BinaryOperation op _ _ => binary_filter op
  | TernaryOperation op _ _ _ => ternary_filter op
  | RangeCheckOperation _ _ _ _ _ => IS_RANGE_CHECK
  end.

(** What a row shows to the CPU. *)
Definition visible (r : row) : Z * (Z * Z * Z) * Z := (ctl_opcode r, (input0 r, input1 r, input2 r), output r).

(** * The rows of one operation *)

Definition seen (o : operation) (r : row) : Prop := ctl_filter r = 1 /\ visible r = expected o /\ r (op_flag o) = 1.

Lemma ctl_of_op_row : forall f r, (f < 17)%nat -> op_row f r ->
  ctl_filter r = 1 /\ ctl_opcode r = sum (map (fun p => if (fst p =? f)%nat then snd p else 0) COMBINED_OPS).
Proof.
  intros f r Hf O. set (g := fun c => if (c =? f)%nat then 1 else 0).
  assert (A : forallb (fun p : nat * Z => (fst p <? 17)%nat) COMBINED_OPS = true) by reflexivity. rewrite forallb_forall in A.
  assert (E1 : ctl_filter r = ctl_filter g).
  { unfold ctl_filter. f_equal; [|apply O; cbv; lia]. f_equal. apply map_ext_in. intros p Hp. apply O. specialize (A p Hp). lia. }
  assert (E2 : ctl_opcode r = sum (map (fun p => if (fst p =? f)%nat then snd p else 0) COMBINED_OPS)).
  { unfold ctl_opcode. rewrite O by (cbv; lia). unfold OPCODE_COL. destruct (17 =? f)%nat eqn:E; [lia|]. rewrite Z.add_0_r. f_equal.
    apply map_ext_in. intros p Hp. specialize (A p Hp). rewrite O by lia. destruct (fst p =? f)%nat; ring. }
  split; [|exact E2]. rewrite E1. clear -Hf. do 17 (destruct f as [|f]; [reflexivity|]). lia.
Qed.

Lemma flags_zero_ctl : forall r, flags_zero r -> ctl_filter r = 0.
Proof.
  intros r F. assert (A : forallb (fun p : nat * Z => (fst p <? 17)%nat) COMBINED_OPS = true) by reflexivity. rewrite forallb_forall in A.
  unfold ctl_filter. rewrite F by (cbv; lia). rewrite sum_zero; [reflexivity|]. intros p Hp. specialize (A p Hp). apply F. lia.
Qed.

Lemma byte_other : forall r idx v c, (50 <= c < 66)%nat -> generate_byte r idx v c = r c.
Proof.
  intros r idx v c Hc. unfold generate_byte, set. cbv zeta.
  rewrite !write_out by (rewrite ?u256_length; cbn [length Nat.add]; unfold INPUT_REGISTER_0, INPUT_REGISTER_1, BYTE_IDX_DECOMP, BYTE_IDX_HI_LIMB_SUM_INV_0, BYTE_IDX_HI_LIMB_SUM_INV_1, BYTE_IDX_HI_LIMB_SUM_INV_2, BYTE_IDX_HI_LIMB_SUM_INV_3, BYTE_IDX_IS_LARGE, AUX_INPUT_REGISTER_1, BYTE_LAST_LIMB_LO, BYTE_LAST_LIMB_HI, OUTPUT_REGISTER; lia).
  reflexivity.
Qed.

Definition rows_list (p : row * option row) : list row := fst p :: match snd p with Some r => [r] | None => [] end.

(** One row. *)
Lemma one_row_ok : forall o f r a b c res, (f < 16)%nat -> op_flag o = f -> good_row f r a b res -> input2 r = c ->
  expected o = (sum (map (fun p => if (fst p =? f)%nat then snd p else 0) COMBINED_OPS), (a, b, c), res) ->
  blocks (rows_list (one_row r)) /\ map visible (filter (fun r => ctl_filter r =? 1) (rows_list (one_row r))) = [expected o] /\
  fst (one_row r) (op_flag o) = 1 /\ visible (fst (one_row r)) = expected o.
Proof.
  intros o f r a b c res Hf Ef (O & C & K & I0 & I1 & Io) I2 E. unfold rows_list, one_row; cbn [fst snd].
  destruct (ctl_of_op_row f r ltac:(lia) O) as [F1 F2].
  assert (V : visible r = expected o) by (unfold visible; rewrite F2, I0, I1, I2, Io, E; reflexivity).
  split; [|split; [|split]].
  - apply blocks_one; [|exact C|constructor]. intros last nv. split; [apply (op_row_flags f r last ltac:(lia) O)|apply K].
  - cbn [filter]. rewrite F1. cbn [Z.eqb Pos.eqb map]. rewrite V. reflexivity.
  - rewrite O by lia. rewrite Ef, Nat.eqb_refl. reflexivity.
  - exact V.
Qed.

Lemma two_rows_ok : forall o f r nv a b c res, (f < 16)%nat -> op_flag o = f -> good_pair f r nv a b c res ->
  expected o = (sum (map (fun p => if (fst p =? f)%nat then snd p else 0) COMBINED_OPS), (a, b, c), res) ->
  blocks (rows_list (two_rows (r, nv))) /\ map visible (filter (fun r => ctl_filter r =? 1) (rows_list (two_rows (r, nv)))) = [expected o] /\
  fst (two_rows (r, nv)) (op_flag o) = 1 /\ visible (fst (two_rows (r, nv))) = expected o.
Proof.
  intros o f r nv a b c res Hf Ef (O & C & CN & SN & FN & K & I0 & I1 & I2 & Io) E. unfold rows_list, two_rows; cbn [fst snd].
  destruct (ctl_of_op_row f r ltac:(lia) O) as [F1 F2].
  assert (V : visible r = expected o) by (unfold visible; rewrite F2, I0, I1, I2, Io, E; reflexivity).
  split; [|split; [|split]].
  - apply blocks_two; [|exact SN|exact C|exact CN|constructor]. split; [apply (op_row_flags f r false ltac:(lia) O)|exact K].
  - cbn [filter]. rewrite F1, (flags_zero_ctl nv FN). cbn [Z.eqb Pos.eqb map]. rewrite V. reflexivity.
  - rewrite O by lia. rewrite Ef, Nat.eqb_refl. reflexivity.
  - exact V.
Qed.

Lemma reg_ext : forall n r r' s, (forall c, (s <= c < s + n)%nat -> r c = r' c) -> reg n r s = reg n r' s.
Proof.
  induction n as [|n IH]; intros r r' s H; [reflexivity|]. cbn [reg]. rewrite H by lia. f_equal. f_equal. apply IH. intros c Hc. apply H. lia.
Qed.

Lemma reg_written : forall r s x n vs, word x -> (s + 16 <= n)%nat -> reg 16 (write (write r s (u256_to_array x)) n vs) s = x.
Proof. intros r s x n vs Hx Hn. apply reg_u256; [exact Hx|]. rewrite (read_write_other 16) by lia. apply read_write_same, u256_length. Qed.

Lemma bn_base : BN_BASE = bn254_base.
Proof. reflexivity. Qed.

Lemma word_bn : word bn254_base.
Proof. split; (discriminate || reflexivity). Qed.

Lemma submod_spec : forall a b m, word a -> word b -> word m -> submod a b m = kernel_submod a b m.
Proof.
  intros a b m Ha Hb Hm. unfold submod, kernel_submod, word in *. destruct (m =? 0) eqn:E; [lia|]. cbv zeta.
  destruct (a <? b) eqn:E1; [|reflexivity].
  replace (a + m * ((b - a + m - 1) / m) - b) with (a - b + (b - a + m - 1) / m * m) by ring. rewrite Z.mod_add by lia. reflexivity.
Qed.

(** The result the operation reports ([Operation::result], used by the CPU
    to push the result) is the one of the specification. *)
Definition op_result (o : operation) : Z :=
  match o with
  | BinaryOperation op a b => binary_result op a b
  | TernaryOperation op a b c => ternary_result op a b c
  | RangeCheckOperation _ _ _ _ r => r
  end.

Lemma result_spec : forall o, op_ok o -> op_result o = snd (expected o).
Proof.
  intros [op a b|op a b c|a b c opcode r] H; cbn [op_ok op_result] in *; [destruct H as [Ha Hb]|destruct H as (Ha & Hb & Hc)|reflexivity].
  - destruct op; cbn [binary_result expected snd]; try reflexivity.
    + rewrite bn_base. apply (submod_spec a b bn254_base Ha Hb word_bn).
    + unfold evm_byte. unfold word in Ha. destruct (32 <=? a) eqn:E1, (a <? 32) eqn:E2; try lia; try reflexivity.
      change 256 with (2^8) at 1. rewrite <- Z.pow_mul_r by lia. reflexivity.
    + unfold evm_shl. unfold word in Ha. destruct (a <? 256) eqn:E; [|reflexivity]. rewrite Z.shiftl_mul_pow2 by lia. reflexivity.
    + unfold evm_shr. unfold word in Ha. destruct (a <? 256) eqn:E; [|reflexivity]. rewrite Z.shiftr_div_pow2 by lia. reflexivity.
  - destruct op; cbn [ternary_result expected snd].
    + unfold addmod, evm_addmod. destruct (c =? 0) eqn:E; [lia|reflexivity].
    + unfold mulmod, evm_mulmod. destruct (c =? 0) eqn:E; [lia|reflexivity].
    + apply submod_spec; assumption.
Qed.

Lemma displacement_spec : forall s, displacement s = if s <? 256 then 2 ^ s else 0.
Proof. intros s. unfold displacement. destruct (255 <? s) eqn:E1, (s <? 256) eqn:E2; try lia; reflexivity. Qed.

Definition good_op (o : operation) (p : row * option row) : Prop :=
  blocks (rows_list p) /\ map visible (filter (fun r => ctl_filter r =? 1) (rows_list p)) = [expected o] /\
  fst p (op_flag o) = 1 /\ visible (fst p) = expected o.

Lemma addcy_op : forall op a b, word a -> word b -> In op [Add; Sub; Lt; Gt] ->
  exists p, to_rows (BinaryOperation op a b) = Some p /\ good_op (BinaryOperation op a b) p.
Proof.
  intros op a b Ha Hb Hop.
  assert (G : exists r, generate_addcy (set zero_row (binary_filter op) 1) (binary_filter op) a b = Some r /\ input2 r = 0).
  { destruct Hop as [<-|[<-|[<-|[<-|[]]]]]; (eexists; split; [reflexivity|]); apply reg_u256; try apply word_0; rdw; reflexivity. }
  destruct G as (r & G & I2). exists (one_row r). split.
  - cbn [to_rows]. unfold binary_op_to_rows. destruct Hop as [<-|[<-|[<-|[<-|[]]]]]; rewrite G; reflexivity.
  - assert (F : In (binary_filter op) [IS_ADD; IS_SUB; IS_LT; IS_GT]) by (destruct Hop as [<-|[<-|[<-|[<-|[]]]]]; cbn; tauto).
    pose proof (addcy_good _ a b r Ha Hb F G) as GR.
    destruct Hop as [<-|[<-|[<-|[<-|[]]]]]; (eapply one_row_ok; [|reflexivity|exact GR|exact I2|reflexivity]; cbv; lia).
Qed.

Lemma modular_op_ok : forall o f a b m, word a -> word b -> word m -> op_flag o = f ->
  In f [IS_ADDMOD; IS_ADDFP254; IS_SUBMOD; IS_SUBFP254; IS_MULMOD; IS_MULFP254] ->
  (f = IS_ADDFP254 \/ f = IS_SUBFP254 \/ f = IS_MULFP254 -> m = BN_BASE) ->
  expected o = (sum (map (fun p => if (fst p =? f)%nat then snd p else 0) COMBINED_OPS), (a, b, m), modular_result f a b m) ->
  exists p, ternary_op_to_rows f a b m = Some p /\ good_op o p.
Proof.
  intros o f a b m Ha Hb Hm Ef Hf Hfp E.
  destruct (modular_good f a b m _ Hf Ha Hb Hm Hfp eq_refl) as (r & nv & G & GP).
  exists (two_rows (r, nv)). split; [unfold ternary_op_to_rows; rewrite G; reflexivity|].
  apply (two_rows_ok o f r nv a b m (modular_result f a b m)); [|exact Ef|exact GP|exact E].
  repeat (destruct Hf as [<-|Hf]; [cbv; lia|]). destruct Hf.
Qed.

Theorem to_rows_good : forall o, op_ok o -> exists p, to_rows o = Some p /\ good_op o p.
Proof.
  intros [op a b|op a b c|a b c opcode r] H; cbn [op_ok] in H.
  - destruct H as [Ha Hb]. pose proof word_bn as Wbn. rewrite <- bn_base in Wbn.
    destruct op.
    + apply addcy_op; try assumption. cbn; tauto.
    + exists (one_row (generate_mul_op (set zero_row IS_MUL 1) a b)). split; [reflexivity|].
      eapply one_row_ok; [|reflexivity|exact (mul_good a b Ha Hb)| |reflexivity]; [cbv; lia|].
      unfold generate_mul_op. cbv zeta. change N_LIMBS with 16%nat.
      match goal with |- input2 (generate_mul ?r ?x ?y) = 0 => destruct (generate_mul_spec r x y) as (o & lo & hi & E & Ho & Hlo & Hhi & Lo & Llo & Lhi & V & K) end.
      { rdw. apply u256_limbs. } { rdw. apply u256_limbs. } { apply read_length. } { apply read_length. }
      rewrite E. apply reg_u256; [apply word_0|]. do 3 (rewrite (read_write_other 16) by (rewrite ?Lo, ?Llo, ?Lhi; cbv; lia)). apply read_write_same, u256_length.
    + apply addcy_op; try assumption. cbn; tauto.
    + destruct (divmod_good IS_DIV a b Ha Hb (or_introl eq_refl)) as (r & nv & G & GP). exists (two_rows (r, nv)). split.
      * cbn [to_rows]. unfold binary_op_to_rows. change (binary_result Div a b) with (evm_div a b). cbn [binary_filter].
        change (if (IS_DIV =? IS_DIV)%nat then evm_div a b else evm_mod a b) with (evm_div a b) in G. rewrite G. reflexivity.
      * eapply two_rows_ok; [|reflexivity|exact GP|reflexivity]. cbv; lia.
    + destruct (divmod_good IS_MOD a b Ha Hb (or_intror eq_refl)) as (r & nv & G & GP). exists (two_rows (r, nv)). split.
      * cbn [to_rows]. unfold binary_op_to_rows. change (binary_result Mod a b) with (evm_mod a b). cbn [binary_filter].
        change (if (IS_MOD =? IS_DIV)%nat then evm_div a b else evm_mod a b) with (evm_mod a b) in G. rewrite G. reflexivity.
      * eapply two_rows_ok; [|reflexivity|exact GP|reflexivity]. cbv; lia.
    + apply addcy_op; try assumption. cbn; tauto.
    + apply addcy_op; try assumption. cbn; tauto.
    + apply (modular_op_ok (BinaryOperation AddFp254 a b) IS_ADDFP254 a b BN_BASE); try assumption; try reflexivity; try (cbn; tauto).
    + apply (modular_op_ok (BinaryOperation MulFp254 a b) IS_MULFP254 a b BN_BASE); try assumption; try reflexivity; try (cbn; tauto).
    + apply (modular_op_ok (BinaryOperation SubFp254 a b) IS_SUBFP254 a b BN_BASE); try assumption; try reflexivity; try (cbn; tauto).
    + exists (one_row (generate_byte (set zero_row IS_BYTE 1) a b)). split; [reflexivity|].
      eapply one_row_ok; [|reflexivity|exact (byte_good a b Ha Hb)| |reflexivity]; [cbv; lia|].
      unfold input2. rewrite (reg_ext 16 _ zero_row); [reflexivity|]. intros c Hc. unfold INPUT_REGISTER_2 in Hc. rewrite byte_other by lia.
      unfold set. rewrite write_out by (cbn [length]; unfold IS_BYTE; lia). reflexivity.
    + cbn [to_rows]. unfold binary_op_to_rows. cbn [binary_filter].
      destruct (generate_shift (set zero_row IS_SHL 1) zero_row true a b (binary_result Shl a b)) as [p|] eqn:G; [|discriminate G].
      destruct (shl_good a b _ p Ha Hb G) as [GR I2]. exists (one_row (fst p)). split; [reflexivity|].
      eapply one_row_ok; [|reflexivity|exact GR|exact I2|]; [cbv; lia|]. cbn [expected]. rewrite displacement_spec. reflexivity.
    + destruct (shr_good a b Ha Hb) as (r & nv & G & GP). exists (two_rows (r, nv)). split.
      * cbn [to_rows]. unfold binary_op_to_rows. cbn [binary_filter].
        change (binary_result Shr a b) with (op_result (BinaryOperation Shr a b)). rewrite result_spec by (split; assumption). cbn [expected snd]. rewrite G. reflexivity.
      * eapply two_rows_ok; [|reflexivity|exact GP|]; [cbv; lia|]. cbn [expected]. rewrite displacement_spec. reflexivity.
  - destruct H as (Ha & Hb & Hc). destruct op.
    + apply (modular_op_ok (TernaryOperation AddMod a b c) IS_ADDMOD a b c); try assumption; try reflexivity; try (cbn; tauto). intros [E|[E|E]]; discriminate.
    + apply (modular_op_ok (TernaryOperation MulMod a b c) IS_MULMOD a b c); try assumption; try reflexivity; try (cbn; tauto). intros [E|[E|E]]; discriminate.
    + apply (modular_op_ok (TernaryOperation SubMod a b c) IS_SUBMOD a b c); try assumption; try reflexivity; try (cbn; tauto). intros [E|[E|E]]; discriminate.
  - destruct H as (Ha & Hb & Hc & Hr & Ho). unfold canonical in Ho. cbn [to_rows].
    destruct (range_check_to_rows a b c opcode r) as [p|] eqn:E.
    2: { unfold range_check_to_rows in E. destruct (opcode <? P) eqn:E1; [discriminate|lia]. }
    exists p. split; [reflexivity|]. destruct (range_good a b c opcode r p Ha Hb Hc Hr (proj1 Ho) E) as (S1 & S2 & S3 & I0 & I1 & I2 & Io & OP & F).
    destruct p as [lv nx]. cbn [fst snd] in *. subst nx. unfold good_op, rows_list. cbn [fst snd].
    assert (Fz : forall f, (f < 16)%nat -> lv f = 0) by (intros f Hf; rewrite F by lia; unfold IS_RANGE_CHECK; destruct (f =? 16)%nat eqn:E1; [lia|reflexivity]).
    assert (CF : ctl_filter lv = 1 /\ ctl_opcode lv = opcode).
    { unfold ctl_filter, ctl_opcode. assert (A : forallb (fun p : nat * Z => (fst p <? 16)%nat) COMBINED_OPS = true) by reflexivity. rewrite forallb_forall in A.
      split.
      - rewrite sum_zero by (intros p Hp; specialize (A p Hp); apply Fz; lia). rewrite F by (cbv; lia). reflexivity.
      - rewrite sum_zero by (intros p Hp; specialize (A p Hp); rewrite Fz by lia; reflexivity). exact OP. }
    destruct CF as [CF CO]. assert (V : visible lv = (opcode, (a, b, c), r)) by (unfold visible; rewrite CO, I0, I1, I2, Io; reflexivity).
    split; [|split; [|split]].
    + apply blocks_one; [exact S2|exact S3|constructor].
    + cbn [filter]. rewrite CF. cbn [Z.eqb Pos.eqb map]. rewrite V. reflexivity.
    + apply F. cbv; lia.
    + exact V.
Qed.

(** * The whole table *)

Lemma rows_of_good : forall ops, Forall op_ok ops -> exists rs, rows_of ops = Some rs /\ blocks rs /\
  map visible (filter (fun r => ctl_filter r =? 1) rs) = map expected ops /\ (length rs <= 2 * length ops)%nat /\
  forall o, In o ops -> exists r, In r rs /\ r (op_flag o) = 1 /\ visible r = expected o.
Proof.
  induction 1 as [|o ops Ho H IH].
  - exists []. split; [reflexivity|]. split; [constructor|]. split; [reflexivity|]. split; [cbn; lia|]. intros o [].
  - destruct IH as (rs & E & B & V & L & M). destruct (to_rows_good o Ho) as (p & Ep & Bp & Vp & Fp & Wp).
    exists (rows_list p ++ rs). split; [cbn [rows_of]; rewrite Ep; cbn [obind]; rewrite E; reflexivity|].
    split; [apply blocks_app; assumption|]. split; [rewrite filter_app, map_app, Vp, V; reflexivity|]. split.
    + rewrite app_length. unfold rows_list. cbn [length]. destruct (snd p); cbn [length]; lia.
    + intros o' [->|Ho'].
      * exists (fst p). split; [left; reflexivity|]. split; assumption.
      * destruct (M o' Ho') as (r & Hr & M1). exists r. split; [apply in_or_app; right; exact Hr|exact M1].
Qed.

Lemma blocks_in_range : forall rs, Forall cells_ok rs -> forallb in_range rs = true.
Proof.
  intros rs H. apply forallb_forall. intros r Hr. rewrite Forall_forall in H. destruct (H r Hr) as [_ HL].
  unfold in_range. apply forallb_forall. intros c Hc. unfold SHARED_COLS in Hc. apply in_seq in Hc.
  assert (limb (r c)) as B by (apply HL; unfold START_SHARED_COLS, NUM_SHARED_COLS, N_LIMBS in Hc; lia). unfold limb, RANGE_MAX in *. lia.
Qed.

Lemma filter_repeat_zero : forall n, filter (fun r => ctl_filter r =? 1) (repeat zero_row n) = [].
Proof. induction n as [|n IH]; [reflexivity|]. cbn [repeat filter]. rewrite (flags_zero_ctl zero_row) by (intros c _; reflexivity). exact IH. Qed.

Theorem generation_complete : forall ops, Forall op_ok ops -> 2 * Z.of_nat (length ops) <= 2^32 ->
  exists t, generate_trace ops = Some t /\ table_ok t /\ Z.of_nat (length t) <= 2^32 /\
    map visible (filter (fun r => ctl_filter r =? 1) (map cells t)) = map expected ops /\
    forall o, In o ops -> exists i, (i < length t)%nat /\ row_at t i (op_flag o) = 1 /\ visible (row_at t i) = expected o.
Proof.
  intros ops H L. destruct (rows_of_good ops H) as (rs & E & B & V & LR & M).
  assert (LB : Z.of_nat (length rs) <= 2^32) by lia.
  destruct (embed rs B LB) as (T1 & T2 & T3).
  assert (BP : blocks (padded rs)) by (apply blocks_app; [exact B|apply blocks_repeat]).
  exists (mk_table (padded rs)). split; [|split; [exact T1|split; [exact T2|split]]].
  - unfold generate_trace. rewrite E. cbn [obind]. rewrite blocks_in_range by (apply blocks_cells; exact BP). reflexivity.
  - assert (C : map cells (mk_table (padded rs)) = padded rs).
    { unfold mk_table. rewrite map_map. rewrite <- (map_id (padded rs)) at 3. exact (map_combine_snd (fun r : row => r) (padded rs) 0). }
    rewrite C. unfold padded. rewrite filter_app, filter_repeat_zero, app_nil_r. exact V.
  - intros o Ho. destruct (M o Ho) as (r & Hr & F & W'). apply (In_nth _ _ zero_row) in Hr. destruct Hr as (i & Hi & Er).
    destruct (T3 i Hi) as [Hi' R]. exists i. split; [exact Hi'|]. rewrite R, Er. split; assumption.
Qed.
