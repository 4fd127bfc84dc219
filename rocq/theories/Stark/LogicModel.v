(** Model of the logic table (evm_arithmetization/src/logic.rs).

    Conventions as in ArithModel.v: cells are integers, a constraint is the
    value of its polynomial with the kind of consumer method. *)
From Coq Require Import ZArith List Bool Arith.
From Verif Require Import Stark.Field Stark.ArithModel.
Import ListNotations.
Local Open Scope Z_scope.

(** logic.rs:25-32 *)
Definition VAL_BITS : nat := 256.
Definition PACKED_LIMB_BITS : nat := 32.
Definition PACKED_LEN : nat := 8.

(** logic.rs:35-79: the columns in the order of the [repr(C)] structs. *)
Definition L_IS_AND : nat := 0.
Definition L_IS_OR : nat := 1.
Definition L_IS_XOR : nat := 2.
Definition L_INPUT0 : nat := 3.
Definition L_INPUT1 : nat := 259.
Definition L_RESULT : nat := 515.
Definition L_NUM_COLUMNS : nat := 523.

(** util.rs:14-21: the sum of bit_i * 2^i, here from index [i] on. *)
Fixpoint limb_from_bits (i : Z) (bits : list Z) : Z :=
  match bits with [] => 0 | b :: r => b * 2 ^ i + limb_from_bits (i + 1) r end.
Definition limb_from_bits_le (bits : list Z) : Z := limb_from_bits 0 bits.

(** logic.rs:309-311: the sum of x_i * y_i * 2^i. *)
Fixpoint land_from_bits (i : Z) (xs ys : list Z) : Z :=
  match xs, ys with
  | x :: xs', y :: ys' => x * y * 2 ^ i + land_from_bits (i + 1) xs' ys'
  | _, _ => 0
  end.

(** [input.chunks(PACKED_LIMB_BITS)], chunk i. *)
Definition chunk (lv : row) (start i : nat) : list Z := read_value PACKED_LIMB_BITS lv (start + PACKED_LIMB_BITS * i).

(** logic.rs:83-107 and 110-112; [Column::le_bits] is the same sum as
    [limb_from_bits_le]. *)
Definition l_ctl_data (lv : row) : list Z :=
  [lv L_IS_AND * 0x16 + lv L_IS_OR * 0x17 + lv L_IS_XOR * 0x18] ++
  map (fun i => limb_from_bits_le (chunk lv L_INPUT0 i)) (seq 0 PACKED_LEN) ++
  map (fun i => limb_from_bits_le (chunk lv L_INPUT1 i)) (seq 0 PACKED_LEN) ++
  read_value PACKED_LEN lv L_RESULT.
Definition l_ctl_filter (lv : row) : Z := lv L_IS_AND + lv L_IS_OR + lv L_IS_XOR.

(** logic.rs:251-318 *)
Definition eval_logic (lv : row) : list constr :=
  let is_and := lv L_IS_AND in
  let is_or := lv L_IS_OR in
  let is_xor := lv L_IS_XOR in
  let all_flags := is_and + is_or + is_xor in
  let sum_coeff := is_or + is_xor in
  let and_coeff := is_and - is_or - is_xor * 2 in
  map (fun f => (All, f * (f - 1))) [is_and; is_or; is_xor] ++
  [(All, all_flags * (all_flags - 1))] ++
  map (fun b => (All, b * (b - 1))) (read_value VAL_BITS lv L_INPUT0) ++
  map (fun b => (All, b * (b - 1))) (read_value VAL_BITS lv L_INPUT1) ++
  map (fun i =>
    let x_bits := chunk lv L_INPUT0 i in
    let y_bits := chunk lv L_INPUT1 i in
    let x := limb_from_bits_le x_bits in
    let y := limb_from_bits_le y_bits in
    let x_land_y := land_from_bits 0 x_bits y_bits in
    let x_op_y := sum_coeff * (x + y) + and_coeff * x_land_y in
    (All, lv (L_RESULT + i)%nat - x_op_y)) (seq 0 PACKED_LEN).

(** The gates of plonky2's circuit builder used by the [eval_ext_circuit]
    functions, on values.  Constants are canonical field elements. *)
Definition mul_extension (a b : Z) : Z := a * b.
Definition add_extension (a b : Z) : Z := a + b.
Definition sub_extension (a b : Z) : Z := a - b.
Definition mul_sub_extension (a b c : Z) : Z := a * b - c.
Definition mul_add_extension (a b c : Z) : Z := a * b + c.
Definition mul_const_add_extension (c x y : Z) : Z := c * x + y.
Definition add_const_extension (x c : Z) : Z := x + c.
Definition arithmetic_extension (c0 c1 x y z : Z) : Z := c0 * (x * y) + c1 * z.
Definition add_many_extension (l : list Z) : Z := fold_left add_extension l 0.
Definition mul_many_extension (l : list Z) : Z := fold_left mul_extension l 1.

(** util.rs:25-36 *)
Fixpoint limb_from_bits_rec (acc i : Z) (bits : list Z) : Z :=
  match bits with
  | [] => acc
  | b :: r => limb_from_bits_rec (mul_const_add_extension (2 ^ i) b acc) (i + 1) r
  end.
Definition limb_from_bits_le_recursive (bits : list Z) : Z := limb_from_bits_rec 0 0 bits.

Fixpoint land_from_bits_rec (acc i : Z) (xs ys : list Z) : Z :=
  match xs, ys with
  | x :: xs', y :: ys' => land_from_bits_rec (arithmetic_extension (2 ^ i) 1 x y acc) (i + 1) xs' ys'
  | _, _ => acc
  end.

(** logic.rs:320-388 *)
Definition eval_logic_circuit (lv : row) : list constr :=
  let is_and := lv L_IS_AND in
  let is_or := lv L_IS_OR in
  let is_xor := lv L_IS_XOR in
  let all_flags := add_many_extension [is_and; is_or; is_xor] in
  let sum_coeff := add_extension is_or is_xor in
  let and_coeff := mul_const_add_extension (P - 2) is_xor (sub_extension is_and is_or) in
  map (fun f => (All, mul_sub_extension f f f)) [is_and; is_or; is_xor] ++
  [(All, mul_sub_extension all_flags all_flags all_flags)] ++
  map (fun b => (All, mul_sub_extension b b b)) (read_value VAL_BITS lv L_INPUT0) ++
  map (fun b => (All, mul_sub_extension b b b)) (read_value VAL_BITS lv L_INPUT1) ++
  map (fun i =>
    let x_bits := chunk lv L_INPUT0 i in
    let y_bits := chunk lv L_INPUT1 i in
    let x := limb_from_bits_le_recursive x_bits in
    let y := limb_from_bits_le_recursive y_bits in
    let x_land_y := land_from_bits_rec 0 0 x_bits y_bits in
    let x_op_y := mul_extension sum_coeff x in
    let x_op_y := mul_add_extension sum_coeff y x_op_y in
    let x_op_y := mul_add_extension and_coeff x_land_y x_op_y in
    (All, sub_extension (lv (L_RESULT + i)%nat) x_op_y)) (seq 0 PACKED_LEN).

(** * Generation *)

(** logic.rs:121-156 *)
Inductive logic_op : Type := LAnd | LOr | LXor.
Definition logic_result (op : logic_op) (a b : Z) : Z :=
  match op with LAnd => Z.land a b | LOr => Z.lor a b | LXor => Z.lxor a b end.

Record logic_operation : Type := { l_operator : logic_op; l_input0 : Z; l_input1 : Z }.

(** logic.rs:160-184.  [result_limbs] are the 64-bit words; their halves are
    the eight 32-bit limbs. *)
Definition l_into_row (o : logic_operation) : row :=
  let result := logic_result (l_operator o) (l_input0 o) (l_input1 o) in
  let r := set zero_row (match l_operator o with LAnd => L_IS_AND | LOr => L_IS_OR | LXor => L_IS_XOR end) 1 in
  let r := write r L_INPUT0 (map (fun i => b2z (Z.testbit (l_input0 o) (Z.of_nat i))) (seq 0 256)) in
  let r := write r L_INPUT1 (map (fun i => b2z (Z.testbit (l_input1 o) (Z.of_nat i))) (seq 0 256)) in
  let word64 i := (result / 2 ^ (64 * Z.of_nat i)) mod 2^64 in
  write r L_RESULT (flat_map (fun i => [word64 i mod 2^32; Z.shiftr (word64 i) 32]) (seq 0 4)).

(** [usize::next_power_of_two] *)
Definition next_power_of_two (n : nat) : nat := Nat.pow 2 (Nat.log2_up n).

(** logic.rs:213-236 *)
Definition l_generate_trace_rows (operations : list logic_operation) (min_rows : nat) : list row :=
  let len := length operations in
  let padded_len := next_power_of_two (Nat.max len min_rows) in
  map l_into_row operations ++ repeat zero_row (padded_len - len).

(** A table accepted by the verifier: canonical cells, and all constraints
    hold (they are all of kind [All] and use one row). *)
Definition logic_table_ok (t : list row) : Prop :=
  Forall (fun r => (forall c, canonical (r c)) /\ Forall (fun c => snd c mod P = 0) (eval_logic r)) t.
