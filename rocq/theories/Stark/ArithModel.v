(** Model of the arithmetic table (evm_arithmetization/src/arithmetic).

    Field elements are integers in [0, P) (see Field.v).  A constraint is the
    value of the constraint polynomial on a pair of consecutive rows, together
    with the kind of [ConstraintConsumer] method that was called; "the
    constraint holds" means that the value is zero modulo P.

    Simplifications, all stated where they occur:
    - i64 and BigInt arithmetic of the generation code is integer arithmetic
      (no overflow is possible, every intermediate value is below 2^54);
    - [debug_assert!]s are not modelled, [assert!]s and [unwrap]s are;
    - a row is a function from column numbers to field elements for the
      columns 0..113, with the range counter (114) and its frequencies (115)
      as separate record fields, because only the range check uses them;
    - the circuit versions ([eval_ext_circuit]) are not modelled. *)
From Coq Require Import ZArith List Bool Arith.
From Verif Require Import Stark.Field.
Import ListNotations.
Local Open Scope Z_scope.

(** * arithmetic/columns.rs *)

(** columns.rs:5-25 *)
Definition LIMB_BITS : Z := 16.
Definition N_LIMBS : nat := 16.

(** columns.rs:25-44 *)
Definition IS_ADD : nat := 0.
Definition IS_MUL : nat := 1.
Definition IS_SUB : nat := 2.
Definition IS_DIV : nat := 3.
Definition IS_MOD : nat := 4.
Definition IS_ADDMOD : nat := 5.
Definition IS_MULMOD : nat := 6.
Definition IS_ADDFP254 : nat := 7.
Definition IS_MULFP254 : nat := 8.
Definition IS_SUBFP254 : nat := 9.
Definition IS_SUBMOD : nat := 10.
Definition IS_LT : nat := 11.
Definition IS_GT : nat := 12.
Definition IS_BYTE : nat := 13.
Definition IS_SHL : nat := 14.
Definition IS_SHR : nat := 15.
Definition IS_RANGE_CHECK : nat := 16.
Definition OPCODE_COL : nat := 17.
Definition START_SHARED_COLS : nat := 18.

(** columns.rs:46-48 *)
Definition op_flags : list nat := seq IS_ADD (S IS_RANGE_CHECK).

(** columns.rs:58-59 *)
Definition NUM_SHARED_COLS : nat := 6 * N_LIMBS.
Definition SHARED_COLS : list nat := seq START_SHARED_COLS NUM_SHARED_COLS.

(** columns.rs:61-78; a register is given by its first column, it has
    N_LIMBS columns (2 N_LIMBS for AUX_INPUT_REGISTER_DBL). *)
Definition INPUT_REGISTER_0 : nat := 18.
Definition INPUT_REGISTER_1 : nat := 34.
Definition INPUT_REGISTER_2 : nat := 50.
Definition OUTPUT_REGISTER : nat := 66.
Definition AUX_INPUT_REGISTER_0 : nat := 82.
Definition AUX_INPUT_REGISTER_1 : nat := 98.
Definition AUX_INPUT_REGISTER_DBL : nat := 82.

(** columns.rs:80-92 *)
Definition AUX_COEFF_ABS_MAX : Z := 2^20.

(** columns.rs:94-96 *)
Definition MUL_AUX_INPUT_LO : nat := AUX_INPUT_REGISTER_0.
Definition MUL_AUX_INPUT_HI : nat := AUX_INPUT_REGISTER_1.

(** columns.rs:104-118, columns of the second row of a two-row operation. *)
Definition MODULAR_INPUT_0 : nat := INPUT_REGISTER_0.
Definition MODULAR_INPUT_1 : nat := INPUT_REGISTER_1.
Definition MODULAR_MODULUS : nat := INPUT_REGISTER_2.
Definition MODULAR_OUTPUT : nat := OUTPUT_REGISTER.
Definition MODULAR_QUO_INPUT : nat := AUX_INPUT_REGISTER_DBL.
Definition MODULAR_OUT_AUX_RED : nat := 18.
Definition MODULAR_MOD_IS_ZERO : nat := 34.
Definition MODULAR_AUX_INPUT_LO : nat := 35.       (* 31 columns *)
Definition MODULAR_AUX_INPUT_HI : nat := 66.       (* 31 columns *)
Definition MODULAR_DIV_DENOM_IS_ZERO : nat := 97.

(** * Rows and constraints *)

Definition row : Type := nat -> Z.

Record trow : Type := { cells : row; range_counter : Z; rc_frequency : Z }.

(** The methods of starky's ConstraintConsumer: [constraint] applies to every
    row, [constraint_transition] to every row but the last,
    [constraint_first_row] and [constraint_last_row] to one row. *)
Inductive kind : Type := All | Transition | First | Last.

Definition constr : Type := (kind * Z)%type.

(** utils.rs:306-308 *)
Definition read_value (n : nat) (lv : row) (start : nat) : list Z := map lv (seq start n).

(** Writing a slice of a row. *)
Definition write (lv : row) (start : nat) (vs : list Z) : row :=
  fun c => if (start <=? c)%nat && (c <? start + length vs)%nat then nth (c - start) vs 0 else lv c.

Definition set (lv : row) (col : nat) (v : Z) : row := write lv col [v].

Definition zero_row : row := fun _ => 0.

(** * arithmetic/utils.rs *)

Definition sum (l : list Z) : Z := fold_right Z.add 0 l.

(** utils.rs:26-38 *)
Fixpoint pol_add_assign (a b : list Z) : list Z :=
  match a, b with
  | x :: a', y :: b' => (x + y) :: pol_add_assign a' b'
  | _, _ => a
  end.

(** utils.rs:103-111 *)
Fixpoint pol_sub_assign (a b : list Z) : list Z :=
  match a, b with
  | x :: a', y :: b' => (x - y) :: pol_sub_assign a' b'
  | _, _ => a
  end.

(** utils.rs:51-60 and 77-86: the result has 2 N_LIMBS - 1 coefficients. *)
Definition pol_zero (n : nat) : list Z := repeat 0 n.
Definition pol_add (a b : list Z) : list Z :=
  pol_add_assign (pol_add_assign (pol_zero (2 * N_LIMBS - 1)) a) b.
Definition pol_sub (a b : list Z) : list Z :=
  pol_sub_assign (pol_add_assign (pol_zero (2 * N_LIMBS - 1)) a) b.

(** Coefficient k of the product of two polynomials. *)
Definition conv (a b : list Z) (k : nat) : Z :=
  sum (map (fun i => nth i a 0 * nth (k - i) b 0) (seq 0 (S k))).

(** utils.rs:128-139, 158-169, 188-201.  The loops of the first two add
    a[i]*b[j] to res[i+j]; coefficient by coefficient that is [conv]. *)
Definition pol_mul_wide (a b : list Z) : list Z := map (conv a b) (seq 0 (2 * N_LIMBS - 1)).
Definition pol_mul_wide2 (a b : list Z) : list Z := map (conv a b) (seq 0 (3 * N_LIMBS - 1)).
Definition pol_mul_lo (a b : list Z) : list Z := map (conv a b) (seq 0 N_LIMBS).

(** utils.rs:219-228 *)
Definition pol_extend (a : list Z) : list Z := a ++ pol_zero (N_LIMBS - 1).

(** utils.rs:232-247: res[0] = -root*a[0], res[i] = a[i-1] - root*a[i]. *)
Fixpoint adjoin_from (prev : Z) (a : list Z) (root : Z) : list Z :=
  match a with
  | [] => []
  | x :: a' => (prev - root * x) :: adjoin_from x a' root
  end.
Definition pol_adjoin_root (a : list Z) (root : Z) : list Z := adjoin_from 0 a root.

(** utils.rs:278-302 with EXP = 16. *)
Fixpoint remove_root_from (prev : Z) (a : list Z) : list Z :=
  match a with
  | [] => []
  | [_] => [0]
  | x :: a' => let q := Z.shiftr (prev - x) 16 in q :: remove_root_from q a'
  end.
Definition pol_remove_root_2exp (a : list Z) : list Z :=
  match a with
  | [] => []
  | x :: a' => let q := - Z.shiftr x 16 in q :: remove_root_from q a'
  end.

(** utils.rs:322-345: a 256-bit integer as 16-bit limbs.  The code goes
    through four 64-bit words; the limbs are the same. *)
Definition u256_to_array (x : Z) : list Z :=
  map (fun i => (x / 2 ^ (16 * Z.of_nat i)) mod 2^16) (seq 0 N_LIMBS).

(** * arithmetic/addcy.rs *)

(** addcy.rs:67 *)
Definition GOLDILOCKS_INVERSE_65536 : Z := 18446462594437939201.

(** The loop of addcy.rs:118-131: the list of [t]s and the final carry. *)
Fixpoint addcy_limbs (x y z : list Z) (cy : Z) : list Z * Z :=
  match x, y, z with
  | xi :: x', yi :: y', zi :: z' =>
    let t := cy + xi + yi - zi in
    let r := addcy_limbs x' y' z' (fmul t GOLDILOCKS_INVERSE_65536) in
    (t :: fst r, snd r)
  | _, _, _ => ([], cy)
  end.

(** addcy.rs:98-151 *)
Definition eval_packed_generic_addcy (filter : Z) (x y z given_cy : list Z) (is_two_row_op : bool) : list constr :=
  let overflow := 2^16 in
  let k := if is_two_row_op then Transition else All in
  let r := addcy_limbs x y z 0 in
  map (fun t => (k, filter * t * (overflow - t))) (fst r) ++
  (if is_two_row_op then [] else [(k, filter * hd 0 given_cy * (hd 0 given_cy - 1))]) ++
  [(k, filter * (snd r - hd 0 given_cy))] ++
  map (fun c => (k, filter * c)) (tl given_cy).

(** addcy.rs:153-172 *)
Definition eval_addcy (lv : row) : list constr :=
  let in0 := read_value N_LIMBS lv INPUT_REGISTER_0 in
  let in1 := read_value N_LIMBS lv INPUT_REGISTER_1 in
  let out := read_value N_LIMBS lv OUTPUT_REGISTER in
  let aux := read_value N_LIMBS lv AUX_INPUT_REGISTER_0 in
  eval_packed_generic_addcy (lv IS_ADD) in0 in1 out aux false ++
  eval_packed_generic_addcy (lv IS_SUB) in1 out in0 aux false ++
  eval_packed_generic_addcy (lv IS_LT) in1 aux in0 out false ++
  eval_packed_generic_addcy (lv IS_GT) in0 aux in1 out false.

(** addcy.rs:31-64; [overflowing_add] and [overflowing_sub] of U256. *)
Definition W : Z := 2^256.
Definition b2z (b : bool) : Z := if b then 1 else 0.

Definition generate_addcy (lv : row) (filter : nat) (left_in right_in : Z) : option row :=
  let lv := write lv INPUT_REGISTER_0 (u256_to_array left_in) in
  let lv := write lv INPUT_REGISTER_1 (u256_to_array right_in) in
  let lv := write lv INPUT_REGISTER_2 (u256_to_array 0) in
  if (filter =? IS_ADD)%nat then
    let lv := write lv AUX_INPUT_REGISTER_0 (u256_to_array (b2z (W <=? left_in + right_in))) in
    Some (write lv OUTPUT_REGISTER (u256_to_array ((left_in + right_in) mod W)))
  else if (filter =? IS_SUB)%nat then
    let lv := write lv AUX_INPUT_REGISTER_0 (u256_to_array (b2z (left_in <? right_in))) in
    Some (write lv OUTPUT_REGISTER (u256_to_array ((left_in - right_in) mod W)))
  else if (filter =? IS_LT)%nat then
    let lv := write lv AUX_INPUT_REGISTER_0 (u256_to_array ((left_in - right_in) mod W)) in
    Some (write lv OUTPUT_REGISTER (u256_to_array (b2z (left_in <? right_in))))
  else if (filter =? IS_GT)%nat then
    let lv := write lv AUX_INPUT_REGISTER_0 (u256_to_array ((right_in - left_in) mod W)) in
    Some (write lv OUTPUT_REGISTER (u256_to_array (b2z (right_in <? left_in))))
  else None.

(** * arithmetic/mul.rs *)

(** Elementwise addition of lo + hi * 2^16 - 2^20, mul.rs:141-147. *)
Definition unbias (lo hi : Z) : Z := lo + (hi * 2^16 - AUX_COEFF_ABS_MAX).

(** mul.rs:124-175 *)
Definition eval_packed_generic_mul (lv : row) (filter : Z) (left_in right_in : list Z) : list constr :=
  let output := read_value N_LIMBS lv OUTPUT_REGISTER in
  let aux := map (fun p => unbias (fst p) (snd p))
                 (combine (read_value N_LIMBS lv MUL_AUX_INPUT_LO) (read_value N_LIMBS lv MUL_AUX_INPUT_HI)) in
  let poly := pol_sub_assign (pol_mul_lo left_in right_in) output in
  let poly := pol_sub_assign poly (pol_adjoin_root aux (2^16)) in
  map (fun c => (All, filter * c)) poly.

(** mul.rs:177-186 *)
Definition eval_mul (lv : row) : list constr :=
  eval_packed_generic_mul lv (lv IS_MUL) (read_value N_LIMBS lv INPUT_REGISTER_0) (read_value N_LIMBS lv INPUT_REGISTER_1).

(** The carry loop of mul.rs:82-86: output limbs and final carry. *)
Fixpoint carry_limbs (l : list Z) (cy : Z) : list Z * Z :=
  match l with
  | [] => ([], cy)
  | x :: l' =>
    let t := x + cy in
    let r := carry_limbs l' (Z.shiftr t 16) in
    (Z.land t (2^16 - 1) :: fst r, snd r)
  end.

(** [F::from_canonical_u16(c as u16)] and [(c >> 16) as u16], mul.rs:106-108. *)
Definition lo16 (c : Z) : Z := c mod 2^16.
Definition hi16 (c : Z) : Z := (Z.shiftr c 16) mod 2^16.

Definition set_last (l : list Z) (v : Z) : list Z := removelast l ++ [v].

(** mul.rs:72-109 *)
Definition generate_mul (lv : row) (left_in right_in : list Z) : row :=
  let unreduced := pol_mul_lo left_in right_in in
  let r := carry_limbs unreduced 0 in
  let lv := write lv OUTPUT_REGISTER (fst r) in
  let unreduced := pol_sub_assign unreduced (fst r) in
  let aux := set_last (pol_remove_root_2exp unreduced) (- snd r) in
  let aux := map (fun c => c + AUX_COEFF_ABS_MAX) aux in
  let lv := write lv MUL_AUX_INPUT_LO (map lo16 aux) in
  write lv MUL_AUX_INPUT_HI (map hi16 aux).

(** mul.rs:111-122 *)
Definition generate_mul_op (lv : row) (left_in right_in : Z) : row :=
  let lv := write lv INPUT_REGISTER_0 (u256_to_array left_in) in
  let lv := write lv INPUT_REGISTER_1 (u256_to_array right_in) in
  let lv := write lv INPUT_REGISTER_2 (u256_to_array 0) in
  generate_mul lv (read_value N_LIMBS lv INPUT_REGISTER_0) (read_value N_LIMBS lv INPUT_REGISTER_1).

(** * arithmetic/modular.rs *)

(** extension_tower.rs:25-30 *)
Definition BN_BASE : Z :=
  0x3c208c16d87cfd47 + 2^64 * 0x97816a916871ca8d + 2^128 * 0xb85045b68181585d + 2^192 * 0x30644e72e131a029.

(** modular.rs:128-141 *)
Definition bn254_modulus_limbs : list Z := u256_to_array BN_BASE.

Definition add_hd (l : list Z) (v : Z) : list Z :=
  match l with [] => [] | x :: l' => (x + v) :: l' end.

(** modular.rs:382-414 *)
Definition check_reduced (lv nv : row) (filter : Z) (output modulus : list Z) (mod_is_zero : Z) : list constr :=
  let is_less_than := (1 - mod_is_zero * (lv IS_DIV + lv IS_SHR)) :: repeat 0 (N_LIMBS - 1) in
  eval_packed_generic_addcy filter modulus (read_value N_LIMBS nv MODULAR_OUT_AUX_RED) output is_less_than true.

(** modular.rs:427-495: the constraints yielded and the polynomial returned. *)
Definition modular_constr_poly (lv nv : row) (filter : Z) (output modulus quot : list Z) : list constr * list Z :=
  let mod_is_zero := nv MODULAR_MOD_IS_ZERO in
  let c1 := (Transition, filter * (mod_is_zero * mod_is_zero - mod_is_zero)) in
  let limb_sum := sum modulus in
  let c2 := (Transition, filter * limb_sum * mod_is_zero) in
  let modulus := add_hd modulus mod_is_zero in
  let div_denom_is_zero := nv MODULAR_DIV_DENOM_IS_ZERO in
  let c3 := (Transition, filter * (mod_is_zero * (lv IS_DIV + lv IS_SHR) - div_denom_is_zero)) in
  let cs := check_reduced lv nv filter (add_hd output div_denom_is_zero) modulus mod_is_zero in
  let prod := pol_mul_wide2 quot modulus in
  let high := map (fun x => (Transition, filter * x)) (skipn (2 * N_LIMBS) prod) in
  let poly := pol_add_assign (firstn (2 * N_LIMBS) prod) output in
  let lo := read_value (2 * N_LIMBS - 1) nv MODULAR_AUX_INPUT_LO in
  let hi := read_value (2 * N_LIMBS - 1) nv MODULAR_AUX_INPUT_HI in
  let aux := map (fun p => fst p - AUX_COEFF_ABS_MAX + 2^16 * snd p) (combine lo hi) ++ [0] in
  ([c1; c2; c3] ++ cs ++ high, pol_add_assign poly (pol_adjoin_root aux (2^16))).

(** modular.rs:510-536 *)
Definition submod_constr_poly (lv nv : row) (filter : Z) (output modulus quot : list Z) : list constr * list Z :=
  let lo := firstn N_LIMBS quot in
  let hi := skipn N_LIMBS quot in
  let sign := hd 0 hi in
  let c1 := (All, filter * sign * (sign - 1)) in
  let lo := map (fun c => c - 65535 * sign) lo in
  let hi := 0 :: tl hi in
  let cs := map (fun d => (All, filter * d)) hi in
  let r := modular_constr_poly lv nv filter output modulus (lo ++ hi) in
  (c1 :: cs ++ fst r, snd r).

(** The loop body of modular.rs:590-612. *)
Definition poly_constraints (poly input : list Z) (filter : Z) : list constr :=
  map (fun c => (Transition, filter * c)) (pol_sub_assign poly input).

(** modular.rs:539-613 *)
Definition eval_modular (lv nv : row) : list constr :=
  let bn254_filter := lv IS_ADDFP254 + lv IS_MULFP254 + lv IS_SUBFP254 in
  let filter := lv IS_ADDMOD + lv IS_SUBMOD + lv IS_MULMOD + bn254_filter in
  let modulus := read_value N_LIMBS lv MODULAR_MODULUS in
  let output := read_value N_LIMBS lv MODULAR_OUTPUT in
  let quo_input := read_value (2 * N_LIMBS) lv MODULAR_QUO_INPUT in
  let add_filter := lv IS_ADDMOD + lv IS_ADDFP254 in
  let sub_filter := lv IS_SUBMOD + lv IS_SUBFP254 in
  let mul_filter := lv IS_MULMOD + lv IS_MULFP254 in
  let addmul_filter := add_filter + mul_filter in
  let rs := submod_constr_poly lv nv sub_filter output modulus quo_input in
  let rm := modular_constr_poly lv nv addmul_filter output modulus quo_input in
  let input0 := read_value N_LIMBS lv MODULAR_INPUT_0 in
  let input1 := read_value N_LIMBS lv MODULAR_INPUT_1 in
  [(Last, filter)] ++
  map (fun p => (Transition, bn254_filter * (fst p - snd p))) (combine modulus bn254_modulus_limbs) ++
  fst rs ++ fst rm ++
  poly_constraints (snd rm) (pol_add input0 input1) add_filter ++
  poly_constraints (snd rs) (pol_sub input0 input1) sub_filter ++
  poly_constraints (snd rm) (pol_mul_wide input0 input1) mul_filter.

(** modular.rs:156-181: pairs of limbs become signed 32-bit digits, with a
    carry; the positive and the negative digits make two BigInts.  [t as u32]
    is the residue modulo 2^32, [/] truncates towards zero. *)
Fixpoint bigint_digits (limbs : list Z) (cy : Z) : list (Z * Z) :=
  let digit t := (if 0 <? t then t mod 2^32 else 0, if t <? 0 then (- t) mod 2^32 else 0) in
  match limbs with
  | [] => [digit cy]
  | [l0] => let t := cy + l0 in [digit t; digit (Z.quot t (2^32))]
  | l0 :: l1 :: r =>
    let t := cy + l0 + 2^16 * l1 in
    digit t :: bigint_digits r (Z.quot t (2^32))
  end.

Fixpoint from_u32_digits (l : list Z) : Z :=
  match l with [] => 0 | x :: l' => x + 2^32 * from_u32_digits l' end.

Definition columns_to_bigint (limbs : list Z) : Z :=
  let d := bigint_digits limbs 0 in
  from_u32_digits (map fst d) - from_u32_digits (map snd d).

(** modular.rs:192-205: None is the failed [assert!].  The code splits the
    32-bit digits of the magnitude in two; those are the 16-bit digits. *)
Definition bigint_to_columns (n : nat) (num : Z) : option (list Z) :=
  if Z.abs num <? 2 ^ (16 * Z.of_nat n) then
    Some (map (fun i => Z.sgn num * ((Z.abs num / 2 ^ (16 * Z.of_nat i)) mod 2^16)) (seq 0 n))
  else None.

Definition obind {A B} (o : option A) (f : A -> option B) : option B :=
  match o with Some a => f a | None => None end.

(** [F::from_noncanonical_i64] *)
Definition from_noncanonical (c : Z) : Z := c mod P.

(** modular.rs:211-338.  Returns the second row, the output limbs and the
    quotient limbs.  BigInt's [%] truncates ([Z.rem]) and its division is
    exact here ([Z.quot]). *)
Definition generate_modular_op (lv nv : row) (filter : nat) (pol_input : list Z) (modulus_range : nat)
  : option (row * list Z * list Z) :=
  let modulus_limbs := read_value N_LIMBS lv modulus_range in
  let modulus := columns_to_bigint modulus_limbs in
  let constr_poly := pol_input ++ [0] in
  let is_divshr := (filter =? IS_DIV)%nat || (filter =? IS_SHR)%nat in
  let '(modulus, modulus_limbs, mod_is_zero) :=
    if modulus =? 0 then
      if is_divshr then (W, modulus_limbs, 1) else (1, 1 :: tl modulus_limbs, 1)
    else (modulus, modulus_limbs, 0) in
  let input := columns_to_bigint constr_poly in
  let output := Z.rem input modulus in
  let output := if output <? 0 then output + modulus else output in
  obind (bigint_to_columns N_LIMBS output) (fun output_limbs =>
  let quot := Z.quot (input - output) modulus in
  obind (bigint_to_columns (2 * N_LIMBS) quot) (fun quot_limbs =>
  obind (bigint_to_columns N_LIMBS (W - modulus + output)) (fun out_aux_red =>
  let constr_poly := pol_sub_assign constr_poly output_limbs in
  let prod := pol_mul_wide2 quot_limbs modulus_limbs in
  let constr_poly := pol_sub_assign constr_poly (firstn (2 * N_LIMBS) prod) in
  let aux := map (fun c => c + AUX_COEFF_ABS_MAX) (pol_remove_root_2exp constr_poly) in
  let nv := write nv MODULAR_AUX_INPUT_LO (map lo16 (firstn (2 * N_LIMBS - 1) aux)) in
  let nv := write nv MODULAR_AUX_INPUT_HI (map hi16 (firstn (2 * N_LIMBS - 1) aux)) in
  let quot_limbs :=
    if (filter =? IS_SUBMOD)%nat || (filter =? IS_SUBFP254)%nat then
      let lo := firstn N_LIMBS quot_limbs in
      let hi := skipn N_LIMBS quot_limbs in
      if quot <? 0 then map (fun c => c + 65535) lo ++ 1 :: tl hi
      else lo ++ 0 :: tl hi
    else quot_limbs in
  let nv := set nv MODULAR_MOD_IS_ZERO mod_is_zero in
  let nv := write nv MODULAR_OUT_AUX_RED out_aux_red in
  let nv := set nv MODULAR_DIV_DENOM_IS_ZERO (mod_is_zero * (lv IS_DIV + lv IS_SHR)) in
  Some (nv, output_limbs, map from_noncanonical quot_limbs)))).

(** modular.rs:343-380; None also for the [panic!] on an unknown filter. *)
Definition generate_modular (lv nv : row) (filter : nat) (input0 input1 modulus : Z) : option (row * row) :=
  let lv := write lv MODULAR_INPUT_0 (u256_to_array input0) in
  let lv := write lv MODULAR_INPUT_1 (u256_to_array input1) in
  let lv := write lv MODULAR_MODULUS (u256_to_array modulus) in
  let l0 := read_value N_LIMBS lv MODULAR_INPUT_0 in
  let l1 := read_value N_LIMBS lv MODULAR_INPUT_1 in
  let is x := (filter =? x)%nat in
  let pol_input :=
    if is IS_ADDMOD || is IS_ADDFP254 then Some (pol_add l0 l1)
    else if is IS_SUBMOD || is IS_SUBFP254 then Some (pol_sub l0 l1)
    else if is IS_MULMOD || is IS_MULFP254 then Some (pol_mul_wide l0 l1)
    else None in
  obind pol_input (fun p =>
  obind (generate_modular_op lv nv filter p MODULAR_MODULUS) (fun r =>
  let '(nv, out, quo_input) := r in
  let lv := write lv MODULAR_OUTPUT out in
  Some (write lv MODULAR_QUO_INPUT quo_input, nv))).

(** * arithmetic/divmod.rs *)

(** divmod.rs:86-118 *)
Definition eval_divmod_helper (lv nv : row) (filter : Z) (num_range den_range quo_range rem_range : nat) : list constr :=
  let num := read_value N_LIMBS lv num_range in
  let den := read_value N_LIMBS lv den_range in
  let quo := read_value N_LIMBS lv quo_range ++ pol_zero N_LIMBS in
  let rem := read_value N_LIMBS lv rem_range in
  let r := modular_constr_poly lv nv filter rem den quo in
  [(Last, filter)] ++ fst r ++ poly_constraints (snd r) num filter.

(** divmod.rs:120-145 *)
Definition eval_divmod (lv nv : row) : list constr :=
  eval_divmod_helper lv nv (lv IS_DIV) INPUT_REGISTER_0 INPUT_REGISTER_1 OUTPUT_REGISTER AUX_INPUT_REGISTER_0 ++
  eval_divmod_helper lv nv (lv IS_MOD) INPUT_REGISTER_0 INPUT_REGISTER_1 AUX_INPUT_REGISTER_0 OUTPUT_REGISTER.

(** divmod.rs:24-66 *)
Definition generate_divmod (lv nv : row) (filter : nat) (input_limbs_range modulus_range : nat) : option (row * row) :=
  let pol_input := pol_extend (read_value N_LIMBS lv input_limbs_range) in
  obind (generate_modular_op lv nv filter pol_input modulus_range) (fun r =>
  let '(nv, out, quo_input) := r in
  let lv := write lv MODULAR_QUO_INPUT (pol_zero (2 * N_LIMBS)) in
  if (filter =? IS_DIV)%nat || (filter =? IS_SHR)%nat then
    Some (write lv AUX_INPUT_REGISTER_0 out, nv)
  else if (filter =? IS_MOD)%nat then
    Some (write lv AUX_INPUT_REGISTER_0 (firstn N_LIMBS quo_input), nv)
  else None).

(** divmod.rs:68-83 *)
Definition generate_divmod_op (lv nv : row) (filter : nat) (input0 input1 result : Z) : option (row * row) :=
  let lv := write lv INPUT_REGISTER_0 (u256_to_array input0) in
  let lv := write lv INPUT_REGISTER_1 (u256_to_array input1) in
  let lv := write lv OUTPUT_REGISTER (u256_to_array result) in
  generate_divmod lv nv filter INPUT_REGISTER_0 INPUT_REGISTER_1.

(** * arithmetic/shift.rs *)

(** shift.rs:85-128 *)
Definition eval_shift (lv nv : row) : list constr :=
  eval_packed_generic_mul lv (lv IS_SHL) (read_value N_LIMBS lv INPUT_REGISTER_1) (read_value N_LIMBS lv INPUT_REGISTER_2) ++
  eval_divmod_helper lv nv (lv IS_SHR) INPUT_REGISTER_1 INPUT_REGISTER_2 OUTPUT_REGISTER AUX_INPUT_REGISTER_0.

(** shift.rs:41-79 *)
Definition generate_shift (lv nv : row) (is_shl : bool) (shift input result : Z) : option (row * row) :=
  let lv := write lv INPUT_REGISTER_0 (u256_to_array shift) in
  let lv := write lv INPUT_REGISTER_1 (u256_to_array input) in
  let lv := write lv OUTPUT_REGISTER (u256_to_array result) in
  let shifted_displacement := if 255 <? shift then 0 else 2 ^ shift in
  let lv := write lv INPUT_REGISTER_2 (u256_to_array shifted_displacement) in
  if is_shl then
    Some (generate_mul lv (read_value N_LIMBS lv INPUT_REGISTER_1) (read_value N_LIMBS lv INPUT_REGISTER_2), nv)
  else generate_divmod lv nv IS_SHR INPUT_REGISTER_1 INPUT_REGISTER_2.

(** * arithmetic/byte.rs *)

(** byte.rs:81-89 *)
Definition BYTE_IDX_DECOMP : nat := 82.
Definition BYTE_IDX_DECOMP_HI : nat := 87.
Definition BYTE_LAST_LIMB_LO : nat := 88.
Definition BYTE_LAST_LIMB_HI : nat := 89.
Definition BYTE_IDX_IS_LARGE : nat := 90.
Definition BYTE_IDX_HI_LIMB_SUM_INV_0 : nat := 91.
Definition BYTE_IDX_HI_LIMB_SUM_INV_1 : nat := 92.
Definition BYTE_IDX_HI_LIMB_SUM_INV_2 : nat := 93.
Definition BYTE_IDX_HI_LIMB_SUM_INV_3 : nat := 94.

(** byte.rs:201-295 *)
Definition eval_byte (lv : row) : list constr :=
  let is_byte := lv IS_BYTE in
  let idx i := lv (INPUT_REGISTER_0 + i)%nat in
  let val i := lv (INPUT_REGISTER_1 + i)%nat in
  let out i := lv (OUTPUT_REGISTER + i)%nat in
  let idx_decomp i := lv (AUX_INPUT_REGISTER_0 + i)%nat in
  let tree i := lv (AUX_INPUT_REGISTER_1 + i)%nat in
  let yield e := (All, is_byte * e) in
  let idx0_lo5 := sum (map (fun i => idx_decomp i * 2 ^ Z.of_nat i) (seq 0 5)) in
  let idx0_hi := idx_decomp 5%nat * 32 in
  let mux b x y := b * x + (1 - b) * y in
  let limb := mux (idx_decomp 1%nat) (tree 12%nat) (tree 13%nat) in
  let lo_byte := lv BYTE_LAST_LIMB_LO in
  let hi_byte := lv BYTE_LAST_LIMB_HI in
  let bit0 := idx_decomp 0%nat in
  let hi_limb_sum := lv BYTE_IDX_DECOMP_HI + sum (map idx (seq 1 15)) in
  let idx_is_large := lv BYTE_IDX_IS_LARGE in
  let hi_limb_sum_inv := lv BYTE_IDX_HI_LIMB_SUM_INV_0 + lv BYTE_IDX_HI_LIMB_SUM_INV_1 * 2^16
                         + lv BYTE_IDX_HI_LIMB_SUM_INV_2 * 2^32 + lv BYTE_IDX_HI_LIMB_SUM_INV_3 * 2^48 in
  map (fun i => yield (idx_decomp i * idx_decomp i - idx_decomp i)) (seq 0 5) ++
  [yield (idx 0%nat - (idx0_lo5 + idx0_hi))] ++
  map (fun i => yield (tree i - mux (idx_decomp 4%nat) (val i) (val (i + 8)%nat))) (seq 0 8) ++
  map (fun i => yield (tree (i + 8)%nat - mux (idx_decomp 3%nat) (tree i) (tree (i + 4)%nat))) (seq 0 4) ++
  map (fun i => yield (tree (i + 12)%nat - mux (idx_decomp 2%nat) (tree (i + 8)%nat) (tree (i + 10)%nat))) (seq 0 2) ++
  [yield (tree 14%nat - limb);
   yield (lo_byte + 2^8 * (2^8 * hi_byte - limb));
   yield (2^8 * tree 15%nat - (bit0 * lo_byte + (1 - bit0) * 2^8 * hi_byte));
   yield (idx_is_large * idx_is_large - idx_is_large);
   yield (hi_limb_sum * (idx_is_large - 1));
   yield (hi_limb_sum * hi_limb_sum_inv - idx_is_large);
   yield (out 0%nat - (1 - idx_is_large) * tree 15%nat)] ++
  map (fun i => yield (out i)) (seq 1 15).

(** Field inversion, by the extended Euclidean algorithm.  plonky2's
    [try_inverse] computes the same (unique) element by another algorithm. *)
Fixpoint egcd (fuel : nat) (r0 r1 s0 s1 : Z) : Z :=
  match fuel with
  | O => s0
  | S f => if r1 =? 0 then s0 else egcd f r1 (r0 mod r1) s1 (s0 - (r0 / r1) * s1)
  end.
Definition try_inverse (a : Z) : option Z :=
  if a mod P =? 0 then None else Some ((egcd 130 P (a mod P) 0 1) mod P).

Definition bit (x : Z) (i : Z) : bool := Z.testbit x i.

(** byte.rs:109-199.  The four levels of the tree are written one after the
    other; level i takes the low half of the previous level if bit i+1 of the
    index is set, the high half otherwise. *)
Definition tree_level (src : list Z) (idx : Z) (i : nat) : list Z :=
  let lvl_len := Nat.pow 2 i in
  let offset := if bit idx (Z.of_nat i + 1) then 0%nat else lvl_len in
  firstn lvl_len (skipn offset src).

Definition generate_byte (lv : row) (idx val : Z) : row :=
  let lv := write lv INPUT_REGISTER_0 (u256_to_array idx) in
  let lv := write lv INPUT_REGISTER_1 (u256_to_array val) in
  let lv := write lv BYTE_IDX_DECOMP
              (map (fun i => b2z (bit idx (Z.of_nat i))) (seq 0 5) ++ [Z.shiftr (idx mod 2^16) 5]) in
  let hi_limb_sum := lv BYTE_IDX_DECOMP_HI + sum (tl (read_value N_LIMBS lv INPUT_REGISTER_0)) in
  let inv := match try_inverse hi_limb_sum with Some x => x | None => 1 end in
  let lv := set lv BYTE_IDX_HI_LIMB_SUM_INV_0 (inv mod 2^16) in
  let lv := set lv BYTE_IDX_HI_LIMB_SUM_INV_1 (Z.shiftr inv 16 mod 2^16) in
  let lv := set lv BYTE_IDX_HI_LIMB_SUM_INV_2 (Z.shiftr inv 32 mod 2^16) in
  let lv := set lv BYTE_IDX_HI_LIMB_SUM_INV_3 (Z.shiftr inv 48 mod 2^16) in
  let lv := set lv BYTE_IDX_IS_LARGE (b2z (negb (hi_limb_sum mod P =? 0))) in
  let l3 := tree_level (read_value N_LIMBS lv INPUT_REGISTER_1) idx 3 in
  let l2 := tree_level l3 idx 2 in
  let l1 := tree_level l2 idx 1 in
  let l0 := tree_level l1 idx 0 in
  let lv := write lv AUX_INPUT_REGISTER_1 (l3 ++ l2 ++ l1 ++ l0) in
  let t := hd 0 l0 in
  let lo := t mod 2^8 in
  let hi := Z.shiftr t 8 in
  let lv := set lv BYTE_LAST_LIMB_LO (Z.shiftl lo 8) in
  let lv := set lv BYTE_LAST_LIMB_HI hi in
  let output := if bit idx 0 then lo else hi in
  let lv := set lv (AUX_INPUT_REGISTER_1 + 15) output in
  write lv OUTPUT_REGISTER (u256_to_array (if idx <? 32 then output else 0)).

(** * arithmetic/arithmetic_stark.rs *)

(** arithmetic_stark.rs:126 *)
Definition RANGE_MAX : Z := 2^16.

(** arithmetic_stark.rs:214-226: the flags. *)
Definition eval_flags (lv : row) : list constr :=
  let flags := map lv op_flags in
  map (fun f => (All, f * (f - 1))) flags ++
  [(All, sum flags * (sum flags - 1)); (All, (1 - lv IS_RANGE_CHECK) * lv OPCODE_COL)].

(** arithmetic_stark.rs:228-237: the range counter. *)
Definition eval_range (rc1 rc2 : Z) : list constr :=
  let incr := rc2 - rc1 in
  [(First, rc1); (Transition, incr * incr - incr); (Last, rc1 - (RANGE_MAX - 1))].

(** arithmetic_stark.rs:239-251 *)
Definition eval_ops (lv nv : row) : list constr :=
  eval_mul lv ++ eval_addcy lv ++ eval_divmod lv nv ++ eval_modular lv nv ++ eval_byte lv ++ eval_shift lv nv.

(** arithmetic_stark.rs:203-252 *)
Definition eval_packed_generic (lv nv : trow) : list constr :=
  eval_flags (cells lv) ++ eval_range (range_counter lv) (range_counter nv) ++ eval_ops (cells lv) (cells nv).

(** When a constraint of the given kind applies to row i of n. *)
Definition applies (k : kind) (i n : nat) : bool :=
  match k with
  | All => true
  | Transition => negb (S i =? n)%nat
  | First => (i =? 0)%nat
  | Last => (S i =? n)%nat
  end.

Definition zero_trow : trow := {| cells := zero_row; range_counter := 0; rc_frequency := 0 |}.

(** Every constraint holds on every row; the row after the last one is the
    first one. *)
Definition constraints_hold (t : list trow) : Prop :=
  forall i, (i < length t)%nat ->
    Forall (fun c => applies (fst c) i (length t) = true -> snd c mod P = 0)
      (eval_packed_generic (nth i t zero_trow) (nth (S i mod length t) t zero_trow)).

(** arithmetic_stark.rs:320-327, the lookup of the shared columns in the
    range counter column.  starky's logUp argument establishes (up to its
    soundness error, which is not modelled) that the two multisets agree, the
    multiplicities of the counter column being the frequencies: that equality
    of multiplicities in the field is the definition here. *)
Definition occurrences (t : list trow) (v : Z) : Z :=
  sum (map (fun r => sum (map (fun c => b2z (cells r c =? v)) SHARED_COLS)) t).
Definition multiplicity (t : list trow) (v : Z) : Z :=
  sum (map (fun r => if range_counter r =? v then rc_frequency r else 0) t).
Definition lookup_holds (t : list trow) : Prop :=
  forall v, (occurrences t v - multiplicity t v) mod P = 0.

(** All values are field elements. *)
Definition all_canonical (t : list trow) : Prop :=
  Forall (fun r => (forall c, canonical (cells r c)) /\ canonical (range_counter r) /\ canonical (rc_frequency r)) t.

(** A table accepted by the verifier. *)
Definition table_ok (t : list trow) : Prop :=
  constraints_hold t /\ lookup_holds t /\ all_canonical t.

(** arithmetic_stark.rs:33-117: what the CPU table looks up.  The opcode and
    four registers, as eight 32-bit limbs each. *)
Definition COMBINED_OPS : list (nat * Z) :=
  [(IS_ADD, 0x01); (IS_MUL, 0x02); (IS_SUB, 0x03); (IS_DIV, 0x04); (IS_MOD, 0x06);
   (IS_ADDMOD, 0x08); (IS_MULMOD, 0x09); (IS_ADDFP254, 0x0c); (IS_MULFP254, 0x0d);
   (IS_SUBFP254, 0x0e); (IS_SUBMOD, 0x0f); (IS_LT, 0x10); (IS_GT, 0x11); (IS_BYTE, 0x1a);
   (IS_SHL, 0x1b); (IS_SHR, 0x1c)].

Definition ctl_filter (lv : row) : Z := sum (map (fun p => lv (fst p)) COMBINED_OPS) + lv IS_RANGE_CHECK.
Definition ctl_opcode (lv : row) : Z := sum (map (fun p => lv (fst p) * snd p) COMBINED_OPS) + lv OPCODE_COL.
Definition ctl_register (lv : row) (start : nat) : list Z :=
  map (fun i => lv (start + 2 * i)%nat + 2^16 * lv (start + 2 * i + 1)%nat) (seq 0 8).
Definition ctl_row (lv : row) : Z * list (list Z) :=
  (ctl_opcode lv, map (ctl_register lv) [INPUT_REGISTER_0; INPUT_REGISTER_1; INPUT_REGISTER_2; OUTPUT_REGISTER]).

(** * arithmetic/mod.rs *)

(** mod.rs:29-43 *)
Inductive binary_operator : Type :=
| Add | Mul | Sub | Div | Mod | Lt | Gt | AddFp254 | MulFp254 | SubFp254 | Byte | Shl | Shr.

(** util.rs:138-169.  [submod] adds m to x until it is at least y. *)
Definition addmod (x y m : Z) : Z := if m =? 0 then m else (x + y) mod m.
Definition mulmod (x y m : Z) : Z := if m =? 0 then m else (x * y) mod m.
Definition submod (x y m : Z) : Z :=
  if m =? 0 then m
  else let x := if x <? y then x + m * ((y - x + m - 1) / m) else x in (x - y) mod m.

(** mod.rs:47-93.  [U256::byte(i)] is byte i from the least significant. *)
Definition binary_result (op : binary_operator) (input0 input1 : Z) : Z :=
  match op with
  | Add => (input0 + input1) mod W
  | Mul => (input0 * input1) mod W
  | Shl => if input0 <? 256 then Z.shiftl input1 input0 mod W else 0
  | Sub => (input0 - input1) mod W
  | Div => if input1 =? 0 then 0 else input0 / input1
  | Shr => if input0 <? 256 then Z.shiftr input1 input0 else 0
  | Mod => if input1 =? 0 then 0 else input0 mod input1
  | Lt => b2z (input0 <? input1)
  | Gt => b2z (input1 <? input0)
  | AddFp254 => addmod input0 input1 BN_BASE
  | MulFp254 => mulmod input0 input1 BN_BASE
  | SubFp254 => submod input0 input1 BN_BASE
  | Byte => if 32 <=? input0 then 0 else (input1 / 2 ^ (8 * (31 - input0))) mod 2^8
  end.

(** mod.rs:97-113 *)
Definition binary_filter (op : binary_operator) : nat :=
  match op with
  | Add => IS_ADD | Mul => IS_MUL | Sub => IS_SUB | Div => IS_DIV | Mod => IS_MOD
  | Lt => IS_LT | Gt => IS_GT | AddFp254 => IS_ADDFP254 | MulFp254 => IS_MULFP254
  | SubFp254 => IS_SUBFP254 | Byte => IS_BYTE | Shl => IS_SHL | Shr => IS_SHR
  end.

(** mod.rs:119-145 *)
Inductive ternary_operator : Type := AddMod | MulMod | SubMod.
Definition ternary_result (op : ternary_operator) (input0 input1 input2 : Z) : Z :=
  match op with
  | AddMod => addmod input0 input1 input2
  | MulMod => mulmod input0 input1 input2
  | SubMod => submod input0 input1 input2
  end.
Definition ternary_filter (op : ternary_operator) : nat :=
  match op with AddMod => IS_ADDMOD | MulMod => IS_MULMOD | SubMod => IS_SUBMOD end.

(** mod.rs:151-231.  The results of binary and ternary operations are computed
    by the constructors [Operation::binary] and [Operation::ternary]. *)
Inductive operation : Type :=
| BinaryOperation (op : binary_operator) (input0 input1 : Z)
| TernaryOperation (op : ternary_operator) (input0 input1 input2 : Z)
| RangeCheckOperation (input0 input1 input2 opcode result : Z).

Definition one_row (lv : row) : row * option row := (lv, None).
Definition two_rows (p : row * row) : row * option row := (fst p, Some (snd p)).

(** mod.rs:281-296 *)
Definition ternary_op_to_rows (row_filter : nat) (input0 input1 input2 : Z) : option (row * option row) :=
  obind (generate_modular (set zero_row row_filter 1) zero_row row_filter input0 input1 input2)
        (fun p => Some (two_rows p)).

(** mod.rs:300-341 *)
Definition binary_op_to_rows (op : binary_operator) (input0 input1 result : Z) : option (row * option row) :=
  let row := set zero_row (binary_filter op) 1 in
  match op with
  | Add | Sub | Lt | Gt => obind (generate_addcy row (binary_filter op) input0 input1) (fun r => Some (one_row r))
  | Mul => Some (one_row (generate_mul_op row input0 input1))
  | Shl => obind (generate_shift row zero_row true input0 input1 result) (fun p => Some (one_row (fst p)))
  | Div | Mod => obind (generate_divmod_op row zero_row (binary_filter op) input0 input1 result) (fun p => Some (two_rows p))
  | Shr => obind (generate_shift row zero_row false input0 input1 result) (fun p => Some (two_rows p))
  | AddFp254 | MulFp254 | SubFp254 => ternary_op_to_rows (binary_filter op) input0 input1 BN_BASE
  | Byte => Some (one_row (generate_byte row input0 input1))
  end.

(** mod.rs:343-359; [opcode.as_u64()] panics above 2^64, and
    [from_canonical_u64] expects a value below P (a debug assertion; None
    here). *)
Definition range_check_to_rows (input0 input1 input2 opcode result : Z) : option (row * option row) :=
  if opcode <? P then
    let row := set zero_row IS_RANGE_CHECK 1 in
    let row := set row OPCODE_COL opcode in
    let row := write row INPUT_REGISTER_0 (u256_to_array input0) in
    let row := write row INPUT_REGISTER_1 (u256_to_array input1) in
    let row := write row INPUT_REGISTER_2 (u256_to_array input2) in
    let row := write row OUTPUT_REGISTER (u256_to_array result) in
    Some (one_row row)
  else None.

(** mod.rs:253-276 *)
Definition to_rows (o : operation) : option (row * option row) :=
  match o with
  | BinaryOperation op i0 i1 => binary_op_to_rows op i0 i1 (binary_result op i0 i1)
  | TernaryOperation op i0 i1 i2 => ternary_op_to_rows (ternary_filter op) i0 i1 i2
  | RangeCheckOperation i0 i1 i2 opcode result => range_check_to_rows i0 i1 i2 opcode result
  end.

(** * Trace generation, arithmetic_stark.rs:130-190 *)

Fixpoint rows_of (ops : list operation) : option (list row) :=
  match ops with
  | [] => Some []
  | o :: ops' =>
    obind (to_rows o) (fun p => obind (rows_of ops') (fun rs =>
    Some (fst p :: match snd p with Some r => [r] | None => [] end ++ rs)))
  end.

(** [usize::next_power_of_two] (1 for 0). *)
Definition next_power_of_two (n : nat) : nat := Nat.pow 2 (Nat.log2_up n).

(** arithmetic_stark.rs:158-190; the counter and frequency columns of
    130-156 are written row by row here.  The [assert!] on the range of the
    cells is None. *)
Definition padded (rs : list row) : list row :=
  rs ++ repeat zero_row (Nat.max (next_power_of_two (length rs)) (Z.to_nat RANGE_MAX) - length rs).

Definition count_cells (rs : list row) (v : Z) : Z :=
  sum (map (fun r => sum (map (fun c => b2z (r c =? v)) SHARED_COLS)) rs).

Definition in_range (r : row) : bool := forallb (fun c => (0 <=? r c) && (r c <? RANGE_MAX)) SHARED_COLS.

Definition generate_trace (ops : list operation) : option (list trow) :=
  obind (rows_of ops) (fun rs =>
  let rs := padded rs in
  if forallb in_range rs then
    Some (map (fun p : nat * row =>
                 let i := Z.of_nat (fst p) in
                 {| cells := snd p;
                    range_counter := Z.min i (RANGE_MAX - 1);
                    rc_frequency := if i <? RANGE_MAX then count_cells rs i mod P else 0 |})
              (combine (seq 0 (length rs)) rs))
  else None).
