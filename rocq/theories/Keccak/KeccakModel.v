(** Model of the Keccak permutation table (evm_arithmetization/src/keccak).
    Conventions as in MemModel.v.  [eval_ext_circuit] is not modelled. *)
From Coq Require Import ZArith List Bool Arith.
From Verif Require Import Stark.Field Stark.ArithModel Stark.LogicModel Stark.MemModel Stark.Lookup.
Import ListNotations.
Local Open Scope Z_scope.

(** keccak_stark.rs:31-35 *)
Definition NUM_ROUNDS : nat := 24.
Definition NUM_INPUTS : nat := 25.

(** * columns.rs *)

(** :7-10 *)
Definition reg_step (i : nat) : nat := i.
(** :54 *)
Definition K_TIMESTAMP : nat := 24.
(** :56-61 *)
Definition START_A : nat := 25.
Definition reg_a (x y : nat) : nat := START_A + (x * 5 + y) * 2.
(** :64-69 *)
Definition START_C : nat := 75.
Definition reg_c (x z : nat) : nat := START_C + x * 64 + z.
(** :72-77 *)
Definition START_C_PRIME : nat := 395.
Definition reg_c_prime (x z : nat) : nat := START_C_PRIME + x * 64 + z.
(** :83-89 *)
Definition START_A_PRIME : nat := 715.
Definition reg_a_prime (x y z : nat) : nat := START_A_PRIME + x * 64 * 5 + y * 64 + z.
(** :44-50 *)
Definition R_OFFSETS : list (list nat) :=
  [ [0; 36; 3; 41; 18]; [1; 44; 10; 45; 2]; [62; 6; 43; 15; 61]; [28; 55; 25; 21; 56]; [27; 20; 39; 8; 14] ]%nat.
(** :91-106 *)
Definition reg_b (x y z : nat) : nat :=
  let a := ((x + 3 * y) mod 5)%nat in
  let b := x in
  let rot := nth b (nth a R_OFFSETS []) 0%nat in
  reg_a_prime a b ((z + 64 - rot) mod 64)%nat.
(** :109-114 *)
Definition START_A_PRIME_PRIME : nat := 2315.
Definition reg_a_prime_prime (x y : nat) : nat := START_A_PRIME_PRIME + x * 2 * 5 + y * 2.
(** :116-120 *)
Definition START_A_PRIME_PRIME_0_0_BITS : nat := 2365.
Definition reg_a_prime_prime_0_0_bit (i : nat) : nat := START_A_PRIME_PRIME_0_0_BITS + i.
(** :122-134 *)
Definition REG_A_PRIME_PRIME_PRIME_0_0_LO : nat := 2429.
Definition reg_a_prime_prime_prime (x y : nat) : nat :=
  if (x =? 0)%nat && (y =? 0)%nat then REG_A_PRIME_PRIME_PRIME_0_0_LO else reg_a_prime_prime x y.
Definition K_NUM_COLUMNS : nat := 2431.

(** :15-26 *)
Definition reg_input_limb (i : nat) : nat := (reg_a (i / 2 mod 5) (i / 2 / 5) + i mod 2)%nat.
(** :31-42 *)
Definition reg_output_limb (i : nat) : nat := (reg_a_prime_prime_prime (i / 2 mod 5) (i / 2 / 5) + i mod 2)%nat.

(** keccak_stark.rs:37-61 *)
Definition k_inputs (r : row) : list Z := map (fun i => r (reg_input_limb i)) (seq 0 50) ++ [r K_TIMESTAMP].
Definition k_outputs (r : row) : list Z := map (fun i => r (reg_output_limb i)) (seq 0 50) ++ [r K_TIMESTAMP].
Definition k_filter_inputs (r : row) : Z := r (reg_step 0).
Definition k_filter_outputs (r : row) : Z := r (reg_step 23).

(** * constants.rs *)

Definition RC : list Z :=
  [0x0000000000000001; 0x0000000000008082; 0x800000000000808A; 0x8000000080008000; 0x000000000000808B; 0x0000000080000001; 0x8000000080008081; 0x8000000000008009; 0x000000000000008A; 0x0000000000000088; 0x0000000080008009; 0x000000008000000A; 0x000000008000808B; 0x800000000000008B; 0x8000000000008089; 0x8000000000008003; 0x8000000000008002; 0x8000000000000080; 0x000000000000800A; 0x800000008000000A; 0x8000000080008081; 0x8000000000008080; 0x0000000080000001; 0x8000000080008008].
Definition RC_BITS : list (list Z) :=
  [[1; 0; 0; 0; 0; 0; 0; 0; 0; 0; 0; 0; 0; 0; 0; 0; 0; 0; 0; 0; 0; 0; 0; 0; 0; 0; 0; 0; 0; 0; 0; 0; 0; 0; 0; 0; 0; 0; 0; 0; 0; 0; 0; 0; 0; 0; 0; 0; 0; 0; 0; 0; 0; 0; 0; 0; 0; 0; 0; 0; 0; 0; 0; 0];
   [0; 1; 0; 0; 0; 0; 0; 1; 0; 0; 0; 0; 0; 0; 0; 1; 0; 0; 0; 0; 0; 0; 0; 0; 0; 0; 0; 0; 0; 0; 0; 0; 0; 0; 0; 0; 0; 0; 0; 0; 0; 0; 0; 0; 0; 0; 0; 0; 0; 0; 0; 0; 0; 0; 0; 0; 0; 0; 0; 0; 0; 0; 0; 0];
   [0; 1; 0; 1; 0; 0; 0; 1; 0; 0; 0; 0; 0; 0; 0; 1; 0; 0; 0; 0; 0; 0; 0; 0; 0; 0; 0; 0; 0; 0; 0; 0; 0; 0; 0; 0; 0; 0; 0; 0; 0; 0; 0; 0; 0; 0; 0; 0; 0; 0; 0; 0; 0; 0; 0; 0; 0; 0; 0; 0; 0; 0; 0; 1];
   [0; 0; 0; 0; 0; 0; 0; 0; 0; 0; 0; 0; 0; 0; 0; 1; 0; 0; 0; 0; 0; 0; 0; 0; 0; 0; 0; 0; 0; 0; 0; 1; 0; 0; 0; 0; 0; 0; 0; 0; 0; 0; 0; 0; 0; 0; 0; 0; 0; 0; 0; 0; 0; 0; 0; 0; 0; 0; 0; 0; 0; 0; 0; 1];
   [1; 1; 0; 1; 0; 0; 0; 1; 0; 0; 0; 0; 0; 0; 0; 1; 0; 0; 0; 0; 0; 0; 0; 0; 0; 0; 0; 0; 0; 0; 0; 0; 0; 0; 0; 0; 0; 0; 0; 0; 0; 0; 0; 0; 0; 0; 0; 0; 0; 0; 0; 0; 0; 0; 0; 0; 0; 0; 0; 0; 0; 0; 0; 0];
   [1; 0; 0; 0; 0; 0; 0; 0; 0; 0; 0; 0; 0; 0; 0; 0; 0; 0; 0; 0; 0; 0; 0; 0; 0; 0; 0; 0; 0; 0; 0; 1; 0; 0; 0; 0; 0; 0; 0; 0; 0; 0; 0; 0; 0; 0; 0; 0; 0; 0; 0; 0; 0; 0; 0; 0; 0; 0; 0; 0; 0; 0; 0; 0];
   [1; 0; 0; 0; 0; 0; 0; 1; 0; 0; 0; 0; 0; 0; 0; 1; 0; 0; 0; 0; 0; 0; 0; 0; 0; 0; 0; 0; 0; 0; 0; 1; 0; 0; 0; 0; 0; 0; 0; 0; 0; 0; 0; 0; 0; 0; 0; 0; 0; 0; 0; 0; 0; 0; 0; 0; 0; 0; 0; 0; 0; 0; 0; 1];
   [1; 0; 0; 1; 0; 0; 0; 0; 0; 0; 0; 0; 0; 0; 0; 1; 0; 0; 0; 0; 0; 0; 0; 0; 0; 0; 0; 0; 0; 0; 0; 0; 0; 0; 0; 0; 0; 0; 0; 0; 0; 0; 0; 0; 0; 0; 0; 0; 0; 0; 0; 0; 0; 0; 0; 0; 0; 0; 0; 0; 0; 0; 0; 1];
   [0; 1; 0; 1; 0; 0; 0; 1; 0; 0; 0; 0; 0; 0; 0; 0; 0; 0; 0; 0; 0; 0; 0; 0; 0; 0; 0; 0; 0; 0; 0; 0; 0; 0; 0; 0; 0; 0; 0; 0; 0; 0; 0; 0; 0; 0; 0; 0; 0; 0; 0; 0; 0; 0; 0; 0; 0; 0; 0; 0; 0; 0; 0; 0];
   [0; 0; 0; 1; 0; 0; 0; 1; 0; 0; 0; 0; 0; 0; 0; 0; 0; 0; 0; 0; 0; 0; 0; 0; 0; 0; 0; 0; 0; 0; 0; 0; 0; 0; 0; 0; 0; 0; 0; 0; 0; 0; 0; 0; 0; 0; 0; 0; 0; 0; 0; 0; 0; 0; 0; 0; 0; 0; 0; 0; 0; 0; 0; 0];
   [1; 0; 0; 1; 0; 0; 0; 0; 0; 0; 0; 0; 0; 0; 0; 1; 0; 0; 0; 0; 0; 0; 0; 0; 0; 0; 0; 0; 0; 0; 0; 1; 0; 0; 0; 0; 0; 0; 0; 0; 0; 0; 0; 0; 0; 0; 0; 0; 0; 0; 0; 0; 0; 0; 0; 0; 0; 0; 0; 0; 0; 0; 0; 0];
   [0; 1; 0; 1; 0; 0; 0; 0; 0; 0; 0; 0; 0; 0; 0; 0; 0; 0; 0; 0; 0; 0; 0; 0; 0; 0; 0; 0; 0; 0; 0; 1; 0; 0; 0; 0; 0; 0; 0; 0; 0; 0; 0; 0; 0; 0; 0; 0; 0; 0; 0; 0; 0; 0; 0; 0; 0; 0; 0; 0; 0; 0; 0; 0];
   [1; 1; 0; 1; 0; 0; 0; 1; 0; 0; 0; 0; 0; 0; 0; 1; 0; 0; 0; 0; 0; 0; 0; 0; 0; 0; 0; 0; 0; 0; 0; 1; 0; 0; 0; 0; 0; 0; 0; 0; 0; 0; 0; 0; 0; 0; 0; 0; 0; 0; 0; 0; 0; 0; 0; 0; 0; 0; 0; 0; 0; 0; 0; 0];
   [1; 1; 0; 1; 0; 0; 0; 1; 0; 0; 0; 0; 0; 0; 0; 0; 0; 0; 0; 0; 0; 0; 0; 0; 0; 0; 0; 0; 0; 0; 0; 0; 0; 0; 0; 0; 0; 0; 0; 0; 0; 0; 0; 0; 0; 0; 0; 0; 0; 0; 0; 0; 0; 0; 0; 0; 0; 0; 0; 0; 0; 0; 0; 1];
   [1; 0; 0; 1; 0; 0; 0; 1; 0; 0; 0; 0; 0; 0; 0; 1; 0; 0; 0; 0; 0; 0; 0; 0; 0; 0; 0; 0; 0; 0; 0; 0; 0; 0; 0; 0; 0; 0; 0; 0; 0; 0; 0; 0; 0; 0; 0; 0; 0; 0; 0; 0; 0; 0; 0; 0; 0; 0; 0; 0; 0; 0; 0; 1];
   [1; 1; 0; 0; 0; 0; 0; 0; 0; 0; 0; 0; 0; 0; 0; 1; 0; 0; 0; 0; 0; 0; 0; 0; 0; 0; 0; 0; 0; 0; 0; 0; 0; 0; 0; 0; 0; 0; 0; 0; 0; 0; 0; 0; 0; 0; 0; 0; 0; 0; 0; 0; 0; 0; 0; 0; 0; 0; 0; 0; 0; 0; 0; 1];
   [0; 1; 0; 0; 0; 0; 0; 0; 0; 0; 0; 0; 0; 0; 0; 1; 0; 0; 0; 0; 0; 0; 0; 0; 0; 0; 0; 0; 0; 0; 0; 0; 0; 0; 0; 0; 0; 0; 0; 0; 0; 0; 0; 0; 0; 0; 0; 0; 0; 0; 0; 0; 0; 0; 0; 0; 0; 0; 0; 0; 0; 0; 0; 1];
   [0; 0; 0; 0; 0; 0; 0; 1; 0; 0; 0; 0; 0; 0; 0; 0; 0; 0; 0; 0; 0; 0; 0; 0; 0; 0; 0; 0; 0; 0; 0; 0; 0; 0; 0; 0; 0; 0; 0; 0; 0; 0; 0; 0; 0; 0; 0; 0; 0; 0; 0; 0; 0; 0; 0; 0; 0; 0; 0; 0; 0; 0; 0; 1];
   [0; 1; 0; 1; 0; 0; 0; 0; 0; 0; 0; 0; 0; 0; 0; 1; 0; 0; 0; 0; 0; 0; 0; 0; 0; 0; 0; 0; 0; 0; 0; 0; 0; 0; 0; 0; 0; 0; 0; 0; 0; 0; 0; 0; 0; 0; 0; 0; 0; 0; 0; 0; 0; 0; 0; 0; 0; 0; 0; 0; 0; 0; 0; 0];
   [0; 1; 0; 1; 0; 0; 0; 0; 0; 0; 0; 0; 0; 0; 0; 0; 0; 0; 0; 0; 0; 0; 0; 0; 0; 0; 0; 0; 0; 0; 0; 1; 0; 0; 0; 0; 0; 0; 0; 0; 0; 0; 0; 0; 0; 0; 0; 0; 0; 0; 0; 0; 0; 0; 0; 0; 0; 0; 0; 0; 0; 0; 0; 1];
   [1; 0; 0; 0; 0; 0; 0; 1; 0; 0; 0; 0; 0; 0; 0; 1; 0; 0; 0; 0; 0; 0; 0; 0; 0; 0; 0; 0; 0; 0; 0; 1; 0; 0; 0; 0; 0; 0; 0; 0; 0; 0; 0; 0; 0; 0; 0; 0; 0; 0; 0; 0; 0; 0; 0; 0; 0; 0; 0; 0; 0; 0; 0; 1];
   [0; 0; 0; 0; 0; 0; 0; 1; 0; 0; 0; 0; 0; 0; 0; 1; 0; 0; 0; 0; 0; 0; 0; 0; 0; 0; 0; 0; 0; 0; 0; 0; 0; 0; 0; 0; 0; 0; 0; 0; 0; 0; 0; 0; 0; 0; 0; 0; 0; 0; 0; 0; 0; 0; 0; 0; 0; 0; 0; 0; 0; 0; 0; 1];
   [1; 0; 0; 0; 0; 0; 0; 0; 0; 0; 0; 0; 0; 0; 0; 0; 0; 0; 0; 0; 0; 0; 0; 0; 0; 0; 0; 0; 0; 0; 0; 1; 0; 0; 0; 0; 0; 0; 0; 0; 0; 0; 0; 0; 0; 0; 0; 0; 0; 0; 0; 0; 0; 0; 0; 0; 0; 0; 0; 0; 0; 0; 0; 0];
   [0; 0; 0; 1; 0; 0; 0; 0; 0; 0; 0; 0; 0; 0; 0; 1; 0; 0; 0; 0; 0; 0; 0; 0; 0; 0; 0; 0; 0; 0; 0; 1; 0; 0; 0; 0; 0; 0; 0; 0; 0; 0; 0; 0; 0; 0; 0; 0; 0; 0; 0; 0; 0; 0; 0; 0; 0; 0; 0; 0; 0; 0; 0; 1]].
Definition rc_value_bit (round i : nat) : Z := nth i (nth round RC_BITS []) 0.
Definition rc_value (round : nat) : Z := nth round RC 0.

(** * logic.rs:16-24, 47-49 *)

Definition xor_gen (x y : Z) : Z := x + y - x * (2 * y).
Definition xor3_gen (x y z : Z) : Z := xor_gen x (xor_gen y z).
Definition andn_gen (x y : Z) : Z := (1 - x) * y.

(** [(lo..lo+n).rev().fold(0, |acc, z| acc.doubles() + g(z))] *)
Definition horner (g : nat -> Z) (lo n : nat) : Z := fold_right (fun z acc => 2 * acc + g z) 0 (seq lo n).

(** The pairs of loops over x and y, or x and z. *)
Definition for_xy {A : Type} (g : nat -> nat -> list A) : list A := flat_map (fun x => flat_map (g x) (seq 0 5)) (seq 0 5).
Definition for_xz {A : Type} (g : nat -> nat -> list A) : list A := flat_map (fun x => flat_map (g x) (seq 0 64)) (seq 0 5).

(** * round_flags.rs:14-56 *)

Definition any_flag (r : row) : Z := sum (map (fun i => r (reg_step i)) (seq 0 NUM_ROUNDS)).
Definition eval_round_flags (lv nv : row) : list constr :=
  let padding := (any_flag nv - 1) * any_flag lv * (lv (reg_step (NUM_ROUNDS - 1)) - 1) in
  map (fun i => (All, lv (reg_step i) * (lv (reg_step i) - 1))) (seq 0 NUM_ROUNDS) ++
  [ (First, any_flag lv * (lv (reg_step 0) - 1)) ] ++
  map (fun i => (First, any_flag lv * lv (reg_step i))) (seq 1 (NUM_ROUNDS - 1)) ++
  map (fun i => (Transition, any_flag nv * (nv (reg_step ((i + 1) mod NUM_ROUNDS)) - lv (reg_step i)) + padding)) (seq 0 NUM_ROUNDS) ++
  [ (Transition, any_flag nv * (any_flag lv - 1)) ].

(** * keccak_stark.rs:265-427 eval_packed_generic *)

Definition a_bit (r : row) (x y z : nat) : Z := xor3_gen (r (reg_a_prime x y z)) (r (reg_c x z)) (r (reg_c_prime x z)).
Definition a2_bit (r : row) (x y z : nat) : Z :=
  xor_gen (r (reg_b x y z)) (andn_gen (r (reg_b ((x + 1) mod 5) y z)) (r (reg_b ((x + 2) mod 5) y z))).
Definition rc_bit (r : row) (i : nat) : Z := sum (map (fun k => r (reg_step k) * rc_value_bit k i) (seq 0 NUM_ROUNDS)).
Definition a3_bit (r : row) (i : nat) : Z := xor_gen (r (reg_a_prime_prime_0_0_bit i)) (rc_bit r i).
Definition parity_diff (r : row) (x z : nat) : Z := sum (map (fun i => r (reg_a_prime x i z)) (seq 0 5)) - r (reg_c_prime x z).

(** The constraints on one row. *)
Definition eval_round (lv : row) : list constr :=
  for_xz (fun x z => [(All, lv (reg_c_prime x z) - xor3_gen (lv (reg_c x z)) (lv (reg_c ((x + 4) mod 5) z)) (lv (reg_c ((x + 1) mod 5) ((z + 63) mod 64))))]) ++
  for_xy (fun x y => [(All, horner (a_bit lv x y) 0 32 - lv (reg_a x y)); (All, horner (a_bit lv x y) 32 32 - lv (reg_a x y + 1)%nat)]) ++
  for_xz (fun x z => let diff := parity_diff lv x z in [(All, diff * (diff - 2) * (diff - 4))]) ++
  for_xy (fun x y => [(All, horner (a2_bit lv x y) 0 32 - lv (reg_a_prime_prime x y)); (All, horner (a2_bit lv x y) 32 32 - lv (reg_a_prime_prime x y + 1)%nat)]) ++
  [ (All, horner (fun z => lv (reg_a_prime_prime_0_0_bit z)) 0 32 - lv (reg_a_prime_prime 0 0));
    (All, horner (fun z => lv (reg_a_prime_prime_0_0_bit z)) 32 32 - lv (reg_a_prime_prime 0 0 + 1)%nat);
    (All, horner (a3_bit lv) 0 32 - lv (reg_a_prime_prime_prime 0 0));
    (All, horner (a3_bit lv) 32 32 - lv (reg_a_prime_prime_prime 0 0 + 1)%nat) ].

Definition eval_keccak (lv nv : row) : list constr :=
  eval_round_flags lv nv ++
  [ (All, any_flag lv * (1 - lv (reg_step (NUM_ROUNDS - 1))) * (nv K_TIMESTAMP - lv K_TIMESTAMP)) ] ++
  eval_round lv ++
  for_xy (fun x y =>
    let not_last_round := 1 - lv (reg_step (NUM_ROUNDS - 1)) in
    [ (Transition, not_last_round * (lv (reg_a_prime_prime_prime x y) - nv (reg_a x y)));
      (Transition, not_last_round * (lv (reg_a_prime_prime_prime x y + 1)%nat - nv (reg_a x y + 1)%nat)) ]).

Definition keccak_table_ok (t : list row) : Prop := rows_hold eval_keccak t /\ canonical_rows t.

(** * Generation: keccak_stark.rs:72-243 *)

(** logic.rs:9-14 and :38-44 on cells that are bits. *)
Definition xor_cells (l : list Z) : Z := fold_left Z.lxor l 0.
Definition andn_cells (x y : Z) : Z := (1 - x) * y.

(** The bit z of A[x, y]. *)
Definition limb_bit (r : row) (x y z : nat) : Z := (r (reg_a x y + z / 32)%nat mod 2^32 / 2 ^ Z.of_nat (z mod 32)) mod 2.

(** :140-243; each loop writes a contiguous range of columns. *)
(** :143-155 *)
Definition fill_c (r : row) : row := write r START_C (for_xz (fun x z => [xor_cells (map (fun i => limb_bit r x i z) (seq 0 5))])).
(** :157-166 *)
Definition fill_c_prime (r : row) : row :=
  write r START_C_PRIME (for_xz (fun x z => [xor_cells [r (reg_c x z); r (reg_c ((x + 4) mod 5) z); r (reg_c ((x + 1) mod 5) ((z + 63) mod 64))]])).
(** :168-185 *)
Definition for_xyz (g : nat -> nat -> nat -> Z) : list Z := flat_map (fun x => flat_map (fun y => map (g x y) (seq 0 64)) (seq 0 5)) (seq 0 5).
Definition fill_a_prime (r : row) : row :=
  write r START_A_PRIME (for_xyz (fun x y z => xor_cells [limb_bit r x y z; r (reg_c x z); r (reg_c_prime x z)])).
(** :187-211 *)
Definition get_bit (r : row) (x y z : nat) : Z :=
  xor_cells [r (reg_b x y z); andn_cells (r (reg_b ((x + 1) mod 5) y z)) (r (reg_b ((x + 2) mod 5) y z))].
Definition fill_a_prime_prime (r : row) : row :=
  write r START_A_PRIME_PRIME (for_xy (fun x y => [horner (get_bit r x y) 0 32; horner (get_bit r x y) 32 32])).
(** :213-228 *)
Definition fill_bits (r : row) : row :=
  let val := r (reg_a_prime_prime 0 0) + 2^32 * r (reg_a_prime_prime 0 0 + 1)%nat in
  write r START_A_PRIME_PRIME_0_0_BITS (map (fun i => (val / 2 ^ Z.of_nat i) mod 2) (seq 0 64)).
(** :230-240 *)
Definition fill_output (round : nat) (r : row) : row :=
  write r REG_A_PRIME_PRIME_PRIME_0_0_LO
    [ Z.lxor (r (reg_a_prime_prime 0 0)) (rc_value round mod 2^32);
      Z.lxor (r (reg_a_prime_prime 0 0 + 1)%nat) (rc_value round / 2^32) ].
Definition generate_trace_row_for_round (r : row) (round : nat) : row :=
  fill_output round (fill_bits (fill_a_prime_prime (fill_a_prime (fill_c_prime (fill_c (set r (reg_step round) 1)))))).

(** :126-138; [next] holds the timestamp only, and the fifty columns are written in the order of the registers of A. *)
Definition copy_output_to_input (prev next : row) : row :=
  write next START_A (for_xy (fun x y => [prev (reg_a_prime_prime_prime x y); prev (reg_a_prime_prime_prime x y + 1)%nat])).

(** :98-124 *)
Fixpoint generate_rounds (prev : row) (timestamp : Z) (rounds : list nat) : list row :=
  match rounds with
  | [] => []
  | k :: rounds =>
      let r := generate_trace_row_for_round (copy_output_to_input prev (set zero_row K_TIMESTAMP timestamp)) k in
      r :: generate_rounds r timestamp rounds
  end.
Definition generate_trace_rows_for_perm (input : list Z) (timestamp : Z) : list row :=
  let r := set zero_row K_TIMESTAMP timestamp in
  let r := write r START_A (for_xy (fun x y => let w := nth (y * 5 + x) input 0 in [w mod 2^32; w / 2^32])) in
  let r := generate_trace_row_for_round r 0 in
  r :: generate_rounds r timestamp (seq 1 23).
(** :72-96 *)
Definition k_generate_trace_rows (inputs : list (list Z * Z)) (min_rows : nat) : list row :=
  let num_rows := next_power_of_two (Nat.max (length inputs * NUM_ROUNDS) min_rows) in
  let rows := flat_map (fun i => generate_trace_rows_for_perm (fst i) (snd i)) inputs in
  rows ++ repeat zero_row (num_rows - length rows).
