(** Model of the byte packing table
    (evm_arithmetization/src/byte_packing). Conventions as in MemModel.v. *)
From Coq Require Import ZArith List Bool Arith.
From Verif Require Import Stark.Field Stark.ArithModel Stark.LogicModel Stark.MemModel Stark.Lookup.
Import ListNotations.
Local Open Scope Z_scope.

(** byte_packing/mod.rs:9-10 and byte_packing_stark.rs:54 *)
Definition NUM_BYTES : nat := 32.
Definition BYTE_RANGE_MAX : nat := 256.

(** columns.rs:10-37 *)
Definition B_IS_READ : nat := 0.
Definition B_INDEX_LEN : nat := 1.
Definition B_CONTEXT : nat := 33.
Definition B_SEGMENT : nat := 34.
Definition B_VIRTUAL : nat := 35.
Definition B_TIMESTAMP : nat := 36.
Definition B_VALUE : nat := 37.
Definition B_RANGE_COUNTER : nat := 69.
Definition B_RC_FREQUENCIES : nat := 70.
Definition B_NUM_COLUMNS : nat := 71.

Definition index_len (lv : row) (i : nat) : Z := lv (B_INDEX_LEN + i)%nat.
Definition value_byte (lv : row) (i : nat) : Z := lv (B_VALUE + i)%nat.

(** byte_packing_stark.rs:59-94: what the CPU looks up, (is_read, context,
    segment, virtual, length, timestamp, value in 32-bit limbs). *)
Definition bp_looked_data (lv : row) : list Z :=
  [lv B_IS_READ; lv B_CONTEXT; lv B_SEGMENT; lv B_VIRTUAL;
   sum (map (fun i => Z.of_nat (i + 1) * index_len lv i) (seq 0 NUM_BYTES)); lv B_TIMESTAMP] ++
  map (fun i => sum (map (fun j => 2 ^ Z.of_nat (8 * j) * value_byte lv (i * 4 + j)) (seq 0 4))) (seq 0 8).
(** byte_packing_stark.rs:97-103 *)
Definition bp_looked_filter (lv : row) : Z := sum (map (index_len lv) (seq 0 NUM_BYTES)).

(** byte_packing_stark.rs:107-144: the i-th memory operation, with the columns
    of memory_stark.rs ctl_data. *)
Definition bp_looking_memory (i : nat) (lv : row) : list Z :=
  [lv B_IS_READ; lv B_CONTEXT; lv B_SEGMENT;
   lv B_VIRTUAL + sum (map (fun j => Z.of_nat j * index_len lv j) (seq 0 NUM_BYTES)) - Z.of_nat i;
   value_byte lv i] ++ repeat 0 7 ++ [lv B_TIMESTAMP].
(** byte_packing_stark.rs:148-152 *)
Definition bp_looking_memory_filter (i : nat) (lv : row) : Z := sum (map (index_len lv) (seq i (NUM_BYTES - i))).

(** byte_packing_stark.rs:299-351 *)
Definition eval_byte_packing (lv nv : row) : list constr :=
  let rc1 := lv B_RANGE_COUNTER in
  let rc2 := nv B_RANGE_COUNTER in
  let incr := rc2 - rc1 in
  let current_filter := sum (map (index_len lv) (seq 0 NUM_BYTES)) in
  let next_filter := sum (map (index_len nv) (seq 0 NUM_BYTES)) in
  let is_read := lv B_IS_READ in
  [ (First, rc1);
    (Transition, incr * incr - incr);
    (Last, rc1 - Z.of_nat (BYTE_RANGE_MAX - 1));
    (All, current_filter * (current_filter - 1));
    (First, current_filter - 1);
    (All, is_read * (is_read - 1)) ] ++
  map (fun i => (All, index_len lv i * (index_len lv i - 1))) (seq 0 NUM_BYTES) ++
  [ (Transition, next_filter * (next_filter - current_filter)) ] ++
  flat_map (fun i => map (fun j => (All, index_len lv i * value_byte lv j)) (seq (i + 1) (NUM_BYTES - (i + 1)))) (seq 0 (NUM_BYTES - 1)).

(** byte_packing_stark.rs:353-422 *)
Definition eval_byte_packing_circuit (lv nv : row) : list constr :=
  let rc1 := lv B_RANGE_COUNTER in
  let rc2 := nv B_RANGE_COUNTER in
  let incr := sub_extension rc2 rc1 in
  let range_max := Z.of_nat (BYTE_RANGE_MAX - 1) in
  let current_filter := add_many_extension (map (index_len lv) (seq 0 NUM_BYTES)) in
  let next_filter := add_many_extension (map (index_len nv) (seq 0 NUM_BYTES)) in
  let is_read := lv B_IS_READ in
  [ (First, rc1);
    (Transition, mul_sub_extension incr incr incr);
    (Last, sub_extension rc1 range_max);
    (All, mul_sub_extension current_filter current_filter current_filter);
    (First, add_const_extension current_filter (neg 1));
    (All, mul_sub_extension is_read is_read is_read) ] ++
  map (fun i => (All, mul_sub_extension (index_len lv i) (index_len lv i) (index_len lv i))) (seq 0 NUM_BYTES) ++
  [ (Transition, mul_extension next_filter (sub_extension next_filter current_filter)) ] ++
  flat_map (fun i => map (fun j => (All, mul_extension (index_len lv i) (value_byte lv j))) (seq (i + 1) (NUM_BYTES - (i + 1)))) (seq 0 (NUM_BYTES - 1)).

(** byte_packing_stark.rs:428-439 *)
Definition bp_cols : list nat := seq B_VALUE NUM_BYTES.

Definition bp_table_ok (t : list row) : Prop :=
  rows_hold eval_byte_packing t /\ logup bp_cols B_RANGE_COUNTER B_RC_FREQUENCIES t /\ canonical_rows t.

(** * Generation *)

(** byte_packing_stark.rs:155-170 *)
Record bp_op : Type := {
  bp_is_read : bool; bp_context : Z; bp_segment : Z; bp_virt : Z; bp_timestamp : Z; bp_bytes : list Z }.

(** byte_packing_stark.rs:223-258; more than 32 bytes is an index out of
    bounds. *)
Definition generate_row_for_op (o : bp_op) : option row :=
  if (length (bp_bytes o) <=? NUM_BYTES)%nat then
    let row := set zero_row B_IS_READ (b2z (bp_is_read o)) in
    let row := set row B_CONTEXT (bp_context o) in
    let row := set row B_SEGMENT (bp_segment o) in
    let row := set row B_VIRTUAL (bp_virt o) in
    let row := set row B_TIMESTAMP (bp_timestamp o) in
    let row := set row (B_INDEX_LEN + (length (bp_bytes o) - 1)) 1 in
    Some (write row B_VALUE (rev (bp_bytes o)))
  else None.

(** byte_packing_stark.rs:200-221 *)
Definition bp_generate_trace_rows (ops : list bp_op) (min_rows : nat) : option (list row) :=
  let num_rows := next_power_of_two (Nat.max (Nat.max (length ops) BYTE_RANGE_MAX) min_rows) in
  match all_some (map generate_row_for_op (filter (fun o => negb (length (bp_bytes o) =? 0)%nat) ops)) with
  | None => None
  | Some rows => Some (rows ++ repeat zero_row (num_rows - length rows))
  end.

(** byte_packing_stark.rs:264-296; [None] is the failed assertion. *)
Definition bp_generate_range_checks (rows : list row) : option (list row) :=
  if forallb (fun r => forallb (fun c => r c <? Z.of_nat BYTE_RANGE_MAX) bp_cols) rows then
    Some (map (fun i =>
      let r := set (trow_at rows i) B_RANGE_COUNTER (Z.of_nat (Nat.min i (BYTE_RANGE_MAX - 1))) in
      set r B_RC_FREQUENCIES ((if (i <=? BYTE_RANGE_MAX - 1)%nat then count (Z.of_nat i) (cells_in bp_cols rows) else 0) mod P))
      (seq 0 (length rows)))
  else None.

(** byte_packing_stark.rs:178-198 *)
Definition bp_generate_trace (ops : list bp_op) (min_rows : nat) : option (list row) :=
  match bp_generate_trace_rows ops min_rows with
  | None => None
  | Some rows => bp_generate_range_checks rows
  end.
