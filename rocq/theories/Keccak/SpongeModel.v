(** Model of the Keccak sponge table
    (evm_arithmetization/src/keccak_sponge).  Conventions as in MemModel.v:
    cells are integers, a constraint is the value of its polynomial with the
    kind of consumer method. *)
From Coq Require Import ZArith List Bool Arith.
From Verif Require Import Stark.Field Stark.ArithModel Stark.LogicModel Stark.MemModel Stark.Lookup.
Import ListNotations.
Local Open Scope Z_scope.

(** columns.rs:9-26 *)
Definition KECCAK_WIDTH_U32S : nat := 50.
Definition KECCAK_RATE_BYTES : nat := 136.
Definition KECCAK_RATE_U32S : nat := 34.
Definition KECCAK_CAPACITY_U32S : nat := 16.
Definition KECCAK_DIGEST_BYTES : nat := 32.
Definition KECCAK_DIGEST_U32S : nat := 8.
(** keccak_sponge_stark.rs:27 *)
Definition BYTE_RANGE_MAX : nat := 256.

(** columns.rs:29-89: the columns in the order of the [repr(C)] struct. *)
Definition S_FULL : nat := 0.
Definition S_CONTEXT : nat := 1.
Definition S_SEGMENT : nat := 2.
Definition S_VIRT : nat := 3.
Definition S_TIMESTAMP : nat := 4.
Definition S_ABSORBED : nat := 5.
Definition S_PADDING : nat := 6.
Definition S_RATE : nat := 142.
Definition S_CAPACITY : nat := 176.
Definition S_BLOCK : nat := 192.
Definition S_XORED : nat := 328.
Definition S_PARTIAL : nat := 362.
Definition S_DIGEST : nat := 404.
Definition S_RANGE_COUNTER : nat := 436.
Definition S_RC_FREQUENCIES : nat := 437.
Definition S_NUM_COLUMNS : nat := 438.

Definition is_pad (r : row) (i : nat) : Z := r (S_PADDING + i)%nat.
Definition rate (r : row) (i : nat) : Z := r (S_RATE + i)%nat.
Definition capacity (r : row) (i : nat) : Z := r (S_CAPACITY + i)%nat.
Definition block_byte (r : row) (i : nat) : Z := r (S_BLOCK + i)%nat.
Definition xored (r : row) (i : nat) : Z := r (S_XORED + i)%nat.
Definition partial (r : row) (i : nat) : Z := r (S_PARTIAL + i)%nat.
Definition digest (r : row) (i : nat) : Z := r (S_DIGEST + i)%nat.
Definition is_final (r : row) : Z := is_pad r (KECCAK_RATE_BYTES - 1).

(** Four cells as a little-endian number ([Column::le_bytes], :96-101 and
    the loop at :615-619) and as a big-endian one (:39-43). *)
Definition le4 (f : nat -> Z) (i : nat) : Z := sum (map (fun j => f (4 * i + j)%nat * 2 ^ Z.of_nat (8 * j)) (seq 0 4)).
Definition be4 (f : nat -> Z) (i : nat) : Z := sum (map (fun j => f (4 * i + j)%nat * 2 ^ Z.of_nat (24 - 8 * j)) (seq 0 4)).

(** * What other tables see *)

(** keccak_sponge_stark.rs:34-62 ctl_looked_data, seen by the CPU: context,
    segment, virtual address, length, timestamp, and the digest. *)
Definition sp_looked_data (r : row) : list Z :=
  [r S_CONTEXT; r S_SEGMENT; r S_VIRT;
   r S_ABSORBED - sum (map (is_pad r) (seq 0 KECCAK_RATE_BYTES)) + Z.of_nat KECCAK_RATE_BYTES;
   r S_TIMESTAMP] ++
  map (be4 (digest r)) (rev (seq 0 8)).
(** :187-193 *)
Definition sp_looked_filter (r : row) : Z := is_final r.

(** :67-80 and :224-232: the input of the permutation. *)
Definition sp_keccak_inputs (r : row) : list Z :=
  map (xored r) (seq 0 KECCAK_RATE_U32S) ++ map (capacity r) (seq 0 KECCAK_CAPACITY_U32S) ++ [r S_TIMESTAMP].
(** :85-105: its output. *)
Definition sp_keccak_outputs (r : row) : list Z :=
  map (le4 (digest r)) (seq 0 KECCAK_DIGEST_U32S) ++ map (partial r) (seq 0 (KECCAK_WIDTH_U32S - KECCAK_DIGEST_U32S)) ++ [r S_TIMESTAMP].
Definition sp_keccak_filter (r : row) : Z := r S_FULL + is_final r.

(** :109-135: the i-th read, with the columns of memory_stark.rs ctl_data. *)
Definition sp_memory (i : nat) (r : row) : list Z :=
  [1; r S_CONTEXT; r S_SEGMENT; r S_VIRT + r S_ABSORBED + Z.of_nat i; block_byte r i] ++ repeat 0 7 ++ [r S_TIMESTAMP].
(** :196-211 *)
Definition sp_memory_filter (i : nat) (r : row) : Z :=
  if (i =? KECCAK_RATE_BYTES - 1)%nat then r S_FULL else r S_FULL + is_final r - is_pad r i.

(** :138-141 *)
Definition num_logic_ctls : nat := 5.
(** :148-184; the slices past the end of the rate are filled with zeros. *)
Definition u32_or_zero (f : nat -> Z) (i : nat) : Z := if (i <? KECCAK_RATE_U32S)%nat then f i else 0.
Definition sp_logic (i : nat) (r : row) : list Z :=
  [0x18] ++ map (u32_or_zero (rate r)) (seq (8 * i) 8) ++
  map (u32_or_zero (le4 (block_byte r))) (seq (8 * i) 8) ++
  map (u32_or_zero (xored r)) (seq (8 * i) 8).
(** :214-220 *)
Definition sp_logic_filter (r : row) : Z := r S_FULL + is_final r.

(** * Constraints: keccak_sponge_stark.rs:530-714 *)

Definition has_single_padding_byte (r : row) : Z := is_pad r (KECCAK_RATE_BYTES - 1) - is_pad r (KECCAK_RATE_BYTES - 2).
Definition is_first_padding_byte (r : row) (i : nat) : Z :=
  if (0 <? i)%nat then is_pad r i - is_pad r (i - 1) else is_pad r i.

Definition eval_sponge (lv nv : row) : list constr :=
  let rc1 := lv S_RANGE_COUNTER in
  let rc2 := nv S_RANGE_COUNTER in
  let incr := rc2 - rc1 in
  let full := lv S_FULL in
  let final := is_final lv in
  let is_dummy := 1 - full - final in
  [ (First, rc1);
    (Transition, incr * incr - incr);
    (Last, rc1 - Z.of_nat (BYTE_RANGE_MAX - 1));
    (All, full * (full - 1)) ] ++
  map (fun i => (All, is_pad lv i * (is_pad lv i - 1))) (seq 0 KECCAK_RATE_BYTES) ++
  map (fun i => (All, is_pad lv (i - 1) * (is_pad lv i - 1))) (seq 1 (KECCAK_RATE_BYTES - 1)) ++
  [ (All, final * full);
    (First, lv S_ABSORBED) ] ++
  map (fun i => (First, rate lv i)) (seq 0 KECCAK_RATE_U32S) ++
  map (fun i => (First, capacity lv i)) (seq 0 KECCAK_CAPACITY_U32S) ++
  [ (Transition, final * nv S_ABSORBED) ] ++
  map (fun i => (Transition, final * rate nv i)) (seq 0 KECCAK_RATE_U32S) ++
  map (fun i => (Transition, final * capacity nv i)) (seq 0 KECCAK_CAPACITY_U32S) ++
  [ (Transition, full * (lv S_CONTEXT - nv S_CONTEXT));
    (Transition, full * (lv S_SEGMENT - nv S_SEGMENT));
    (Transition, full * (lv S_VIRT - nv S_VIRT));
    (Transition, full * (lv S_TIMESTAMP - nv S_TIMESTAMP)) ] ++
  map (fun i => (Transition, full * (rate nv i - le4 (digest lv) i))) (seq 0 KECCAK_DIGEST_U32S) ++
  map (fun i => (Transition, full * (rate nv (KECCAK_DIGEST_U32S + i) - partial lv i))) (seq 0 (KECCAK_RATE_U32S - KECCAK_DIGEST_U32S)) ++
  map (fun i => (Transition, full * (capacity nv i - partial lv (KECCAK_RATE_U32S - KECCAK_DIGEST_U32S + i)))) (seq 0 KECCAK_CAPACITY_U32S) ++
  [ (Transition, full * (lv S_ABSORBED + Z.of_nat KECCAK_RATE_BYTES - nv S_ABSORBED));
    (Transition, has_single_padding_byte lv * (block_byte lv (KECCAK_RATE_BYTES - 1) - 0x81)) ] ++
  flat_map (fun i =>
    [ (Transition, is_first_padding_byte lv i * (block_byte lv i - 1));
      (Transition, is_pad lv i * (is_first_padding_byte lv i - 1) * block_byte lv i) ]) (seq 0 (KECCAK_RATE_BYTES - 1)) ++
  [ (Transition, final * (has_single_padding_byte lv - 1) * (block_byte lv (KECCAK_RATE_BYTES - 1) - 0x80));
    (Transition, is_dummy * (nv S_FULL + is_final nv)) ].

(** keccak_sponge_stark.rs:928-935 *)
Definition sp_cols : list nat := seq S_BLOCK KECCAK_RATE_BYTES.

Definition sponge_table_ok (t : list row) : Prop :=
  rows_hold eval_sponge t /\ logup sp_cols S_RANGE_COUNTER S_RC_FREQUENCIES t /\ canonical_rows t.

(** * Generation *)

(** keccak_sponge_stark.rs:234-245 *)
Record sponge_op : Type := { so_context : Z; so_segment : Z; so_virt : Z; so_timestamp : Z; so_input : list Z }.

Section Generation.
  (** cpu/kernel/keccak_util.rs:7-17 [keccakf_u32s]: the permutation on fifty
      32-bit words. *)
  Variable keccakf_u32s : list Z -> list Z.

  (** :428-496 generate_common_fields, with the rows of :385-426 that hold the
      block and the padding flags in [r]. *)
  Definition generate_common_fields (r : row) (op : sponge_op) (absorbed : Z) (state : list Z) : row :=
    let r := set r S_CONTEXT (so_context op) in
    let r := set r S_SEGMENT (so_segment op) in
    let r := set r S_VIRT (so_virt op) in
    let r := set r S_TIMESTAMP (so_timestamp op) in
    let r := set r S_ABSORBED absorbed in
    let r := write r S_RATE (firstn KECCAK_RATE_U32S state) in
    let r := write r S_CAPACITY (skipn KECCAK_RATE_U32S state) in
    let xored := map (fun i => Z.lxor (nth i state 0) (le4 (block_byte r) i)) (seq 0 KECCAK_RATE_U32S) in
    let r := write r S_XORED xored in
    let state := keccakf_u32s (xored ++ skipn KECCAK_RATE_U32S state) in
    let r := write r S_PARTIAL (skipn KECCAK_DIGEST_U32S state) in
    write r S_DIGEST (flat_map (fun w => map (fun j => (w / 2 ^ Z.of_nat (8 * j)) mod 256) (seq 0 4)) (firstn KECCAK_DIGEST_U32S state)).

  (** :358-374 *)
  Definition generate_full_input_row (op : sponge_op) (absorbed : Z) (state block : list Z) : row :=
    generate_common_fields (write (set zero_row S_FULL 1) S_BLOCK block) op absorbed state.
  (** :380-426; the assertion at :389 holds at the only call. *)
  Definition generate_final_row (op : sponge_op) (absorbed : Z) (state final_inputs : list Z) : row :=
    let n := length final_inputs in
    let r := write zero_row S_BLOCK final_inputs in
    let r := if (n =? KECCAK_RATE_BYTES - 1)%nat then set r (S_BLOCK + n) 0x81
             else set (set r (S_BLOCK + n) 1) (S_BLOCK + (KECCAK_RATE_BYTES - 1)) 0x80 in
    let r := write r (S_PADDING + n) (repeat 1 (KECCAK_RATE_BYTES - n)) in
    generate_common_fields r op absorbed state.

  (** The state after a row (:321-339). *)
  Definition state_after (r : row) : list Z :=
    map (le4 (digest r)) (seq 0 KECCAK_DIGEST_U32S) ++ map (partial r) (seq 0 (KECCAK_WIDTH_U32S - KECCAK_DIGEST_U32S)).

  (** :299-352; [fuel] is at least the number of full blocks. *)
  Fixpoint generate_blocks (fuel : nat) (op : sponge_op) (absorbed : Z) (state input : list Z) : list row :=
    match fuel with
    | O => [generate_final_row op absorbed state input]
    | S fuel =>
        if (length input <? KECCAK_RATE_BYTES)%nat then [generate_final_row op absorbed state input]
        else
          let r := generate_full_input_row op absorbed state (firstn KECCAK_RATE_BYTES input) in
          r :: generate_blocks fuel op (absorbed + Z.of_nat KECCAK_RATE_BYTES) (state_after r) (skipn KECCAK_RATE_BYTES input)
    end.
  Definition generate_rows_for_op (op : sponge_op) : list row :=
    generate_blocks (length (so_input op)) op 0 (repeat 0 KECCAK_WIDTH_U32S) (so_input op).

  (** :272-296 *)
  Definition sp_generate_trace_rows (ops : list sponge_op) (min_rows : nat) : list row :=
    let rows := flat_map generate_rows_for_op ops in
    let padded_rows := next_power_of_two (Nat.max (length rows) (Nat.max min_rows BYTE_RANGE_MAX)) in
    rows ++ repeat zero_row (padded_rows - length rows).

  (** :504-538 generate_range_checks; the assertion is [bytes_ok]. *)
  Definition sp_generate_range_checks (rows : list row) : option (list row) :=
    if forallb (fun r => forallb (fun c => r c <? Z.of_nat BYTE_RANGE_MAX) sp_cols) rows then
      Some (map (fun i =>
        let r := set (trow_at rows i) S_RANGE_COUNTER (Z.of_nat (Nat.min i (BYTE_RANGE_MAX - 1))) in
        set r S_RC_FREQUENCIES ((if (i <=? BYTE_RANGE_MAX - 1)%nat then count (Z.of_nat i) (cells_in sp_cols rows) else 0) mod P))
        (seq 0 (length rows)))
    else None.

  (** :255-270 *)
  Definition sp_generate_trace (ops : list sponge_op) (min_rows : nat) : option (list row) :=
    sp_generate_range_checks (sp_generate_trace_rows ops min_rows).
End Generation.
