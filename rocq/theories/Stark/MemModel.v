(** Model of the memory table (evm_arithmetization/src/memory) and of the
    two continuation tables (memory_continuation).

    Conventions as in ArithModel.v.  The kinds of constraints are those of the
    constraint consumer, applied by [applies]. *)
From Coq Require Import ZArith List Bool Arith.
From Verif Require Import Stark.Field Stark.ArithModel Stark.LogicModel.
Import ListNotations.
Local Open Scope Z_scope.

(** memory/mod.rs *)
Definition VALUE_LIMBS : nat := 8.

(** memory/columns.rs:9-87: the columns in the order of the [repr(C)] struct. *)
Definition M_FILTER : nat := 0.
Definition M_TIMESTAMP : nat := 1.
Definition M_TIMESTAMP_INV : nat := 2.
Definition M_IS_READ : nat := 3.
Definition M_CONTEXT : nat := 4.
Definition M_SEGMENT : nat := 5.
Definition M_VIRTUAL : nat := 6.
Definition M_VALUE : nat := 7.                       (* 8 columns *)
Definition M_CONTEXT_FIRST_CHANGE : nat := 15.
Definition M_SEGMENT_FIRST_CHANGE : nat := 16.
Definition M_VIRTUAL_FIRST_CHANGE : nat := 17.
Definition M_INITIALIZE_AUX : nat := 18.
Definition M_PREINITIALIZED_SEGMENTS : nat := 19.
Definition M_PREINITIALIZED_SEGMENTS_AUX : nat := 20.
Definition M_STALE_CONTEXTS : nat := 21.
Definition M_IS_PRUNED : nat := 22.
Definition M_STALE_CONTEXT_FREQUENCIES : nat := 23.
Definition M_IS_STALE : nat := 24.
Definition M_MAYBE_IN_MEM_AFTER : nat := 25.
Definition M_MEM_AFTER_FILTER : nat := 26.
Definition M_RANGE_CHECK : nat := 27.
Definition M_COUNTER : nat := 28.
Definition M_FREQUENCIES : nat := 29.
Definition M_NUM_COLUMNS : nat := 30.

(** memory/segments.rs:11-105 (unscaled values) and 108-113. *)
Definition SEG_CODE : Z := 0.
Definition SEG_TRIE_DATA : Z := 12.
Definition SEG_ACCOUNTS_LINKED_LIST : Z := 34.
Definition SEG_STORAGE_LINKED_LIST : Z := 35.
Definition PREINITIALIZED_SEGMENTS_INDICES : list Z :=
  [SEG_CODE; SEG_TRIE_DATA; SEG_ACCOUNTS_LINKED_LIST; SEG_STORAGE_LINKED_LIST].

(** memory_stark.rs:449-627 *)
Definition eval_memory (lv nv : row) : list constr :=
  let timestamp := lv M_TIMESTAMP in
  let value i := lv (M_VALUE + i)%nat in
  let next_value i := nv (M_VALUE + i)%nat in
  let filter := lv M_FILTER in
  let is_dummy := 1 - filter in
  let is_write := 1 - lv M_IS_READ in
  let cfc := lv M_CONTEXT_FIRST_CHANGE in
  let sfc := lv M_SEGMENT_FIRST_CHANGE in
  let vfc := lv M_VIRTUAL_FIRST_CHANGE in
  let address_unchanged := 1 - cfc - sfc - vfc in
  let not_address_unchanged := 1 - address_unchanged in
  let dctx := nv M_CONTEXT - lv M_CONTEXT in
  let dseg := nv M_SEGMENT - lv M_SEGMENT in
  let dvirt := nv M_VIRTUAL - lv M_VIRTUAL in
  let computed_range_check :=
    cfc * (dctx - 1) + sfc * (dseg - 1) + vfc * (dvirt - 1) + address_unchanged * (nv M_TIMESTAMP - timestamp) in
  let pre_aux := lv M_PREINITIALIZED_SEGMENTS_AUX in
  let pre := lv M_PREINITIALIZED_SEGMENTS in
  let next_is_read := nv M_IS_READ in
  let initialize_aux := lv M_INITIALIZE_AUX in
  let maybe := lv M_MAYBE_IN_MEM_AFTER in
  let after := lv M_MEM_AFTER_FILTER in
  [ (All, filter * (filter - 1));
    (All, is_dummy * is_write);
    (All, cfc * (1 - cfc));
    (All, sfc * (1 - sfc));
    (All, vfc * (1 - vfc));
    (All, address_unchanged * not_address_unchanged);
    (Transition, sfc * dctx);
    (Transition, vfc * dctx);
    (Transition, vfc * dseg);
    (Transition, address_unchanged * dctx);
    (Transition, address_unchanged * dseg);
    (Transition, address_unchanged * dvirt);
    (Transition, lv M_RANGE_CHECK - computed_range_check);
    (Transition, pre_aux - (nv M_SEGMENT - SEG_ACCOUNTS_LINKED_LIST) * (nv M_SEGMENT - SEG_STORAGE_LINKED_LIST));
    (Transition, pre - (nv M_SEGMENT - SEG_CODE) * (nv M_SEGMENT - SEG_TRIE_DATA) * pre_aux);
    (Transition, initialize_aux - pre * not_address_unchanged * next_is_read) ] ++
  flat_map (fun i =>
    [ (Transition, next_is_read * address_unchanged * (next_value i - value i));
      (Transition, initialize_aux * next_value i) ]) (seq 0 VALUE_LIMBS) ++
  [ (Transition, maybe + filter * not_address_unchanged * (lv M_IS_STALE - 1));
    (All, after * (after - 1)) ] ++
  map (fun i => (All, (after - maybe) * pre * value i)) (seq 0 VALUE_LIMBS) ++
  [ (All, timestamp * (timestamp * lv M_TIMESTAMP_INV - 1));
    (First, lv M_COUNTER);
    (Transition, nv M_COUNTER - lv M_COUNTER - 1) ].

(** memory_stark.rs:629-846.  [neg c] is the constant -c of the field. *)
Definition neg (c : Z) : Z := (- c) mod P.
Definition eval_memory_circuit (lv nv : row) : list constr :=
  let one := 1 in
  let filter := lv M_FILTER in
  let is_dummy := sub_extension one filter in
  let is_write := sub_extension one (lv M_IS_READ) in
  let cfc := lv M_CONTEXT_FIRST_CHANGE in
  let sfc := lv M_SEGMENT_FIRST_CHANGE in
  let vfc := lv M_VIRTUAL_FIRST_CHANGE in
  let address_unchanged := sub_extension (sub_extension (sub_extension one cfc) sfc) vfc in
  let not_cfc := sub_extension one cfc in
  let not_sfc := sub_extension one sfc in
  let not_vfc := sub_extension one vfc in
  let not_address_unchanged := sub_extension one address_unchanged in
  let addr_context_diff := sub_extension (nv M_CONTEXT) (lv M_CONTEXT) in
  let addr_segment_diff := sub_extension (nv M_SEGMENT) (lv M_SEGMENT) in
  let addr_virtual_diff := sub_extension (nv M_VIRTUAL) (lv M_VIRTUAL) in
  let context_diff := sub_extension (sub_extension (nv M_CONTEXT) (lv M_CONTEXT)) one in
  let segment_diff := sub_extension (sub_extension (nv M_SEGMENT) (lv M_SEGMENT)) one in
  let segment_range_check := mul_extension sfc segment_diff in
  let virtual_diff := sub_extension (sub_extension (nv M_VIRTUAL) (lv M_VIRTUAL)) one in
  let virtual_range_check := mul_extension vfc virtual_diff in
  let timestamp_diff := sub_extension (nv M_TIMESTAMP) (lv M_TIMESTAMP) in
  let timestamp_range_check := mul_extension address_unchanged timestamp_diff in
  let computed_range_check :=
    add_extension (add_extension (mul_add_extension cfc context_diff segment_range_check) virtual_range_check) timestamp_range_check in
  let pre_aux := lv M_PREINITIALIZED_SEGMENTS_AUX in
  let pre := lv M_PREINITIALIZED_SEGMENTS in
  let segment_accounts_list := add_const_extension (nv M_SEGMENT) (neg SEG_ACCOUNTS_LINKED_LIST) in
  let segment_storage_list := add_const_extension (nv M_SEGMENT) (neg SEG_STORAGE_LINKED_LIST) in
  let segment_code := add_const_extension (nv M_SEGMENT) (neg SEG_CODE) in
  let segment_trie_data := add_const_extension (nv M_SEGMENT) (neg SEG_TRIE_DATA) in
  let segment_prod := mul_many_extension [segment_code; segment_trie_data; pre_aux] in
  let next_is_read := nv M_IS_READ in
  let initialize_aux := lv M_INITIALIZE_AUX in
  let computed_initialize_aux := mul_extension pre (mul_extension not_address_unchanged next_is_read) in
  let maybe := lv M_MAYBE_IN_MEM_AFTER in
  let after := lv M_MEM_AFTER_FILTER in
  let rhs := mul_extension filter not_address_unchanged in
  let rhs := mul_sub_extension rhs (lv M_IS_STALE) rhs in
  let after_diff := sub_extension after maybe in
  let timestamp_prod := mul_extension (lv M_TIMESTAMP) (lv M_TIMESTAMP_INV) in
  [ (All, mul_sub_extension filter filter filter);
    (All, mul_extension is_dummy is_write);
    (All, mul_extension cfc not_cfc);
    (All, mul_extension sfc not_sfc);
    (All, mul_extension vfc not_vfc);
    (All, mul_extension address_unchanged not_address_unchanged);
    (Transition, mul_extension sfc addr_context_diff);
    (Transition, mul_extension vfc addr_context_diff);
    (Transition, mul_extension vfc addr_segment_diff);
    (Transition, mul_extension address_unchanged addr_context_diff);
    (Transition, mul_extension address_unchanged addr_segment_diff);
    (Transition, mul_extension address_unchanged addr_virtual_diff);
    (Transition, sub_extension (lv M_RANGE_CHECK) computed_range_check);
    (Transition, sub_extension pre_aux (mul_extension segment_accounts_list segment_storage_list));
    (Transition, sub_extension pre segment_prod);
    (Transition, sub_extension initialize_aux computed_initialize_aux) ] ++
  flat_map (fun i =>
    let value_diff := sub_extension (nv (M_VALUE + i)%nat) (lv (M_VALUE + i)%nat) in
    [ (Transition, mul_extension next_is_read (mul_extension address_unchanged value_diff));
      (Transition, mul_extension initialize_aux (nv (M_VALUE + i)%nat)) ]) (seq 0 VALUE_LIMBS) ++
  [ (Transition, add_extension maybe rhs);
    (All, mul_sub_extension after after after) ] ++
  map (fun i => (All, mul_extension after_diff (mul_extension pre (lv (M_VALUE + i)%nat)))) (seq 0 VALUE_LIMBS) ++
  [ (All, mul_sub_extension (lv M_TIMESTAMP) timestamp_prod (lv M_TIMESTAMP));
    (First, lv M_COUNTER);
    (Transition, sub_extension (sub_extension (nv M_COUNTER) (lv M_COUNTER)) one) ].

(** * An accepted table *)

Definition mrow_at (t : list row) (i : nat) : row := nth i t zero_row.
Definition mnext (t : list row) (i : nat) : row := mrow_at t (S i mod length t).

Definition mem_constraints_hold (t : list row) : Prop :=
  forall i, (i < length t)%nat ->
    Forall (fun c => applies (fst c) i (length t) = true -> snd c mod P = 0) (eval_memory (mrow_at t i) (mnext t i)).

(** memory_stark.rs:852-882, the two lookups.  As in ArithModel.v a logUp
    lookup says that for every value v the filtered number of occurrences in
    the looking columns equals, in the field, the sum of the frequencies of
    the table rows holding v.  Filters are arbitrary field elements. *)
Definition range_filter (lv : row) : Z := lv M_CONTEXT_FIRST_CHANGE + lv M_SEGMENT_FIRST_CHANGE.
Definition range_lookup (t : list row) : Prop :=
  forall v,
    (sum (map (fun i => b2z (mrow_at t i M_RANGE_CHECK =? v)
                        + range_filter (mrow_at t i) * b2z (mnext t i M_VIRTUAL =? v)) (seq 0 (length t)))
     - sum (map (fun i => mrow_at t i M_FREQUENCIES * b2z (mrow_at t i M_COUNTER =? v)) (seq 0 (length t)))) mod P = 0.
Definition stale_lookup (t : list row) : Prop :=
  forall v,
    (sum (map (fun i => mrow_at t i M_IS_STALE * b2z ((mrow_at t i M_CONTEXT + 1) mod P =? v)) (seq 0 (length t)))
     - sum (map (fun i => mrow_at t i M_STALE_CONTEXT_FREQUENCIES * b2z (mrow_at t i M_STALE_CONTEXTS =? v)) (seq 0 (length t)))) mod P = 0.

Definition mem_canonical (t : list row) : Prop := Forall (fun r => forall c, canonical (r c)) t.

Definition mem_table_ok (t : list row) : Prop :=
  mem_constraints_hold t /\ range_lookup t /\ stale_lookup t /\ mem_canonical t.

(** * What other tables see *)

(** memory_stark.rs:35-51: CPU, byte packing, sponge and MemBefore look for
    (is_read, address, value, timestamp) among the rows with filter 1. *)
Definition m_address (lv : row) : Z * Z * Z := (lv M_CONTEXT, lv M_SEGMENT, lv M_VIRTUAL).
Definition m_value (lv : row) : list Z := read_value VALUE_LIMBS lv M_VALUE.

(** memory_stark.rs:80-90: rows to be found in the MemBefore table. *)
Definition mem_before_filter (lv : row) : Z := (1 - lv M_TIMESTAMP * lv M_TIMESTAMP_INV) mod P.

(** * memory_continuation *)

(** memory_continuation_stark.rs:103-118; columns.rs:7. *)
Definition MC_FILTER : nat := 0.
Definition eval_mem_continuation (lv : row) : list constr := [(All, lv MC_FILTER * (lv MC_FILTER - 1))].
(** memory_continuation_stark.rs:120-132 *)
Definition eval_mem_continuation_circuit (lv : row) : list constr :=
  [(All, mul_extension (add_const_extension (lv MC_FILTER) (neg 1)) (lv MC_FILTER))].

(** * Trace generation *)

(** witness/memory.rs:93-153.  Unsigned machine integers are non-negative
    integers; no sum computed below comes near 2^64 for traces that fit in
    memory. *)
Record mem_op : Type := {
  mo_filter : bool; mo_timestamp : Z; mo_context : Z; mo_segment : Z; mo_virt : Z;
  mo_read : bool; mo_value : Z }.

Definition mo_address (o : mem_op) : Z * Z * Z := (mo_context o, mo_segment o, mo_virt o).

(** witness/memory.rs:131-143 *)
Definition new_dummy_read (ctx seg virt timestamp value : Z) : mem_op :=
  {| mo_filter := false; mo_timestamp := timestamp; mo_context := ctx; mo_segment := seg; mo_virt := virt; mo_read := true; mo_value := value |}.

(** witness/memory.rs:146-153; tuples compare lexicographically. *)
Definition key_ltb (a b : mem_op) : bool :=
  (mo_context a <? mo_context b) || ((mo_context a =? mo_context b) &&
  ((mo_segment a <? mo_segment b) || ((mo_segment a =? mo_segment b) &&
  ((mo_virt a <? mo_virt b) || ((mo_virt a =? mo_virt b) && (mo_timestamp a <? mo_timestamp b)))))).

(** Rust's [sort_by_key] is a stable sort; any stable sort gives the same
    list, this is insertion sort. *)
Fixpoint insert_op (o : mem_op) (l : list mem_op) : list mem_op :=
  match l with
  | [] => [o]
  | p :: l => if key_ltb o p then o :: p :: l else p :: insert_op o l
  end.
Definition sort_ops (l : list mem_op) : list mem_op := fold_left (fun acc o => insert_op o acc) l [].

(** memory_stark.rs:337-351: the loop for a new segment; [fuel] is the
    starting address, which decreases at each turn.  [max_rc] is positive
    whenever there are two operations. *)
Fixpoint fill_segment (fuel : nat) (max_rc ts ctx seg virt : Z) : list mem_op :=
  match fuel with
  | O => []
  | S f => if max_rc <? virt
           then new_dummy_read ctx seg (virt - max_rc) ts 0 :: fill_segment f max_rc ts ctx seg (virt - max_rc)
           else []
  end.
(** memory_stark.rs:352-360; [ts] is the timestamp of the current operation,
    each dummy has the next one. *)
Fixpoint fill_virtual (fuel : nat) (max_rc ts ctx seg virt next : Z) : list mem_op :=
  match fuel with
  | O => []
  | S f => if max_rc <? next - virt - 1
           then new_dummy_read ctx seg (virt + (max_rc + 1)) (ts + 1) 0 :: fill_virtual f max_rc (ts + 1) ctx seg (virt + (max_rc + 1)) next
           else []
  end.
(** memory_stark.rs:361-368 *)
Fixpoint fill_time (fuel : nat) (max_rc ts ctx seg virt value next : Z) : list mem_op :=
  match fuel with
  | O => []
  | S f => if max_rc <? next - ts
           then new_dummy_read ctx seg virt (ts + max_rc) value :: fill_time f max_rc (ts + max_rc) ctx seg virt value next
           else []
  end.

(** memory_stark.rs:330-369, one pair of consecutive operations. *)
Definition fill_pair (max_rc : Z) (curr next : mem_op) : list mem_op :=
  if negb (mo_context curr =? mo_context next) || negb (mo_segment curr =? mo_segment next)
  then fill_segment (Z.to_nat (mo_virt next)) max_rc (mo_timestamp curr + 1) (mo_context next) (mo_segment next) (mo_virt next)
  else if negb (mo_virt curr =? mo_virt next)
  then fill_virtual (Z.to_nat (mo_virt next)) max_rc (mo_timestamp curr) (mo_context curr) (mo_segment curr) (mo_virt curr) (mo_virt next)
  else fill_time (Z.to_nat (mo_timestamp next)) max_rc (mo_timestamp curr) (mo_context curr) (mo_segment curr) (mo_virt curr) (mo_value curr) (mo_timestamp next).

Fixpoint fill_pairs (max_rc : Z) (ops : list mem_op) : list mem_op :=
  match ops with
  | curr :: (next :: _) as rest => fill_pair max_rc curr next ++ fill_pairs max_rc rest
  | _ => []
  end.

(** memory_stark.rs:307-371; an empty list panics ([memory_ops[0]]). *)
Definition fill_gaps (ops : list mem_op) : option (list mem_op) :=
  match ops with
  | [] => None
  | o :: _ =>
      let ops := if mo_virt o =? 0 then ops else new_dummy_read 0 0 0 1 0 :: ops in
      let max_rc := Z.of_nat (next_power_of_two (length ops)) - 1 in
      Some (ops ++ fill_pairs max_rc ops)
  end.

(** memory_stark.rs:373-401 *)
Definition pad_memory_ops (ops : list mem_op) : option (list mem_op) :=
  match rev ops with
  | [] => None
  | last_op :: _ =>
      let padding_op := new_dummy_read (mo_context last_op) (mo_segment last_op) (mo_virt last_op + 1) (mo_timestamp last_op + 1) 0 in
      let num_ops := length ops in
      Some (ops ++ repeat padding_op (next_power_of_two (num_ops + 1) - num_ops))
  end.

(** memory_stark.rs:110-135 *)
Definition m_into_row (o : mem_op) : row :=
  let row := set zero_row M_FILTER (b2z (mo_filter o)) in
  let row := set row M_TIMESTAMP (mo_timestamp o) in
  let row := set row M_TIMESTAMP_INV (match try_inverse (mo_timestamp o) with Some x => x | None => 0 end) in
  let row := set row M_IS_READ (b2z (mo_read o)) in
  let row := set row M_CONTEXT (mo_context o) in
  let row := set row M_SEGMENT (mo_segment o) in
  let row := set row M_VIRTUAL (mo_virt o) in
  write row M_VALUE (map (fun j => (Z.shiftr (mo_value o) (Z.of_nat (j * 32))) mod 2^32) (seq 0 VALUE_LIMBS)).

(** memory_stark.rs:140-207, one row; [None] is the failed assertion. *)
Definition first_change_flags_and_rc (num_ops idx : nat) (lv nv : row) : option row :=
  let context_changed := negb (lv M_CONTEXT =? nv M_CONTEXT) in
  let segment_changed := negb (lv M_SEGMENT =? nv M_SEGMENT) in
  let virtual_changed := negb (lv M_VIRTUAL =? nv M_VIRTUAL) in
  let cfc := context_changed in
  let sfc := segment_changed && negb cfc in
  let vfc := virtual_changed && negb sfc && negb cfc in
  let range_check :=
    if (S idx =? num_ops)%nat then 0
    else if cfc then (nv M_CONTEXT - lv M_CONTEXT - 1) mod P
    else if sfc then (nv M_SEGMENT - lv M_SEGMENT - 1) mod P
    else if vfc then (nv M_VIRTUAL - lv M_VIRTUAL - 1) mod P
    else (nv M_TIMESTAMP - lv M_TIMESTAMP) mod P in
  let pre_aux := ((nv M_SEGMENT - SEG_ACCOUNTS_LINKED_LIST) * (nv M_SEGMENT - SEG_STORAGE_LINKED_LIST)) mod P in
  let pre := ((nv M_SEGMENT - SEG_CODE) * (nv M_SEGMENT - SEG_TRIE_DATA) * pre_aux) mod P in
  let address_changed := b2z cfc + b2z sfc + b2z vfc in
  if range_check <? Z.of_nat num_ops then
    let row := set lv M_CONTEXT_FIRST_CHANGE (b2z cfc) in
    let row := set row M_SEGMENT_FIRST_CHANGE (b2z sfc) in
    let row := set row M_VIRTUAL_FIRST_CHANGE (b2z vfc) in
    let row := set row M_RANGE_CHECK range_check in
    let row := set row M_PREINITIALIZED_SEGMENTS_AUX pre_aux in
    let row := set row M_PREINITIALIZED_SEGMENTS pre in
    Some (set row M_INITIALIZE_AUX ((pre * address_changed * nv M_IS_READ) mod P))
  else None.

(** All results, or a panic. *)
Fixpoint all_some {A} (l : list (option A)) : option (list A) :=
  match l with
  | [] => Some []
  | Some x :: l => match all_some l with Some m => Some (x :: m) | None => None end
  | None :: _ => None
  end.

(** memory_stark.rs:140-207.  The flags of a row depend on columns of the next
    row that the loop does not change, so the rows can be treated separately. *)
Definition generate_first_change_flags_and_rc (rows : list row) : option (list row) :=
  all_some (map (fun i => first_change_flags_and_rc (length rows) i (mrow_at rows i) (mnext rows i)) (seq 0 (length rows))).

(** memory_stark.rs:212-238 *)
Definition m_generate_trace_row_major (ops : list mem_op) : option (list row) :=
  match fill_gaps (sort_ops ops) with
  | None => None
  | Some ops =>
      match pad_memory_ops (sort_ops ops) with
      | None => None
      | Some ops => generate_first_change_flags_and_rc (map m_into_row (sort_ops ops))
      end
  end.

(** memory_stark.rs:403-424; [None] is the failed index. *)
Definition insert_stale_contexts (rows : list row) (stale : list Z) : option (list row) :=
  if forallb (fun c => c <? Z.of_nat (length rows)) stale then
    Some (map (fun p : nat * row =>
      let (i, r) := p in
      if existsb (Z.eqb (Z.of_nat i)) stale then set (set r M_STALE_CONTEXTS (Z.of_nat i + 1)) M_IS_PRUNED 1 else r)
      (combine (seq 0 (length rows)) rows))
  else None.

(** memory_stark.rs:244-293.  [x] is looked up by the range check of row i,
    and by the next address (0 on the last row) if its context or segment is
    new.  A value out of the table's range is an index out of bounds. *)
Definition rc_looks (rows : list row) (i : nat) : list Z :=
  let r := mrow_at rows i in
  r M_RANGE_CHECK ::
  (if (r M_CONTEXT_FIRST_CHANGE =? 1) || (r M_SEGMENT_FIRST_CHANGE =? 1)
   then [if (S i <? length rows)%nat then mrow_at rows (S i) M_VIRTUAL else 0] else []).
Definition count_in (v : Z) (l : list Z) : Z := sum (map (fun x => b2z (x =? v)) l).
(** The stale test of row i: its context's cell in the stale column. *)
Definition stale_at (rows : list row) (r : row) : bool :=
  mrow_at rows (Z.to_nat (r M_CONTEXT)) M_STALE_CONTEXTS =? r M_CONTEXT + 1.
Definition col_major_row (rows : list row) (i : nat) : row :=
  let r := mrow_at rows i in
  let is_stale := stale_at rows r in
  let changed := (r M_CONTEXT_FIRST_CHANGE =? 1) || (r M_SEGMENT_FIRST_CHANGE =? 1) || (r M_VIRTUAL_FIRST_CHANGE =? 1) in
  let maybe := negb is_stale && (r M_FILTER =? 1) && changed in
  let non_zero := existsb (fun x => negb (x =? 0)) (m_value r) in
  let after := maybe && (non_zero || existsb (Z.eqb (r M_SEGMENT)) PREINITIALIZED_SEGMENTS_INDICES) in
  let r := set r M_COUNTER (Z.of_nat i) in
  let r := set r M_FREQUENCIES (count_in (Z.of_nat i) (flat_map (rc_looks rows) (seq 0 (length rows))) mod P) in
  let r := set r M_STALE_CONTEXT_FREQUENCIES
    (sum (map (fun q => b2z (stale_at rows q && (q M_CONTEXT =? Z.of_nat i))) rows) mod P) in
  let r := set r M_IS_STALE (b2z is_stale) in
  let r := set r M_MAYBE_IN_MEM_AFTER (b2z maybe) in
  set r M_MEM_AFTER_FILTER (b2z after).
Definition generate_trace_col_major (rows : list row) : option (list row) :=
  let n := Z.of_nat (length rows) in
  if forallb (fun x => x <? n) (flat_map (rc_looks rows) (seq 0 (length rows))) && forallb (fun r => r M_CONTEXT <? n) rows
  then Some (map (col_major_row rows) (seq 0 (length rows)))
  else None.

(** memory_stark.rs:426-463; the second component holds the MemAfter rows. *)
Definition m_generate_trace (ops : list mem_op) (mem_before : list ((Z * Z * Z) * Z)) (stale : list Z) : option (list row * list ((Z * Z * Z) * list Z)) :=
  let ops := ops ++ map (fun p : (Z * Z * Z) * Z => let '((c, s, v), value) := p in
    {| mo_filter := true; mo_timestamp := 0; mo_context := c; mo_segment := s; mo_virt := v; mo_read := false; mo_value := value |}) mem_before in
  match m_generate_trace_row_major ops with
  | None => None
  | Some rows =>
      match insert_stale_contexts rows stale with
      | None => None
      | Some rows =>
          match generate_trace_col_major rows with
          | None => None
          | Some rows => Some (rows, map (fun r => (m_address r, m_value r)) (filter (fun r => r M_MEM_AFTER_FILTER =? 1) rows))
          end
      end
  end.
