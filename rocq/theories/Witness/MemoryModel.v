(** Model of the prover's memory (evm_arithmetization/src/witness/memory.rs).

    U256 and usize values are non-negative integers.  A vector is a list, so
    that allocation never fails; an index out of bounds, which panics, is
    [None].  The [debug_assert]s on the width of the values, which are absent
    from release builds, are not modelled. *)
From Coq Require Import ZArith List Bool.
Import ListNotations.
Local Open Scope Z_scope.

(** memory/segments.rs:3 and 100; operation.rs: CONTEXT_SCALING_FACTOR. *)
Definition SEGMENT_SCALING_FACTOR : Z := 32.
Definition CONTEXT_SCALING_FACTOR : Z := 64.
Definition SEGMENT_COUNT : Z := 39.

(** memory/segments.rs:90-97, unscaled: the code, the trie data and the two
    linked lists. *)
Definition PREINIT_INDICES : list Z := [0; 12; 34; 35].

(** witness/memory.rs:39-44.  A segment is its unscaled number. *)
Record maddr : Type := mk_maddr { a_context : Z; a_segment : Z; a_virt : Z }.
Definition maddr_eqb (a b : maddr) : bool :=
  (a_context a =? a_context b) && (a_segment a =? a_segment b) && (a_virt a =? a_virt b).

(** witness/memory.rs:57-72.  [None] is the error [SegmentTooLarge]. *)
Definition low_u32 (x : Z) : Z := x mod 2^32.
Definition new_bundle (addr : Z) : option maddr :=
  let virt := low_u32 addr in
  let segment := low_u32 (Z.shiftr addr SEGMENT_SCALING_FACTOR) in
  let context := low_u32 (Z.shiftr addr CONTEXT_SCALING_FACTOR) in
  if SEGMENT_COUNT <=? segment then None else Some (mk_maddr context segment virt).

(** witness/memory.rs:74-77 *)
Definition increment (a : maddr) : maddr := mk_maddr (a_context a) (a_segment a) (Z.min (a_virt a + 1) (2^64 - 1)).

(** witness/memory.rs:325-354 *)
Definition segment_state : Type := list (option Z).
Definition update_at {A} (n : nat) (x : A) (l : list A) : list A := firstn n l ++ x :: skipn (S n) l.
Definition seg_get (s : segment_state) (virt : Z) : option Z :=
  match nth_error s (Z.to_nat virt) with Some v => v | None => None end.
Definition seg_set (s : segment_state) (virt value : Z) : segment_state :=
  let n := Z.to_nat virt in
  let s := if (length s <=? n)%nat then s ++ repeat None (S n - length s) else s in
  update_at n (Some value) s.

(** witness/memory.rs:310-323 *)
Definition context_state : Type := list segment_state.
Definition context_default : context_state := repeat [] (Z.to_nat SEGMENT_COUNT).

(** witness/memory.rs:156-160.  The hash map of preinitialised segments is an
    association list with at most one entry for each segment. *)
Record mem_state : Type := mk_mem { m_contexts : list context_state; m_preinit : list (Z * segment_state) }.

(** witness/memory.rs:300-308 *)
Definition mem_default : mem_state := mk_mem [context_default] [].
(** witness/memory.rs:163-168 *)
Definition mem_new (kernel_code : list Z) : mem_state :=
  mk_mem [update_at 0 (map Some kernel_code) context_default] [].

Fixpoint preinit_get (l : list (Z * segment_state)) (segment : Z) : option segment_state :=
  match l with
  | [] => None
  | (s, c) :: l => if s =? segment then Some c else preinit_get l segment
  end.

(** witness/memory.rs:184-206 *)
Definition mem_get (m : mem_state) (a : maddr) : option Z :=
  match nth_error (m_contexts m) (Z.to_nat (a_context a)) with
  | None => None
  | Some c =>
      if SEGMENT_COUNT <=? a_segment a then None
      else match nth_error c (Z.to_nat (a_segment a)) with
           | None => None
           | Some s => seg_get s (a_virt a)
           end
  end.

(** witness/memory.rs:226-253.  The panic of [Segment::all()[address.segment]]
    for a segment out of range is [None]. *)
Definition mem_get_with_init (m : mem_state) (a : maddr) : option Z :=
  match mem_get m a with
  | Some v => Some v
  | None =>
      if SEGMENT_COUNT <=? a_segment a then None
      else match preinit_get (m_preinit m) (a_segment a) with
           | Some content =>
               if a_virt a <? Z.of_nat (length content)
               then Some (match nth_error content (Z.to_nat (a_virt a)) with Some (Some v) => v | _ => 0 end)
               else Some 0
           | None => Some 0
           end
  end.

(** witness/memory.rs:255-271 *)
Definition push_contexts (l : list context_state) (context : Z) : list context_state :=
  l ++ repeat context_default (S (Z.to_nat context) - length l).
Definition mem_set (m : mem_state) (a : maddr) (value : Z) : option mem_state :=
  if SEGMENT_COUNT <=? a_segment a then None
  else
    let contexts := push_contexts (m_contexts m) (a_context a) in
    let c := nth (Z.to_nat (a_context a)) contexts [] in
    let s := nth (Z.to_nat (a_segment a)) c [] in
    let c := update_at (Z.to_nat (a_segment a)) (seg_set s (a_virt a) value) c in
    Some (mk_mem (update_at (Z.to_nat (a_context a)) c contexts) (m_preinit m)).

(** witness/memory.rs:86-95; [filter] is true for every operation made here. *)
Inductive mkind : Type := MRead | MWrite.
Record mop : Type := mk_mop { mo_timestamp : Z; mo_address : maddr; mo_kind : mkind; mo_value : Z }.

(** witness/memory.rs:170-182 *)
Fixpoint apply_ops (m : mem_state) (ops : list mop) : option mem_state :=
  match ops with
  | [] => Some m
  | op :: ops =>
      match mo_kind op with
      | MRead => apply_ops m ops
      | MWrite => match mem_set m (mo_address op) (mo_value op) with Some m => apply_ops m ops | None => None end
      end
  end.

(** witness/memory.rs:211-224.  The indexing cannot fail on a memory with a
    first context. *)
Fixpoint all_some {A} (l : list (option A)) : option (list A) :=
  match l with
  | [] => Some []
  | Some x :: l => match all_some l with Some m => Some (x :: m) | None => None end
  | None :: _ => None
  end.
Definition get_preinit_memory (m : mem_state) (segment : Z) : option (list (option Z)) :=
  if existsb (Z.eqb segment) PREINIT_INDICES then
    match nth_error (m_contexts m) 0 with
    | None => None
    | Some c =>
        let pre := match preinit_get (m_preinit m) segment with Some s => s | None => [] end in
        let len := Nat.max (length pre) (length (nth (Z.to_nat segment) c [])) in
        match all_some (map (fun i => mem_get_with_init m (mk_maddr 0 segment (Z.of_nat i))) (seq 0 len)) with
        | Some l => Some (map Some l)
        | None => None
        end
    end
  else None.

(** witness/memory.rs:278-287 *)
Fixpoint preinit_insert (l : list (Z * segment_state)) (segment : Z) (values : segment_state) : list (Z * segment_state) :=
  match l with
  | [] => [(segment, values)]
  | (s, c) :: l => if s =? segment then (s, values) :: l else (s, c) :: preinit_insert l segment values
  end.
Definition insert_preinitialized_segment (m : mem_state) (segment : Z) (values : segment_state) : option mem_state :=
  if existsb (Z.eqb segment) PREINIT_INDICES
  then Some (mk_mem (m_contexts m) (preinit_insert (m_preinit m) segment values))
  else None.

(** witness/memory.rs:289-297 *)
Definition is_preinitialized_segment (m : mem_state) (segment : Z) : bool :=
  if SEGMENT_COUNT <=? segment then false
  else match preinit_get (m_preinit m) segment with Some _ => true | None => false end.
