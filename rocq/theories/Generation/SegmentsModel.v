(** Model of the iterator over the segments of a batch.

    Sources in /repo/evm_arithmetization/src: generation/segments.rs:19-225,
    cpu/kernel/interpreter.rs:110-155 [ExtraSegmentData, set_registers_and_run],
    generation/state.rs:581-606 [set_segment_data].

    Simplifications: memory, the extra data and the rest of the interpreter
    (inputs, stale contexts, traces, the table of jump destinations under
    construction) are abstract types; [Interpreter::run] is a function of the
    interpreter ([Witness/MachineModel.v] models [run_cpu]); the message of an
    error is left out. *)

From Coq Require Import List Arith NArith Bool.
Import ListNotations.
Local Open Scope nat_scope.

(** witness/state.rs:13-22 [RegistersState]. *)
Record regs := { program_counter : nat; is_kernel : bool; stack_len : nat; stack_top : N; context : nat; is_stack_top_read : bool; check_overflow : bool; gas_used : N }.

Section Segments.
  Variable memory extra rest : Type.
  (** [KERNEL.global_labels["main"]], ["init"] and ["halt"]. *)
  Variable main init halt : nat.

  (** witness/state.rs:24-39 [RegistersState::new]. *)
  Definition new_regs : regs := {| program_counter := main; is_kernel := true; stack_len := 0; stack_top := 0%N; context := 0; is_stack_top_read := false; check_overflow := false; gas_used := 0%N |}.

  (** The interpreter, as far as segments see it. *)
  Record interp := { i_regs : regs; i_mem : memory; i_extra : extra; i_clock : nat; i_rest : rest }.

  (** [Interpreter::run]: the final registers and memory, or an error; the
      interpreter is changed in both cases. *)
  Variable run : interp -> option (regs * option memory) * interp.
  (** [memory.set] of the cells [i] of [Segment::RegistersStates]. *)
  Variable write_registers : memory -> list N -> memory.
  (** An empty memory with the preinitialized segments of the given one. *)
  Variable preinitialized : memory -> memory.

  (** segments.rs:22-41; [max_cpu_len_log] never changes. *)
  Record segment := { segment_index : nat; registers_before : regs; registers_after : regs; seg_memory : memory; extra_data : extra }.

  (** :52-89 [build_segment_data]. *)
  Definition build_segment_data (i : nat) (before after : option regs) (m : option memory) (it : interp) : segment :=
    {| segment_index := i;
       registers_before := match before with Some r => r | None => new_regs end;
       registers_after := match after with Some r => r | None => new_regs end;
       seg_memory := match m with Some m => m | None => preinitialized (i_mem it) end;
       extra_data := i_extra it |}.

  (** state.rs:581-606. *)
  Definition set_segment_data (d : segment) (it : interp) : interp :=
    let b := registers_before d in
    {| i_regs := {| program_counter := program_counter (i_regs it); is_kernel := is_kernel (i_regs it); stack_len := stack_len b; stack_top := stack_top b;
                    context := context b; is_stack_top_read := false; check_overflow := false; gas_used := gas_used b |};
       i_mem := i_mem it; i_extra := extra_data d; i_clock := i_clock it; i_rest := i_rest it |}.
  Definition set_memory (m : memory) (it : interp) : interp :=
    {| i_regs := i_regs it; i_mem := m; i_extra := i_extra it; i_clock := i_clock it; i_rest := i_rest it |}.

  Definition bit (b : bool) : N := if b then 1%N else 0%N.
  Definition register_words (r : regs) : list N :=
    [N.of_nat (program_counter r); bit (is_kernel r); N.of_nat (stack_len r); stack_top r; N.of_nat (context r); gas_used r].

  (** interpreter.rs:125-155. *)
  Definition set_registers_and_run (r : regs) (it : interp) : option (regs * option memory) * interp :=
    run {| i_regs := {| program_counter := init; is_kernel := true; stack_len := stack_len r; stack_top := stack_top r;
                        context := context r; is_stack_top_read := is_stack_top_read r; check_overflow := check_overflow r; gas_used := gas_used r |};
           i_mem := write_registers (i_mem it) (register_words r); i_extra := i_extra it; i_clock := 0; i_rest := i_rest it |}.

  (** What a call of [next] returns. *)
  Inductive item := Data (d : segment) | Failure | End.

  (** :92-95 *)
  Record iter := { interpreter : interp; partial_next_data : option segment }.
  Definition new_iter (it : interp) : iter := {| interpreter := it; partial_next_data := None |}.

  (** :123-196 [generate_next_segment]. *)
  Definition generate_next_segment (p : option segment) (it : interp) : option (option (segment * segment)) * interp :=
    let go (d : segment) (it : interp) :=
      match set_registers_and_run (registers_after d) it with
      | (Some (updated, mem_after), it) =>
          let next := build_segment_data (segment_index d + 1) (Some updated) (Some updated) mem_after it in
          (Some (Some ({| segment_index := segment_index d; registers_before := registers_before d; registers_after := updated; seg_memory := seg_memory d; extra_data := extra_data d |}, next)), it)
      | (None, it) => (None, it)
      end in
    match p with
    | Some d => if program_counter (registers_after d) =? halt then (Some None, it) else go d (set_memory (seg_memory d) (set_segment_data d it))
    | None => go (build_segment_data 0 None None None it) it
    end.

  (** :203-224 [next]. *)
  Definition next (s : iter) : item * iter :=
    match generate_next_segment (partial_next_data s) (interpreter s) with
    | (Some (Some (d, nd)), it) => (Data d, {| interpreter := it; partial_next_data := Some nd |})
    | (Some None, it) => (End, {| interpreter := it; partial_next_data := partial_next_data s |})
    | (None, it) => (Failure, {| interpreter := it; partial_next_data := partial_next_data s |})
    end.

  (** The answers of the first calls, and the iterator after them. *)
  Fixpoint calls (n : nat) (s : iter) : list item * iter :=
    match n with 0 => ([], s) | S n => let (x, s) := next s in let (xs, s) := calls n s in (x :: xs, s) end.
End Segments.
