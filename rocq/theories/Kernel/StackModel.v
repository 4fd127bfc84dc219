(** The %stack macro: evm_arithmetization/src/cpu/kernel/stack/stack_manipulation.rs.

    Stacks are written as in the code, with the top last.  A panic is
    [Panicked]; the search loop takes fuel.  Three things the code leaves to
    its collections are parameters: which of the lowest-cost nodes the
    BinaryHeap pops, the order in which a HashMap is enumerated, and the two
    column counts in the costs.  Costs are natural numbers (u32 in the
    code). *)
From Coq Require Import ZArith String Ascii List Bool Arith DecimalString.
From Verif Require Import Kernel.OptModel Kernel.PermModel.
Import ListNotations.
Local Open Scope nat_scope.
Local Open Scope list_scope.

(** ast.rs:45-57 *)
Inductive placeholder : Type := StackPlaceholder (name : string) (n : nat).
Inductive replacement : Type :=
| RLiteral (x : Z) | RIdentifier (s : string) | RLabel (l : string) | RMacroLabel (l : string) | RMacroVar (v : string) | RConstant (c : string).

(** stack_manipulation.rs:188-200 *)
Inductive stack_item : Type := NamedItem (s : string) | Target (t : push_target).
Inductive stack_op : Type := OpPush (t : push_target) | OpPop | OpDup (n : nat) | OpSwap (n : nat).

Definition stack_item_eqb (a b : stack_item) : bool :=
  match a, b with
  | NamedItem x, NamedItem y => String.eqb x y
  | Target x, Target y => push_target_eqb x y
  | _, _ => false
  end.
Fixpoint stack_eqb (a b : list stack_item) : bool :=
  match a, b with
  | [], [] => true
  | x :: a', y :: b' => stack_item_eqb x y && stack_eqb a' b'
  | _, _ => false
  end.

(** Decimal printing of a usize or u8. *)
Definition decimal (n : nat) : string := NilEmpty.string_of_uint (Nat.to_uint n).
(** stack_manipulation.rs:39: format!("@{name}.{i}") *)
Definition literal_name (name : string) (i : nat) : string := ("@" ++ name ++ "." ++ decimal i)%string.
Definition block (name : string) (n : nat) : list stack_item := map (fun i => NamedItem (literal_name name i)) (seq 0 n).

(** stack_blocks: the last insertion for a name wins. *)
Fixpoint stack_blocks (names : list placeholder) (name : string) : option nat :=
  match names with
  | [] => None
  | StackPlaceholder s n :: r =>
      match stack_blocks r name with
      | Some k => Some k
      | None => if String.eqb s name then Some n else None
      end
  end.

(** stack_manipulation.rs:31-43 *)
Definition expand_src (names : list placeholder) : list stack_item := flat_map (fun p => match p with StackPlaceholder name n => block name n end) names.
(** stack_manipulation.rs:45-69; [None] is the panic *)
Fixpoint expand_dst (names : list placeholder) (replacements : list replacement) : option (list stack_item) :=
  match replacements with
  | [] => Some []
  | item :: r =>
      match expand_dst names r with
      | None => None
      | Some rest =>
          match item with
          | RLiteral n => Some (Target (Literal n) :: rest)
          | RIdentifier name =>
              match stack_blocks names name with
              | Some n => Some (block name n ++ rest)
              | None => Some (Target (Label name) :: rest)
              end
          | RLabel name => Some (Target (Label name) :: rest)
          | RMacroLabel _ | RMacroVar _ | RConstant _ => None
          end
      end
  end.

(** stack_manipulation.rs:76-83: filter_map and unique *)
Fixpoint push_targets (dst : list stack_item) : list push_target :=
  match dst with
  | [] => []
  | Target t :: r => t :: filter (fun u => negb (push_target_eqb u t)) (push_targets r)
  | NamedItem _ :: r => push_targets r
  end.

(** stack_manipulation.rs:313-337; [None] both for the None returned and for
    the indexing of Dup(0), which is never built. *)
Definition apply_to (op : stack_op) (stack : list stack_item) : option (list stack_item) :=
  let len := List.length stack in
  match op with
  | OpPush t => Some (stack ++ [Target t])
  | OpPop => match len with O => None | S k => Some (firstn k stack) end
  | OpDup n => if n <=? len then match nth_error stack (len - n) with Some x => Some (stack ++ [x]) | None => None end else None
  | OpSwap n =>
      if n + 1 <=? len then
        match nth_error stack (len - 1), nth_error stack (len - (n + 1)) with
        | Some x, Some y =>
            Some (map (fun k => if k =? len - 1 then y else if k =? len - (n + 1) then x else nth k stack x) (seq 0 len))
        | _, _ => None
        end
      else None
  end.

Definition occurrences (x : stack_item) (s : list stack_item) : nat := List.length (filter (stack_item_eqb x) s).

(** stack_manipulation.rs:269-285 *)
Definition should_try_swap (src dst : list stack_item) (i : nat) : bool :=
  match src with
  | [] => false
  | _ =>
      let i_from := List.length src - 1 in
      let i_to := i_from - i in
      same_at stack_item stack_item_eqb src i_from dst i_to || same_at stack_item stack_item_eqb src i_to dst i_from
  end.

Section Search.
  (** The order in which combine_cycles' HashMap is enumerated. *)
  Variable hash_order : list stack_item -> list stack_item.
  (** BinaryHeap::pop. *)
  Variable pop : list (list stack_item * nat) -> option ((list stack_item * nat) * list (list stack_item * nat)).
  (** NUM_CPU_COLUMNS and memory::columns::NUM_COLUMNS *)
  Variables cpu_columns memory_columns : nat.

  (** stack_manipulation.rs:204-266; [None] is a panic *)
  Definition next_ops (src dst : list stack_item) (unique_push_targets : list push_target) : option (list stack_op) :=
    let general :=
      let src_len := List.length src mod 256 in
      Some ([OpPop]
        ++ map OpPush (filter (fun t => occurrences (Target t) src <? occurrences (Target t) dst) unique_push_targets)
        ++ map OpDup (filter (fun i => match nth_error src (List.length src - i) with
                                       | Some item => occurrences item src <? occurrences item dst
                                       | None => false end) (seq 1 src_len))
        ++ map OpSwap (filter (should_try_swap src dst) (seq 1 (src_len - 1)))) in
    let from_perm :=
      if is_permutation stack_item stack_item_eqb src dst then
        match get_stack_ops_for_perm stack_item stack_item_eqb (hash_order src) src dst with
        | None => None
        | Some ops => match rev ops with [] => None | n :: _ => Some [OpSwap n] end
        end
      else general in
    match rev src with
    | top :: _ => if existsb (stack_item_eqb top) dst then from_perm else Some [OpPop]
    | [] => from_perm
    end.

  (** stack_manipulation.rs:288-311; a macro target would panic, but none gets
      here *)
  Definition op_cost (op : stack_op) : nat :=
    let rows :=
      match op with
      | OpPush (Literal n) => Z.to_nat (trimmed_len n) + 1
      | OpPush _ => 3 + 1
      | OpPop => 1
      | OpDup _ => 2
      | OpSwap _ => 3
      end in
    cpu_columns + rows * memory_columns.

  Definition node_table := list (list stack_item * (nat * option (list stack_item * stack_op))).
  Fixpoint look_up (t : node_table) (s : list stack_item) : option (nat * option (list stack_item * stack_op)) :=
    match t with [] => None | (k, v) :: r => if stack_eqb k s then Some v else look_up r s end.

  (** stack_manipulation.rs:124-154 *)
  Fixpoint relax (ops : list stack_op) (node : list stack_item) (node_cost : nat) (queue : list (list stack_item * nat)) (info : node_table)
    : list (list stack_item * nat) * node_table :=
    match ops with
    | [] => (queue, info)
    | op :: r =>
        match apply_to op node with
        | None => relax r node node_cost queue info
        | Some neighbor =>
            let cost := node_cost + op_cost op in
            if match look_up info neighbor with Some (c, _) => c <=? cost | None => false end then relax r node node_cost queue info
            else relax r node node_cost ((neighbor, cost) :: queue) ((neighbor, (cost, Some (node, op))) :: info)
        end
    end.

  Inductive search_result : Type := SearchFuel | SearchPanic | Found (path : list stack_op).

  (** stack_manipulation.rs:106-113: back to the source *)
  Fixpoint rewind (fuel : nat) (info : node_table) (src stack : list stack_item) (path : list stack_op) : search_result :=
    match fuel with
    | O => SearchFuel
    | S fuel' =>
        match look_up info stack with
        | None => SearchPanic
        | Some (_, Some (parent, op)) => rewind fuel' info src parent (op :: path)
        | Some (_, None) => if stack_eqb stack src then Found path else SearchPanic
        end
    end.

  (** stack_manipulation.rs:100-160 *)
  Fixpoint search (fuel : nat) (src dst : list stack_item) (targets : list push_target) (queue : list (list stack_item * nat)) (info : node_table) : search_result :=
    match fuel with
    | O => SearchFuel
    | S fuel' =>
        match pop queue with
        | None => SearchPanic (* no path found *)
        | Some ((stack, cost), queue) =>
            if stack_eqb stack dst then rewind (S (List.length info)) info src stack []
            else match look_up info stack with
            | None => SearchPanic
            | Some (best, _) =>
                if best <? cost then search fuel' src dst targets queue info
                else match next_ops stack dst targets with
                | None => SearchPanic
                | Some ops =>
                    let '(queue, info) := relax ops stack cost queue info in
                    search fuel' src dst targets queue info
                end
            end
        end
    end.
  Definition shortest_path (fuel : nat) (src dst : list stack_item) (targets : list push_target) : search_result :=
    search fuel src dst targets [(src, 0)] [(src, (0, None))].

  (** stack_manipulation.rs:339-347 *)
  Definition into_item (op : stack_op) : item :=
    match op with
    | OpPush t => Push t
    | OpPop => StandardOp "POP"
    | OpDup n => StandardOp ("DUP" ++ decimal n)
    | OpSwap n => StandardOp ("SWAP" ++ decimal n)
    end.

  (** stack_manipulation.rs:28-87 *)
  Definition expand (fuel : nat) (names : list placeholder) (replacements : list replacement) : outcome :=
    match expand_dst names replacements with
    | None => Panicked
    | Some dst =>
        let src := rev (expand_src names) in
        let dst := rev dst in
        match shortest_path fuel src dst (push_targets dst) with
        | SearchFuel => OutOfFuel
        | SearchPanic => Panicked
        | Found path => Done (map into_item path)
        end
    end.
End Search.
