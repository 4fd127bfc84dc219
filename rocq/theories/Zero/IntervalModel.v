(** Block intervals, range parsing, the checks before proving and the retry
    loop: zero/src/block_interval.rs, zero/src/parsing.rs,
    zero/src/pre_checks.rs, zero/src/rpc/retry.rs.

    A u64 or usize is a [Z]; an addition that overflows panics if overflow
    checks are on ([checked]) and wraps otherwise.  Text is a list of
    characters, each the [Z] of its code.  Async functions run to completion;
    the node they talk to is a parameter. *)
From Coq Require Import ZArith List Bool.
Import ListNotations.
Local Open Scope Z_scope.

(** A result, an error or a panic.  The texts of errors are not kept. *)
Inductive res (A : Type) : Type := Fine (a : A) | Fails | Panics.
Arguments Fine {A}. Arguments Fails {A}. Arguments Panics {A}.
Definition bind {A B} (x : res A) (k : A -> res B) : res B := match x with Fine a => k a | Fails => Fails | Panics => Panics end.

(** alloy's [BlockId]: a number, a tag such as "latest", or a hash with the
    optional demand that the block is canonical.  Equality is structural. *)
Inductive block_id : Type := IdNumber (n : Z) | IdTag (tag : Z) | IdHash (hash : Z) (canonical : option bool).
Definition opt_bool_eqb (a b : option bool) : bool :=
  match a, b with None, None => true | Some x, Some y => Bool.eqb x y | _, _ => false end.
Definition id_eqb (a b : block_id) : bool :=
  match a, b with
  | IdNumber n, IdNumber m => n =? m
  | IdTag s, IdTag t => s =? t
  | IdHash h c, IdHash k d => (h =? k) && opt_bool_eqb c d
  | _, _ => false
  end.

(** block_interval.rs:55-67 *)
Inductive interval : Type := Single (n : Z) | Range (first stop : Z) | FollowFrom (first : Z).

Section Interval.
  (** Are overflow checks on? *)
  Variable checked : bool.
  Definition u64_succ (n : Z) : res Z := if n + 1 <? 2^64 then Fine (n + 1) else if checked then Panics else Fine 0.

  (** The node: [get_block_by_id] of a hash gives an error, no block or the
      number of the block, and may change the node's state. *)
  Variable Node : Type.
  Variable by_hash : Node -> Z -> option bool -> option (option Z) * Node.

  (** block_interval.rs:172-196 *)
  Definition block_to_num (node : Node) (b : block_id) : res Z * Node :=
    match b with
    | IdNumber n => (Fine n, node)
    | IdTag _ => (Fails, node)
    | IdHash h c => let (r, node) := by_hash node h c in
        (match r with Some (Some n) => Fine n | _ => Fails end, node)
    end.

  (** block_interval.rs:79-107 *)
  Definition interval_new (node : Node) (start_block : block_id) (end_block : option block_id) : res interval * Node :=
    let (start_num, node) := block_to_num node start_block in
    match start_num with
    | Fine start_num =>
        match end_block with
        | None => (Fine (FollowFrom start_num), node)
        | Some end_block =>
            if id_eqb end_block start_block then (Fine (Single start_num), node)
            else let (end_num, node) := block_to_num node end_block in
                 (bind end_num (fun e => if e <=? start_num then Fails else bind (u64_succ e) (fun stop => Fine (Range start_num stop))), node)
        end
    | Fails => (Fails, node)
    | Panics => (Panics, node)
    end.

  (** The values of the iterator [first..stop]. *)
  Definition range (first stop : Z) : list Z := map (fun k => first + Z.of_nat k) (seq 0 (Z.to_nat (stop - first))).

  (** [range.last_mut()] set to (_, true) *)
  Fixpoint mark_last (l : list (Z * bool)) : list (Z * bool) :=
    match l with [] => [] | [(n, _)] => [(n, true)] | x :: l => x :: mark_last l end.

  (** block_interval.rs:111-128 *)
  Definition into_bounded_stream (i : interval) : res (list (Z * bool)) :=
    match i with
    | Single n => bind (u64_succ n) (fun stop => Fine (map (fun k => (k, true)) (range n stop)))
    | Range first stop => Fine (mark_last (map (fun k => (k, false)) (range first stop)))
    | FollowFrom _ => Fails
    end.

  (** block_interval.rs:131-137 *)
  Definition get_start_block (i : interval) : Z := match i with Single n | Range n _ | FollowFrom n => n end.

  (** What a consumer sees of a stream. *)
  Inductive item : Type := Yield (n : Z) (last : bool) | Failed | Died.

  (** The loop of block_interval.rs:150-167 from [current], for a node that
      answers the queries for the latest block number with [answers] ([None]
      is an error).  With no answer left the stream is pending. *)
  Fixpoint follow (current : Z) (answers : list (option Z)) : list item :=
    match answers with
    | [] => []
    | None :: _ => [Failed]
    | Some latest :: answers =>
        if current <? latest then Yield (current + 1) false :: follow (current + 1) answers
        else match u64_succ current with Fine _ => follow current answers | _ => [Died] end
    end.
  (** block_interval.rs:141-170 *)
  Definition into_unbounded_stream (i : interval) (answers : list (option Z)) : res (list item) :=
    match i with
    | FollowFrom first => Fine (Yield first false :: follow first answers)
    | _ => Fails
    end.

  (** pre_checks.rs:3-29.  [previous] is the height of the previous proof. *)
  Definition check_previous_proof_and_checkpoint (checkpoint : Z) (previous : option Z) (start : Z) : res unit :=
    match previous with
    | Some height => bind (u64_succ height) (fun next =>
        if negb (next =? start) then Fails else if start <=? checkpoint then Fails else Fine tt)
    | None =>
        if start =? 0 then (if checked then Panics else if checkpoint =? 2^64 - 1 then Fine tt else Fails)
        else if negb (checkpoint =? start - 1) then Fails else Fine tt
    end.
End Interval.
Arguments range first stop : simpl never.

(** * Parsing (zero/src/parsing.rs) *)

Definition DOT : Z := 46.
(** [s.split("..")]: the pieces between the separators, found from the left. *)
Fixpoint split_dots (acc : list Z) (s : list Z) : list (list Z) :=
  match s with
  | [] => [rev acc]
  | c :: s1 =>
      match s1 with
      | d :: s2 => if (c =? DOT) && (d =? DOT) then rev acc :: split_dots [] s2 else split_dots (c :: acc) s1
      | [] => split_dots (c :: acc) s1
      end
  end.

(** [usize::from_str] of the standard library: an optional plus sign, then
    digits whose value fits. *)
Fixpoint digits_value (acc : Z) (s : list Z) : option Z :=
  match s with
  | [] => Some acc
  | c :: s => if (48 <=? c) && (c <=? 57) then let v := acc * 10 + (c - 48) in if v <? 2^64 then digits_value v s else None else None
  end.
Definition parse_usize (s : list Z) : option Z :=
  match s with
  | [] => None
  | c :: s' => if c =? 43 then match s' with [] => None | _ => digits_value 0 s' end else digits_value 0 s
  end.

Inductive range_error : Type := EmptyInput | RhsParseError | LhsParseError | LhsMissing | RhsMissing.
(** parsing.rs:37-67 with [inclusive] false and separator ".."
    ([parse_range_exclusive], 28-35) *)
Definition parse_range_exclusive (s : list Z) : range_error + Z * Z :=
  match split_dots [] s with
  | [] (* unreachable: a split has a piece *) | [[]] => inl EmptyInput
  | [_] => inl RhsMissing
  | _ :: [] :: _ => inl RhsMissing
  | [] :: _ => inl LhsMissing
  | lhs :: rhs :: _ =>
      match parse_usize lhs with
      | None => inl LhsParseError
      | Some l => match parse_usize rhs with None => inl RhsParseError | Some r => inr (l, r) end
      end
  end.

(** The decimal digits of a number, as [Display] for usize. *)
Fixpoint digits (fuel : nat) (n : Z) (acc : list Z) : list Z :=
  match fuel with
  | O => acc
  | S fuel => let acc := 48 + n mod 10 :: acc in if n <? 10 then acc else digits fuel (n / 10) acc
  end.
Definition display (n : Z) : list Z := digits 20 n [].
(** circuit.rs:31-35 and block_interval.rs:203-205 *)
Definition display_range (r : Z * Z) : list Z := display (fst r) ++ [DOT; DOT] ++ display (snd r).

(** * The retry loop (zero/src/rpc/retry.rs:55-77, 119-137)
    The service answers the k-th call (from 0) with [answer k]: a response or
    an error.  [retries] starts at 0. *)
Section Retry.
  Variable Response Error : Type.
  Variable answer : nat -> Response + Error.
  Definition is_err (r : Response + Error) : bool := match r with inl _ => false | inr _ => true end.
  (** 60-75: the policy after a result, if the request is sent again *)
  Definition retry (retries max_retries : Z) (r : Response + Error) : option Z :=
    if is_err r && (retries <? max_retries) then Some (retries + 1) else None.
  (** The result and the number of calls; [None] if [fuel] does not suffice. *)
  Fixpoint retry_loop (fuel : nat) (calls : nat) (retries max_retries : Z) : option ((Response + Error) * nat) :=
    let r := answer calls in
    match retry retries max_retries r with
    | None => Some (r, S calls)
    | Some retries => match fuel with O => None | S fuel => retry_loop fuel (S calls) retries max_retries end
    end.
  Definition call (fuel : nat) (max_retries : Z) : option ((Response + Error) * nat) := retry_loop fuel 0 0 max_retries.
End Retry.
