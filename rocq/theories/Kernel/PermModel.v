(** Swap sequences for permutations of the stack.

    evm_arithmetization/src/cpu/kernel/stack/permutations.rs.  Elements are of
    any type with a decidable equality (StackItem in the code).  Indexing and
    the unwraps panic outside their domain; a panic is [None].  HashMaps are
    functions; the order in which [values()] enumerates them is a parameter. *)
From Coq Require Import List Bool Arith.
Import ListNotations.
Open Scope list_scope.

Section Perm.
  Variable T : Type.
  Variable eqb : T -> T -> bool.

  Definition at_index (l : list T) (i : nat) : option T := nth_error l i.
  (* a[i] == b[j] *)
  Definition same_at (a : list T) (i : nat) (b : list T) (j : nat) : bool :=
    match nth_error a i, nth_error b j with Some x, Some y => eqb x y | _, _ => false end.

  (** permutations.rs:209-219, is_permutation through make_multiset: the
      multiplicity of every element agrees.  Only elements of one of the lists
      have an entry. *)
  Definition multiplicity (x : T) (l : list T) : nat := length (filter (eqb x) l).
  Definition is_permutation (a b : list T) : bool :=
    forallb (fun x => multiplicity x a =? multiplicity x b) (a ++ b).

  (** loc_b: HashMap<T, Vec<usize>>, absent keys being empty vectors (both
      unwraps of line 104 and 110 fail on them alike). *)
  Definition locations := T -> list nat.
  Definition loc_push (m : locations) (x : T) (i : nat) : locations := fun y => if eqb y x then m y ++ [i] else m y.
  (* .get_mut(x).unwrap().pop().unwrap() *)
  Definition loc_pop (m : locations) (x : T) : option (nat * locations) :=
    match rev (m x) with
    | [] => None
    | i :: r => Some (i, fun y => if eqb y x then rev r else m y)
    end.
  Definition index_set := nat -> bool.
  Definition insert (s : index_set) (i : nat) : index_set := fun j => if j =? i then true else s j.

  (** permutations.rs:78-85 *)
  Fixpoint classify (a b : list T) (is : list nat) (correct_a : index_set) (loc_b : locations) : index_set * locations :=
    match is with
    | [] => (correct_a, loc_b)
    | i :: r =>
        if same_at a i b i then classify a b r (insert correct_a i) loc_b
        else match nth_error b i with
             | Some x => classify a b r correct_a (loc_push loc_b x i)
             | None => classify a b r correct_a loc_b
             end
    end.

  (** permutations.rs:112-118: [while j != i].  The fuel is shown to suffice. *)
  Fixpoint extend_cycle (fuel : nat) (a : list T) (i j : nat) (correct_a : index_set) (loc_b : locations) (cycl : list nat)
    : option (index_set * locations * list nat) :=
    if j =? i then Some (correct_a, loc_b, cycl)
    else match fuel with
    | O => None
    | S fuel' =>
        match nth_error a j with
        | None => None
        | Some x =>
            match loc_pop loc_b x with
            | None => None
            | Some (j', loc_b') => extend_cycle fuel' a i j' (insert correct_a j) loc_b' (cycl ++ [j])
            end
        end
    end.

  (** permutations.rs:97-122 *)
  Fixpoint find_cycles (fuel : nat) (a : list T) (is : list nat) (correct_a : index_set) (loc_b : locations) (permutation : list (list nat))
    : option (list (list nat)) :=
    match is with
    | [] => Some permutation
    | i :: r =>
        if correct_a i then find_cycles fuel a r correct_a loc_b permutation
        else match nth_error a i with
        | None => None
        | Some x =>
            match loc_pop loc_b x with
            | None => None
            | Some (j, loc_b') =>
                match extend_cycle fuel a i j (insert correct_a i) loc_b' [i] with
                | None => None
                | Some (correct_a', loc_b'', cycl) => find_cycles fuel a r correct_a' loc_b'' (permutation ++ [cycl])
                end
            end
        end
    end.

  (** permutations.rs:63-124 *)
  Definition find_permutation (a b : list T) : option (list (list nat)) :=
    if is_permutation a b then
      let n := length a in
      let '(correct_a, loc_b) := classify a b (seq 0 n) (fun _ => false) (fun _ => []) in
      let permutation := if correct_a 0 then [[0]] else [] in
      find_cycles n a (seq 0 n) correct_a loc_b permutation
    else None.

  Definition contains (l : list nat) (x : nat) : bool := existsb (Nat.eqb x) l.
  Fixpoint position (l : list nat) (x : nat) : option nat :=
    match l with [] => None | y :: r => if y =? x then Some 0 else option_map S (position r x) end.

  (** permutations.rs:149-186: one pass over the cycles for one list of
      positions. *)
  Fixpoint join_cycles (positions : list nat) (perm : list (list nat)) (joinedperm : list nat) (newperm : list (list nat)) (pos : nat)
    : list nat * list (list nat) :=
    match perm with
    | [] => (joinedperm, newperm)
    | cycl :: r =>
        match find (contains cycl) positions with
        | None => join_cycles positions r joinedperm (newperm ++ [cycl]) pos
        | Some term =>
            match position cycl term with
            | None => join_cycles positions r joinedperm newperm pos (* unreachable *)
            | Some newpos =>
                match joinedperm with
                | [] => join_cycles positions r cycl newperm newpos
                | _ :: _ =>
                    join_cycles positions r (firstn (pos + 1) joinedperm ++ skipn (newpos + 1) cycl ++ firstn (newpos + 1) cycl ++ skipn (pos + 1) joinedperm) newperm pos
                end
            end
        end
    end.

  (** permutations.rs:134-137: the positions of one element *)
  Definition positions_of (a : list T) (x : T) : list nat :=
    filter (fun i => match nth_error a i with Some y => eqb y x | None => false end) (seq 0 (length a)).

  (** permutations.rs:128-193.  [keys] is the order in which the HashMap
      enumerates its keys. *)
  Fixpoint combine_over (keys : list T) (a : list T) (perm : list (list nat)) : list (list nat) :=
    match keys with
    | [] => perm
    | x :: r =>
        let positions := positions_of a x in
        if length positions =? 1 then combine_over r a perm
        else
          let '(joinedperm, newperm) := join_cycles positions perm [] [] 0 in
          combine_over r a (match joinedperm with [] => newperm | _ => newperm ++ [joinedperm] end)
    end.
  Definition combine_cycles (keys : list T) (perm : list (list nat)) (a : list T) : list (list nat) :=
    if length perm =? 1 then perm else combine_over keys a perm.

  (** permutations.rs:196-212 *)
  Definition cycle_transpositions (cycl : list nat) : list nat :=
    let n := length cycl in
    match position cycl 0 with
    | Some pos => map (fun i => nth ((n + pos - i) mod n) cycl 0) (seq 1 (n - 1))
    | None => map (fun i => nth ((n - i) mod n) cycl 0) (seq 0 (n + 1))
    end.
  Definition permutation_to_transpositions (perm : list (list nat)) : list nat := flat_map cycle_transpositions perm.

  (** permutations.rs:30-44; the operation [Swap(i as u8)] is its number. *)
  Definition transpositions_to_stack_ops (trans : list nat) : list nat := map (fun i => i mod 256) trans.
  Definition get_stack_ops_for_perm (keys : list T) (src dst : list T) : option (list nat) :=
    let src := rev src in
    let dst := rev dst in
    match find_permutation src dst with
    | None => None
    | Some perm => Some (transpositions_to_stack_ops (permutation_to_transpositions (combine_cycles keys perm src)))
    end.
End Perm.
