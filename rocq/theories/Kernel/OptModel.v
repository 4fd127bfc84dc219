(** Model of the kernel assembly optimizer
    (evm_arithmetization/src/cpu/kernel/{optimizer,utils,cost_estimator}.rs). *)
From Coq Require Import ZArith List Bool Arith String Ascii.
Import ListNotations.
Local Open Scope Z_scope.
Local Open Scope string_scope.

(** cpu/kernel/ast.rs:77-84.  U256 literals are integers in [0, 2^256). *)
Inductive push_target : Type :=
| Literal (x : Z) | Label (l : string) | MacroLabel (l : string) | MacroVar (v : string) | Constant (c : string).

(** cpu/kernel/ast.rs:10-44.  [ProverInput] carries an opaque function number.
    [Other] stands for the remaining items (macros, %rep, %stack,
    BYTES, JUMPTABLE), whose contents no pass looks at. *)
Inductive item : Type :=
| Push (t : push_target)
| StandardOp (op : string)
| GlobalLabelDeclaration (l : string)
| LocalLabelDeclaration (l : string)
| ProverInput (f : nat)
| Other (n : nat).

Definition push_target_eqb (a b : push_target) : bool :=
  match a, b with
  | Literal x, Literal y => Z.eqb x y
  | Label x, Label y | MacroLabel x, MacroLabel y | MacroVar x, MacroVar y | Constant x, Constant y => String.eqb x y
  | _, _ => false
  end.
Definition item_eqb (a b : item) : bool :=
  match a, b with
  | Push x, Push y => push_target_eqb x y
  | StandardOp x, StandardOp y | GlobalLabelDeclaration x, GlobalLabelDeclaration y | LocalLabelDeclaration x, LocalLabelDeclaration y => String.eqb x y
  | ProverInput x, ProverInput y | Other x, Other y => Nat.eqb x y
  | _, _ => false
  end.
Fixpoint code_eqb (a b : list item) : bool :=
  match a, b with
  | [], [] => true
  | x :: a', y :: b' => item_eqb x y && code_eqb a' b'
  | _, _ => false
  end.

(** * U256 operations of the uint crate, as documented there *)

Definition W256 : Z := 2^256.
Definition u256_from_bool (b : bool) : Z := if b then 1 else 0. (* utils.rs:35-41 *)
Definition u_not (x : Z) : Z := W256 - 1 - x.
Definition overflowing_add (x y : Z) : Z := (x + y) mod W256.
Definition overflowing_sub (x y : Z) : Z := (x - y) mod W256.
Definition overflowing_mul (x y : Z) : Z := (x * y) mod W256.
(* checked_div / checked_rem with the unwrap_or of the caller *)
Definition checked_div0 (x y : Z) : Z := if Z.eqb y 0 then 0 else x / y.
Definition checked_rem0 (x y : Z) : Z := if Z.eqb y 0 then 0 else x mod y.
(* square and multiply, all products wrapping *)
Fixpoint pow_pos (x : Z) (n : positive) : Z :=
  match n with
  | xH => x
  | xO p => let r := pow_pos x p in overflowing_mul r r
  | xI p => let r := pow_pos x p in overflowing_mul x (overflowing_mul r r)
  end.
Definition overflowing_pow (x y : Z) : Z := match y with Zpos p => pow_pos x p | _ => 1 end.
(* Shl and Shr take the shift as_usize, which panics when it is 2^64 or more;
   shifts of 256 and more give zero. *)
Definition u_shl (x n : Z) : option Z := if Z.ltb n (2^64) then Some (if Z.ltb n 256 then Z.shiftl x n mod W256 else 0) else None.
Definition u_shr (x n : Z) : option Z := if Z.ltb n (2^64) then Some (if Z.ltb n 256 then Z.shiftr x n else 0) else None.
(* U256::byte: least significant byte first *)
Definition u_byte (x i : Z) : Z := (x / 2 ^ (8 * i)) mod 256.
(* utils.rs:29-33: the length of u256_to_trimmed_be_bytes *)
Definition trimmed_len (x : Z) : Z := if Z.eqb x 0 then 0 else Z.log2 x / 8 + 1.

(** * utils.rs *)

(** The result of a replacement function: a panic, no replacement, or one. *)
Inductive maybe : Type := Panic | Keep | Replace (l : list item).
(** The result of a loop. *)
Inductive outcome : Type := OutOfFuel | Panicked | Done (code : list item).

(** utils.rs:10-27.  The loop is given fuel; that it needs only finitely much
    for every pass is a theorem. *)
Fixpoint replace_windows (fuel : nat) (W : nat) (maybe_replace : list item -> maybe) (vec : list item) (start : nat) : outcome :=
  match fuel with
  | O => OutOfFuel
  | S fuel' =>
      if (start + W <=? List.length vec)%nat then
        match maybe_replace (firstn W (skipn start vec)) with
        | Panic => Panicked
        | Replace replacement =>
            replace_windows fuel' W maybe_replace (firstn start vec ++ replacement ++ skipn (start + W) vec)%list (start - (W - 1))
        | Keep => replace_windows fuel' W maybe_replace vec (S start)
        end
      else Done vec
  end.

(** * cost_estimator.rs *)

Definition BYTES_PER_OFFSET : Z := 3.
(** cost_estimator.rs:15-36; [None] is the panic. *)
Definition cost_estimate_item (i : item) : option Z :=
  match i with
  | GlobalLabelDeclaration _ | LocalLabelDeclaration _ => Some 0
  | Push (Literal n) => Some (trimmed_len n)
  | Push (Label _) => Some BYTES_PER_OFFSET
  | ProverInput _ => Some 1
  | StandardOp _ => Some 1
  | _ => None
  end.
Fixpoint cost_estimate (code : list item) : option Z :=
  match code with
  | [] => Some 0
  | i :: r => match cost_estimate_item i, cost_estimate r with Some a, Some b => Some (a + b) | _, _ => None end
  end.
(** cost_estimator.rs:7-9 *)
Definition is_code_improved (before after : list item) : option bool :=
  match cost_estimate after, cost_estimate before with Some a, Some b => Some (Z.ltb a b) | _, _ => None end.

(** * optimizer.rs *)

(** optimizer.rs:212-223 *)
Definition if_better (f : list item -> maybe) (window : list item) : maybe :=
  match f window with
  | Replace suggestion =>
      match is_code_improved window suggestion with None => Panic | Some true => Replace suggestion | Some false => Keep end
  | r => r
  end.

(** optimizer.rs:46-56 *)
Definition unary_rule (window : list item) : maybe :=
  match window with
  | [Push (Literal x); StandardOp op] =>
      if op =? "ISZERO" then Replace [Push (Literal (u256_from_bool (Z.eqb x 0)))]
      else if op =? "NOT" then Replace [Push (Literal (u_not x))]
      else Keep
  | _ => Keep
  end.

(** optimizer.rs:60-88: the value computed by the match, [None] the panic,
    [Some None] no match. *)
Definition fold_binary (op : string) (x y : Z) : option (option Z) :=
  if op =? "ADD" then Some (Some (overflowing_add x y))
  else if op =? "SUB" then Some (Some (overflowing_sub x y))
  else if op =? "MUL" then Some (Some (overflowing_mul x y))
  else if op =? "DIV" then Some (Some (checked_div0 x y))
  else if op =? "MOD" then Some (Some (checked_rem0 x y))
  else if op =? "EXP" then Some (Some (overflowing_pow x y))
  else if op =? "SHL" then match u_shl y x with Some r => Some (Some r) | None => None end
  else if op =? "SHR" then match u_shr y x with Some r => Some (Some r) | None => None end
  else if op =? "AND" then Some (Some (Z.land x y))
  else if op =? "OR" then Some (Some (Z.lor x y))
  else if op =? "XOR" then Some (Some (Z.lxor x y))
  else if op =? "LT" then Some (Some (u256_from_bool (Z.ltb x y)))
  else if op =? "GT" then Some (Some (u256_from_bool (Z.ltb y x)))
  else if op =? "EQ" then Some (Some (u256_from_bool (Z.eqb x y)))
  else if op =? "BYTE" then Some (Some (if Z.ltb x 32 then u_byte y x else 0))
  else Some None.
Definition binary_rule (window : list item) : maybe :=
  match window with
  | [Push (Literal y); Push (Literal x); StandardOp op] =>
      match fold_binary op x y with
      | None => Panic
      | Some None => Keep
      | Some (Some res) => Replace [Push (Literal res)]
      end
  | _ => Keep
  end.

(** optimizer.rs:92-109 *)
Definition identity_rule (window : list item) : maybe :=
  match window with
  | [Push (Literal x); StandardOp op] =>
      if op =? "ADD" then if Z.eqb x 0 then Replace [] else Keep
      else if op =? "MUL" then if Z.eqb x 1 then Replace [] else Keep
      else if op =? "OR" then if Z.eqb x 0 then Replace [] else Keep
      else if op =? "XOR" then if Z.eqb x 0 then Replace [] else Keep
      else Keep
  | _ => Keep
  end.

(** optimizer.rs:112-123 *)
Definition no_op_jump_rule (window : list item) : maybe :=
  match window with
  | [Push (Label l); StandardOp jump; decl] =>
      if (jump =? "JUMP") && (item_eqb decl (LocalLabelDeclaration l) || item_eqb decl (GlobalLabelDeclaration l)) then Replace [decl] else Keep
  | _ => Keep
  end.

(** optimizer.rs:127-137 *)
Definition swapped_pushes_rule (window : list item) : maybe :=
  match window with
  | [Push x; Push y; StandardOp swap1] => if swap1 =? "SWAP1" then Replace [Push y; Push x] else Keep
  | _ => Keep
  end.

(** optimizer.rs:140-151 *)
Definition swaps_commutative_rule (window : list item) : maybe :=
  match window with
  | [StandardOp swap1; StandardOp f] =>
      if (swap1 =? "SWAP1") && existsb (String.eqb f) ["ADD"; "MUL"; "AND"; "OR"; "XOR"; "EQ"] then Replace [StandardOp f] else Keep
  | _ => Keep
  end.

(** optimizer.rs:171-181 *)
Definition is_push_or_dup (op : item) : bool :=
  match op with
  | Push _ => true
  | StandardOp inner => String.prefix "DUP" inner
  | _ => false
  end.

(** optimizer.rs:156-168 *)
Definition ignored_values_rule (window : list item) : maybe :=
  match window with
  | [a; StandardOp pop] => if is_push_or_dup a && (pop =? "POP") then Replace [] else Keep
  | _ => Keep
  end.

(** optimizer.rs:188-210 *)
Definition de_morgan_rule (window : list item) : maybe :=
  match window with
  | [op0; StandardOp op1; op2; StandardOp op3; StandardOp op4] =>
      if is_push_or_dup op0 && (op1 =? "NOT") && is_push_or_dup op2 && (op3 =? "NOT") && ((op4 =? "AND") || (op4 =? "OR"))
      then Replace [op0; op2; StandardOp (if op4 =? "AND" then "OR" else "AND"); StandardOp "NOT"]
      else Keep
  | _ => Keep
  end.

(** The eight window passes of optimizer.rs:34-42, in order, with their window
    sizes (constant_propagation is two of them). *)
Definition passes : list (nat * (list item -> maybe)) :=
  [ (2%nat, if_better unary_rule);
    (3%nat, if_better binary_rule);
    (2%nat, identity_rule);
    (3%nat, no_op_jump_rule);
    (3%nat, swapped_pushes_rule);
    (2%nat, swaps_commutative_rule);
    (2%nat, ignored_values_rule);
    (5%nat, de_morgan_rule) ].

Fixpoint run_passes (fuel : nat) (ps : list (nat * (list item -> maybe))) (code : list item) : outcome :=
  match ps with
  | [] => Done code
  | (W, rule) :: ps' =>
      match replace_windows fuel W rule code 0 with
      | Done code' => run_passes fuel ps' code'
      | r => r
      end
  end.
(** optimizer.rs:13-30: run until nothing changes.  One fuel bounds the
    iterations of every loop; the list of passes is a parameter so that the
    proofs can speak of the optimizer without a rule.
    [run_passes fuel passes] is optimize_asm_once. *)
Fixpoint optimize_loop (ps : list (nat * (list item -> maybe))) (n fuel : nat) (code : list item) : outcome :=
  match n with
  | O => OutOfFuel
  | S n' =>
      match run_passes fuel ps code with
      | Done code' => if code_eqb code' code then Done code' else optimize_loop ps n' fuel code'
      | r => r
      end
  end.
Definition optimize_asm (fuel : nat) (code : list item) : outcome := optimize_loop passes fuel fuel code.
