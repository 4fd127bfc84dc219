(** The kernel assembler: evm_arithmetization/src/cpu/kernel/assembler.rs and
    opcodes.rs.

    A panic is [Bad], running out of fuel is [Fuel]; fuel bounds the nesting of
    macro calls and the loops of the %stack search and the optimizer.
    Offsets (usize) and the macro counter (u32) are natural numbers.  HashMaps
    are association lists.  The parser, the debug output, the code hash and
    the label list sorted for debugging are not modelled. *)
From Coq Require Import ZArith String Ascii List Bool Arith.
From Verif Require Import Kernel.OptModel Kernel.StackModel.
Import ListNotations.
Local Open Scope string_scope.
Local Open Scope nat_scope.
Local Open Scope list_scope.

(** ast.rs:85-89 *)
Inductive bytes_target : Type := BLiteral (b : Z) | BConstant (c : string).

(** ast.rs:10-44.  A ProverInputFn is an opaque number. *)
Inductive aitem : Type :=
| ConditionalBlock (feature : string) (items : list aitem)
| MacroDef (name : string) (params : list string) (items : list aitem)
| MacroCall (name : string) (args : list push_target)
| Repeat (count : Z) (items : list aitem)
| StackManipulation (before : list placeholder) (after : list replacement)
| AGlobal (l : string)
| ALocal (l : string)
| AMacroLabel (l : string)
| APush (t : push_target)
| AProverInput (f : nat)
| AOp (op : string)
| ABytes (targets : list bytes_target)
| AJumptable (ls : list string).

Inductive res (A : Type) : Type := Fuel | Bad | Good (a : A).
Arguments Fuel {A}. Arguments Bad {A}. Arguments Good {A} a.
Definition bind {A B : Type} (r : res A) (f : A -> res B) : res B :=
  match r with Fuel => Fuel | Bad => Bad | Good a => f a end.
Notation "'do' x <- r ; e" := (bind r (fun x => e)) (at level 200, x pattern, r at level 100, e at level 200).
Definition of_option {A : Type} (o : option A) : res A := match o with Some a => Good a | None => Bad end.
Fixpoint mapM {A B : Type} (f : A -> res B) (l : list A) : res (list B) :=
  match l with
  | [] => Good []
  | a :: r => do b <- f a; do bs <- mapM f r; Good (b :: bs)
  end.

Fixpoint assoc {A : Type} (k : string) (m : list (string * A)) : option A :=
  match m with [] => None | (k', v) :: r => if String.eqb k k' then Some v else assoc k r end.

(** * Macros *)

(** assembler.rs:95-114.  A macro is found by its name and number of
    parameters. *)
Record macro : Type := { m_name : string; m_params : list string; m_items : list aitem }.
Fixpoint get_macro (macros : list macro) (name : string) (n : nat) : option macro :=
  match macros with
  | [] => None
  | m :: r => if String.eqb name (m_name m) && (n =? List.length (m_params m)) then Some m else get_macro r name n
  end.

(** assembler.rs:158-185.  Definitions inside conditional blocks are found,
    those inside macros and repetitions are not. *)
Fixpoint find_macros_item (item : aitem) (macros : list macro) : res (list macro) :=
  match item with
  | ConditionalBlock _ items =>
      (fix go items macros :=
         match items with
         | [] => Good macros
         | i :: r => do macros <- find_macros_item i macros; go r macros
         end) items macros
  | MacroDef name params items =>
      match get_macro macros name (List.length params) with
      | Some _ => Bad
      | None => Good ({| m_name := name; m_params := params; m_items := items |} :: macros)
      end
  | _ => Good macros
  end.
Fixpoint find_macros_internal (items : list aitem) (macros : list macro) : res (list macro) :=
  match items with
  | [] => Good macros
  | i :: r => do macros <- find_macros_item i macros; find_macros_internal r macros
  end.
Definition find_macros (files : list (list aitem)) : res (list macro) := find_macros_internal (concat files) [].

(** assembler.rs:187-200.  Only the outermost blocks; the parser has already
    emptied the blocks of inactive features. *)
Definition expand_conditional_blocks (body : list aitem) : list aitem :=
  flat_map (fun item => match item with ConditionalBlock _ items => items | _ => [item] end) body.

(** assembler.rs:251 *)
Definition actual_label (counter : nat) (macro_label : string) : string := ("@" ++ decimal counter ++ "." ++ macro_label)%string.

(** assembler.rs:107-112, 253-256 *)
Fixpoint get_arg (params : list string) (args : list push_target) (var : string) : option push_target :=
  match params, args with
  | p :: ps, a :: rest => if String.eqb p var then Some a else get_arg ps rest var
  | _, _ => None
  end.

(** ast.rs:60-70 *)
Definition replacement_of (t : push_target) : replacement :=
  match t with
  | Literal x => RLiteral x | Label l => RLabel l | MacroLabel l => RMacroLabel l
  | MacroVar v => RMacroVar v | Constant c => RConstant c
  end.

(** assembler.rs:263-296: one item of a macro body.  Repetitions and
    conditional blocks inside a macro are copied without substitution. *)
Definition instantiate (counter : nat) (m : macro) (args : list push_target) (item : aitem) : res aitem :=
  let arg v := of_option (get_arg (m_params m) args v) in
  match item with
  | AMacroLabel l => Good (ALocal (actual_label counter l))
  | APush (MacroLabel l) => Good (APush (Label (actual_label counter l)))
  | APush (MacroVar v) => do t <- arg v; Good (APush t)
  | MacroCall name args' =>
      do args' <- mapM (fun a => match a with
                                 | MacroVar v => arg v
                                 | MacroLabel l => Good (Label (actual_label counter l))
                                 | _ => Good a
                                 end) args';
      Good (MacroCall name args')
  | StackManipulation before after =>
      do after <- mapM (fun r => match r with
                                 | RMacroLabel l => Good (RIdentifier (actual_label counter l))
                                 | RMacroVar v => do t <- arg v; Good (replacement_of t)
                                 | _ => Good r
                                 end) after;
      Good (StackManipulation before after)
  | _ => Good item
  end.

(** assembler.rs:210-213: [times] copies, each expanded anew *)
Fixpoint repeat_expand (times : nat) (f : nat -> res (list aitem * nat)) (counter : nat) : res (list aitem * nat) :=
  match times with
  | O => Good ([], counter)
  | S t => do (e, counter) <- f counter; do (r, counter) <- repeat_expand t f counter; Good (e ++ r, counter)
  end.

(** assembler.rs:202-304.  Returns the expanded items and the macro counter.
    count.as_usize() panics from 2^64 on. *)
Fixpoint expand_macros (fuel : nat) (macros : list macro) (body : list aitem) (counter : nat) : res (list aitem * nat) :=
  match fuel with
  | O => Fuel
  | S fuel' =>
      (fix go body counter :=
         match body with
         | [] => Good ([], counter)
         | item :: r =>
             do (e, counter) <-
               match item with
               | MacroDef _ _ _ => Good ([], counter)
               | MacroCall name args =>
                   match get_macro macros name (List.length args) with
                   | None => Bad
                   | Some m =>
                       do items <- mapM (instantiate counter m args) (m_items m);
                       expand_macros fuel' macros items (S counter)
                   end
               | Repeat count items =>
                   if Z.ltb count (2^64) then repeat_expand (Z.to_nat count) (expand_macros fuel' macros items) counter else Bad
               | ConditionalBlock _ items => expand_macros fuel' macros items counter
               | _ => Good ([item], counter)
               end;
             do (es, counter) <- go r counter;
             Good (e ++ es, counter)
         end) body counter
  end.

(** * Constants *)

(** assembler.rs:306-352 *)
Definition inline_constant (constants : list (string * Z)) (item : aitem) : res aitem :=
  match item with
  | APush (Constant c) => do v <- of_option (assoc c constants); Good (APush (Literal v))
  | ABytes targets =>
      do targets <- mapM (fun t => match t with
                                   | BConstant c => do v <- of_option (assoc c constants); if Z.ltb v 256 then Good (BLiteral v) else Bad
                                   | _ => Good t
                                   end) targets;
      Good (ABytes targets)
  | StackManipulation before after =>
      do after <- mapM (fun r => match r with
                                 | RConstant c => do v <- of_option (assoc c constants); Good (RLiteral v)
                                 | _ => Good r
                                 end) after;
      Good (StackManipulation before after)
  | _ => Good item
  end.
Definition inline_constants (constants : list (string * Z)) (body : list aitem) : res (list aitem) := mapM (inline_constant constants) body.

(** * The items of the optimizer *)

Definition of_outcome (o : outcome) : res (list item) :=
  match o with OutOfFuel => Fuel | Panicked => Bad | Done code => Good code end.
(** The optimizer's model keeps the items it does not look into as numbers;
    here the number is the position in the file. *)
Definition to_opt (k : nat) (i : aitem) : item :=
  match i with
  | APush t => Push t | AOp op => StandardOp op | AGlobal l => GlobalLabelDeclaration l | ALocal l => LocalLabelDeclaration l
  | AProverInput f => ProverInput f | _ => Other k
  end.
Fixpoint to_opts (k : nat) (body : list aitem) : list item :=
  match body with [] => [] | i :: r => to_opt k i :: to_opts (S k) r end.
Definition of_opt (body : list aitem) (i : item) : res aitem :=
  match i with
  | Push t => Good (APush t) | StandardOp op => Good (AOp op) | GlobalLabelDeclaration l => Good (AGlobal l)
  | LocalLabelDeclaration l => Good (ALocal l) | ProverInput f => Good (AProverInput f)
  | Other k => of_option (nth_error body k)
  end.

Section Assemble.
  (** The parameters of the %stack search, see StackModel. *)
  Variable hash_order : list stack_item -> list stack_item.
  Variable pop : list (list stack_item * nat) -> option ((list stack_item * nat) * list (list stack_item * nat)).
  Variables cpu_columns memory_columns : nat.

  (** stack_manipulation.rs:14-26 *)
  Definition expand_stack_item (fuel : nat) (item : aitem) : res (list aitem) :=
    match item with
    | StackManipulation names replacements =>
        do code <- of_outcome (expand hash_order pop cpu_columns memory_columns fuel names replacements);
        mapM (of_opt []) code
    | _ => Good [item]
    end.
  Definition expand_stack_manipulation (fuel : nat) (body : list aitem) : res (list aitem) :=
    do parts <- mapM (expand_stack_item fuel) body; Good (concat parts).

  Definition optimize_body (fuel : nat) (body : list aitem) : res (list aitem) :=
    do code <- of_outcome (optimize_asm fuel (to_opts 0 body)); mapM (of_opt body) code.

  (** assembler.rs:128-135: what is done to each file before the layout *)
  Definition prepare (fuel : nat) (macros : list macro) (constants : list (string * Z)) (optimize : bool) (file : list aitem) (counter : nat)
    : res (list aitem * nat) :=
    do (body, counter) <- expand_macros fuel macros (expand_conditional_blocks file) counter;
    do body <- inline_constants constants body;
    do body <- expand_stack_manipulation fuel body;
    do body <- (if optimize then optimize_body fuel body else Good body);
    Good (body, counter).
  Fixpoint prepare_all (fuel : nat) (macros : list macro) (constants : list (string * Z)) (optimize : bool) (files : list (list aitem)) (counter : nat)
    : res (list (list aitem)) :=
    match files with
    | [] => Good []
    | f :: r =>
        do (body, counter) <- prepare fuel macros constants optimize f counter;
        do bodies <- prepare_all fuel macros constants optimize r counter;
        Good (body :: bodies)
    end.

  (** * Layout *)

  (** utils.rs:29-33 *)
  Definition trimmed_be_bytes (n : Z) : list Z := map (fun i => u_byte n (Z.of_nat i)) (rev (seq 0 (Z.to_nat (trimmed_len n)))).
  (** assembler.rs:17-19 *)
  Definition bytes_per_offset : nat := 3.
  (** assembler.rs:454-463 *)
  Definition push_target_size (t : push_target) : res nat :=
    match t with
    | Literal n => Good (List.length (trimmed_be_bytes n))
    | Label _ => Good bytes_per_offset
    | MacroLabel _ | MacroVar _ | Constant _ => Bad
    end.

  (** The state of find_labels: offset, labels and prover inputs. *)
  Record layout : Type := { offset : nat; locals : list (string * nat); globals : list (string * nat); inputs : list (nat * nat) }.
  Definition advance (s : layout) (n : nat) : layout :=
    {| offset := offset s + n; locals := locals s; globals := globals s; inputs := inputs s |}.

  (** assembler.rs:354-391 *)
  Definition find_labels_item (item : aitem) (s : layout) : res layout :=
    match item with
    | ConditionalBlock _ _ | MacroDef _ _ _ | MacroCall _ _ | Repeat _ _ | StackManipulation _ _ | AMacroLabel _ => Bad
    | AGlobal l =>
        match assoc l (globals s) with
        | Some _ => Bad
        | None => Good {| offset := offset s; locals := locals s; globals := (l, offset s) :: globals s; inputs := inputs s |}
        end
    | ALocal l =>
        match assoc l (locals s) with
        | Some _ => Bad
        | None => Good {| offset := offset s; locals := (l, offset s) :: locals s; globals := globals s; inputs := inputs s |}
        end
    | APush t => do n <- push_target_size t; Good (advance s (1 + n))
    | AProverInput f =>
        Good {| offset := offset s + 1; locals := locals s; globals := globals s; inputs := (offset s, f) :: inputs s |}
    | AOp _ => Good (advance s 1)
    | ABytes bytes => Good (advance s (List.length bytes))
    | AJumptable ls => Good (advance s (List.length ls * bytes_per_offset))
    end.
  Fixpoint find_labels (body : list aitem) (s : layout) : res layout :=
    match body with [] => Good s | i :: r => do s <- find_labels_item i s; find_labels r s end.

  (** assembler.rs:128-144: all files; the local labels of each are kept *)
  Fixpoint find_all_labels (bodies : list (list aitem)) (s : layout) : res (list (list (string * nat)) * layout) :=
    match bodies with
    | [] => Good ([], s)
    | b :: r =>
        do s <- find_labels b {| offset := offset s; locals := []; globals := globals s; inputs := inputs s |};
        do (ls, s') <- find_all_labels r s;
        Good (locals s :: ls, s')
    end.

  (** assembler.rs:393-408: the three low bytes, the most significant first *)
  Definition offset_byte (o i : nat) : Z := (Z.of_nat o / 256 ^ Z.of_nat i) mod 256.
  Definition look_up_label (l : string) (locals globals : list (string * nat)) : res (list Z) :=
    match match assoc l locals with Some o => Some o | None => assoc l globals end with
    | None => Bad
    | Some o => Good (map (offset_byte o) (rev (seq 0 bytes_per_offset)))
    end.

  (** opcodes.rs:1-5 *)
  Definition get_push_opcode (n : nat) : res Z := if n <=? 32 then Good (95 + Z.of_nat n)%Z else Bad.
  (** to_uppercase, on ASCII *)
  Definition upper_char (c : ascii) : ascii :=
    let n := nat_of_ascii c in if (97 <=? n) && (n <=? 122) then ascii_of_nat (n - 32) else c.
  Fixpoint to_uppercase (s : string) : string :=
    match s with EmptyString => EmptyString | String c r => String (upper_char c) (to_uppercase r) end.
  (** opcodes.rs:8-168 *)
  Definition opcode_table : list (string * Z) := [
    ("STOP", 0); ("ADD", 1); ("MUL", 2); ("SUB", 3); ("DIV", 4); ("SDIV", 5);
    ("MOD", 6); ("SMOD", 7); ("ADDMOD", 8); ("MULMOD", 9); ("EXP", 10); ("SIGNEXTEND", 11);
    ("ADDFP254", 12); ("MULFP254", 13); ("SUBFP254", 14); ("SUBMOD", 15); ("LT", 16); ("GT", 17);
    ("SLT", 18); ("SGT", 19); ("EQ", 20); ("ISZERO", 21); ("AND", 22); ("OR", 23);
    ("XOR", 24); ("NOT", 25); ("BYTE", 26); ("SHL", 27); ("SHR", 28); ("SAR", 29);
    ("KECCAK256", 32); ("KECCAK_GENERAL", 33); ("ADDRESS", 48); ("BALANCE", 49); ("ORIGIN", 50); ("CALLER", 51);
    ("CALLVALUE", 52); ("CALLDATALOAD", 53); ("CALLDATASIZE", 54); ("CALLDATACOPY", 55); ("CODESIZE", 56); ("CODECOPY", 57);
    ("GASPRICE", 58); ("EXTCODESIZE", 59); ("EXTCODECOPY", 60); ("RETURNDATASIZE", 61); ("RETURNDATACOPY", 62); ("EXTCODEHASH", 63);
    ("BLOCKHASH", 64); ("COINBASE", 65); ("TIMESTAMP", 66); ("NUMBER", 67); ("DIFFICULTY", 68); ("GASLIMIT", 69);
    ("CHAINID", 70); ("BASEFEE", 72); ("BLOBBASEFEE", 74); ("POP", 80); ("MLOAD", 81); ("MSTORE", 82);
    ("MSTORE8", 83); ("SLOAD", 84); ("SSTORE", 85); ("JUMP", 86); ("JUMPI", 87); ("GETPC", 88);
    ("MSIZE", 89); ("GAS", 90); ("JUMPDEST", 91); ("TLOAD", 92); ("TSTORE", 93); ("MCOPY", 94);
    ("DUP1", 128); ("DUP2", 129); ("DUP3", 130); ("DUP4", 131); ("DUP5", 132); ("DUP6", 133);
    ("DUP7", 134); ("DUP8", 135); ("DUP9", 136); ("DUP10", 137); ("DUP11", 138); ("DUP12", 139);
    ("DUP13", 140); ("DUP14", 141); ("DUP15", 142); ("DUP16", 143); ("SWAP1", 144); ("SWAP2", 145);
    ("SWAP3", 146); ("SWAP4", 147); ("SWAP5", 148); ("SWAP6", 149); ("SWAP7", 150); ("SWAP8", 151);
    ("SWAP9", 152); ("SWAP10", 153); ("SWAP11", 154); ("SWAP12", 155); ("SWAP13", 156); ("SWAP14", 157);
    ("SWAP15", 158); ("SWAP16", 159); ("LOG0", 160); ("LOG1", 161); ("LOG2", 162); ("LOG3", 163);
    ("LOG4", 164); ("PANIC", 165); ("MSTORE_32BYTES_1", 192); ("MSTORE_32BYTES_2", 193); ("MSTORE_32BYTES_3", 194); ("MSTORE_32BYTES_4", 195);
    ("MSTORE_32BYTES_5", 196); ("MSTORE_32BYTES_6", 197); ("MSTORE_32BYTES_7", 198); ("MSTORE_32BYTES_8", 199); ("MSTORE_32BYTES_9", 200); ("MSTORE_32BYTES_10", 201);
    ("MSTORE_32BYTES_11", 202); ("MSTORE_32BYTES_12", 203); ("MSTORE_32BYTES_13", 204); ("MSTORE_32BYTES_14", 205); ("MSTORE_32BYTES_15", 206); ("MSTORE_32BYTES_16", 207);
    ("MSTORE_32BYTES_17", 208); ("MSTORE_32BYTES_18", 209); ("MSTORE_32BYTES_19", 210); ("MSTORE_32BYTES_20", 211); ("MSTORE_32BYTES_21", 212); ("MSTORE_32BYTES_22", 213);
    ("MSTORE_32BYTES_23", 214); ("MSTORE_32BYTES_24", 215); ("MSTORE_32BYTES_25", 216); ("MSTORE_32BYTES_26", 217); ("MSTORE_32BYTES_27", 218); ("MSTORE_32BYTES_28", 219);
    ("MSTORE_32BYTES_29", 220); ("MSTORE_32BYTES_30", 221); ("MSTORE_32BYTES_31", 222); ("MSTORE_32BYTES_32", 223); ("PROVER_INPUT", 238); ("CREATE", 240);
    ("CALL", 241); ("CALLCODE", 242); ("RETURN", 243); ("DELEGATECALL", 244); ("CREATE2", 245); ("GET_CONTEXT", 246);
    ("SET_CONTEXT", 247); ("MLOAD_32BYTES", 248); ("EXIT_KERNEL", 249); ("STATICCALL", 250); ("MLOAD_GENERAL", 251); ("MSTORE_GENERAL", 252);
    ("REVERT", 253); ("INVALID", 254); ("SELFDESTRUCT", 255) ]%Z.
  Definition get_opcode (mnemonic : string) : res Z := of_option (assoc (to_uppercase mnemonic) opcode_table).

  (** assembler.rs:410-451 *)
  Definition assemble_item (item : aitem) (locals globals : list (string * nat)) : res (list Z) :=
    match item with
    | ConditionalBlock _ _ | MacroDef _ _ _ | MacroCall _ _ | Repeat _ _ | StackManipulation _ _ | AMacroLabel _ => Bad
    | AGlobal _ | ALocal _ => Good []
    | APush t =>
        do bytes <- match t with
                    | Literal n => Good (trimmed_be_bytes n)
                    | Label l => look_up_label l locals globals
                    | MacroLabel _ | MacroVar _ | Constant _ => Bad
                    end;
        do op <- get_push_opcode (List.length bytes);
        Good (op :: bytes)
    | AProverInput _ => do op <- get_opcode "PROVER_INPUT"; Good [op]
    | AOp opcode => do op <- get_opcode opcode; Good [op]
    | ABytes targets => mapM (fun t => match t with BLiteral n => Good n | BConstant _ => Bad end) targets
    | AJumptable ls => do parts <- mapM (fun l => look_up_label l locals globals) ls; Good (concat parts)
    end.
  Fixpoint assemble_file (body : list aitem) (locals globals : list (string * nat)) : res (list Z) :=
    match body with
    | [] => Good []
    | i :: r => do b <- assemble_item i locals globals; do bs <- assemble_file r locals globals; Good (b ++ bs)
    end.
  Fixpoint assemble_files (bodies : list (list aitem)) (ls : list (list (string * nat))) (globals : list (string * nat)) : res (list Z) :=
    match bodies, ls with
    | b :: r, l :: rl => do c <- assemble_file b l globals; do cs <- assemble_files r rl globals; Good (c ++ cs)
    | _, _ => Good []
    end.

  (** The fields of Kernel other than the hash and the sorted labels. *)
  Record kernel : Type := { k_code : list Z; k_globals : list (string * nat); k_inputs : list (nat * nat) }.

  (** assembler.rs:137-156 *)
  Definition link (bodies : list (list aitem)) : res kernel :=
    do (ls, s) <- find_all_labels bodies {| offset := 0; locals := []; globals := []; inputs := [] |};
    do code <- assemble_files bodies ls (globals s);
    if List.length code =? offset s then Good {| k_code := code; k_globals := globals s; k_inputs := inputs s |} else Bad.

  (** assembler.rs:116-156 *)
  Definition assemble (fuel : nat) (files : list (list aitem)) (constants : list (string * Z)) (optimize : bool) : res kernel :=
    do macros <- find_macros files;
    do bodies <- prepare_all fuel macros constants optimize files 0;
    link bodies.
End Assemble.
