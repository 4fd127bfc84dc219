(** What the instructions executed natively by the zkEVM mean, written from
    the Yellow Paper and the opcode list of the kernel: a function of the opcode
    byte on a stack given as a list, the top first.  Nothing here uses the
    model of the code except the name of an address. *)
From Coq Require Import ZArith List Bool.
From Verif Require Import Witness.MemoryModel.
Import ListNotations.
Local Open Scope Z_scope.

Definition modulus : Z := 115792089237316195423570985008687907853269984665640564039457584007913129639936.
(** The order of the base field of BN254. *)
Definition bn254 : Z := 21888242871839275222246405745257275088696311157297823662689037894645226208583.

Definition pop1 (f : Z -> Z) (s : list Z) : option (list Z) :=
  match s with a :: s => Some (f a :: s) | _ => None end.
Definition pop2 (f : Z -> Z -> Z) (s : list Z) : option (list Z) :=
  match s with a :: b :: s => Some (f a b :: s) | _ => None end.
Definition pop3 (f : Z -> Z -> Z -> Z) (s : list Z) : option (list Z) :=
  match s with a :: b :: c :: s => Some (f a b c :: s) | _ => None end.
Definition flag (b : bool) : Z := if b then 1 else 0.
(** The number written in base 256 by [n] bytes from [i], the first being the
    most significant. *)
Fixpoint number (code : Z -> Z) (i : Z) (n : nat) : Z :=
  match n with O => 0 | S k => number code i k * 256 + code (i + Z.of_nat k) end.
Fixpoint put (n : nat) (x : Z) (s : list Z) : list Z :=
  match n, s with _, [] => [] | O, _ :: s => x :: s | S n, y :: s => y :: put n x s end.

(** The stack after the instruction [c] at [pc]; [None] when the stack holds too
    few elements. *)
Definition effect (code : Z -> Z) (ctx pc c : Z) (s : list Z) : option (list Z) :=
  if (95 <=? c) && (c <=? 127) then Some (number code (pc + 1) (Z.to_nat (c - 95)) :: s)
  else if (128 <=? c) && (c <=? 143) then
    match nth_error s (Z.to_nat (c - 128)) with Some x => Some (x :: s) | None => None end
  else if (144 <=? c) && (c <=? 159) then
    match s with
    | x :: s => match nth_error s (Z.to_nat (c - 144)) with Some y => Some (y :: put (Z.to_nat (c - 144)) x s) | None => None end
    | [] => None
    end
  else match c with
  | 1 => pop2 (fun a b => (a + b) mod modulus) s
  | 2 => pop2 (fun a b => (a * b) mod modulus) s
  | 3 => pop2 (fun a b => (a - b) mod modulus) s
  | 4 => pop2 (fun a b => if b =? 0 then 0 else a / b) s
  | 6 => pop2 (fun a b => if b =? 0 then 0 else a mod b) s
  | 8 => pop3 (fun a b n => if n =? 0 then 0 else (a + b) mod n) s
  | 9 => pop3 (fun a b n => if n =? 0 then 0 else (a * b) mod n) s
  | 12 => pop2 (fun a b => (a + b) mod bn254) s
  | 13 => pop2 (fun a b => (a * b) mod bn254) s
  | 14 => pop2 (fun a b => (a - b) mod bn254) s
  | 15 => pop3 (fun a b n => if n =? 0 then 0 else (a - b) mod n) s
  | 16 => pop2 (fun a b => flag (a <? b)) s
  | 17 => pop2 (fun a b => flag (b <? a)) s
  | 20 => pop2 (fun a b => flag (a =? b)) s
  | 21 => pop1 (fun a => flag (a =? 0)) s
  | 22 => pop2 Z.land s
  | 23 => pop2 Z.lor s
  | 24 => pop2 Z.lxor s
  | 25 => pop1 (fun a => modulus - 1 - a) s
  | 26 => pop2 (fun i x => if i <? 32 then x / 256 ^ (31 - i) mod 256 else 0) s
  | 27 => pop2 (fun i x => if i <? 256 then (x * 2 ^ i) mod modulus else 0) s
  | 28 => pop2 (fun i x => if i <? 256 then x / 2 ^ i else 0) s
  | 80 => match s with _ :: s => Some s | [] => None end
  | 88 => Some (pc :: s)
  | 91 => Some s
  (** GET_CONTEXT: the number of the context, shifted as in an address. *)
  | 246 => Some (ctx * 2 ^ 64 :: s)
  | _ => None
  end.

(** The instructions of [effect]; the user has no access to FP254 arithmetic,
    SUBMOD and GET_CONTEXT. *)
Definition pure_byte (kernel : bool) (c : Z) : bool :=
  ((95 <=? c) && (c <=? 159)) ||
  existsb (Z.eqb c) [1; 2; 3; 4; 6; 8; 9; 16; 17; 20; 21; 22; 23; 24; 25; 26; 27; 28; 80; 88; 91] ||
  (kernel && existsb (Z.eqb c) [12; 13; 14; 15; 246]).

(** The gas of an instruction: the groups of appendix G of the Yellow Paper. *)
Definition cost (c : Z) : Z :=
  if (96 <=? c) && (c <=? 159) then 3
  else if existsb (Z.eqb c) [1; 3; 16; 17; 20; 21; 22; 23; 24; 25; 26; 27; 28] then 3
  else if existsb (Z.eqb c) [2; 4; 6] then 5
  else if existsb (Z.eqb c) [8; 9] then 8
  else if existsb (Z.eqb c) [80; 88; 95] then 2
  else if c =? 91 then 1 else 0.

(** The length of an instruction in the code. *)
Definition width (c : Z) : Z := if (96 <=? c) && (c <=? 127) then c - 94 else 1.

(** * The opcodes of the user *)
(** The opcodes of the Cancun fork: byte, items removed from the stack, items
    added (Yellow Paper, appendix H; EIP-1153, 3198, 3855, 4844, 5656, 7516). *)
Definition evm_table : list (Z * Z * Z) :=
  [ (0, 0, 0); (1, 2, 1); (2, 2, 1); (3, 2, 1); (4, 2, 1); (5, 2, 1); (6, 2, 1); (7, 2, 1); (8, 3, 1); (9, 3, 1); (10, 2, 1); (11, 2, 1);
    (16, 2, 1); (17, 2, 1); (18, 2, 1); (19, 2, 1); (20, 2, 1); (21, 1, 1); (22, 2, 1); (23, 2, 1); (24, 2, 1); (25, 1, 1); (26, 2, 1);
    (27, 2, 1); (28, 2, 1); (29, 2, 1); (32, 2, 1);
    (48, 0, 1); (49, 1, 1); (50, 0, 1); (51, 0, 1); (52, 0, 1); (53, 1, 1); (54, 0, 1); (55, 3, 0); (56, 0, 1); (57, 3, 0); (58, 0, 1); (59, 1, 1);
    (60, 4, 0); (61, 0, 1); (62, 3, 0); (63, 1, 1); (64, 1, 1); (65, 0, 1); (66, 0, 1); (67, 0, 1); (68, 0, 1); (69, 0, 1); (70, 0, 1); (71, 0, 1);
    (72, 0, 1); (73, 1, 1); (74, 0, 1);
    (80, 1, 0); (81, 1, 1); (82, 2, 0); (83, 2, 0); (84, 1, 1); (85, 2, 0); (86, 1, 0); (87, 2, 0); (88, 0, 1); (89, 0, 1); (90, 0, 1); (91, 0, 0);
    (92, 1, 1); (93, 2, 0); (94, 3, 0); (95, 0, 1) ]
  ++ map (fun i => (96 + Z.of_nat i, 0, 1)) (seq 0 32)
  ++ map (fun i => (128 + Z.of_nat i, 1 + Z.of_nat i, 2 + Z.of_nat i)) (seq 0 16)
  ++ map (fun i => (144 + Z.of_nat i, 2 + Z.of_nat i, 2 + Z.of_nat i)) (seq 0 16)
  ++ map (fun i => (160 + Z.of_nat i, 2 + Z.of_nat i, 0)) (seq 0 5)
  ++ [ (240, 3, 1); (241, 7, 1); (242, 7, 1); (243, 2, 0); (244, 6, 1); (245, 4, 1); (250, 6, 1); (253, 2, 0); (255, 1, 0) ].
(** BLOBHASH and BLOBBASEFEE exist with the feature [eth_mainnet] only. *)
Definition arity (mainnet : bool) (c : Z) : option (Z * Z) :=
  if negb mainnet && ((c =? 73) || (c =? 74)) then None
  else match find (fun e => fst (fst e) =? c) evm_table with Some (_, d, a) => Some (d, a) | None => None end.

(** * A step of the user *)
Inductive user_result : Type :=
| Continue (pc gas : Z) (s : list Z)
(** The kernel is entered through an entry of the table of syscalls or of that
    of exceptions (0 out of gas, 1 invalid opcode, 2 stack underflow, 3 and 4
    invalid destination of JUMP and JUMPI, 5 stack overflow). *)
| Enter (syscall : bool) (index return_pc : Z).
Definition user_step (mainnet : bool) (code : Z -> Z) (dest : Z -> bool) (ctx limit pc gas : Z) (s : list Z) : user_result :=
  let c := code pc in
  let pay pc' cost s' := if gas + cost <=? limit then Continue pc' (gas + cost) s' else Enter false 0 pc in
  match arity mainnet c with
  | None => Enter false 1 pc
  | Some (d, a) =>
      if Z.of_nat (length s) <? d then Enter false 2 pc
      else if (d <? a) && (1024 <=? Z.of_nat (length s)) then Enter false 5 pc
      else if c =? 86 then match s with
        | x :: s => if dest x then pay x 8 s else Enter false 3 pc
        | [] => Enter false 2 pc
        end
      else if c =? 87 then match s with
        | x :: y :: s => if y =? 0 then pay (pc + 1) 10 s else if dest x then pay x 10 s else Enter false 4 pc
        | _ => Enter false 2 pc
        end
      else if pure_byte false c then match effect code ctx pc c s with
        | Some s' => pay (pc + width c) (cost c) s'
        | None => Enter false 2 pc
        end
      else Enter true c (pc + 1)
  end.
(** Where a JUMP or JUMPI of the user would go. *)
Definition target (code : Z -> Z) (pc : Z) (s : list Z) : option Z :=
  match s with
  | x :: y => if code pc =? 86 then Some x else if code pc =? 87 then match y with c :: _ => if c =? 0 then None else Some x | [] => None end else None
  | [] => None
  end.
(** The steps up to the entry into the kernel: the entry, the gas and the
    stack. *)
Fixpoint user_run (fuel : nat) (mainnet : bool) (code : Z -> Z) (dest : Z -> bool) (ctx limit pc gas : Z) (s : list Z) : option (nat * (bool * Z * Z) * Z * list Z) :=
  match fuel with
  | O => None
  | S fuel =>
      match user_step mainnet code dest ctx limit pc gas s with
      | Continue pc gas s =>
          match user_run fuel mainnet code dest ctx limit pc gas s with
          | Some (n, e, gas, s) => Some (S n, e, gas, s)
          | None => None
          end
      | Enter b i r => Some (1%nat, (b, i, r), gas, s)
      end
  end.

(** No jump of the run goes to an offset marked [special]. *)
Fixpoint avoids (special : Z -> bool) (fuel : nat) (mainnet : bool) (code : Z -> Z) (dest : Z -> bool) (ctx limit pc gas : Z) (s : list Z) : Prop :=
  match fuel with
  | O => True
  | S fuel =>
      match target code pc s with Some d => special d = false | None => True end /\
      match user_step mainnet code dest ctx limit pc gas s with
      | Continue pc gas s => avoids special fuel mainnet code dest ctx limit pc gas s
      | Enter _ _ _ => True
      end
  end.

(** * The stack in the memory *)
(** Segment 1 of a context holds its stack, the bottom in cell 0; the top is in
    a register. *)
Fixpoint slots (f : maddr -> Z) (ctx : Z) (n : nat) : list Z :=
  match n with O => [] | S k => f (mk_maddr ctx 1 (Z.of_nat k)) :: slots f ctx k end.
Definition stack_list (f : maddr -> Z) (ctx len top : Z) : list Z :=
  if len =? 0 then [] else top :: slots f ctx (Z.to_nat (len - 1)).

(** * Views *)
(** What the program sees of the machine. *)
Record view : Type := mk_view {
  v_pc : Z; v_kernel : bool; v_context : Z; v_gas : Z; v_stack : list Z; v_memory : maddr -> Z }.

(** The stack cells of a context: the machine keeps the top in a register and
    writes it back late, so that these cells are not meaningful one by one. *)
Definition stack_cell (ctx : Z) (a : maddr) : Prop := a_segment a = 1 /\ a_context a = ctx.

(** The word pushed on entering the kernel: bits 0-31 hold the return address,
    bit 32 the mode, bits 192-223 the gas used. *)
Definition info (pc : Z) (kernel : bool) (gas : Z) : Z := pc + (if kernel then 2^32 else 0) + gas * 2^192.

(** Entry [i] of a jump table of the kernel at [table]: three bytes. *)
Definition table_entry (kernel_code : Z -> Z) (table i : Z) : Z := number kernel_code (table + i * 3) 3.
