(** What the rows of the CPU table are supposed to mean, stated without the
    constraints: the instructions, their opcodes, which of them are privileged,
    what they do to the length of the stack, what they cost.

    Sources: the Yellow Paper (appendix H) for the EVM instructions, the
    documentation of the kernel instructions (docs/src/cpu_execution/) for the
    others. *)
From Coq Require Import ZArith List.
Import ListNotations.
Local Open Scope Z_scope.

Inductive instr : Type :=
| Binary | Ternary | Fp254 | Logic | Shift      (* performed by the arithmetic and logic tables *)
| Eq | IsZero | Not | Pop | Jumpdest | Keccak
| Jump | Jumpi | Pc | Push0 | Push (n : Z) | ProverInput
| Dup (n : Z) | Swap (n : Z)
| GetContext | SetContext
| Mload32 | Mstore32 (n : Z) | MloadGeneral | MstoreGeneral
| ExitKernel | Syscall (op : Z) | Exception (code : Z).

(** The arguments an instruction can have. *)
Definition valid (i : instr) : Prop :=
  match i with
  | Push n | Mstore32 n => 1 <= n <= 32
  | Dup n | Swap n => 1 <= n <= 16
  | Syscall op => 0 <= op < 256
  | Exception code => 0 <= code < 8
  | _ => True
  end.

(** The opcode, for the instructions that have one of their own.  An exception
    can be raised at any opcode. *)
Definition opcode (i : instr) : option Z :=
  match i with
  | Binary | Ternary | Fp254 | Logic | Shift | Exception _ => None
  | Eq => Some 0x14 | IsZero => Some 0x15 | Not => Some 0x19 | Keccak => Some 0x21
  | Pop => Some 0x50 | Jump => Some 0x56 | Jumpi => Some 0x57 | Pc => Some 0x58
  | Jumpdest => Some 0x5b | Push0 => Some 0x5f | Push n => Some (0x5f + n)
  | Dup n => Some (0x7f + n) | Swap n => Some (0x8f + n)
  | Mstore32 n => Some (0xbf + n) | ProverInput => Some 0xee
  | GetContext => Some 0xf6 | SetContext => Some 0xf7 | Mload32 => Some 0xf8
  | ExitKernel => Some 0xf9 | MloadGeneral => Some 0xfb | MstoreGeneral => Some 0xfc
  | Syscall op => Some op
  end.

(** Only for the kernel. *)
Definition privileged (i : instr) : Prop :=
  match i with
  | Fp254 | Keccak | ProverInput | GetContext | SetContext | Mload32 | Mstore32 _
  | MloadGeneral | MstoreGeneral | ExitKernel => True
  | _ => False
  end.

(** Elements taken from and put on the stack. *)
Definition pops (i : instr) : Z :=
  match i with
  | Binary | Fp254 | Logic | Shift | Eq | Keccak | Jumpi | Mload32 | Mstore32 _ | MstoreGeneral => 2
  | Ternary => 3
  | IsZero | Not | Pop | Jump | SetContext | MloadGeneral | ExitKernel => 1
  | Dup n => n
  | Swap n => n + 1
  | _ => 0
  end.
Definition pushes (i : instr) : Z :=
  match i with
  | Pop | Jumpdest | Jump | Jumpi | SetContext | MstoreGeneral | ExitKernel => 0
  | Dup n => n + 1
  | Swap n => n + 1
  | _ => 1
  end.

(** Gas of the instructions whose cost does not depend on operands or on the
    operation chosen in another table. *)
Definition cost (i : instr) : option Z :=
  match i with
  | Eq | IsZero | Not | Logic | Shift | Push _ | Dup _ | Swap _ => Some 3
  | Pop | Pc | Push0 => Some 2
  | Jump => Some 8
  | Jumpi => Some 10
  | Jumpdest => Some 1
  | Fp254 | Keccak | ProverInput | GetContext | SetContext | Mload32 | Mstore32 _ | MloadGeneral | MstoreGeneral => Some 0
  | Binary | Ternary | ExitKernel | Syscall _ | Exception _ => None
  end.

(** Instructions after which execution goes on at the following address. *)
Definition straight (i : instr) : Prop :=
  match i with
  | Jump | Jumpi | Push _ | Mload32 | Mstore32 _ | ExitKernel | Syscall _ | Exception _ => False
  | _ => True
  end.
(** Length in bytes, for all but the jumping ones. *)
Definition size (i : instr) : Z := match i with Push n => 1 + n | _ => 1 end.

(** The integer written by 32-bit limbs, little-endian. *)
Fixpoint word (l : list Z) : Z := match l with [] => 0 | x :: r => x + 2^32 * word r end.

(** The prime of the base field of BN254 (alt_bn128), as EIP-196 gives it, and
    the limbs of a word. *)
Definition BN254_PRIME : Z := 21888242871839275222246405745257275088696311157297823662689037894645226208583.
Definition word_limbs (w : Z) : list Z := map (fun i => (w / 2 ^ (32 * Z.of_nat i)) mod 2 ^ 32) (seq 0 8).
