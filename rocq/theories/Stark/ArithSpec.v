(** What the arithmetic table is supposed to establish, stated on integers
    and independently of the constraint and generation code. *)
From Coq Require Import ZArith List.
Import ListNotations.
Local Open Scope Z_scope.

(** The integer held by a register: n little-endian 16-bit limbs starting at
    a column of a row. *)
Fixpoint reg (n : nat) (r : nat -> Z) (start : nat) : Z :=
  match n with
  | O => 0
  | S n' => r start + 2^16 * reg n' r (S start)
  end.

(** The EVM operations on 256-bit words, Yellow Paper appendix H. *)
Definition evm_add (a b : Z) : Z := (a + b) mod 2^256.
Definition evm_sub (a b : Z) : Z := (a - b) mod 2^256.
Definition evm_mul (a b : Z) : Z := (a * b) mod 2^256.
Definition evm_lt (a b : Z) : Z := if a <? b then 1 else 0.
Definition evm_gt (a b : Z) : Z := if b <? a then 1 else 0.
Definition evm_div (a b : Z) : Z := if b =? 0 then 0 else a / b.
Definition evm_mod (a b : Z) : Z := if b =? 0 then 0 else a mod b.
Definition evm_addmod (a b m : Z) : Z := if m =? 0 then 0 else (a + b) mod m.
Definition evm_mulmod (a b m : Z) : Z := if m =? 0 then 0 else (a * b) mod m.
Definition evm_byte (i x : Z) : Z := if i <? 32 then (x / 256 ^ (31 - i)) mod 256 else 0.
Definition evm_shl (s x : Z) : Z := if s <? 256 then (x * 2 ^ s) mod 2^256 else 0.
Definition evm_shr (s x : Z) : Z := if s <? 256 then x / 2 ^ s else 0.

(** The kernel-only operations: subtraction modulo m, and arithmetic in the
    base field of BN254. *)
Definition kernel_submod (a b m : Z) : Z := if m =? 0 then 0 else (a - b) mod m.
Definition bn254_base : Z :=
  21888242871839275222246405745257275088696311157297823662689037894645226208583.
