(** Model of the packed bit sequences.

    Source: /repo/smt_trie/src/bits.rs.

    Simplifications: [U256] is a natural number, its wrapping operators reduce
    modulo 2^256; [count : usize] is a [nat]; a failed [assert!] is [None]. *)

From Coq Require Import List Arith NArith Bool.
Import ListNotations.
Local Open Scope N_scope.

(** bits.rs:8-17. *)
Record bits := Bits { count : nat; packed : N }.
Definition W : N := 2 ^ 256.

Definition bits_eqb (a b : bits) : bool := (count a =? count b)%nat && (packed a =? packed b).

(** bits.rs:19-23 [From<U256>] (25-32 [From<B256>] is the same). *)
Definition from_u256 (x : N) : bits := Bits 256 x.

(** bits.rs:34-44 [Add]. *)
Definition add (a b : bits) : option bits :=
  if (count a + count b <=? 256)%nat
  then Some (Bits (count a + count b) ((packed a * (N.shiftl 1 (N.of_nat (count b)) mod W) mod W + packed b) mod W))
  else None.

(** bits.rs:47-56. *)
Definition empty : bits := Bits 0 0.
Definition is_empty (b : bits) : bool := (count b =? 0)%nat.

(** bits.rs:58-64 [pop_next_bit]: the bit and the shortened sequence. *)
Definition pop_next_bit (b : bits) : option (bool * bits) :=
  if is_empty b then None
  else Some (negb (N.land (packed b) 1 =? 0), Bits (count b - 1) (N.shiftr (packed b) 1)).

(** bits.rs:66-69 [get_bit]. *)
Definition get_bit (b : bits) (i : nat) : option bool :=
  if (i <? count b)%nat
  then Some (negb (N.land (packed b) (N.shiftl 1 (N.of_nat (count b - 1 - i)) mod W) =? 0))
  else None.

(** bits.rs:71-80 [push_bit], [add_bit]. *)
Definition push_bit (b : bits) (x : bool) : bits :=
  Bits (S (count b)) ((packed b * 2 mod W + N.b2n x) mod W).
Definition add_bit := push_bit.

(** bits.rs:85-90: pop until [count = n]; [fuel] is the initial [count]. *)
Fixpoint shorten (fuel : nat) (n : nat) (b : bits) : option bits :=
  if (n <? count b)%nat then
    match fuel, pop_next_bit b with
    | S f, Some (_, b') => shorten f n b'
    | _, _ => None
    end
  else Some b.

(** bits.rs:96-99: the loop [while a != b]. *)
Fixpoint strip (fuel : nat) (a b : bits) (x y : bool) : option (bits * bool * bool) :=
  if bits_eqb a b then Some (a, x, y)
  else match fuel, pop_next_bit a, pop_next_bit b with
       | S f, Some (x', a'), Some (y', b') => strip f a' b' x' y'
       | _, _, _ => None
       end.

(** bits.rs:82-102 [common_prefix]. *)
Definition common_prefix (s k : bits) : option (bits * option (bool * bool)) :=
  match shorten (count s) (count k) s with
  | None => None
  | Some a =>
      match shorten (count k) (count a) k with
      | None => None
      | Some b =>
          if bits_eqb a b then Some (a, None)
          else match pop_next_bit a, pop_next_bit b with
               | Some (x, a'), Some (y, b') =>
                   match strip (count a) a' b' x y with
                   | Some (p, x', y') => if Bool.eqb x' y' then None else Some (p, Some (x', y'))
                   | None => None
                   end
               | _, _ => None
               end
      end
  end.
