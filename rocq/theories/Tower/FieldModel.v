(** Model of the base fields of BN254 and BLS12-381 used by the prover.

    Source: /repo/evm_arithmetization/src/extension_tower.rs:24-349.

    Values are the integers held by [U256] and [U512].  [None] is a panic of
    the uint crate: an addition, subtraction or product that leaves the type. *)

From Coq Require Import ZArith List Bool.
Import ListNotations.
Local Open Scope Z_scope.

(** Words of 64 bits, least significant first. *)
Fixpoint from_limbs (l : list Z) : Z := match l with [] => 0 | x :: r => x + 2^64 * from_limbs r end.

(** :24-29 and :117-126. *)
Definition BN_BASE : Z := from_limbs [0x3c208c16d87cfd47; 0x97816a916871ca8d; 0xb85045b68181585d; 0x30644e72e131a029].
Definition BLS_BASE : Z := from_limbs
  [0xb9feffffffffaaab; 0x1eabfffeb153ffff; 0x6730d2a0f6b0f624; 0x64774b84f38512bf; 0x4b1ba7b6434bacd7; 0x1a0111ea397fe69a; 0x0; 0x0].

(** The operators of the uint crate on words of [w] bits. *)
Definition uadd (w a b : Z) : option Z := if a + b <? 2^w then Some (a + b) else None.
Definition usub (a b : Z) : option Z := if a <? b then None else Some (a - b).
Definition saturating_mul (w a b : Z) : Z := if a * b <? 2^w then a * b else 2^w - 1.
(** [U256::try_from(U512)] *)
Definition to_u256 (a : Z) : option Z := if a <? 2^256 then Some a else None.

Notation "'try' x <- r ; e" := (match r with Some x => e | None => None end) (at level 200, x pattern, r at level 100, e at level 200).

(** * BN254, :46-115 *)
Definition bn_add (a b : Z) : option Z := try s <- uadd 256 a b; Some (s mod BN_BASE).
Definition bn_neg (a : Z) : option Z := try d <- usub BN_BASE a; Some (d mod BN_BASE).
Definition bn_sub (a b : Z) : option Z := try s <- uadd 256 BN_BASE a; try d <- usub s b; Some (d mod BN_BASE).
Definition bn_mul (a b : Z) : option Z := to_u256 ((a * b) mod BN_BASE).

(** Square and multiply, [j] from [0] on (:95-107, :324-336 and :252-259). *)
Fixpoint square_multiply (mul : Z -> Z -> option Z) (bits : list bool) (product current : Z) : option Z :=
  match bits with
  | [] => Some product
  | b :: r =>
      try product <- (if b then mul product current else Some product);
      try current <- mul current current;
      square_multiply mul r product current
  end.
Definition bits_of (e : Z) (n : nat) : list bool := map (fun j => Z.testbit e (Z.of_nat j)) (seq 0 n).
Definition bn_inv (a : Z) : option Z := square_multiply bn_mul (bits_of (BN_BASE - 2) 256) 1 a.
Definition bn_div (a b : Z) : option Z := try i <- bn_inv b; bn_mul a i.

(** * BLS12-381, :141-349 *)
Definition lo (a : Z) : Z := a mod 2^256.
Definition hi (a : Z) : Z := a / 2^256.
Definition bls_add (a b : Z) : option Z := try s <- uadd 512 a b; Some (s mod BLS_BASE).
Definition bls_neg (a : Z) : option Z := try d <- usub BLS_BASE a; Some (d mod BLS_BASE).
Definition bls_sub (a b : Z) : option Z := try s <- uadd 512 BLS_BASE a; try d <- usub s b; Some (d mod BLS_BASE).
Definition lsh_128 (a : Z) : Z := saturating_mul 512 a (2^128) mod BLS_BASE.
Definition lsh_256 (a : Z) : Z := lsh_128 (lsh_128 a).
Definition lsh_512 (a : Z) : Z := lsh_256 (lsh_256 a).
(** :289-314 *)
Definition bls_mul (a b : Z) : option Z :=
  let z00 := saturating_mul 512 (lo a) (lo b) mod BLS_BASE in
  let z01 := saturating_mul 512 (lo a) (hi b) in
  let z10 := saturating_mul 512 (hi a) (lo b) in
  let z11 := saturating_mul 512 (hi a) (hi b) in
  try s <- bls_add z01 z10;
  try r <- bls_add z00 (lsh_256 s);
  bls_add r (lsh_512 z11).
Definition bls_inv (a : Z) : option Z := square_multiply bls_mul (bits_of (BLS_BASE - 2) 384) 1 a.
Definition bls_div (a b : Z) : option Z := try i <- bls_inv b; bls_mul a i.

(** :216-249 *)
Definition SQRT_EXPONENT : list bool :=
  [true; true; false; true; false; true; false; true; false; true; false; true; false; true; true; true; true; true; true;
   true; true; true; true; true; true; true; true; true; true; true; true; true; true; true; true; true; true; true;
   true; true; true; true; true; true; true; true; false; true; true; true; true; true; true; true; true; false; false;
   true; true; true; false; true; true; true; true; true; true; true; true; true; true; true; true; true; true; true;
   true; true; true; true; false; false; true; false; true; false; true; false; false; false; true; true; false; true; false;
   true; true; true; true; true; true; true; true; true; true; true; true; true; true; true; true; true; false; true;
   false; true; false; true; false; true; true; true; true; false; false; false; false; false; true; false; false; true; false;
   false; false; true; true; false; true; true; true; true; false; false; false; false; true; true; false; true; false; true;
   true; false; true; true; true; true; false; false; false; false; false; true; false; true; false; true; false; false; true;
   false; true; true; false; false; false; false; true; true; false; false; true; true; true; false; false; true; true; false;
   true; true; true; true; true; true; false; true; false; true; false; false; true; false; false; false; true; false; true;
   false; false; false; false; true; true; true; false; false; true; true; true; true; false; false; true; false; false; false;
   false; true; true; true; false; true; false; false; true; false; true; true; true; false; true; true; true; false; false;
   false; true; false; false; true; true; false; true; true; true; false; true; false; true; true; false; false; true; true;
   false; true; false; true; true; true; false; true; false; false; true; false; true; true; false; false; false; false; true;
   false; false; true; true; false; true; true; false; true; true; true; true; false; false; true; false; true; true; true;
   false; true; true; false; false; false; true; true; false; true; false; false; true; false; false; true; false; true; true;
   false; false; true; false; true; true; false; false; true; true; true; true; true; true; true; true; true; true; false;
   true; false; false; true; true; true; false; false; false; true; false; true; false; true; true; true; true; false; false;
   false; true; false; false; false; true; false; false; false; false; false; false; false; false; true; false; true; true].
(** :210-266; [Some None] is the error. *)
Definition bls_sqrt (a : Z) : option (option Z) :=
  try root <- square_multiply bls_mul SQRT_EXPONENT 1 a;
  try s <- bls_mul root root;
  Some (if s =? a then Some root else None).

(** :275-286; the constant is the one of the code, despite its name. *)
Definition MODULUS_MINUS_ONE_DIV_TWO : Z := from_limbs
  [0xdcff7fffffffd556; 0x0f55ffff58a9ffff; 0xb39869507b587b12; 0xb23ba5c279c2895f; 0x258dd3db21a5d66b; 0x0d0088f51cbff34d; 0x0000000000000000; 0x0000000000000000].
Definition lexicographically_largest (a : Z) : bool := MODULUS_MINUS_ONE_DIV_TWO <? a.

(** curve_pairings.rs:682-734 [g1_from_bytes], on the three flags and the
    381 bits below them; [B_G1] is 4.  [Some None] is an error, the pair the
    coordinates of the point. *)
Definition g1_from_bytes (compressed infinity sort : bool) (x : Z) : option (option (Z * Z)) :=
  if BLS_BASE <? x then Some None
  else if infinity then Some (if compressed && negb sort && (x =? 0) then Some (0, 0) else None)
  else
    try xx <- bls_mul x x; try xxx <- bls_mul xx x; try v <- bls_add xxx 4; try r <- bls_sqrt v;
    match r with
    | None => Some None
    | Some y =>
        try y <- (if xorb (lexicographically_largest y) sort then bls_neg y else Some y);
        Some (if compressed then Some (x, y) else None)
    end.
