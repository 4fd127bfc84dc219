(** Keccak-f[1600] and Keccak-256, written from FIPS 202 and the Keccak
    submission, independently of the repository. *)
From Coq Require Import ZArith List Bool Arith.
Import ListNotations.
Local Open Scope Z_scope.

(** * The permutation, on twenty-five 64-bit lanes, lane (x, y) at x + 5 y *)

Definition lane (s : list Z) (x y : nat) : Z := nth (x + 5 * y) s 0.
Definition build (f : nat -> nat -> Z) : list Z := map (fun i => f (i mod 5)%nat (i / 5)%nat) (seq 0 25).

(** Rotation of a lane, for 0 <= n < 64: bit z moves to z + n. *)
Definition rotl (w n : Z) : Z := (w * 2 ^ n) mod 2^64 + w / 2 ^ (64 - n).

Definition parity (s : list Z) (x : nat) : Z :=
  Z.lxor (lane s x 0) (Z.lxor (lane s x 1) (Z.lxor (lane s x 2) (Z.lxor (lane s x 3) (lane s x 4)))).
Definition theta (s : list Z) : list Z :=
  let c := map (parity s) (seq 0 5) in
  let d := map (fun x => Z.lxor (nth ((x + 4) mod 5) c 0) (rotl (nth ((x + 1) mod 5) c 0) 1)) (seq 0 5) in
  build (fun x y => Z.lxor (lane s x y) (nth x d 0)).

(** FIPS 202, algorithm 2: the offsets are the triangular numbers along a walk. *)
Fixpoint walk (n : nat) (t : Z) (x y : nat) : list (nat * nat * Z) :=
  match n with
  | O => []
  | S n => (x, y, ((t + 1) * (t + 2) / 2) mod 64) :: walk n (t + 1) y ((2 * x + 3 * y) mod 5)
  end.
Fixpoint find_offset (l : list (nat * nat * Z)) (x y : nat) : Z :=
  match l with
  | [] => 0
  | (a, b, r) :: l => if (a =? x)%nat && (b =? y)%nat then r else find_offset l x y
  end.
Definition offset (x y : nat) : Z := find_offset (walk 24 0 1 0) x y.
Definition rho (s : list Z) : list Z := build (fun x y => rotl (lane s x y) (offset x y)).
Definition pi (s : list Z) : list Z := build (fun x y => lane s ((x + 3 * y) mod 5) x).
Definition chi (s : list Z) : list Z :=
  build (fun x y => Z.lxor (lane s x y) (Z.ldiff (lane s ((x + 2) mod 5) y) (lane s ((x + 1) mod 5) y))).

(** FIPS 202, algorithm 5: the shift register with x^8 + x^6 + x^5 + x^4 + 1. *)
Definition lfsr_step (w : Z) : Z := let w := 2 * w in if Z.testbit w 8 then Z.lxor w 0x171 else w.
Fixpoint lfsr (n : nat) (w : Z) : Z := match n with O => w | S n => lfsr n (lfsr_step w) end.
Definition rc (t : nat) : bool := Z.testbit (lfsr (t mod 255) 1) 0.
Definition round_constant (ir : nat) : Z :=
  fold_left (fun acc j => if rc (j + 7 * ir) then Z.lor acc (2 ^ (2 ^ Z.of_nat j - 1)) else acc) (seq 0 7) 0.
Definition iota (ir : nat) (s : list Z) : list Z :=
  build (fun x y => if (x =? 0)%nat && (y =? 0)%nat then Z.lxor (lane s x y) (round_constant ir) else lane s x y).

Definition round (ir : nat) (s : list Z) : list Z := iota ir (chi (pi (rho (theta s)))).
Definition keccak_f (s : list Z) : list Z := fold_left (fun s ir => round ir s) (seq 0 24) s.

(** The same on fifty 32-bit words, low half first. *)
Definition lanes_of (ws : list Z) : list Z := map (fun i => nth (2 * i) ws 0 + 2^32 * nth (2 * i + 1) ws 0) (seq 0 25).
Definition words_of (ls : list Z) : list Z := flat_map (fun l => [l mod 2^32; l / 2^32]) ls.
Definition keccak_f_words (ws : list Z) : list Z := words_of (keccak_f (lanes_of ws)).

(** * Keccak-256, over any permutation of fifty words *)

(** pad10*1 on bytes, for a rate of 136 bytes. *)
Definition pad (m : list Z) : list Z :=
  let q := (136 - length m mod 136)%nat in
  m ++ (if (q =? 1)%nat then [0x81] else 0x01 :: repeat 0 (q - 2) ++ [0x80]).
Definition blocks (m : list Z) : list (list Z) :=
  map (fun i => firstn 136 (skipn (136 * i) m)) (seq 0 (length m / 136)).
Definition le_word (b : list Z) (i : nat) : Z :=
  nth (4 * i) b 0 + 2^8 * nth (4 * i + 1) b 0 + 2^16 * nth (4 * i + 2) b 0 + 2^24 * nth (4 * i + 3) b 0.
Definition xor_block (s b : list Z) : list Z := map (fun i => Z.lxor (nth i s 0) (le_word b i)) (seq 0 50).
Definition word_bytes (w : Z) : list Z := [w mod 256; (w / 2^8) mod 256; (w / 2^16) mod 256; (w / 2^24) mod 256].

Section Sponge.
  Variable f : list Z -> list Z.
  Definition absorb (s : list Z) (bs : list (list Z)) : list Z := fold_left (fun s b => f (xor_block s b)) bs s.
  Definition squeeze (s : list Z) : list Z := flat_map word_bytes (firstn 8 s).
  Definition keccak256 (m : list Z) : list Z := squeeze (absorb (repeat 0 50) (blocks (pad m))).
End Sponge.

(** The 256-bit word of the EVM for 32 bytes, and its eight 32-bit limbs. *)
Definition be_value (bs : list Z) : Z := fold_left (fun acc b => 256 * acc + b) bs 0.
Definition limbs (w : Z) : list Z := map (fun i => (w / 2 ^ (32 * Z.of_nat i)) mod 2^32) (seq 0 8).

(** The published digest of the empty string. *)
Example keccak_empty : be_value (keccak256 keccak_f_words []) = 0xc5d2460186f7233c927e7db2dcc703c0e500b653ca82273b7bfad8045d85a470.
Proof. vm_compute. reflexivity. Qed.
