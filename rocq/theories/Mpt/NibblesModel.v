(** Model of the packed nibble sequences of [mpt_trie].

    Source: /repo/mpt_trie/src/nibbles.rs, /repo/mpt_trie/src/utils.rs.

    A [Nibbles] is a count and a 320-bit word; only the low [4 * count] bits are
    meant to be used.  [NibblesIntern] arithmetic is the [uint] crate's: a left
    shift drops the bits above 320, [!] flips all 320 bits and subtraction
    panics on underflow.  [None] is a panic (failed assertion, [usize]
    underflow in a checked build, index out of range). *)

From Coq Require Import List Arith NArith Bool.
Import ListNotations.

Definition obind {A B} (o : option A) (f : A -> option B) : option B :=
  match o with Some a => f a | None => None end.
Notation "'do' x <- e ; f" := (obind e (fun x => f)) (at level 60, x pattern, e at level 59, right associativity).

(** [usize] subtraction. *)
Definition usub (a b : nat) : option nat := if b <=? a then Some (a - b) else None.

Definition assert (b : bool) : option unit := if b then Some tt else None.

(** nibbles.rs:33-39 [NibblesIntern]: 320-bit words. *)
Definition word_bits : N := 320.
Definition wshl (x : N) (k : nat) : N := (N.shiftl x (N.of_nat k) mod 2 ^ word_bits)%N.
Definition wshr (x : N) (k : nat) : N := N.shiftr x (N.of_nat k).
Definition wnot (x : N) : N := N.lnot x word_bits.

(** nibbles.rs:301-307 [Nibbles]. *)
Record packed_nibbles := { count : nat; packed : N }.

(** utils.rs:74-76 [create_mask_of_1s]: [0 - 1] panics once the one is shifted out. *)
Definition create_mask_of_1s (amt : nat) : option N :=
  let one := wshl 1 amt in
  if (one =? 0)%N then None else Some (one - 1)%N.

(** nibbles.rs:370-375 [new]. *)
Definition pn_new : packed_nibbles := {| count := 0; packed := 0 |}.

(** nibbles.rs:417-424 [from_nibble]. *)
Definition from_nibble (n : nat) : option packed_nibbles :=
  do _ <- assert (n <=? 15);
  Some {| count := 1; packed := N.of_nat n |}.

(** [NibblesIntern::byte]: little-endian byte, panics from index 40 on. *)
Definition word_byte (x : N) (i : nat) : option N :=
  do _ <- assert (i <? 40);
  Some (N.land (wshr x (8 * i)) 255).

(** nibbles.rs:430-438 [get_nibble]. *)
Definition get_nibble (x : packed_nibbles) (idx : nat) : option nat :=
  do a <- usub (count x) idx;
  do nib_idx <- usub a 1;
  do b <- word_byte (packed x) (nib_idx / 2);
  Some (N.to_nat (if Nat.even nib_idx then N.land b 15 else N.shiftr (N.land b 240) 4)).

(** nibbles.rs:616-621 [get_min_truncate_amount_to_prevent_over_truncating]. *)
Definition min_truncate (x : packed_nibbles) (n : nat) : nat :=
  if n <=? count x then n else count x.

(** nibbles.rs:592-600 [truncate_n_nibbles_front_mut]. *)
Definition pn_truncate_front (x : packed_nibbles) (n0 : nat) : option packed_nibbles :=
  let n := min_truncate x n0 in
  let mask_shift := (count x - n) * 4 in
  do m <- create_mask_of_1s (n * 4);
  let truncate_mask := wnot (wshl m mask_shift) in
  Some {| count := count x - n; packed := N.land (packed x) truncate_mask |}.

(** nibbles.rs:606-614 [truncate_n_nibbles_back_mut]. *)
Definition pn_truncate_back (x : packed_nibbles) (n0 : nat) : option packed_nibbles :=
  let n := min_truncate x n0 in
  let shift_amt := n * 4 in
  do m <- create_mask_of_1s (n * 4);
  let truncate_mask := wnot m in
  Some {| count := count x - n; packed := wshr (N.land (packed x) truncate_mask) shift_amt |}.

(** nibbles.rs:553-564 [get_nibble_range]. *)
Definition get_nibble_range (x : packed_nibbles) (start stop : nat) : option packed_nibbles :=
  do range_count <- usub stop start;
  do d <- usub (count x) stop;
  let shift_amt := d * 4 in
  do m <- create_mask_of_1s (range_count * 4);
  let mask := wshl m shift_amt in
  Some {| count := range_count; packed := wshr (N.land (packed x) mask) shift_amt |}.

(** nibbles.rs:465-467 [get_next_nibbles]. *)
Definition get_next_nibbles (x : packed_nibbles) (n : nat) : option packed_nibbles :=
  get_nibble_range x 0 n.

(** nibbles.rs:444-449 [pop_next_nibble_front]: popped nibble and new self. *)
Definition pop_next_nibble_front (x : packed_nibbles) : option (nat * packed_nibbles) :=
  do n <- get_nibble x 0;
  do x' <- pn_truncate_front x 1;
  Some (n, x').

(** nibbles.rs:455-460 [pop_next_nibble_back]. *)
Definition pop_next_nibble_back (x : packed_nibbles) : option (nat * packed_nibbles) :=
  do i <- usub (count x) 1;
  do n <- get_nibble x i;
  do x' <- pn_truncate_back x 1;
  Some (n, x').

(** nibbles.rs:473-478 [pop_nibbles_front]. *)
Definition pop_nibbles_front (x : packed_nibbles) (n : nat)
  : option (packed_nibbles * packed_nibbles) :=
  do r <- get_nibble_range x 0 n;
  do x' <- pn_truncate_front x n;
  Some (r, x').

(** nibbles.rs:717-734 [reverse]: the loop over [i in 0..count]. *)
Fixpoint reverse_loop (steps i : nat) (src mask acc : N) : N :=
  match steps with
  | 0 => acc
  | S s =>
      let acc := wshl acc 4 in
      let nib := wshr (N.land src mask) (i * 4) in
      let acc := N.lor acc nib in
      reverse_loop s (S i) src (wshl mask 4) acc
  end.

Definition pn_reverse (x : packed_nibbles) : packed_nibbles :=
  {| count := count x; packed := reverse_loop (count x) 0 (packed x) 15 0 |}.

(** nibbles.rs:484-491 [pop_nibbles_back]. *)
Definition pop_nibbles_back (x : packed_nibbles) (n : nat)
  : option (packed_nibbles * packed_nibbles) :=
  do s <- usub (count x) n;
  do r <- get_nibble_range x s (count x);
  do x' <- pn_truncate_back x n;
  Some (pn_reverse r, x').

(** nibbles.rs:949-956 [nibble_append_safety_asserts]. *)
Definition nibble_append_asserts (x : packed_nibbles) (n : nat) : option unit :=
  do _ <- assert (count x <? 64); assert (n <? 16).

(** nibbles.rs:498-505 [push_nibble_front]. *)
Definition push_nibble_front (x : packed_nibbles) (n : nat) : option packed_nibbles :=
  do _ <- nibble_append_asserts x n;
  let shift_amt := 4 * count x in
  Some {| count := S (count x); packed := N.lor (packed x) (wshl (N.of_nat n) shift_amt) |}.

(** nibbles.rs:512-517 [push_nibble_back]; 692-699 [merge_nibble] is the same
    computation on a copy. *)
Definition push_nibble_back (x : packed_nibbles) (n : nat) : option packed_nibbles :=
  do _ <- nibble_append_asserts x n;
  Some {| count := S (count x); packed := N.lor (wshl (packed x) 4) (N.of_nat n) |}.
Definition pn_merge_nibble := push_nibble_back.

(** nibbles.rs:524-532 [push_nibbles_front]. *)
Definition push_nibbles_front (x n : packed_nibbles) : option packed_nibbles :=
  let new_count := count x + count n in
  do _ <- assert (new_count <=? 64);
  let shift_amt := 4 * count x in
  Some {| count := new_count; packed := N.lor (packed x) (wshl (packed n) shift_amt) |}.

(** nibbles.rs:539-547 [push_nibbles_back]; 705-713 [merge_nibbles]. *)
Definition push_nibbles_back (x n : packed_nibbles) : option packed_nibbles :=
  let new_count := count x + count n in
  do _ <- assert (new_count <=? 64);
  let shift_amt := 4 * count n in
  Some {| count := new_count; packed := N.lor (wshl (packed x) shift_amt) (packed n) |}.
Definition pn_merge_nibbles := push_nibbles_back.

(** nibbles.rs:641-658 [split_at_idx]. *)
Definition split_at_idx (x : packed_nibbles) (idx : nat)
  : option (packed_nibbles * packed_nibbles) :=
  do post_count <- usub (count x) idx;
  do post_mask <- create_mask_of_1s (post_count * 4);
  let post := {| count := post_count; packed := N.land (packed x) post_mask |} in
  let pre_mask := wnot post_mask in
  let pre_shift_amt := post_count * 4 in
  let pre := {| count := idx; packed := wshr (N.land (packed x) pre_mask) pre_shift_amt |} in
  Some (pre, post).

(** nibbles.rs:664-672 [split_at_idx_prefix]. *)
Definition split_at_idx_prefix (x : packed_nibbles) (idx : nat) : option packed_nibbles :=
  do d <- usub (count x) idx;
  let shift_amt := d * 4 in
  do m <- create_mask_of_1s (idx * 4);
  let pre_mask := wshl m shift_amt in
  Some {| count := idx; packed := wshr (N.land (packed x) pre_mask) shift_amt |}.

(** nibbles.rs:678-686 [split_at_idx_postfix]. *)
Definition split_at_idx_postfix (x : packed_nibbles) (idx : nat) : option packed_nibbles :=
  do postfix_count <- usub (count x) idx;
  do mask <- create_mask_of_1s (postfix_count * 4);
  Some {| count := postfix_count; packed := N.land (packed x) mask |}.

(** nibbles.rs:631-634 [nibbles_are_identical_up_to_smallest_count]: [all] over
    the indices [i ..]. *)
Fixpoint identical_loop (steps i : nat) (x y : packed_nibbles) : option bool :=
  match steps with
  | 0 => Some true
  | S s =>
      do a <- get_nibble x i;
      do b <- get_nibble y i;
      if a =? b then identical_loop s (S i) x y else Some false
  end.

Definition pn_identical (x y : packed_nibbles) : option bool :=
  identical_loop (Nat.min (count x) (count y)) 0 x y.

(** nibbles.rs:756-779 [find_nibble_idx_that_differs_between_nibbles_equal_lengths]. *)
Fixpoint diff_loop (steps i : nat) (x y mask : N) : nat :=
  match steps with
  | 0 => i
  | S s => if (N.land x mask =? N.land y mask)%N
           then diff_loop s (S i) x y (wshr mask 4) else i
  end.

Definition diff_idx_equal_lengths (x y : packed_nibbles) : option nat :=
  do _ <- assert (count x =? count y);
  if count x =? 0 then Some 0
  else Some (diff_loop (count x) 0 (packed x) (packed y) (wshl 15 ((count x - 1) * 4))).

(** nibbles.rs:739-749 [find_nibble_idx_that_differs_between_nibbles_different_lengths]. *)
Definition pn_diff_idx (x y : packed_nibbles) : option nat :=
  let m := Nat.min (count x) (count y) in
  do a <- get_nibble_range x 0 m;
  do b <- get_nibble_range y 0 m;
  diff_idx_equal_lengths a b.

(** Derived [PartialEq]. *)
Definition pn_eqb (x y : packed_nibbles) : bool :=
  (count x =? count y) && (packed x =? packed y)%N.

(** ** Bytes *)

(** [NibblesIntern::to_big_endian] into a 40-byte buffer. *)
Fixpoint be_bytes (len : nat) (x : N) : list N :=
  match len with
  | 0 => []
  | S l => be_bytes l (x / 256)%N ++ [(x mod 256)%N]
  end.

(** [NibblesIntern::from_big_endian]. *)
Definition from_be (b : list N) : N := fold_left (fun a x => 256 * a + x)%N b 0%N.

(** nibbles.rs:898-900 [min_bytes]. *)
Definition min_bytes (x : packed_nibbles) : nat := (count x + 1) / 2.

(** nibbles.rs:908-913 [bytes_be]. *)
Definition bytes_be (x : packed_nibbles) : option (list N) :=
  do s <- usub 40 (min_bytes x);
  Some (skipn s (be_bytes 40 (packed x))).

(** nibbles.rs:381-411 [from_bytes_be]; [inl] is an [Err]: [None] inside for a
    zero-sized key, [Some len] for too many bytes. *)
Definition from_bytes_be (b : list N) : option nat + packed_nibbles :=
  match b with
  | [] => inl None
  | _ => if 33 <? length b then inl (Some (length b))
         else inr {| count := length b * 2; packed := from_be b |}
  end.

(** nibbles.rs:916-930 [from_h256_be]. *)
Definition from_h256_be (h : list N) : packed_nibbles :=
  {| count := 64; packed := from_be h |}.

(** [b\[i\] |= f] *)
Fixpoint or_at (b : list N) (i : nat) (f : N) : list N :=
  match b, i with
  | [], _ => []
  | x :: t, 0 => N.lor x f :: t
  | x :: t, S i' => x :: or_at t i' f
  end.

(** nibbles.rs:807-831 [to_hex_prefix_encoding]. *)
Definition to_hex_prefix (x : packed_nibbles) (is_leaf : bool) : option (list N) :=
  let num_nibbles := count x + 1 in
  let num_bytes := (num_nibbles + 1) / 2 in
  do flag_byte_idx <- usub 41 num_bytes;
  let odd_bit := if Nat.even (count x) then 0%N else 1%N in
  let term_bit := if is_leaf then 1%N else 0%N in
  let flags := N.shiftl (N.lor odd_bit (N.shiftl term_bit 1)) 4 in
  let bytes := 0%N :: be_bytes 40 (packed x) in
  Some (skipn flag_byte_idx (or_at bytes flag_byte_idx flags)).

(** Result of [from_hex_prefix_encoding]. *)
Inductive hp_result : Type :=
| HpOk (x : packed_nibbles)
| HpTooLong
| HpInvalidFlags (f : N)
| HpPanic.

(** nibbles.rs:834-888 [from_hex_prefix_encoding].  The buffer [nibbles_raw] is
    zero-filled; [count] is computed on [isize] and cast. *)
Definition from_hex_prefix (b : list N) : hp_result :=
  if 33 <? length b then HpTooLong
  else match b with
  | [] => HpPanic
  | b0 :: rest =>
      let flag_bits := N.shiftr (N.land b0 240) 4 in
      let go (is_leaf : bool) (cnt : nat) :=
        let odd := Nat.odd cnt in
        let written := (if odd then [N.land b0 15] else []) ++ firstn 32 rest
                       ++ (if is_leaf then [16%N] else []) in
        let raw := written ++ repeat 0%N (40 - length written) in
        let tot_bytes := (cnt + 1) / 2 in
        HpOk {| count := cnt; packed := from_be (firstn tot_bytes raw) |} in
      let n2 := length b * 2 in
      if (flag_bits =? 0)%N then go false (n2 - 2)
      else if (flag_bits =? 1)%N then go false (n2 - 1)
      else if (flag_bits =? 2)%N then go true n2
      else if (flag_bits =? 3)%N then go true (n2 + 1)
      else HpInvalidFlags flag_bits
  end.

(** ** Conversions from integers *)

(** nibbles.rs:161-189 [to_nibbles] for an unsigned integer [v]:
    [(bits + 3) / 4] nibbles, where [bits = size_bits - leading_zeros]. *)
Definition num_nibbles (v : N) : nat := N.to_nat ((N.size v + 3) / 4).
Definition to_nibbles (v : N) : packed_nibbles := {| count := num_nibbles v; packed := v |}.

(** nibbles.rs:64-72 [to_nibbles_byte_padded]. *)
Definition to_nibbles_byte_padded (v : N) : packed_nibbles :=
  {| count := (num_nibbles v + 1) / 2 * 2; packed := v |}.

(** nibbles.rs:191-230 conversion to [U256]: [None] is the [Overflow] error. *)
Definition to_u256 (x : packed_nibbles) : option N :=
  if (packed x <? 2 ^ 256)%N then Some (packed x) else None.

(** nibbles.rs:232-243 [From<Nibbles> for H256]; [None] is the panic of
    [H256::from_slice] on a slice that is not 32 bytes long. *)
Definition to_h256 (x : packed_nibbles) : option (list N) :=
  do b <- bytes_be x;
  let b' := repeat 0%N (32 - length b) ++ b in
  do _ <- assert (length b' =? 32);
  Some b'.

(** nibbles.rs:337-350 [from_str], on the list of hexadecimal digits that
    follow the optional "0x" (invalid characters are an error raised by the
    [uint] crate before this point; so are more than 80 digits). *)
Fixpoint leading_zeros (ds : list nat) : nat :=
  match ds with 0 :: t => S (leading_zeros t) | _ => 0 end.
Definition from_digits (ds : list nat) : option packed_nibbles :=
  if 80 <? length ds then None
  else let p := fold_left (fun a d => 16 * a + N.of_nat d)%N ds 0%N in
       Some {| count := leading_zeros ds + num_nibbles p; packed := p |}.

(** nibbles.rs:782-802 [as_hex_str], as the list of digits printed after "0x". *)
Fixpoint byte_digits (b : list N) : list nat :=
  match b with [] => [] | x :: t => N.to_nat (x / 16) :: N.to_nat (x mod 16) :: byte_digits t end.
Definition to_digits (x : packed_nibbles) : option (list nat) :=
  do b <- bytes_be x;
  let raw := byte_digits b in
  Some (if Nat.even (count x) then raw else skipn 1 raw).
