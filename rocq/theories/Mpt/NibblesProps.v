(** C09, C10, C43: packed nibble sequences behave as lists of nibbles.

    [rep x l] (NibblesProofs.v): the packed value [x] has count [length l], its
    word is the base-16 number with digits [l], every digit is below 16 and
    there are fewer than 80 of them (64 is the documented key size). *)

From Coq Require Import List Arith NArith ZArith Bool Lia.
From Verif.Mpt Require TrieModel.
From Verif.Mpt Require Import NibblesModel NibblesProofs HexPrefixProofs.
Import ListNotations.
Local Open Scope nat_scope.

(** ** C09 *)

(** Reading: every index in range gives the list element, every other panics. *)
Theorem C09_get_nibble : forall x l i, rep x l -> get_nibble x i = nth_error l i.
Proof. exact rep_get_nibble_nth. Qed.
Print Assumptions C09_get_nibble.

Theorem C09_equality : forall x y l m, rep x l -> rep y m -> (pn_eqb x y = true <-> l = m).
Proof. exact rep_eqb. Qed.
Print Assumptions C09_equality.

(** Popping from either end. *)
Theorem C09_pop_next_front : forall x n l, rep x (n :: l) ->
  exists y, pop_next_nibble_front x = Some (n, y) /\ rep y l.
Proof.
  intros x n l R. destruct (rep_truncate_front x (n :: l) 1 R) as (y & E & Ry).
  exists y. unfold pop_next_nibble_front. rewrite (rep_get_nibble_nth _ _ 0 R). cbn. rewrite E. auto.
Qed.
Theorem C09_pop_next_back : forall x n l, rep x (l ++ [n]) ->
  exists y, pop_next_nibble_back x = Some (n, y) /\ rep y l.
Proof.
  intros x n l R. destruct (rep_truncate_back_app x l [n] R) as (y & E & Ry).
  exists y. pose proof R as (H1 & _). rewrite app_length in H1. cbn in H1, E.
  unfold pop_next_nibble_back. rewrite usub_some by lia. cbn.
  replace (count x - 1) with (length l) by lia. rewrite (rep_get_nibble x l n [] R). cbn. rewrite E. auto.
Qed.
Theorem C09_pop_empty_panics : forall x, rep x [] ->
  pop_next_nibble_front x = None /\ pop_next_nibble_back x = None.
Proof.
  intros x R. unfold pop_next_nibble_front, pop_next_nibble_back.
  rewrite (rep_get_nibble_nth _ _ 0 R). destruct R as (H1 & _). now rewrite H1.
Qed.
Theorem C09_pop_front : forall x l n, rep x l -> n <= length l ->
  exists r y, pop_nibbles_front x n = Some (r, y) /\ rep r (firstn n l) /\ rep y (skipn n l).
Proof.
  intros x l n R L. destruct (rep_get_nibble_range x l 0 n R) as (r & Er & Rr); [lia|].
  destruct (rep_truncate_front x l n R) as (y & Ey & Ry).
  exists r, y. unfold pop_nibbles_front. rewrite Er, Ey. cbn in *. now rewrite Nat.sub_0_r in Rr.
Qed.
Theorem C09_pop_back : forall x l n, rep x l -> n <= length l ->
  exists r y, pop_nibbles_back x n = Some (r, y) /\
              rep r (rev (skipn (length l - n) l)) /\ rep y (firstn (length l - n) l).
Proof.
  intros x l n R L. destruct (rep_get_nibble_range x l (length l - n) (length l) R) as (r & Er & Rr); [lia|].
  rewrite firstn_all2 in Rr by (rewrite skipn_length; lia).
  destruct (rep_truncate_back x l n R) as (y & Ey & Ry).
  exists (pn_reverse r), y. pose proof R as (H1 & _). unfold pop_nibbles_back.
  rewrite usub_some by lia. cbn [obind]. rewrite H1, Er. cbn [obind]. rewrite Ey. cbn [obind].
  split; auto. split; auto. now apply rep_reverse.
Qed.
Theorem C09_pop_too_many_panics : forall x l n, rep x l -> length l < n ->
  pop_nibbles_front x n = None /\ pop_nibbles_back x n = None.
Proof.
  intros x l n R L. split.
  - unfold pop_nibbles_front. now rewrite (range_out x l 0 n R) by lia.
  - destruct R as (H1 & _). unfold pop_nibbles_back. now rewrite usub_none by lia.
Qed.

(** Pushing and merging: exact up to 64 nibbles, a panic beyond. *)
Theorem C09_push_nibble : forall x l n, rep x l ->
  if (length l <? 64) && (n <? 16)
  then (exists y, push_nibble_back x n = Some y /\ rep y (l ++ [n])) /\
       (exists y, push_nibble_front x n = Some y /\ rep y (n :: l))
  else push_nibble_back x n = None /\ push_nibble_front x n = None.
Proof.
  intros x l n R. destruct (Nat.ltb_spec (length l) 64), (Nat.ltb_spec n 16); cbn [andb].
  - split; [now apply rep_push_nibble_back|now apply rep_push_nibble_front].
  - apply (push_nibble_overflow x l); auto.
  - apply (push_nibble_overflow x l); auto.
  - apply (push_nibble_overflow x l); auto.
Qed.
Print Assumptions C09_push_nibble.
Theorem C09_push_nibbles : forall x y l m, rep x l -> rep y m ->
  if length l + length m <=? 64
  then (exists z, push_nibbles_back x y = Some z /\ rep z (l ++ m)) /\
       (exists z, push_nibbles_front x y = Some z /\ rep z (m ++ l))
  else push_nibbles_back x y = None /\ push_nibbles_front x y = None.
Proof.
  intros x y l m Rx Ry. destruct (Nat.leb_spec (length l + length m) 64).
  - split; [now apply rep_push_nibbles_back|now apply rep_push_nibbles_front].
  - now apply (push_overflow x y l m).
Qed.
Print Assumptions C09_push_nibbles.

(** Ranges, truncation, splitting, reversal. *)
Theorem C09_range : forall x l i j, rep x l ->
  if (i <=? j) && (j <=? length l)
  then exists y, get_nibble_range x i j = Some y /\ rep y (firstn (j - i) (skipn i l))
  else get_nibble_range x i j = None.
Proof.
  intros x l i j R. destruct (Nat.leb_spec i j), (Nat.leb_spec j (length l)); cbn [andb].
  - now apply rep_get_nibble_range.
  - apply (range_out x l); auto.
  - apply (range_out x l); auto.
  - apply (range_out x l); auto.
Qed.
Theorem C09_truncate : forall x l n, rep x l ->
  (exists y, pn_truncate_front x n = Some y /\ rep y (skipn n l)) /\
  (exists y, pn_truncate_back x n = Some y /\ rep y (firstn (length l - n) l)).
Proof. intros x l n R. split; [now apply rep_truncate_front|now apply rep_truncate_back]. Qed.
Theorem C09_split : forall x l i, rep x l -> i <= length l ->
  (exists y z, split_at_idx x i = Some (y, z) /\ rep y (firstn i l) /\ rep z (skipn i l)) /\
  (exists y, split_at_idx_prefix x i = Some y /\ rep y (firstn i l)) /\
  (exists z, split_at_idx_postfix x i = Some z /\ rep z (skipn i l)).
Proof.
  intros x l i R L. split; [now apply rep_split_at|]. split.
  - rewrite split_idx_prefix_range. destruct (rep_get_nibble_range x l 0 i R) as (y & E & Ry); [lia|].
    exists y. cbn in Ry. now rewrite Nat.sub_0_r in Ry.
  - now apply rep_split_postfix.
Qed.
Theorem C09_reverse : forall x l, rep x l -> rep (pn_reverse x) (rev l).
Proof. exact rep_reverse. Qed.
Print Assumptions C09_reverse.

(** Comparison helpers agree with their list definitions used by the trie model. *)
Theorem C09_identical : forall x y l m, rep x l -> rep y m ->
  pn_identical x y = Some (TrieModel.identical_up_to_smallest l m).
Proof.
  intros x y l m Rx Ry. rewrite (rep_identical x y l m Rx Ry). f_equal.
Qed.
Theorem C09_diff_idx : forall x y l m, rep x l -> rep y m ->
  pn_diff_idx x y = Some (TrieModel.diff_idx l m).
Proof.
  intros x y l m Rx Ry. rewrite (rep_diff_idx x y l m Rx Ry). f_equal.
Qed.
Print Assumptions C09_diff_idx.

(** ** C10: hex-prefix encoding *)
Theorem C10_encode_spec : forall x l leaf, rep x l -> to_hex_prefix x leaf = Some (hp_spec leaf l).
Proof. exact rep_to_hex_prefix. Qed.
Print Assumptions C10_encode_spec.

Theorem C10_encode_injective : forall x y l m leaf leaf' b, rep x l -> rep y m ->
  to_hex_prefix x leaf = Some b -> to_hex_prefix y leaf' = Some b -> leaf = leaf' /\ x = y.
Proof.
  intros x y l m leaf leaf' b Rx Ry Ex Ey.
  rewrite (rep_to_hex_prefix x l leaf Rx) in Ex. rewrite (rep_to_hex_prefix y m leaf' Ry) in Ey.
  injection Ex as <-. injection Ey as E.
  destruct (hp_inj leaf' m leaf l) as [-> ->]; [apply Ry|apply Rx|auto|].
  split; auto. eapply rep_inj; eauto.
Qed.
Print Assumptions C10_encode_injective.

Theorem C10_decode_extension : forall x l, rep x l -> length l <= 64 ->
  exists b, to_hex_prefix x false = Some b /\ from_hex_prefix b = HpOk x.
Proof.
  intros x l R L. exists (hp_spec false l). split; [now apply rep_to_hex_prefix|].
  destruct (from_hp_ext l) as (y & E & Ry); [apply R|auto|]. rewrite E. f_equal. eapply rep_inj; eauto.
Qed.
Print Assumptions C10_decode_extension.

(** Decoding what was encoded for a leaf does not give the path back. *)
Theorem C10_decode_leaf_refuted :
  exists x l b y, rep x l /\ to_hex_prefix x true = Some b /\ from_hex_prefix b = HpOk y /\ pn_eqb x y = false.
Proof.
  exists {| count := 4; packed := 4660 |}, [1;2;3;4]. do 2 eexists.
  split; [repeat split; try (cbn; lia); repeat (constructor; [lia|]); constructor|].
  split; [vm_compute; reflexivity|]. split; [vm_compute; reflexivity|]. reflexivity.
Qed.

Theorem C10_decode_empty_panics_refuted : from_hex_prefix [] = HpPanic.
Proof. reflexivity. Qed.

(** ** C43: conversions between byte strings, digits, integers and nibbles *)
Theorem C43_bytes_roundtrip : forall b, Forall (fun x => (x < 256)%N) b -> 1 <= length b <= 33 ->
  exists x, from_bytes_be b = inr x /\ rep x (byte_nibs b) /\ bytes_be x = Some b.
Proof.
  intros b HB HL. destruct (rep_from_bytes_be b HB HL) as (x & E & R). exists x. repeat split; auto; try apply R.
  rewrite (rep_bytes_be _ _ R). unfold pad. now rewrite byte_nibs_even, pack_byte_nibs.
Qed.
Print Assumptions C43_bytes_roundtrip.
Theorem C43_h256_roundtrip : forall h, Forall (fun x => (x < 256)%N) h -> length h = 32 ->
  rep (from_h256_be h) (byte_nibs h) /\ to_h256 (from_h256_be h) = Some h.
Proof.
  intros h HB HL. pose proof (rep_from_h256 h HB HL) as R. split; auto. now apply rep_to_h256.
Qed.
Theorem C43_hex_digits_roundtrip : forall ds, Forall (fun n => n < 16) ds -> length ds < 80 ->
  exists x, from_digits ds = Some x /\ rep x ds /\ to_digits x = Some ds.
Proof.
  intros ds HN HL. destruct (rep_from_digits ds HN HL) as (x & E & R). exists x.
  split; auto. split; auto. now apply rep_to_digits.
Qed.
Print Assumptions C43_hex_digits_roundtrip.
(** From an integer: the minimal digit string; the padded variant has an even
    number of digits, adding at most one leading zero; converting back gives the
    integer. *)
Theorem C43_integer_conversion : forall v, (v < 2 ^ 256)%N -> exists l,
  rep (to_nibbles v) l /\ (forall d t, l = d :: t -> d <> 0) /\
  rep (to_nibbles_byte_padded v) (if Nat.even (length l) then l else 0 :: l) /\
  to_u256 (to_nibbles v) = Some v /\ to_u256 (to_nibbles_byte_padded v) = Some v.
Proof.
  intros v Hv. destruct (rep_to_nibbles v Hv) as (l & R & HV & HL & HZ). exists l.
  split; auto. split; auto. split; [now apply rep_padded|].
  split; unfold to_u256, to_nibbles, to_nibbles_byte_padded; cbn [packed];
    apply N.ltb_lt in Hv; now rewrite Hv.
Qed.
Print Assumptions C43_integer_conversion.

(** ** Non-vacuity *)
Example ex_rep : rep {| count := 5; packed := 0x0a3f2 |} [0;10;3;15;2].
Proof. repeat split; try (cbn; lia); repeat (constructor; [lia|]); constructor. Qed.
Example ex_nibble_ops :
  get_nibble {| count := 5; packed := 0x0a3f2 |} 1 = Some 10 /\
  pop_nibbles_front {| count := 5; packed := 0x0a3f2 |} 2 =
    Some ({| count := 2; packed := 0x0a |}, {| count := 3; packed := 0x3f2 |}) /\
  to_hex_prefix {| count := 5; packed := 0x0a3f2 |} true = Some [0x30; 0xa3; 0xf2]%N /\
  from_hex_prefix [0x10; 0xa3; 0xf2]%N = HpOk {| count := 5; packed := 0x0a3f2 |} /\
  from_digits [0;10;3;15;2] = Some {| count := 5; packed := 0x0a3f2 |}.
Proof. repeat split. Qed.
