(** Bytes, hex-prefix and digit conversions of packed nibbles. *)

From Coq Require Import List Arith NArith ZArith Bool Lia ZifyN ZifyNat ZifyBool.
From Verif.Mpt Require Import NibblesModel NibblesProofs.
Import ListNotations.
Open Scope N_scope.

Ltac Zify.zify_post_hook ::= Z.div_mod_to_equations.

(** Two nibbles per byte, high nibble first (an odd last nibble is dropped;
    only used on even lengths). *)
Fixpoint pack (l : list nat) : list N :=
  match l with
  | a :: b :: t => (16 * N.of_nat a + N.of_nat b) :: pack t
  | _ => []
  end.

Definition is_byte (b : N) : Prop := b < 256.
Definition byte_list (b : list N) : Prop := Forall is_byte b.

(** Induction two elements at a time. *)
Lemma list_ind2 {A} (P : list A -> Prop) :
  P [] -> (forall a, P [a]) -> (forall a b l, P l -> P (a :: b :: l)) -> forall l, P l.
Proof.
  intros H0 H1 H2. fix self 1. intros [|a [|b l]].
  - exact H0.
  - apply H1.
  - apply H2, self.
Qed.

Lemma pack_length l : Nat.even (length l) = true -> (length (pack l) * 2 = length l)%nat.
Proof.
  induction l as [|a|a b l IH] using list_ind2; cbn; try reflexivity; intros H; try discriminate.
  apply IH in H. lia.
Qed.

Lemma pack_bytes l : nibs l -> byte_list (pack l).
Proof.
  induction l as [|a|a b l IH] using list_ind2; intros H; cbn [pack]; try constructor.
  - inversion H as [|? ? Ha H']; subst. inversion H' as [|? ? Hb H'']; subst. unfold is_byte. lia.
  - inversion H as [|? ? Ha H']; subst. inversion H' as [|? ? Hb H'']; subst. now apply IH.
Qed.

Lemma fold_be l : forall a, fold_left (fun a x => 256 * a + x) l a = a * 256 ^ N.of_nat (length l) + from_be l.
Proof.
  unfold from_be. induction l as [|x l IH]; intros a; cbn [fold_left length].
  - cbn. lia.
  - rewrite IH. rewrite (IH (256 * 0 + x)). rewrite Nat2N.inj_succ, N.pow_succ_r'. lia.
Qed.

Lemma from_be_app a b : from_be (a ++ b) = from_be a * 256 ^ N.of_nat (length b) + from_be b.
Proof. unfold from_be at 1. rewrite fold_left_app. apply fold_be. Qed.

Lemma from_be_cons x l : from_be (x :: l) = x * 256 ^ N.of_nat (length l) + from_be l.
Proof. change (x :: l) with ([x] ++ l). rewrite from_be_app. reflexivity. Qed.

Lemma from_be_zeros k l : from_be (repeat 0 k ++ l) = from_be l.
Proof.
  induction k as [|k IH]; cbn [repeat app]; auto.
Qed.

Lemma from_be_bound l : byte_list l -> from_be l < 256 ^ N.of_nat (length l).
Proof.
  induction 1 as [|x l H _ IH]; [cbn; lia|]. unfold is_byte in H.
  rewrite from_be_cons. cbn [length]. rewrite Nat2N.inj_succ, N.pow_succ_r'.
  assert (0 < 256 ^ N.of_nat (length l)) by (apply N.neq_0_lt_0, N.pow_nonzero; lia). nia.
Qed.

Lemma pow256 k : 256 ^ N.of_nat k = 16 ^ N.of_nat (k * 2).
Proof. replace (N.of_nat (k * 2)) with (2 * N.of_nat k) by lia. now rewrite N.pow_mul_r. Qed.

Lemma from_be_pack l : Nat.even (length l) = true -> from_be (pack l) = val l.
Proof.
  induction l as [|a|a b l IH] using list_ind2; intros H; cbn [pack]; try reflexivity; try discriminate.
  cbn in H. rewrite from_be_cons, IH by auto. rewrite !val_cons. cbn [length].
  rewrite pow256, pack_length by auto. rewrite Nat2N.inj_succ, N.pow_succ_r'. lia.
Qed.

Lemma be_bytes_length n : forall x, length (be_bytes n x) = n.
Proof. induction n; intros x; cbn; auto. rewrite app_length, IHn. cbn. lia. Qed.

Lemma be_bytes_bytes n : forall x, byte_list (be_bytes n x).
Proof.
  induction n; intros x; cbn [be_bytes]; [constructor|]. apply Forall_app. split; [apply IHn|].
  constructor; [|constructor]. unfold is_byte. lia.
Qed.

(** Big-endian bytes are determined by their value. *)
Lemma be_bytes_unique n : forall b, length b = n -> byte_list b -> be_bytes n (from_be b) = b.
Proof.
  induction n as [|n IH]; intros b HL HB.
  - destruct b; [reflexivity|discriminate].
  - destruct (exists_last (l := b)) as (b' & x & ->); [destruct b; discriminate|].
    rewrite app_length in HL. cbn in HL. apply Forall_app in HB as [HB Hx]. inversion Hx; subst.
    unfold is_byte in *. rewrite from_be_app. change (from_be [x]) with (256 * 0 + x). cbn [length be_bytes].
    change (256 ^ N.of_nat 1) with 256.
    replace ((from_be b' * 256 + (256 * 0 + x)) / 256) with (from_be b') by lia.
    replace ((from_be b' * 256 + (256 * 0 + x)) mod 256) with x by lia.
    rewrite IH by (auto; lia). reflexivity.
Qed.

Lemma byte_list_zeros k : byte_list (repeat 0 k).
Proof. apply Forall_forall. intros x H. apply repeat_spec in H. subst. unfold is_byte. lia. Qed.

Lemma be_bytes_val n l : nibs l -> Nat.even (length l) = true -> (length l <= 2 * n)%nat ->
  be_bytes n (val l) = repeat 0 (n - length (pack l)) ++ pack l.
Proof.
  intros HN HE HL. rewrite <- (from_be_pack l) by auto.
  rewrite <- (from_be_zeros (n - length (pack l)) (pack l)) at 1.
  pose proof (pack_length l HE). apply be_bytes_unique.
  - rewrite app_length, repeat_length. lia.
  - apply Forall_app. split; [apply byte_list_zeros|now apply pack_bytes].
Qed.

Lemma even_S n : Nat.even (S n) = negb (Nat.even n).
Proof. now rewrite Nat.even_succ, <- Nat.negb_even. Qed.

Lemma half_even n : Nat.even n = true -> exists k, n = (2 * k)%nat.
Proof. intros H. apply Nat.even_spec in H as [k ->]. eauto. Qed.
Lemma half_odd n : Nat.even n = false -> exists k, n = (2 * k + 1)%nat.
Proof.
  intros H. rewrite <- Nat.negb_odd in H. apply negb_false_iff, Nat.odd_spec in H as [k ->]. eauto.
Qed.

(** Pad to an even number of nibbles. *)
Definition pad (l : list nat) : list nat := if Nat.even (length l) then l else 0%nat :: l.

Lemma pad_even l : Nat.even (length (pad l)) = true.
Proof. unfold pad. destruct (Nat.even (length l)) eqn:E; auto. cbn [length]. now rewrite even_S, E. Qed.
Lemma pad_nibs l : nibs l -> nibs (pad l).
Proof. intros H. unfold pad. destruct (Nat.even (length l)); auto. constructor; auto; lia. Qed.
Lemma pad_val l : val (pad l) = val l.
Proof. unfold pad. destruct (Nat.even (length l)); reflexivity. Qed.
Lemma pad_length l : length (pad l) = ((length l + 1) / 2 * 2)%nat.
Proof.
  unfold pad. destruct (Nat.even (length l)) eqn:E.
  - apply half_even in E as [k E]. rewrite E. lia.
  - apply half_odd in E as [k E]. cbn [length]. rewrite E. lia.
Qed.

(** ** Bytes *)
Lemma rep_bytes_be x l : rep x l -> bytes_be x = Some (pack (pad l)).
Proof.
  intros (H1 & H2 & H3 & H4). unfold bytes_be, min_bytes. rewrite H1.
  assert (HP : (length (pack (pad l)) * 2 = length (pad l))%nat) by (apply pack_length, pad_even).
  rewrite pad_length in HP. rewrite usub_some by lia. cbn [obind]. f_equal.
  rewrite H2, <- (pad_val l), be_bytes_val.
  - rewrite skipn_app, repeat_length. rewrite skipn_all2 by (rewrite repeat_length; lia).
    replace (40 - (length l + 1) / 2 - (40 - length (pack (pad l))))%nat with 0%nat by lia. reflexivity.
  - now apply pad_nibs.
  - apply pad_even.
  - rewrite pad_length. lia.
Qed.

(** Nibbles of a byte string, high nibble first. *)
Definition byte_nibs (b : list N) : list nat :=
  flat_map (fun x => [N.to_nat (x / 16); N.to_nat (x mod 16)]) b.

Lemma byte_nibs_length b : length (byte_nibs b) = (2 * length b)%nat.
Proof. induction b as [|x b IH]; cbn [byte_nibs flat_map app length]; auto. unfold byte_nibs in IH. lia. Qed.

Lemma byte_nibs_even b : Nat.even (length (byte_nibs b)) = true.
Proof. rewrite byte_nibs_length. apply Nat.even_spec. now exists (length b). Qed.

Lemma byte_nibs_nibs b : byte_list b -> nibs (byte_nibs b).
Proof.
  induction 1 as [|x b H _ IH]; cbn [byte_nibs flat_map app]; constructor; [|constructor; [|exact IH]];
    unfold is_byte in *; lia.
Qed.

Lemma pack_byte_nibs b : pack (byte_nibs b) = b.
Proof.
  induction b as [|x b IH]; cbn [byte_nibs flat_map app pack]; auto. unfold byte_nibs in IH. rewrite IH.
  f_equal. lia.
Qed.

Lemma byte_nibs_pack l : nibs l -> Nat.even (length l) = true -> byte_nibs (pack l) = l.
Proof.
  induction l as [|a|a b l IH] using list_ind2; intros HN HE; cbn [pack byte_nibs flat_map app]; auto; try discriminate.
  inversion HN as [|? ? Ha H']; subst. inversion H' as [|? ? Hb H'']; subst. cbn in HE.
  f_equal; [lia|]. f_equal; [lia|]. now apply IH.
Qed.

Lemma from_be_nibs b : byte_list b -> from_be b = val (byte_nibs b).
Proof. intros H. rewrite <- from_be_pack by apply byte_nibs_even. now rewrite pack_byte_nibs. Qed.

Lemma rep_from_bytes_be b : byte_list b -> (1 <= length b <= 33)%nat ->
  exists x, from_bytes_be b = inr x /\ rep x (byte_nibs b).
Proof.
  intros HB HL. unfold from_bytes_be. destruct b as [|b0 b]; [cbn in HL; lia|].
  destruct (Nat.ltb_spec 33 (length (b0 :: b))); [lia|]. eexists. split; [reflexivity|].
  split; [|split; [|split]]; cbn [count packed].
  - rewrite byte_nibs_length. lia.
  - now apply from_be_nibs.
  - now apply byte_nibs_nibs.
  - rewrite byte_nibs_length. lia.
Qed.

Lemma rep_from_h256 h : byte_list h -> length h = 32%nat -> rep (from_h256_be h) (byte_nibs h).
Proof.
  intros HB HL. split; [|split; [|split]]; cbn [count packed from_h256_be].
  - rewrite byte_nibs_length. lia.
  - now apply from_be_nibs.
  - now apply byte_nibs_nibs.
  - rewrite byte_nibs_length. lia.
Qed.

Lemma rep_to_h256 h x : byte_list h -> length h = 32%nat -> rep x (byte_nibs h) -> to_h256 x = Some h.
Proof.
  intros HB HL R. unfold to_h256. rewrite (rep_bytes_be _ _ R). cbn [obind].
  unfold pad. rewrite byte_nibs_even, pack_byte_nibs, HL. cbn [Nat.sub repeat app assert]. rewrite HL. reflexivity.
Qed.

(** ** Hex-prefix encoding *)

(** Yellow Paper appendix C: flag nibble [2 * leaf + odd], then the path, padded
    to whole bytes. *)
Definition hp_spec (leaf : bool) (l : list nat) : list N :=
  let f := if leaf then 2%nat else 0%nat in
  if Nat.even (length l) then pack (f :: 0%nat :: l) else pack ((f + 1)%nat :: l).

Lemma or_at_app a b i f : i = length a -> or_at (a ++ b) i f = a ++ or_at b 0 f.
Proof. intros ->. induction a as [|x a IH]; cbn; auto. now rewrite IH. Qed.

Lemma skipn_app_len {A} (a b : list A) n : n = length a -> skipn n (a ++ b) = b.
Proof. intros ->. rewrite skipn_app, skipn_all, Nat.sub_diag. reflexivity. Qed.

Lemma repeat_snoc {A} (x : A) n l : repeat x n ++ x :: l = repeat x (S n) ++ l.
Proof. induction n as [|n IH]; cbn; auto. rewrite IH. reflexivity. Qed.

Lemma rep_to_hex_prefix x l leaf : rep x l -> to_hex_prefix x leaf = Some (hp_spec leaf l).
Proof.
  intros (H1 & H2 & H3 & H4). unfold to_hex_prefix. rewrite H1.
  rewrite usub_some by lia. cbn [obind]. f_equal. rewrite H2.
  unfold hp_spec. destruct (Nat.even (length l)) eqn:E.
  - rewrite be_bytes_val by (auto; lia). pose proof (pack_length l E) as HP.
    change (0 :: repeat 0 (40 - length (pack l)) ++ pack l) with (repeat 0 (S (40 - length (pack l))) ++ pack l).
    rewrite <- repeat_snoc. apply half_even in E as [k E]. rewrite or_at_app by (rewrite repeat_length; lia).
    rewrite skipn_app_len by (rewrite repeat_length; lia).
    cbn [or_at]. rewrite N.lor_0_l. destruct leaf; reflexivity.
  - pose proof E as E'. apply half_odd in E' as [k Ek].
    destruct l as [|n l]; [discriminate|]. cbn [length] in *.
    assert (El : Nat.even (length l) = true) by (rewrite even_S in E; now destruct (Nat.even (length l))).
    inversion H3 as [|? ? Hn Hl]; subst.
    assert (EV : val (n :: l) = val (0%nat :: n :: l)) by (rewrite (val_cons 0); cbn; lia).
    rewrite EV. rewrite be_bytes_val.
    + cbn [pack]. pose proof (pack_length l El) as HP. cbn [length].
      change (0 :: repeat 0 ?k ++ ?t) with (repeat 0 (S k) ++ t).
      rewrite or_at_app by (cbn [length]; rewrite repeat_length; lia).
      rewrite skipn_app_len by (cbn [length]; rewrite repeat_length; lia).
      cbn [or_at]. f_equal. change (16 * N.of_nat 0 + N.of_nat n) with (N.of_nat n). rewrite N.lor_comm.
      destruct leaf.
      * change (N.shiftl (N.lor 1 (N.shiftl 1 1)) 4) with (3 * 2 ^ 4).
        rewrite lor_add by (change (2 ^ 4) with 16; lia). lia.
      * change (N.shiftl (N.lor 1 (N.shiftl 0 1)) 4) with (1 * 2 ^ 4).
        rewrite lor_add by (change (2 ^ 4) with 16; lia). lia.
    + constructor; [lia|auto].
    + cbn [length]. rewrite !even_S. now rewrite El.
    + cbn [length]. lia.
Qed.

(** Decoding an extension path gives back the nibbles. *)
Lemma land240 f n : f < 16 -> n < 16 -> N.shiftr (N.land (16 * f + n) 240) 4 = f /\ N.land (16 * f + n) 15 = n.
Proof.
  intros Hf Hn. assert (E : 16 * f + n = f * 2 ^ 4 + n) by lia. rewrite E.
  pose proof (lor_add f 4 n) as L. rewrite <- L by (change (2 ^ 4) with 16; lia). split.
  - rewrite N.shiftr_land, N.shiftr_lor. rewrite !N.shiftr_div_pow2.
    rewrite N.div_mul by lia. rewrite (N.div_small n) by (change (2 ^ 4) with 16; lia).
    rewrite N.lor_0_r. change (240 / 2 ^ 4) with (N.ones 4). rewrite N.land_ones. apply N.mod_small.
    change (2 ^ 4) with 16. lia.
  - change 15 with (N.ones 4). rewrite N.land_ones, L by (change (2 ^ 4) with 16; lia).
    change (2 ^ 4) with 16. lia.
Qed.

Lemma hp_length leaf l : (length (hp_spec leaf l) * 2 = length l + (if Nat.even (length l) then 2 else 1))%nat.
Proof.
  unfold hp_spec. destruct (Nat.even (length l)) eqn:E.
  - rewrite pack_length; [cbn [length]; lia|]. cbn [length]. rewrite !even_S. now rewrite E.
  - rewrite pack_length; [cbn [length]; lia|]. cbn [length]. rewrite even_S. now rewrite E.
Qed.

Lemma from_hp_ext l : nibs l -> (length l <= 64)%nat ->
  exists x, from_hex_prefix (hp_spec false l) = HpOk x /\ rep x l.
Proof.
  intros HN HL. pose proof (hp_length false l) as LH.
  unfold from_hex_prefix. destruct (Nat.ltb_spec 33 (length (hp_spec false l))) as [C|_].
  { destruct (Nat.even (length l)) eqn:E; [lia|]. apply half_odd in E as [k E]. lia. }
  unfold hp_spec in *. destruct (Nat.even (length l)) eqn:E.
  - cbn [pack] in LH |- *. change (16 * N.of_nat 0 + N.of_nat 0) with 0. cbn iota.
    change (N.shiftr (N.land 0 240) 4) with 0. cbn iota beta zeta.
    change (0 =? 0) with true. cbn iota. cbn [length] in *.
    replace (S (length (pack l)) * 2 - 2)%nat with (length l) by lia.
    rewrite <- Nat.negb_even, E. cbn [negb app].
    eexists. split; [reflexivity|]. split; [|split; [|split]]; cbn [count packed]; auto; [|lia].
    apply half_even in E as E'. destruct E' as [k E'].
    rewrite app_nil_r. rewrite (firstn_all2 (pack l)) by lia.
    replace ((length l + 1) / 2)%nat with (length (pack l)) by lia.
    rewrite firstn_app, Nat.sub_diag, firstn_all. cbn [firstn]. rewrite app_nil_r. now apply from_be_pack.
  - destruct l as [|n l]; [discriminate|]. cbn [length] in *.
    assert (El : Nat.even (length l) = true) by (rewrite even_S in E; now destruct (Nat.even (length l))).
    inversion HN as [|? ? Hn Hl]; subst. pose proof (pack_length l El) as HP.
    cbn [pack Nat.add length] in *. destruct (land240 1 (N.of_nat n)) as [F1 F2]; [lia|lia|].
    change (N.of_nat 1) with 1. rewrite F1, F2. change (1 =? 0) with false. change (1 =? 1) with true. cbn iota.
    replace (S (length (pack l)) * 2 - 1)%nat with (S (length l)) by lia.
    rewrite <- Nat.negb_even, E. cbn [negb app].
    eexists. split; [reflexivity|]. split; [|split; [|split]]; cbn [count packed]; auto; [|cbn [length]; lia].
    rewrite app_nil_r. rewrite (firstn_all2 (pack l)) by lia. cbn [length].
    replace ((S (length l) + 1) / 2)%nat with (S (length (pack l))) by lia.
    cbn [firstn app]. rewrite firstn_app, Nat.sub_diag, firstn_all. cbn [firstn]. rewrite app_nil_r.
    rewrite from_be_cons, from_be_pack, val_cons by auto. rewrite pow256, HP. reflexivity.
Qed.

(** The encoding determines the flag and the path. *)
Lemma hp_inj leaf l leaf' l' : nibs l -> nibs l' -> hp_spec leaf l = hp_spec leaf' l' -> leaf = leaf' /\ l = l'.
Proof.
  intros HN HN' E.
  assert (D : forall leaf l, nibs l -> byte_nibs (hp_spec leaf l) =
     if Nat.even (length l) then (if leaf then 2 else 0)%nat :: 0%nat :: l else ((if leaf then 2 else 0) + 1)%nat :: l).
  { clear. intros leaf l HN. unfold hp_spec. destruct (Nat.even (length l)) eqn:E; apply byte_nibs_pack.
    - constructor; [destruct leaf; lia|]. constructor; [lia|auto].
    - cbn [length]. rewrite !even_S. now rewrite E.
    - constructor; [destruct leaf; lia|auto].
    - cbn [length]. rewrite even_S. now rewrite E. }
  apply (f_equal byte_nibs) in E. rewrite !D in E by auto.
  destruct (Nat.even (length l)), (Nat.even (length l')), leaf, leaf'; injection E; intros; try discriminate; auto.
Qed.

Lemma hp_bytes leaf l : nibs l -> byte_list (hp_spec leaf l).
Proof.
  intros H. unfold hp_spec. destruct (Nat.even (length l)); apply pack_bytes.
  - constructor; [destruct leaf; lia|]. constructor; [lia|auto].
  - constructor; [destruct leaf; lia|auto].
Qed.

(** ** Digits *)
Lemma num_nibbles_val d l : (d < 16)%nat -> d <> 0%nat -> nibs l -> num_nibbles (val (d :: l)) = S (length l).
Proof.
  intros Hd H0 HN. unfold num_nibbles. rewrite val_cons. pose proof (val_bound l HN) as B.
  set (P := 16 ^ N.of_nat (length l)) in *.
  assert (HP : P = 2 ^ (4 * N.of_nat (length l))) by (unfold P; now rewrite N.pow_mul_r).
  set (v := N.of_nat d * P + val l) in *.
  assert (V0 : v <> 0) by nia.
  assert (P0 : P <> 0) by (rewrite HP; apply N.pow_nonzero; lia).
  assert (L1 : 2 ^ (4 * N.of_nat (length l)) <= v) by (rewrite <- HP; nia).
  assert (L2 : v < 2 ^ (4 * N.of_nat (length l) + 4)).
  { rewrite N.pow_add_r, <- HP. change (2 ^ 4) with 16. nia. }
  rewrite N.size_log2 by auto.
  apply N.log2_le_pow2 in L1; [|lia]. apply N.log2_lt_pow2 in L2; [|lia]. lia.
Qed.

Lemma leading_zeros_count ds : nibs ds ->
  (leading_zeros ds + num_nibbles (val ds) = length ds)%nat.
Proof.
  induction ds as [|d ds IH]; intros H; [reflexivity|].
  inversion H as [|? ? Hd Hds]; subst. destruct d as [|d].
  - cbn [leading_zeros length]. replace (val (0%nat :: ds)) with (val ds) by (rewrite val_cons; cbn; lia).
    rewrite <- (IH Hds). lia.
  - cbn [leading_zeros]. rewrite num_nibbles_val by (auto; lia). reflexivity.
Qed.

Lemma rep_from_digits ds : nibs ds -> (length ds < 80)%nat -> exists x, from_digits ds = Some x /\ rep x ds.
Proof.
  intros H L. unfold from_digits. destruct (Nat.ltb_spec 80 (length ds)); [lia|].
  eexists. split; [reflexivity|]. split; [|split; [|split]]; cbn [count packed]; auto.
  now apply leading_zeros_count.
Qed.

Lemma byte_digits_nibs b : byte_digits b = byte_nibs b.
Proof. induction b as [|x b IH]; cbn [byte_digits byte_nibs flat_map app]; [reflexivity|now rewrite IH]. Qed.

Lemma rep_to_digits x l : rep x l -> to_digits x = Some l.
Proof.
  intros R. unfold to_digits. rewrite (rep_bytes_be _ _ R). cbn [obind]. f_equal.
  destruct R as (H1 & _ & H3 & _). rewrite byte_digits_nibs, byte_nibs_pack by (auto using pad_nibs, pad_even).
  rewrite H1. unfold pad. destruct (Nat.even (length l)); reflexivity.
Qed.

(** Conversion of an integer: no leading zero nibble, same value. *)
Lemma rep_to_nibbles v : v < 2 ^ 256 -> exists l, rep (to_nibbles v) l /\ val l = v /\
  (length l <= 64)%nat /\ (forall d t, l = d :: t -> d <> 0%nat).
Proof.
  intros Hv.
  assert (G : forall n w, (n <= 64)%nat -> w < 16 ^ N.of_nat n -> exists l, nibs l /\ val l = w /\ num_nibbles w = length l
             /\ (length l <= n)%nat /\ (forall d t, l = d :: t -> d <> 0%nat)).
  { induction n as [|n IH]; intros w Hn Hw.
    - exists []. cbn in Hw. assert (w = 0) by lia. subst. repeat split; try constructor; cbn; auto; discriminate.
    - rewrite Nat2N.inj_succ, N.pow_succ_r' in Hw.
      destruct (N.eq_dec w 0) as [->|W0].
      { exists []. repeat split; try constructor; cbn; auto; try lia; discriminate. }
      destruct (IH (w / 16)) as (l & H1 & H2 & H3 & H4 & H5); [lia| |].
      { apply N.div_lt_upper_bound; lia. }
      assert (HN : nibs (l ++ [N.to_nat (w mod 16)])).
      { apply nibs_app. split; auto. constructor; [lia|constructor]. }
      assert (HV : val (l ++ [N.to_nat (w mod 16)]) = w).
      { rewrite val_app, H2. cbn [length]. change (16 ^ N.of_nat 1) with 16. rewrite val_cons. cbn [length].
        change (16 ^ N.of_nat 0) with 1. change (val []) with 0. lia. }
      assert (HZ : forall d t, l ++ [N.to_nat (w mod 16)] = d :: t -> d <> 0%nat).
      { intros d t E. destruct l as [|d' l]; cbn in E; injection E as <- <-; eauto.
        cbn in H2. lia. }
      exists (l ++ [N.to_nat (w mod 16)]). repeat split; auto.
      + rewrite <- HV at 1. revert HN HZ. generalize (l ++ [N.to_nat (w mod 16)]). clear.
        intros [|d t] HN HZ; [reflexivity|]. inversion HN; subst. apply num_nibbles_val; eauto.
      + rewrite app_length. cbn. lia. }
  destruct (G 64%nat v) as (l & H1 & H2 & H3 & H4 & H5); [lia|exact Hv|].
  exists l. repeat split; auto. lia.
Qed.

Lemma rep_padded v l : rep (to_nibbles v) l -> (length l <= 64)%nat -> rep (to_nibbles_byte_padded v) (pad l).
Proof.
  intros (H1 & H2 & H3 & H4) HL. cbn [to_nibbles count packed] in *. split; [|split; [|split]]; cbn [to_nibbles_byte_padded count packed].
  - rewrite H1, pad_length. reflexivity.
  - now rewrite pad_val.
  - now apply pad_nibs.
  - rewrite pad_length. lia.
Qed.

Lemma rep_to_u256 x l : rep x l -> (length l <= 64)%nat -> to_u256 x = Some (val l).
Proof.
  intros (H1 & H2 & H3 & H4) HL. unfold to_u256. rewrite H2.
  destruct (N.ltb_spec (val l) (2 ^ 256)); auto.
  pose proof (val_bound2 l H3) as B.
  assert (2 ^ N.of_nat (length l * 4) <= 2 ^ 256) by (apply N.pow_le_mono_r; lia). lia.
Qed.
