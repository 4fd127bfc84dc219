(** C37: key decoding is inverse to key encoding; C56: the parser of the witness
    format accepts exactly the serializations of instruction lists and returns
    the list. *)

From Coq Require Import List Arith NArith ZArith Bool Lia ZifyN ZifyNat ZifyBool Wf_nat.
From Verif.Trace Require Import WireModel.
Import ListNotations.
Local Open Scope N_scope.

Ltac Zify.zify_post_hook ::= Z.to_euclidean_division_equations.

(** ** Specification of the key encoding *)

Definition bytes_ok (l : list byte) : Prop := Forall (fun b => b < 256) l.

(** Two nibbles in a byte, the first one in the high half. *)
Definition pack (p : nib * nib) : byte := N.of_nat (fst p) * 16 + N.of_nat (snd p).
Definition pair_ok (p : nib * nib) : Prop := (fst p < 16 /\ snd p < 16)%nat.
Definition unpair (ps : list (nib * nib)) : list nib := flat_map (fun p => [fst p; snd p]) ps.

(** [key_bytes k bs]: [bs] is an encoding of the path [k].  A single nibble may
    be written as itself; any other path, and also a single nibble, as a byte of
    flags (bit 0: odd length, bit 1: the path is terminated) followed by the
    nibbles, two per byte, filled up with a zero nibble. *)
Inductive key_bytes : list nib -> list byte -> Prop :=
| key_single n : (n < 16)%nat -> key_bytes [n] [N.of_nat n]
| key_even (terminated : bool) ps : ps <> [] -> Forall pair_ok ps ->
    key_bytes (unpair ps) ((if terminated then 2 else 0) :: map pack ps)
| key_odd (terminated : bool) ps n : (n < 16)%nat -> Forall pair_ok ps ->
    key_bytes (unpair ps ++ [n]) ((if terminated then 3 else 1) :: map pack ps ++ [pack (n, 0%nat)]).

(** The encoder of a path. *)
Fixpoint pack_nibbles (k : list nib) : list byte :=
  match k with
  | [] => []
  | [a] => [N.of_nat a * 16]
  | a :: b :: t => (N.of_nat a * 16 + N.of_nat b) :: pack_nibbles t
  end.
Definition encode_key (terminated : bool) (k : list nib) : list byte :=
  ((if Nat.odd (length k) then 1 else 0) + (if terminated then 2 else 0)) :: pack_nibbles k.

Lemma split_last_app l x : split_last (l ++ [x]) = Some (x, l).
Proof. induction l as [|y l IH]; cbn; [reflexivity|]. now rewrite IH. Qed.

Lemma list_last {A} (l : list A) : l <> [] -> exists l' x, l = l' ++ [x].
Proof. intros H. destruct (exists_last H) as (l' & x & ->). eauto. Qed.

Lemma unpack_pack p : pair_ok p -> [left_nibble (pack p); right_nibble (pack p)] = [fst p; snd p].
Proof.
  intros [H1 H2]. unfold left_nibble, right_nibble, pack.
  replace (N.to_nat ((N.of_nat (fst p) * 16 + N.of_nat (snd p)) / 16)) with (fst p) by lia.
  replace (N.to_nat ((N.of_nat (fst p) * 16 + N.of_nat (snd p)) mod 16)) with (snd p) by lia.
  reflexivity.
Qed.

Lemma unpack_all ps : Forall pair_ok ps ->
  flat_map (fun b => [left_nibble b; right_nibble b]) (map pack ps) = unpair ps.
Proof.
  induction 1 as [|p ps H _ IH]; [reflexivity|]. unfold unpair in *. cbn [map flat_map].
  rewrite unpack_pack by auto. cbn. now rewrite IH.
Qed.

Definition halves (b : byte) : nib * nib := (left_nibble b, right_nibble b).
Lemma pack_halves b : b < 256 -> pack (halves b) = b /\ pair_ok (halves b).
Proof. intros H. unfold pack, halves, pair_ok, left_nibble, right_nibble. cbn. lia. Qed.

Lemma pack_halves_all l : bytes_ok l -> map pack (map halves l) = l /\ Forall pair_ok (map halves l) /\
  unpair (map halves l) = flat_map (fun b => [left_nibble b; right_nibble b]) l.
Proof.
  induction 1 as [|b l H _ IH]; cbn; [auto|]. destruct IH as (E & F & G). destruct (pack_halves b H) as (E1 & F1).
  rewrite E1, E. split; [auto|]. split; [constructor; auto|]. unfold unpair in *. cbn. now rewrite G.
Qed.

(** [decode_key] accepts exactly the encodings and recovers the path. *)
Theorem C37_decode_key : forall bs k, bytes_ok bs -> (decode_key bs = Some k <-> key_bytes k bs).
Proof.
  intros bs k Hbs. split.
  - intros H. destruct bs as [|flags rest]; [discriminate|]. destruct rest as [|r0 rest0].
    + unfold decode_key, u4_new in H. destruct (N.ltb_spec flags 16); [|discriminate].
      replace k with [N.to_nat flags] by congruence. replace [flags] with [N.of_nat (N.to_nat flags)] by (f_equal; lia).
      constructor. lia.
    + set (rest := r0 :: rest0) in *. assert (Hr : rest <> []) by discriminate.
      change (decode_key (flags :: rest)) with
        (if flags <? 4 then
           let odd := N.testbit flags 0 in
           let '(last, rest) := match split_last rest with Some (last, rest) => (Some last, rest) | None => (None, []) end in
           match (match last, odd with
               | None, true => None
               | None, false => Some []
               | Some packed, true => match u4_new (rotate4 packed) with Some n => Some [n] | None => None end
               | Some packed, false => Some [left_nibble packed; right_nibble packed]
               end) with
           | None => None
           | Some tail => Some (flat_map (fun b => [left_nibble b; right_nibble b]) rest ++ tail)
           end
         else None) in H. clearbody rest.
      destruct (N.ltb_spec flags 4) as [Hf|]; [|discriminate].
      destruct (list_last rest Hr) as (l & x & ->). rewrite split_last_app in H. cbv zeta in H.
      inversion Hbs as [|? ? _ Hbs']; subst. apply Forall_app in Hbs' as [Hl Hx]. apply Forall_inv in Hx.
      destruct (pack_halves_all l Hl) as (E & F & G).
      assert (Hfl : (exists t, flags = (if t : bool then 3 else 1) /\ N.testbit flags 0 = true) \/
                    (exists t, flags = (if t : bool then 2 else 0) /\ N.testbit flags 0 = false)).
      { assert (flags = 0 \/ flags = 1 \/ flags = 2 \/ flags = 3) as [ -> | [ -> | [ -> | -> ] ] ] by lia.
        - right. exists false. auto. - left. exists false. auto. - right. exists true. auto. - left. exists true. auto. }
      destruct Hfl as [(t & Ef & Et)|(t & Ef & Et)]; rewrite Et in H.
      * unfold u4_new in H. destruct (N.ltb_spec (rotate4 x) 16) as [Hrot|]; [|discriminate].
        replace k with (unpair (map halves l) ++ [N.to_nat (rotate4 x)]) by (rewrite G; congruence).
        unfold rotate4 in *.
        replace (flags :: l ++ [x]) with ((if t then 3 else 1) :: map pack (map halves l) ++ [pack (N.to_nat (x mod 16 * 16 + x / 16), 0%nat)]).
        { apply key_odd; [lia|auto]. }
        rewrite E, Ef. do 3 f_equal. unfold pack. cbn. lia.
      * replace k with (unpair (map halves (l ++ [x]))).
        2:{ rewrite map_app. unfold unpair in *. rewrite flat_map_app, G. cbn. congruence. }
        replace (flags :: l ++ [x]) with ((if t then 2 else 0) :: map pack (map halves (l ++ [x]))).
        { apply key_even; [destruct l; discriminate|]. rewrite map_app. apply Forall_app. split; auto.
          constructor; [apply (pack_halves x Hx)|constructor]. }
        rewrite !map_app, E, Ef. cbn. now rewrite (proj1 (pack_halves x Hx)).
  - intros H. destruct H as [n Hn|t ps Hne Hps|t ps n Hn Hps].
    + cbn. unfold u4_new. destruct (N.ltb_spec (N.of_nat n) 16); [|lia]. now rewrite Nnat.Nat2N.id.
    + destruct (list_last ps Hne) as (l & p & ->). rewrite map_app in *. cbn [map] in *.
      apply Forall_app in Hps as [Hl Hp]. apply Forall_inv in Hp.
      assert (E : decode_key ((if t then 2 else 0) :: map pack l ++ [pack p]) =
                  Some (flat_map (fun b => [left_nibble b; right_nibble b]) (map pack l) ++ [left_nibble (pack p); right_nibble (pack p)])).
      { unfold decode_key. rewrite split_last_app. destruct (map pack l ++ [pack p]) eqn:E; [now destruct l|]. now destruct t. }
      rewrite E, unpack_all, unpack_pack by auto. unfold unpair. now rewrite flat_map_app.
    + assert (E : decode_key ((if t then 3 else 1) :: map pack ps ++ [pack (n, 0%nat)]) =
                  Some (flat_map (fun b => [left_nibble b; right_nibble b]) (map pack ps) ++ [n])).
      { unfold decode_key. rewrite split_last_app. destruct (map pack ps ++ [pack (n, 0%nat)]) eqn:E; [now destruct ps|].
        assert (R : u4_new (rotate4 (pack (n, 0%nat))) = Some n).
        { unfold u4_new, rotate4, pack. cbn [fst snd]. destruct (N.ltb_spec ((N.of_nat n * 16 + N.of_nat 0) mod 16 * 16 + (N.of_nat n * 16 + N.of_nat 0) / 16) 16); [f_equal|]; lia. }
        rewrite R. now destruct t. }
      now rewrite E, unpack_all.
Qed.
Print Assumptions C37_decode_key.

Lemma encode_key_spec t k : k <> [] -> Forall (fun n => (n < 16)%nat) k -> key_bytes k (encode_key t k) /\ bytes_ok (encode_key t k).
Proof.
  intros Hne Hk.
  assert (P : exists ps, Forall pair_ok ps /\
     ((Nat.odd (length k) = false /\ k = unpair ps /\ pack_nibbles k = map pack ps) \/
      (Nat.odd (length k) = true /\ exists n, (n < 16)%nat /\ k = unpair ps ++ [n] /\ pack_nibbles k = map pack ps ++ [pack (n, 0%nat)]))).
  { clear Hne. induction k as [k IH] using (induction_ltof1 _ (@length nib)). unfold ltof in IH.
    destruct k as [|a [|b r]].
    - exists []. split; [constructor|]. left. auto.
    - exists []. split; [constructor|]. right. split; [reflexivity|]. exists a. inversion Hk; subst.
      repeat split; auto. unfold pack. cbn. f_equal. lia.
    - inversion Hk as [|? ? Ha Hk']; subst. inversion Hk' as [|? ? Hb Hk'']; subst.
      destruct (IH r) as (ps & F & D); [cbn; lia|auto|]. exists ((a, b) :: ps). split; [constructor; [split; auto|auto]|].
      change (Nat.odd (length (a :: b :: r))) with (Nat.odd (length r)).
      destruct D as [(O & E1 & E2)|(O & n & Hn & E1 & E2)].
      + left. split; [auto|]. cbn [unpair flat_map map pack_nibbles app]. fold (unpair ps). rewrite E2, E1. auto.
      + right. split; [auto|]. exists n. split; [auto|]. cbn [unpair flat_map map pack_nibbles app]. fold (unpair ps). rewrite E2, E1. auto. }
  destruct P as (ps & F & D).
  assert (Bp : bytes_ok (map pack ps)).
  { clear -F. induction F as [|p ps [H1 H2] _ IH]; [constructor|]. constructor; [unfold pack; lia|auto]. }
  unfold encode_key. destruct D as [(-> & E1 & ->)|(-> & n & Hn & E1 & ->)].
  - rewrite E1. split.
    + replace (0 + (if t then 2 else 0)) with (if t then 2 else 0) by (destruct t; reflexivity). apply key_even; [|auto].
      intros ->. now subst.
    + constructor; [destruct t; lia|auto].
  - rewrite E1. split.
    + replace (1 + (if t then 2 else 0)) with (if t then 3 else 1) by (destruct t; reflexivity). now apply key_odd.
    + constructor; [destruct t; lia|]. apply Forall_app. split; auto. repeat constructor. unfold pack. cbn. lia.
Qed.

(** Decoding inverts encoding, for every non-empty path and either terminator. *)
Theorem C37_decode_encode : forall terminated k, k <> [] -> Forall (fun n => (n < 16)%nat) k ->
  decode_key (encode_key terminated k) = Some k.
Proof. intros t k Hne Hk. destruct (encode_key_spec t k Hne Hk). now apply C37_decode_key. Qed.
Print Assumptions C37_decode_encode.

(** The empty path (an account or slot reached by the branches above it alone)
    is read as the path of one nibble 0 or 2. *)
Theorem C37_empty_path_refuted : decode_key (encode_key false []) = Some [0%nat] /\ decode_key (encode_key true []) = Some [2%nat].
Proof. vm_compute. auto. Qed.
Print Assumptions C37_empty_path_refuted.

Example C37_example : decode_key [3; 0x12; 0x30] = Some [1; 2; 3]%nat /\ key_bytes [1; 2; 3]%nat [3; 0x12; 0x30] /\
  decode_key [0; 0xAB] = Some [10; 11]%nat /\ decode_key [5] = Some [5]%nat /\ decode_key [1; 0x12] = None /\ decode_key [4; 0x12] = None.
Proof. repeat split. apply (key_odd true [(1, 2)]%nat 3%nat); repeat constructor. Qed.

(** ** Specification of the format *)

Section Format.
  (** [is_u64 n e], [is_bytes v e]: [e] is a CBOR encoding of [n], of [v]. *)
  Variable is_u64 : N -> list byte -> Prop.
  Variable is_bytes : list byte -> list byte -> Prop.

  Inductive is_key : list nib -> list byte -> Prop :=
  | is_key_intro k bs e : bs <> [] -> key_bytes k bs -> is_bytes bs e -> is_key k e.

  Inductive opt_u64 : option N -> list byte -> Prop :=
  | opt_u64_none : opt_u64 None []
  | opt_u64_some n e : is_u64 n e -> opt_u64 (Some n) e.

  (** A balance is written as at most 32 bytes, big-endian. *)
  Inductive opt_balance : option N -> list byte -> Prop :=
  | opt_balance_none : opt_balance None []
  | opt_balance_some v e : (length v <= 32)%nat -> is_bytes v e -> opt_balance (Some (be_value v)) e.

  Definition flag (b : bool) (n : N) : N := if b then n else 0.
  Definition is_some {A} (o : option A) : bool := match o with Some _ => true | None => false end.

  Inductive instr_bytes : instruction -> list byte -> Prop :=
  | ib_leaf k v e1 e2 : v <> [] -> is_key k e1 -> is_bytes v e2 -> instr_bytes (ILeaf k v) (0x00 :: e1 ++ e2)
  | ib_ext k e : is_key k e -> instr_bytes (IExtension k) (0x01 :: e)
  | ib_branch m e : is_u64 m e -> instr_bytes (IBranch m) (0x02 :: e)
  | ib_hash h : length h = 32%nat -> instr_bytes (IHash h) (0x03 :: h)
  | ib_code c e : c <> [] -> is_bytes c e -> instr_bytes (ICode c) (0x04 :: e)
  | ib_account k nonce balance (has_code has_storage : bool) e1 e2 e3 e4 :
      is_key k e1 -> opt_u64 nonce e2 -> opt_balance balance e3 ->
      (if has_code then exists code_length, is_u64 code_length e4 else e4 = []) ->
      instr_bytes (IAccountLeaf k nonce balance has_code has_storage)
        (0x05 :: e1 ++ (flag has_code 1 + flag has_storage 2 + flag (is_some nonce) 4 + flag (is_some balance) 8) :: e2 ++ e3 ++ e4)
  | ib_empty : instr_bytes IEmptyRoot [0x06]
  | ib_smt t a v code e1 e2 e3 : a <> [] -> v <> [] -> is_bytes a e1 ->
      match t with
      | SBalance => code = 0 /\ e2 = []
      | SNonce => code = 1 /\ e2 = []
      | SCode => code = 2 /\ e2 = []
      | SStorage s => code = 3 /\ s <> [] /\ is_bytes s e2
      | SCodeLength => code = 4 /\ e2 = []
      end -> is_bytes v e3 ->
      instr_bytes (ISmtLeaf {| l_node_type := t; l_address := a; l_value := v |}) (0x07 :: code :: e1 ++ e2 ++ e3)
  | ib_new : instr_bytes INewTrie [0xBB].

  Inductive witness_bytes : list instruction -> list byte -> Prop :=
  | wb_nil : witness_bytes [] []
  | wb_cons x e xs es : instr_bytes x e -> witness_bytes xs es -> witness_bytes (x :: xs) (e ++ es).

  Variable cbor_u64 : list byte -> option (N * list byte).
  Variable cbor_bytes : list byte -> option (list byte * list byte).
  (** The decoder reads exactly the encodings. *)
  Hypothesis u64_law : forall i n r, cbor_u64 i = Some (n, r) <-> exists e, i = e ++ r /\ is_u64 n e.
  Hypothesis bytes_law : forall i v r, cbor_bytes i = Some (v, r) <-> exists e, i = e ++ r /\ is_bytes v e.
  Hypothesis bytes_valid : forall v e, is_bytes v e -> bytes_ok v.

  Ltac done_inv H := match type of H with Done ?a = Done ?b => assert (a = b) by congruence; clear H end.

  Lemma obind_done {A B} (r : outcome A) (f : A -> outcome B) b : obind r f = Done b <-> exists a, r = Done a /\ f a = Done b.
  Proof. destruct r; cbn; split; try (intros (a' & H & _); discriminate); try discriminate; [eauto|]. intros (a' & H & H'). congruence. Qed.

  Lemma p_u64_spec i n r : p_u64 cbor_u64 i = Done (n, r) <-> exists e, i = e ++ r /\ is_u64 n e.
  Proof. rewrite <- u64_law. unfold p_u64, of_opt. destruct (cbor_u64 i); split; congruence. Qed.
  Lemma p_vec_spec i v r : p_vec cbor_bytes i = Done (v, r) <-> exists e, i = e ++ r /\ is_bytes v e.
  Proof. rewrite <- bytes_law. unfold p_vec, of_opt. destruct (cbor_bytes i); split; congruence. Qed.
  Lemma p_nonempty_spec i v r : p_nonempty cbor_bytes i = Done (v, r) <-> v <> [] /\ exists e, i = e ++ r /\ is_bytes v e.
  Proof.
    rewrite <- bytes_law. unfold p_nonempty. destruct (cbor_bytes i) as [[[|b v'] r']|]; split; try discriminate.
    - intros [H H']. congruence.
    - intros H. assert (b :: v' = v /\ r' = r) as [<- <-] by (split; congruence). split; [discriminate|reflexivity].
    - intros [_ H]. congruence.
    - intros [_ H]. discriminate.
  Qed.

  Lemma p_key_spec i k r : p_key cbor_bytes i = Done (k, r) <-> exists e, i = e ++ r /\ is_key k e.
  Proof.
    unfold p_key. rewrite obind_done. split.
    - intros ([v r'] & H & H'). apply p_nonempty_spec in H as (Hne & e & -> & He).
      destruct (decode_key v) as [k'|] eqn:D; [|discriminate]. assert (k' = k /\ r' = r) as [<- <-] by (split; congruence).
      exists e. split; [auto|]. apply (is_key_intro k' v); auto. apply C37_decode_key; eauto.
    - intros (e & -> & [k' v e' Hne Hk He]). exists (v, r). split.
      + apply p_nonempty_spec. eauto.
      + apply C37_decode_key in Hk; [|eauto]. now rewrite Hk.
  Qed.

  Lemma p_any_spec i b r : p_any i = Done (b, r) <-> i = b :: r.
  Proof. destruct i; cbn; split; congruence. Qed.

  Lemma p_hash_spec i h r : p_hash i = Done (h, r) <-> i = h ++ r /\ length h = 32%nat.
  Proof.
    unfold p_hash. destruct (Nat.ltb_spec (length i) 32) as [L|L]; split.
    - discriminate.
    - intros [-> H]. rewrite app_length in L. lia.
    - intros H. assert (firstn 32 i = h /\ skipn 32 i = r) as [<- <-] by (split; congruence).
      rewrite firstn_skipn, firstn_length. split; [auto|lia].
    - intros [-> H]. rewrite <- H. rewrite firstn_app, skipn_app, Nat.sub_diag, firstn_all, skipn_all. cbn. now rewrite app_nil_r.
  Qed.

  Lemma flags_inv f : f < 16 -> f = flag (N.testbit f 0) 1 + flag (N.testbit f 1) 2 + flag (N.testbit f 2) 4 + flag (N.testbit f 3) 8.
  Proof.
    intros H. assert (f = 0 \/ f = 1 \/ f = 2 \/ f = 3 \/ f = 4 \/ f = 5 \/ f = 6 \/ f = 7 \/ f = 8 \/ f = 9 \/ f = 10 \/ f = 11 \/ f = 12 \/ f = 13 \/ f = 14 \/ f = 15) as D by lia.
    repeat destruct D as [->|D]; try reflexivity. subst. reflexivity.
  Qed.
  Lemma flags_val (a b c d : bool) : let f := flag a 1 + flag b 2 + flag c 4 + flag d 8 in
    f < 16 /\ N.testbit f 0 = a /\ N.testbit f 1 = b /\ N.testbit f 2 = c /\ N.testbit f 3 = d.
  Proof. destruct a, b, c, d; cbn; repeat split; lia. Qed.

  Lemma app_mid {A} (a : list A) x b c : a ++ x :: b ++ c = (a ++ x :: b) ++ c.
  Proof. now rewrite <- app_assoc. Qed.

  Lemma p_instruction_spec i x r : p_instruction cbor_u64 cbor_bytes i = Done (x, r) <-> exists e, i = e ++ r /\ instr_bytes x e.
  Proof.
    unfold p_instruction. split.
    - intros H. apply obind_done in H as ([op i0] & H & H'). apply p_any_spec in H as ->.
      destruct (N.eqb_spec op 0) as [->|N0].
      { apply obind_done in H' as ([k i1] & H & H'). apply p_key_spec in H as (e1 & -> & Hk).
        apply obind_done in H' as ([v i2] & H & H'). apply p_nonempty_spec in H as (Hne & e2 & -> & Hv).
        assert (ILeaf k v = x /\ i2 = r) as [<- <-] by (split; congruence).
        exists (0 :: e1 ++ e2). split; [cbn; now rewrite app_assoc|]. now constructor. }
      destruct (N.eqb_spec op 1) as [->|N1].
      { apply obind_done in H' as ([k i1] & H & H'). apply p_key_spec in H as (e1 & -> & Hk).
        assert (IExtension k = x /\ i1 = r) as [<- <-] by (split; congruence).
        exists (1 :: e1). split; [auto|]. now constructor. }
      destruct (N.eqb_spec op 2) as [->|N2].
      { apply obind_done in H' as ([k i1] & H & H'). apply p_u64_spec in H as (e1 & -> & Hk).
        assert (IBranch k = x /\ i1 = r) as [<- <-] by (split; congruence).
        exists (2 :: e1). split; [auto|]. now constructor. }
      destruct (N.eqb_spec op 3) as [->|N3].
      { apply obind_done in H' as ([k i1] & H & H'). apply p_hash_spec in H as (-> & Hk).
        assert (IHash k = x /\ i1 = r) as [<- <-] by (split; congruence).
        exists (3 :: k). split; [auto|]. now constructor. }
      destruct (N.eqb_spec op 4) as [->|N4].
      { apply obind_done in H' as ([k i1] & H & H'). apply p_nonempty_spec in H as (Hne & e1 & -> & Hk).
        assert (ICode k = x /\ i1 = r) as [<- <-] by (split; congruence).
        exists (4 :: e1). split; [auto|]. now constructor. }
      destruct (N.eqb_spec op 5) as [->|N5].
      { unfold p_account_leaf in H'.
        apply obind_done in H' as ([k i1] & H & H'). apply p_key_spec in H as (e1 & -> & Hk).
        apply obind_done in H' as ([f i2] & H & H'). apply p_any_spec in H as ->.
        destruct (N.ltb_spec f 16) as [Hf|]; [|discriminate]. pose proof (flags_inv f Hf) as Ef.
        apply obind_done in H' as ([nonce i3] & H & H').
        assert (exists e2, i2 = e2 ++ i3 /\ opt_u64 nonce e2 /\ N.testbit f 2 = is_some nonce) as (e2 & -> & Hn & En).
        { destruct (N.testbit f 2).
          - apply obind_done in H as ([n i4] & H & E). apply p_u64_spec in H as (e2 & -> & Hn).
            assert (Some n = nonce /\ i4 = i3) as [<- <-] by (split; congruence). exists e2. repeat split; auto. now constructor.
          - assert (None = nonce /\ i2 = i3) as [<- <-] by (split; congruence). exists []. repeat split; auto. constructor. }
        clear H. apply obind_done in H' as ([balance i4] & H & H').
        assert (exists e3, i3 = e3 ++ i4 /\ opt_balance balance e3 /\ N.testbit f 3 = is_some balance) as (e3 & -> & Hb & Eb).
        { destruct (N.testbit f 3).
          - apply obind_done in H as ([v i5] & H & E). apply p_vec_spec in H as (e3 & -> & Hv).
            apply obind_done in E as (b & Eb & E). unfold from_big_endian in Eb. destruct (Nat.leb_spec (length v) 32); [|discriminate].
            assert (Some (be_value v) = balance /\ i5 = i4) as [<- <-] by (split; congruence). exists e3. repeat split; auto. now constructor.
          - assert (None = balance /\ i3 = i4) as [<- <-] by (split; congruence). exists []. repeat split; auto. constructor. }
        clear H. apply obind_done in H' as (i5 & H & H').
        assert (exists e4, i4 = e4 ++ i5 /\ (if N.testbit f 0 then exists code_length, is_u64 code_length e4 else e4 = [])) as (e4 & -> & Hc).
        { destruct (N.testbit f 0).
          - apply obind_done in H as ([v i6] & H & E). apply p_u64_spec in H as (e4 & -> & Hv).
            assert (i6 = i5) as <- by congruence. exists e4. eauto.
          - assert (i4 = i5) as <- by congruence. exists []. auto. }
        clear H. assert (IAccountLeaf k nonce balance (N.testbit f 0) (N.testbit f 1) = x /\ i5 = r) as [<- <-] by (split; congruence).
        exists (5 :: e1 ++ f :: e2 ++ e3 ++ e4). split.
        { cbn [app]. rewrite <- !app_assoc. cbn [app]. now rewrite <- !app_assoc. }
        rewrite Ef at 3. rewrite En, Eb. now apply ib_account. }
      destruct (N.eqb_spec op 6) as [->|N6].
      { assert (IEmptyRoot = x /\ i0 = r) as [<- <-] by (split; congruence). exists [6]. split; [auto|]. constructor. }
      destruct (N.eqb_spec op 7) as [->|N7].
      { unfold p_smt_leaf in H'. apply obind_done in H' as ([c i1] & H & H'). apply p_any_spec in H as ->.
        apply obind_done in H' as ([a i2] & H & H'). apply p_nonempty_spec in H as (Ha & e1 & -> & Ba).
        apply obind_done in H' as ([t i3] & H & H').
        apply obind_done in H' as ([v i4] & Hv & H'). apply p_nonempty_spec in Hv as (Hv & e3 & -> & Bv).
        assert (exists e2, i2 = e2 ++ e3 ++ i4 /\
            match t with
            | SBalance => c = 0 /\ e2 = []
            | SNonce => c = 1 /\ e2 = []
            | SCode => c = 2 /\ e2 = []
            | SStorage s => c = 3 /\ s <> [] /\ is_bytes s e2
            | SCodeLength => c = 4 /\ e2 = []
            end) as (e2 & -> & Ht).
        { destruct (N.eqb_spec c 0) as [->|]. { assert (SBalance = t /\ i2 = e3 ++ i4) as [<- <-] by (split; congruence). exists []. auto. }
          destruct (N.eqb_spec c 1) as [->|]. { assert (SNonce = t /\ i2 = e3 ++ i4) as [<- <-] by (split; congruence). exists []. auto. }
          destruct (N.eqb_spec c 2) as [->|]. { assert (SCode = t /\ i2 = e3 ++ i4) as [<- <-] by (split; congruence). exists []. auto. }
          destruct (N.eqb_spec c 3) as [->|].
          { apply obind_done in H as ([s i5] & H & E). apply p_nonempty_spec in H as (Hs & e2 & -> & Bs).
            assert (SStorage s = t /\ i5 = e3 ++ i4) as [<- ->] by (split; congruence). exists e2. auto. }
          destruct (N.eqb_spec c 4) as [->|]; [|discriminate]. assert (SCodeLength = t /\ i2 = e3 ++ i4) as [<- <-] by (split; congruence). exists []. auto. }
        assert (ISmtLeaf {| l_node_type := t; l_address := a; l_value := v |} = x /\ i4 = r) as [<- <-] by (split; congruence).
        exists (7 :: c :: e1 ++ e2 ++ e3). split.
        { cbn [app]. now rewrite <- !app_assoc. }
        eapply ib_smt; eauto. }
      destruct (N.eqb_spec op 0xBB) as [->|N8]; [|discriminate].
      assert (INewTrie = x /\ i0 = r) as [<- <-] by (split; congruence). exists [0xBB]. split; [auto|]. constructor.
    - intros (e & -> & H). destruct H.
      + cbn [app]. cbn [p_any obind N.eqb]. apply obind_done. exists (k, e2 ++ r). split; [apply p_key_spec; exists e1; split; [now rewrite app_assoc|auto]|].
        apply obind_done. exists (v, r). split; [apply p_nonempty_spec; eauto|auto].
      + cbn [app]. cbn [p_any obind N.eqb Pos.eqb]. apply obind_done. exists (k, r). split; [apply p_key_spec; eauto|auto].
      + cbn [app]. cbn [p_any obind N.eqb Pos.eqb]. apply obind_done. exists (m, r). split; [apply p_u64_spec; eauto|auto].
      + cbn [app]. cbn [p_any obind N.eqb Pos.eqb]. apply obind_done. exists (h, r). split; [apply p_hash_spec; eauto|auto].
      + cbn [app]. cbn [p_any obind N.eqb Pos.eqb]. apply obind_done. exists (c, r). split; [apply p_nonempty_spec; eauto|auto].
      + cbn [app]. cbn [p_any obind N.eqb Pos.eqb]. unfold p_account_leaf. rewrite <- !app_assoc. cbn [app]. rewrite <- !app_assoc.
        set (f := flag has_code 1 + flag has_storage 2 + flag (is_some nonce) 4 + flag (is_some balance) 8).
        destruct (flags_val has_code has_storage (is_some nonce) (is_some balance)) as (Hf & F0 & F1 & F2 & F3). fold f in Hf, F0, F1, F2, F3. clearbody f.
        apply obind_done. exists (k, f :: e2 ++ e3 ++ e4 ++ r). split; [apply p_key_spec; eauto|].
        cbn [p_any obind]. destruct (N.ltb_spec f 16); [|lia]. rewrite F0, F1, F2, F3.
        apply obind_done. exists (nonce, e3 ++ e4 ++ r). split.
        { match goal with X : opt_u64 _ _ |- _ => destruct X as [|n e Hn] end; cbn [is_some]; [reflexivity|].
          apply obind_done. exists (n, e3 ++ e4 ++ r). split; [apply p_u64_spec; eauto|reflexivity]. }
        apply obind_done. exists (balance, e4 ++ r). split.
        { match goal with X : opt_balance _ _ |- _ => destruct X as [|v e Hv Be] end; cbn [is_some]; [reflexivity|].
          apply obind_done. exists (v, e4 ++ r). split; [apply p_vec_spec; eauto|]. unfold from_big_endian.
          destruct (Nat.leb_spec (length v) 32); [reflexivity|lia]. }
        cbv zeta. apply obind_done. exists r. split; [|reflexivity]. destruct has_code; [|now subst].
        match goal with X : exists _, _ |- _ => destruct X as [cl Hcl] end.
        apply obind_done. exists (cl, r). split; [apply p_u64_spec; eauto|reflexivity].
      + reflexivity.
      + cbn [app]. cbn [p_any obind N.eqb Pos.eqb]. unfold p_smt_leaf. rewrite <- !app_assoc. cbn [p_any obind].
        apply obind_done. exists (a, e2 ++ e3 ++ r). split; [apply p_nonempty_spec; eauto|].
        apply obind_done. exists (t, e3 ++ r). split.
        * destruct t; try (match goal with X : code = _ /\ _ |- _ => destruct X as [-> ->] end; reflexivity).
          match goal with X : code = _ /\ _ /\ _ |- _ => destruct X as (-> & Hs & Bs) end. cbn [N.eqb Pos.eqb].
          apply obind_done. exists (slot, e3 ++ r). split; [apply p_nonempty_spec; eauto|reflexivity].
        * apply obind_done. exists (v, r). split; [apply p_nonempty_spec; eauto|reflexivity].
      + reflexivity.
  Qed.

  Lemma instr_bytes_nonempty x e : instr_bytes x e -> e <> [].
  Proof. destruct 1; discriminate. Qed.

  Lemma p_till_spec : forall fuel i xs, (length i <= fuel)%nat ->
    (p_till cbor_u64 cbor_bytes fuel i = Done xs <-> witness_bytes xs i).
  Proof.
    induction fuel as [|f IH]; intros i xs L; (destruct i as [|b i0]; [cbn; split; [intros H; replace xs with (@nil instruction) by congruence; constructor|]; inversion 1 as [|? e ? ? Hi]; subst; [auto|]; destruct e; [now apply instr_bytes_nonempty in Hi|discriminate]|]).
    - cbn in L. lia.
    - set (i := b :: i0) in *. assert (i <> []) by discriminate.
      assert (E : p_till cbor_u64 cbor_bytes (S f) i =
        (do! (x, i) <- p_instruction cbor_u64 cbor_bytes i; do! xs <- p_till cbor_u64 cbor_bytes f i; Done (x :: xs))) by reflexivity.
      rewrite E. clear E. clearbody i. rewrite obind_done. split.
      + intros ([x r] & Hx & H'). apply p_instruction_spec in Hx as (e & -> & He). apply obind_done in H' as (ys & Hy & E).
        replace xs with (x :: ys) by congruence. constructor; auto. apply IH; auto.
        rewrite app_length in L. apply instr_bytes_nonempty in He. destruct e; [easy|cbn in L; lia].
      + intros W. destruct W as [|x e ys es He W]; [easy|]. exists (x, es). split; [apply p_instruction_spec; eauto|].
        apply obind_done. exists ys. split; [|auto]. apply IH; auto. rewrite app_length in L.
        apply instr_bytes_nonempty in He. destruct e; [easy|cbn in L; lia].
  Qed.

  (** The parser accepts exactly a header byte 0 or 1 followed by the encodings
      of the instructions of a non-empty list, and returns that list. *)
  Theorem C56_parse : forall input l,
    parse cbor_u64 cbor_bytes input = Done l <->
    l <> [] /\ exists h es, (h = 0 \/ h = 1) /\ input = h :: es /\ witness_bytes l es.
  Proof.
    intros input l. unfold parse. split.
    - destruct input as [|h i]; [discriminate|]. destruct ((h =? 0) || (h =? 1)) eqn:Eh; [|discriminate].
      intros H. apply obind_done in H as ([x r] & Hx & H). apply p_instruction_spec in Hx as (e & -> & He).
      apply obind_done in H as (xs & Hxs & E). apply p_till_spec in Hxs; [|lia]. replace l with (x :: xs) by congruence.
      split; [discriminate|]. exists h, (e ++ r). repeat split; [lia|]. now constructor.
    - intros (Hne & h & es & Hh & -> & W). replace ((h =? 0) || (h =? 1)) with true by lia.
      destruct W as [|x e xs es He W]; [easy|]. apply obind_done. exists (x, es). split; [apply p_instruction_spec; eauto|].
      apply obind_done. exists xs. split; [|auto]. now apply p_till_spec.
  Qed.

  (** So no byte string is the encoding of two different lists. *)
  Theorem C56_unambiguous : forall l l' es, witness_bytes l es -> witness_bytes l' es -> l = l'.
  Proof.
    intros l l' es W W'. destruct l as [|x l].
    - inversion W; subst. inversion W' as [|? e ? ? He]; subst; [auto|]. destruct e; [now apply instr_bytes_nonempty in He|discriminate].
    - assert (A : parse cbor_u64 cbor_bytes (0 :: es) = Done (x :: l)) by (apply C56_parse; split; [discriminate|]; exists 0, es; auto).
      destruct l' as [|x' l'].
      + inversion W'; subst. inversion W as [|? e ? ? He]; subst. destruct e; [now apply instr_bytes_nonempty in He|discriminate].
      + assert (B : parse cbor_u64 cbor_bytes (0 :: es) = Done (x' :: l')) by (apply C56_parse; split; [discriminate|]; exists 0, es; auto).
        congruence.
  Qed.
End Format.
Print Assumptions C56_parse.
Print Assumptions C56_unambiguous.

(** ** A CBOR decoder meeting the hypotheses (definite lengths, RFC 8949) *)
Module Cbor.
  Definition take (k : nat) (i : list N) : option (list N * list N) :=
    if (length i <? k)%nat then None else Some (firstn k i, skipn k i).
  Definition head (major : N) (i : list N) : option (N * list N) :=
    match i with
    | [] => None
    | b :: t =>
        if b / 32 =? major then
          if b mod 32 <? 24 then Some (b mod 32, t)
          else if b mod 32 <? 28
          then match take (N.to_nat (2 ^ (b mod 32 - 24))) t with Some (v, r) => Some (be_value v, r) | None => None end
          else None
        else None
    end.
  Definition dec_u64 (i : list N) := head 0 i.
  Definition dec_bytes (i : list N) : option (list N * list N) :=
    match head 2 i with
    | Some (n, t) => match take (N.to_nat n) t with
                     | Some (v, r) => if forallb (fun b => b <? 256) v then Some (v, r) else None
                     | None => None
                     end
    | None => None
    end.

  Lemma take_spec k i v r : take k i = Some (v, r) <-> i = v ++ r /\ length v = k.
  Proof.
    unfold take. destruct (Nat.ltb_spec (length i) k) as [L|L]; split.
    - discriminate.
    - intros [-> H]. rewrite app_length in L. lia.
    - intros H. assert (firstn k i = v /\ skipn k i = r) as [<- <-] by (split; congruence).
      rewrite firstn_skipn, firstn_length. split; [auto|lia].
    - intros [-> <-]. rewrite firstn_app, skipn_app, Nat.sub_diag, firstn_all, skipn_all. cbn. now rewrite app_nil_r.
  Qed.

  (** What is read does not depend on what follows. *)
  Definition local {A} (f : list N -> option (A * list N)) : Prop :=
    forall i v r, f i = Some (v, r) <-> exists e, i = e ++ r /\ f e = Some (v, []).

  Lemma local_take k : local (take k).
  Proof.
    intros i v r. rewrite take_spec. split.
    - intros [-> H]. exists v. rewrite take_spec, app_nil_r. auto.
    - intros (e & -> & H). apply take_spec in H as [-> H]. now rewrite app_nil_r.
  Qed.

  Lemma local_head m : local (head m).
  Proof.
    intros i v r. split.
    - destruct i as [|b t]; [discriminate|]. cbn [head]. intros H.
      destruct (b / 32 =? m) eqn:E1; [|discriminate]. destruct (b mod 32 <? 24) eqn:E2.
      + assert (b mod 32 = v /\ t = r) as [<- <-] by (split; congruence). exists [b]. cbn [head app]. now rewrite E1, E2.
      + destruct (b mod 32 <? 28) eqn:E3; [|discriminate].
        destruct (take _ t) as [[w r']|] eqn:T; [|discriminate]. assert (be_value w = v /\ r' = r) as [<- <-] by (split; congruence).
        apply local_take in T as (e & -> & T). exists (b :: e). cbn [head app]. now rewrite E1, E2, E3, T.
    - intros (e & -> & H). destruct e as [|b t]; [discriminate|]. cbn [head app] in *.
      destruct (b / 32 =? m) eqn:E1; [|discriminate]. destruct (b mod 32 <? 24) eqn:E2.
      + assert (b mod 32 = v /\ t = []) as [<- ->] by (split; congruence). reflexivity.
      + destruct (b mod 32 <? 28) eqn:E3; [|discriminate].
        destruct (take _ t) as [[w r']|] eqn:T; [|discriminate]. assert (be_value w = v /\ r' = []) as [<- ->] by (split; congruence).
        assert (T' : take (N.to_nat (2 ^ (b mod 32 - 24))) (t ++ r) = Some (w, r)) by (apply local_take; eauto). now rewrite T'.
  Qed.

  Lemma local_bytes : local dec_bytes.
  Proof.
    intros i v r. unfold dec_bytes. split.
    - destruct (head 2 i) as [[n t]|] eqn:Hh; [|discriminate]. destruct (take (N.to_nat n) t) as [[w r']|] eqn:T; [|discriminate].
      destruct (forallb _ w) eqn:Fb; [|discriminate]. intros E. assert (w = v /\ r' = r) as [-> ->] by (split; congruence).
      apply local_head in Hh as (e & -> & Hh). apply local_take in T as (e' & -> & T).
      exists (e ++ e'). split; [now rewrite app_assoc|].
      assert (head 2 (e ++ e') = Some (n, e')) as -> by (apply local_head; eauto). now rewrite T, Fb.
    - intros (e & -> & H). destruct (head 2 e) as [[n t]|] eqn:Hh; [|discriminate].
      destruct (take (N.to_nat n) t) as [[w r']|] eqn:T; [|discriminate].
      destruct (forallb _ w) eqn:Fb; [|discriminate]. assert (w = v /\ r' = []) as [-> ->] by (split; congruence).
      apply local_head in Hh as (e' & -> & Hh).
      assert (head 2 ((e' ++ t) ++ r) = Some (n, t ++ r)) as -> by (apply local_head; exists e'; now rewrite <- app_assoc).
      assert (take (N.to_nat n) (t ++ r) = Some (v, r)) as -> by (apply local_take; eauto). now rewrite Fb.
  Qed.

  Definition is_u64 (n : N) (e : list N) : Prop := dec_u64 e = Some (n, []).
  Definition is_bytes (v : list N) (e : list N) : Prop := dec_bytes e = Some (v, []).

  Lemma bytes_valid v e : is_bytes v e -> bytes_ok v.
  Proof.
    unfold is_bytes, dec_bytes. destruct (head 2 e) as [[n t]|]; [|discriminate]. destruct (take _ t) as [[w r']|]; [|discriminate].
    destruct (forallb _ w) eqn:Fb; [|discriminate]. intros E. assert (w = v) as -> by congruence.
    rewrite forallb_forall in Fb. apply Forall_forall. intros x Hx. specialize (Fb x Hx). cbn in Fb. lia.
  Qed.

  Theorem C56_parse_cbor : forall input l, parse dec_u64 dec_bytes input = Done l <->
    l <> [] /\ exists h es, (h = 0 \/ h = 1) /\ input = h :: es /\ witness_bytes is_u64 is_bytes l es.
  Proof. apply C56_parse; [apply (local_head 0)|apply local_bytes|apply bytes_valid]. Qed.

  (** A witness: hash, account leaf with nonce, balance and code hash, branch. *)
  Definition sample : list N :=
    [1; 0x04; 0x42; 0x60; 0x00; 0x05; 0x43; 0x01; 0xAB; 0xC0; 0x0D; 0x18; 0x64; 0x42; 0x01; 0x02; 0x19; 0x01; 0x00; 0x06; 0x02; 0x19; 0x80; 0x01].
  Example C56_example : parse dec_u64 dec_bytes sample =
    Done [ICode [0x60; 0]; IAccountLeaf [10; 11; 12]%nat (Some 100) (Some 258) true false; IEmptyRoot; IBranch 0x8001] /\
    parse dec_u64 dec_bytes [2; 6] = Fail /\ parse dec_u64 dec_bytes [0] = Fail /\ parse dec_u64 dec_bytes (sample ++ [9]) = Fail /\
    parse dec_u64 dec_bytes ([0; 0x05; 0x41; 0x05; 0x08; 0x58; 33] ++ repeat 1 33) = Crash.
  Proof. vm_compute. auto. Qed.
End Cbor.

(** Parsing does not always return: a balance of more than 32 bytes panics
    ([U256::from_big_endian]). *)
Theorem C56_no_panic_refuted : exists input, parse Cbor.dec_u64 Cbor.dec_bytes input = Crash.
Proof. exists ([0; 0x05; 0x41; 0x05; 0x08; 0x58; 33] ++ repeat 1 33). vm_compute. reflexivity. Qed.
Print Assumptions C56_no_panic_refuted.
