(** Padding, sponge and key derivation. *)

From Coq Require Import List Arith NArith ZArith Lia Bool ZifyN ZifyNat ZifyBool.
From Verif.Smt Require Import SmtModel SmtSpec KeyProofs SmtHistory BitsModel CodeModel CodeSpec.
Import ListNotations.
Local Open Scope nat_scope.

Ltac Zify.zify_post_hook ::= Z.div_mod_to_equations.

(** ** Padding *)

Lemma pad_zeros_spec : forall fuel l, 0 < length l -> (56 - length l mod 56) mod 56 <= fuel ->
  pad_zeros fuel l = l ++ repeat 0%N ((56 - length l mod 56) mod 56).
Proof.
  induction fuel as [|f IH]; intros l Hl Hf; cbn [pad_zeros].
  - replace ((56 - length l mod 56) mod 56) with 0 by lia. rewrite app_nil_r. reflexivity.
  - destruct (length l mod 56 =? 0) eqn:E.
    + apply Nat.eqb_eq in E. rewrite E. cbn. rewrite app_nil_r. reflexivity.
    + apply Nat.eqb_neq in E.
      assert (A : (56 - length l mod 56) mod 56 = S ((56 - length (l ++ [0%N]) mod 56) mod 56)) by (rewrite app_length; cbn [length]; lia).
      rewrite IH by (rewrite ?app_length in *; cbn [length] in *; lia). rewrite A. cbn [repeat]. rewrite <- app_assoc. reflexivity.
Qed.

(** Zeros appended after the first padding byte. *)
Definition padn (n : nat) : nat := (55 - n mod 56).

Lemma pad_eq : forall l, poseidon_pad_byte_vec l =
  match padn (length l) with
  | O => l ++ [0x81%N]
  | S z => l ++ 0x01%N :: repeat 0%N z ++ [0x80%N]
  end.
Proof.
  intros l. unfold poseidon_pad_byte_vec. rewrite pad_zeros_spec; rewrite ?app_length; cbn [length]; [|lia|lia].
  replace ((56 - (length l + 1) mod 56) mod 56) with (padn (length l)) by (unfold padn; lia).
  unfold or_last. destruct (padn (length l)) as [|z].
  - cbn [repeat]. rewrite app_nil_r, rev_app_distr. cbn [rev app]. rewrite rev_involutive. reflexivity.
  - replace (repeat 0%N (S z)) with (repeat 0%N z ++ [0%N]) by (clear; induction z; cbn; [reflexivity|f_equal; assumption]).
    rewrite app_assoc, rev_app_distr. cbn [rev app]. rewrite rev_involutive, <- !app_assoc. reflexivity.
Qed.

Lemma pad_length : forall l, length (poseidon_pad_byte_vec l) = 56 * (length l / 56 + 1).
Proof.
  intros l. rewrite pad_eq. destruct (padn (length l)) as [|z] eqn:E; unfold padn in E; rewrite app_length; cbn [length].
  - lia.
  - rewrite app_length, repeat_length. cbn [length]. lia.
Qed.

Lemma pad_bytes : forall l, is_bytes l -> is_bytes (poseidon_pad_byte_vec l).
Proof.
  intros l H. rewrite pad_eq. destruct (padn (length l)) as [|z].
  - apply Forall_app. split; [exact H|]. constructor; [reflexivity|constructor].
  - apply Forall_app. split; [exact H|]. constructor; [reflexivity|]. apply Forall_app. split.
    + apply Forall_forall. intros x Hx. apply repeat_spec in Hx. subst. reflexivity.
    + constructor; [reflexivity|constructor].
Qed.

(** Reads the padding back, on the reversed bytes. *)
Fixpoint drop_zeros (l : list N) : list N :=
  match l with
  | 0%N :: r => drop_zeros r
  | _ => l
  end.
Definition unpad (l : list N) : list N :=
  match rev l with
  | 0x81%N :: r => rev r
  | _ :: r => rev (tl (drop_zeros r))
  | [] => []
  end.

Lemma drop_zeros_repeat : forall z l, drop_zeros (repeat 0%N z ++ 1%N :: l) = 1%N :: l.
Proof. induction z as [|z IH]; intros l; cbn; auto. Qed.

Lemma rev_repeat : forall (A : Type) (x : A) n, rev (repeat x n) = repeat x n.
Proof.
  intros A x n. induction n as [|n IH]; [reflexivity|]. cbn [repeat rev]. rewrite IH.
  clear. induction n; cbn; [reflexivity|f_equal; assumption].
Qed.

Lemma unpad_pad : forall l, unpad (poseidon_pad_byte_vec l) = l.
Proof.
  intros l. rewrite pad_eq. unfold unpad. destruct (padn (length l)) as [|z].
  - rewrite rev_app_distr. cbn [rev app]. apply rev_involutive.
  - rewrite rev_app_distr. cbn [rev]. rewrite rev_app_distr. cbn [rev app]. rewrite rev_repeat, <- app_assoc. cbn [app].
    rewrite drop_zeros_repeat. cbn [tl]. apply rev_involutive.
Qed.

Lemma pad_inj : forall a b, poseidon_pad_byte_vec a = poseidon_pad_byte_vec b -> a = b.
Proof. intros a b H. rewrite <- (unpad_pad a), <- (unpad_pad b), H. reflexivity. Qed.

(** ** Blocks *)

Lemma le_bytes_inj : forall a b, length a = length b -> is_bytes a -> is_bytes b -> from_le_bytes a = from_le_bytes b -> a = b.
Proof.
  induction a as [|x a IH]; intros [|y b] Hl Ha Hb H; cbn in Hl; try discriminate; [reflexivity|].
  cbn [from_le_bytes] in H. inversion Ha; inversion Hb; subst. assert (x = y) by lia. subst y. f_equal. apply IH; auto. lia.
Qed.

Lemma le_bytes_lt : forall a, is_bytes a -> (from_le_bytes a < 256 ^ N.of_nat (length a))%N.
Proof.
  induction a as [|x a IH]; intros H; [reflexivity|]. inversion H; subst. specialize (IH H3). cbn [from_le_bytes length].
  rewrite Nat2N.inj_succ, N.pow_succ_r'. nia.
Qed.

Lemma bytes_firstn : forall n l, is_bytes l -> is_bytes (firstn n l).
Proof. intros n l H. rewrite <- (firstn_skipn n l) in H. apply Forall_app in H. apply H. Qed.
Lemma bytes_skipn : forall n l, is_bytes l -> is_bytes (skipn n l).
Proof. intros n l H. rewrite <- (firstn_skipn n l) in H. apply Forall_app in H. apply H. Qed.

Lemma block_elt_inj : forall i a b, length a = 56 -> length b = 56 -> is_bytes a -> is_bytes b -> i < 8 ->
  block_elt a i = block_elt b i -> firstn 7 (skipn (7 * i) a) = firstn 7 (skipn (7 * i) b).
Proof.
  intros i a b La Lb Ha Hb Hi H. apply le_bytes_inj; [| | |exact H]; try apply bytes_firstn, bytes_skipn; auto.
  rewrite !firstn_length, !skipn_length. lia.
Qed.

Lemma skipn_skipn : forall (A : Type) n m (l : list A), skipn n (skipn m l) = skipn (n + m) l.
Proof.
  intros A n m. revert n. induction m as [|m IH]; intros n l; [rewrite Nat.add_0_r; reflexivity|].
  rewrite Nat.add_succ_r. destruct l as [|x l]; [rewrite !skipn_nil; reflexivity|]. cbn [skipn]. apply IH.
Qed.

Lemma block_inj : forall a b c c', length a = 56 -> length b = 56 -> is_bytes a -> is_bytes b ->
  absorb c a = absorb c' b -> a = b /\ c = c'.
Proof.
  intros a b c c' La Lb Ha Hb H. unfold absorb, block_lo, block_hi in H. inversion H. split; [|reflexivity].
  assert (G : forall i, i < 8 -> firstn 7 (skipn (7 * i) a) = firstn 7 (skipn (7 * i) b)).
  { intros i Hi. apply block_elt_inj; auto. do 8 (destruct i as [|i]; [assumption|]). lia. }
  assert (S : forall n i, i + n = 8 -> skipn (7 * i) a = skipn (7 * i) b).
  { induction n as [|n IH]; intros i Hi.
    - rewrite !skipn_all2 by lia. reflexivity.
    - rewrite <- (firstn_skipn 7 (skipn (7 * i) a)), <- (firstn_skipn 7 (skipn (7 * i) b)). f_equal; [apply G; lia|].
      rewrite !skipn_skipn. replace (7 + 7 * i) with (7 * S i) by lia. apply IH. lia. }
  apply (S 8 0). reflexivity.
Qed.

(** The blocks of a sequence of [n] blocks. *)
Lemma chunks_spec : forall n fuel l, length l = 56 * n -> n <= fuel -> is_bytes l ->
  length (chunks_exact fuel 56 l) = n /\ concat (chunks_exact fuel 56 l) = l /\
  Forall (fun b => length b = 56 /\ is_bytes b) (chunks_exact fuel 56 l).
Proof.
  induction n as [|n IH]; intros fuel l Hl Hf Hb.
  - destruct l; [|cbn in Hl; lia]. destruct fuel; cbn; auto.
  - destruct fuel as [|f]; [lia|]. cbn [chunks_exact].
    replace (length l <? 56) with false by (symmetry; apply Nat.ltb_ge; lia).
    destruct (IH f (skipn 56 l)) as (A & B & C); [rewrite skipn_length; lia|lia|apply bytes_skipn, Hb|].
    split; [cbn [length]; lia|]. split; [cbn [concat]; rewrite B; apply firstn_skipn|].
    constructor; [|exact C]. split; [rewrite firstn_length; lia|apply bytes_firstn, Hb].
Qed.

(** ** Sponge *)

Section Poseidon.
Variable pos : node -> quad.

Definition sponge (c : quad) (bs : list (list N)) : quad := fold_left (fun capacity block => pos (absorb capacity block)) bs c.

Lemma absorbed_app : forall a b c, absorbed pos c (a ++ b) = absorbed pos c a ++ absorbed pos (sponge c a) b.
Proof. induction a as [|x a IH]; intros b c; cbn [app absorbed]; [reflexivity|]. rewrite IH. reflexivity. Qed.

Lemma sponge_snoc : forall a x c, sponge c (a ++ [x]) = pos (absorb (sponge c a) x).
Proof. intros. unfold sponge. rewrite fold_left_app. reflexivity. Qed.

Lemma sponge_inj : forall D a b, separates pos D ->
  Forall (fun b => length b = 56 /\ is_bytes b) a -> Forall (fun b => length b = 56 /\ is_bytes b) b ->
  incl (absorbed pos zero a) D -> incl (absorbed pos zero b) D -> sponge zero a = sponge zero b -> a = b.
Proof.
  intros D. induction a as [|x a IH] using rev_ind; intros b HD Ha Hb Ia Ib H.
  - destruct b as [|y b] using rev_ind; [reflexivity|]. exfalso. rewrite sponge_snoc in H. cbn in H.
    apply (proj2 HD (absorb (sponge zero b) y)); [|auto]. apply Ib. rewrite absorbed_app. apply in_app_iff. right. left. reflexivity.
  - destruct b as [|y b _] using rev_ind.
    + exfalso. rewrite sponge_snoc in H. cbn in H.
      apply (proj2 HD (absorb (sponge zero a) x)); [|auto]. apply Ia. rewrite absorbed_app. apply in_app_iff. right. left. reflexivity.
    + rewrite !sponge_snoc in H. rewrite absorbed_app in Ia, Ib. apply Forall_app in Ha, Hb.
      destruct Ha as [Ha Hx], Hb as [Hb Hy]. inversion Hx as [|? ? [X1 X2] _]; inversion Hy as [|? ? [Y1 Y2] _]; subst.
      apply (proj1 HD) in H; [|apply Ia, in_app_iff; right; left; reflexivity|apply Ib, in_app_iff; right; left; reflexivity].
      apply block_inj in H; auto. destruct H as [-> H]. f_equal. apply IH; auto.
      * intros n Hn. apply Ia, in_app_iff. auto.
      * intros n Hn. apply Ib, in_app_iff. auto.
Qed.

Lemma code_hash_inj : forall a b, is_bytes a -> is_bytes b -> separates pos (code_states pos a ++ code_states pos b) ->
  hash_contract_bytecode pos a = hash_contract_bytecode pos b -> a = b.
Proof.
  intros a b Ha Hb HD H. apply pad_inj. unfold hash_contract_bytecode, poseidon_hash_padded_byte_vec in H.
  pose proof (chunks_spec _ (length (poseidon_pad_byte_vec a)) _ (pad_length a) ltac:(rewrite pad_length; lia) (pad_bytes a Ha)) as (_ & A2 & A3).
  pose proof (chunks_spec _ (length (poseidon_pad_byte_vec b)) _ (pad_length b) ltac:(rewrite pad_length; lia) (pad_bytes b Hb)) as (_ & B2 & B3).
  rewrite <- A2, <- B2. f_equal. apply (sponge_inj _ _ _ HD A3 B3); [| |exact H].
  - intros n Hn. apply in_app_iff. left. exact Hn.
  - intros n Hn. apply in_app_iff. right. exact Hn.
Qed.

(** ** Keys *)

Lemma nth_byte : forall l i, is_bytes l -> (byte_at l i < 256)%N.
Proof.
  intros l i H. unfold byte_at. destruct (le_lt_dec (length l) i) as [L|L]; [rewrite nth_overflow by exact L; reflexivity|].
  apply (proj1 (Forall_forall _ _) H). apply nth_In. exact L.
Qed.

Lemma addr_elt_inj : forall a b i, is_bytes a -> is_bytes b -> addr_elt a i = addr_elt b i ->
  forall j, j < 4 -> byte_at a (16 - 4 * i + j) = byte_at b (16 - 4 * i + j).
Proof.
  intros a b i Ha Hb H j Hj. unfold addr_elt in H.
  pose proof (fun k => nth_byte a k Ha) as A. pose proof (fun k => nth_byte b k Hb) as B.
  set (o := 16 - 4 * i) in *.
  pose proof (A o). pose proof (A (o + 1)). pose proof (A (o + 2)). pose proof (A (o + 3)).
  pose proof (B o). pose proof (B (o + 1)). pose proof (B (o + 2)). pose proof (B (o + 3)).
  replace (o + 0) with o in * by lia.
  destruct j as [|[|[|[|j]]]]; [replace (o + 0) with o by lia| | | |]; lia.
Qed.

Lemma key_input_inj : forall a b k k' c c', length a = 20 -> length b = 20 -> is_bytes a -> is_bytes b ->
  key_input a k c = key_input b k' c' -> a = b /\ k = k' /\ c = c'.
Proof.
  intros a b k k' c c' La Lb Ha Hb H. unfold key_input in H. inversion H. repeat split.
  apply nth_ext with (d := 0%N) (d' := 0%N); [congruence|]. intros n Hn. fold (byte_at a n). fold (byte_at b n).
  assert (G : forall i, i < 5 -> addr_elt a i = addr_elt b i) by (intros i Hi; do 5 (destruct i as [|i]; [assumption|]); lia).
  pose proof (addr_elt_inj a b (4 - n / 4) Ha Hb (G (4 - n / 4) ltac:(lia)) (n mod 4) ltac:(lia)) as R.
  replace (16 - 4 * (4 - n / 4) + n mod 4) with n in R by lia. exact R.
Qed.

Lemma slot_input_inj : forall s s', (s < 2 ^ 256)%N -> (s' < 2 ^ 256)%N -> slot_input s = slot_input s' -> s = s'.
Proof.
  intros s s' Hs Hs' H. apply (value_node_inj s s' Hs Hs'). exact H.
Qed.

Lemma entry_key_inj : forall e e', entry_valid e -> entry_valid e' ->
  separates pos (entry_states pos e ++ entry_states pos e') -> entry_key pos e = entry_key pos e' -> e = e'.
Proof.
  intros e e' He He' HD H.
  assert (I : forall n m, In n (entry_states pos e) -> In m (entry_states pos e') -> pos n = pos m -> n = m).
  { intros n m Hn Hm. apply (proj1 HD); apply in_app_iff; auto. }
  destruct e as [a|a|a|a s|a], e' as [b|b|b|b s'|b]; cbn [entry_key entry_valid entry_states] in *;
    unfold key_balance, key_nonce, key_code, key_storage, key_code_length in H;
    match type of H with pos ?n = pos ?m => apply (I n m) in H; [|cbn; tauto|cbn; tauto] end;
    apply key_input_inj in H; try tauto; destruct H as (-> & K & C); try discriminate; try reflexivity.
  apply I in C; [|cbn; tauto|cbn; tauto]. apply slot_input_inj in C; [|tauto|tauto]. subst. reflexivity.
Qed.

End Poseidon.
