(** The Keccak sponge table: C83. *)
From Coq Require Import ZArith List Lia Bool Arith Permutation.
From Coq Require Import ZifyBool ZifyNat.
From Verif Require Import Stark.Field Stark.ArithModel Stark.LogicModel Stark.LogicProps Stark.MemModel Stark.MemSound Stark.Lookup
  Keccak.KeccakSpec Keccak.SpongeModel Keccak.SpongeFacts Keccak.SpongeSound.
Import ListNotations.
Local Open Scope Z_scope.

(** * Specification *)

Definition byte (b : Z) : Prop := 0 <= b < 256.

(** What the CPU must find for a hash: the address, the length, the time and
    the eight limbs of the digest. *)
Definition hash_claim (f : list Z -> list Z) (c g v ts : Z) (m : list Z) : list Z :=
  [c; g; v; Z.of_nat (length m); ts] ++ limbs (be_value (keccak256 f m)).
(** The read of one byte, in the columns of the memory table. *)
Definition byte_read (c g v ts b : Z) : list Z := [1; c; g; v; b] ++ repeat 0 7 ++ [ts].

(** Rows [s .. i] read exactly the message, byte k at virtual address v + k. *)
Definition reads_message (t : list row) (s i : nat) (c g v ts : Z) (m : list Z) : Prop :=
  forall j b, (s <= j <= i)%nat -> (b < 136)%nat ->
    let k := (136 * (j - s) + b)%nat in
    if (k <? length m)%nat then sp_memory_filter b (trow_at t j) = 1 /\ sp_memory b (trow_at t j) = byte_read c g (v + Z.of_nat k) ts (nth k m 0)
    else sp_memory_filter b (trow_at t j) = 0.

(** Row [j] belongs to the operation that ends in row [i]. *)
Definition of_operation (t : list row) (j i : nat) : Prop := (j <= i)%nat /\ forall k, (j <= k < i)%nat -> trow_at t k S_FULL = 1.

(** * C83, soundness *)

Lemma filter_bit : forall x, bit x -> x mod P <> 0 -> x = 1.
Proof. intros x [-> | ->] H; [exfalso; apply H; reflexivity|reflexivity]. Qed.

Lemma sum_pads : forall r k, (k <= 136)%nat -> (forall j, (j < 136)%nat -> is_pad r j = (if (k <=? j)%nat then 1 else 0)) ->
  sum (map (is_pad r) (seq 0 136)) = 136 - Z.of_nat k.
Proof.
  intros r k Hk H. assert (G : forall n, (n <= 136)%nat -> sum (map (is_pad r) (seq 0 n)) = Z.of_nat (n - k)).
  { induction n as [|n IH]; intros Hn; [reflexivity|]. rewrite seq_S, map_app.
    assert (SA : forall a x, sum (a ++ [x]) = sum a + x) by (induction a as [|y a IHa]; intros x; [cbn [app]; rewrite sum_cons; cbn [sum fold_right]; ring|cbn [app]; rewrite !sum_cons, IHa; ring]).
    cbn [map Nat.add]. rewrite SA, IH, H by lia. destruct (Nat.leb_spec k n); lia. }
  rewrite G by lia. lia.
Qed.

(** If the digest bytes of the final row are bytes, if the exclusive ors and
    the permutations of its operation are right, and if it is not the last
    row of the table, then what the CPU sees is the Keccak-256 digest of the
    bytes that the operation reads from memory.  The full claim would need
    neither of the first and the last condition: see the refutations. *)
Theorem C83_sponge_sound_partial : forall f t i,
  sponge_table_ok t -> 136 * Z.of_nat (length t) < P -> logic_served t ->
  (S i < length t)%nat -> sp_looked_filter (trow_at t i) mod P <> 0 ->
  (forall j, of_operation t j i -> permuted f (trow_at t j)) ->
  digest_is_bytes (trow_at t i) ->
  exists s c g v ts m, (s <= i)%nat /\ Forall byte m /\
    sp_looked_data (trow_at t i) = hash_claim f c g v ts m /\ reads_message t s i c g v ts m.
Proof.
  intros f t i OK SM LOG Hi NZ PERM DB.
  assert (MEAN : meaning t) by (destruct OK as (H & _ & C); apply read_meaning; assumption). destruct MEAN as (LOC & START & STEP).
  assert (FIN : is_final (trow_at t i) = 1) by (apply filter_bit; [apply (lo_pad _ (LOC i ltac:(lia))); unfold KECCAK_RATE_BYTES; lia|exact NZ]).
  destruct (op_start t OK i ltac:(lia) (or_intror FIN)) as (s & Hs & S0 & SF).
  pose proof (op_absorbed t OK SM s i ltac:(lia) S0 SF) as AB.
  assert (OFOP : forall j, (s <= j <= i)%nat -> of_operation t j i) by (intros j Hj; split; [lia|]; intros k Hk; apply SF; lia).
  pose proof (op_states f t OK SM LOG s i ltac:(lia) S0 SF (fun j Hj => PERM j (OFOP j ltac:(lia))) (i - s)%nat ltac:(lia)) as STI. replace (s + (i - s))%nat with i in STI by lia.
  destruct (row_inputs t OK SM LOG i ltac:(lia) (or_intror FIN)) as [EI EC].
  pose proof (PERM i (OFOP i ltac:(lia))) as PM. unfold permuted in PM. fold (inputs (trow_at t i)) in PM. rewrite outputs_eq, reduced_canonical, EI, STI in PM by exact EC.
  destruct (pads_shape t OK (trow_at t i) (LOC i (Nat.lt_succ_l _ _ Hi)) FIN) as (k & Hk & PADS).
  set (bs := map (fun j => blk (trow_at t j)) (seq s (i - s))) in *. set (b := blk (trow_at t i)) in *.
  assert (HB : Forall (fun b => length b = 136%nat) bs) by (unfold bs; rewrite Forall_map; apply Forall_forall; intros j _; apply blk_length).
  assert (LB : length bs = (i - s)%nat) by (unfold bs; rewrite map_length, seq_length; reflexivity).
  assert (BYT : forall j q, (q < 136)%nat -> byte (block_byte (trow_at t j) q)) by (intros j q Hq; apply block_range; assumption).
  destruct (pad_last bs b k HB (blk_length _) Hk) as [PD LM].
  { intros j Hj. unfold b, blk. rewrite nth_map_seq by lia. rewrite Nat.add_0_l. rewrite (st_pad _ _ (STEP i Hi) j ltac:(lia)) by (rewrite PADS by lia; replace (k <=? j)%nat with true by lia; reflexivity).
    unfold pad_byte. destruct (Nat.eqb_spec j 135) as [->|N].
    - rewrite PADS by lia. destruct (k <=? 134)%nat; reflexivity.
    - destruct (Nat.ltb_spec 0 j) as [J|J]; cbn [andb].
      + rewrite PADS by lia. destruct (Nat.leb_spec k (j - 1)); [replace (j =? k)%nat with false by lia|replace (j =? k)%nat with true by lia]; reflexivity.
      + replace (j =? k)%nat with true by lia. reflexivity. }
  set (m := concat bs ++ firstn k b) in *. rewrite LB in LM.
  destruct (AB (i - s)%nat ltac:(lia)) as (Ai & Ci & Gi & Vi & Ti). replace (s + (i - s))%nat with i in Ai, Ci, Gi, Vi, Ti by lia.
  exists s, (trow_at t s S_CONTEXT), (trow_at t s S_SEGMENT), (trow_at t s S_VIRT), (trow_at t s S_TIMESTAMP), m.
  assert (NB : forall j q, (s <= j <= i)%nat -> (q < 136)%nat -> (136 * (j - s) + q < length m)%nat -> nth (136 * (j - s) + q) m 0 = block_byte (trow_at t j) q).
  { intros j q Hj Hq Hl. assert (LC : length (concat bs) = (136 * (i - s))%nat) by (rewrite <- LB; clear -HB; induction bs as [|c l IH]; [reflexivity|]; inversion HB; subst; cbn [concat length]; rewrite app_length, IH by assumption; lia).
    unfold m. destruct (Nat.eq_dec j i) as [->|N].
    - rewrite app_nth2 by lia. rewrite LC. replace (136 * (i - s) + q - 136 * (i - s))%nat with q by lia.
      assert (q < k)%nat by lia. transitivity (nth q b 0).
      + rewrite <- (firstn_skipn k b) at 2. rewrite app_nth1; [reflexivity|]. rewrite firstn_length. unfold b. rewrite blk_length. lia.
      + unfold b, blk. apply nth_map_seq. exact Hq.
    - rewrite app_nth1 by lia. clear -HB Hj Hq N LB. assert (G : forall (l : list (list Z)) n, Forall (fun b => length b = 136%nat) l -> (n < length l)%nat -> nth (136 * n + q) (concat l) 0 = nth q (nth n l []) 0).
      { induction l as [|c l IH]; intros n HL Hn; [cbn [length] in Hn; lia|]. inversion HL; subst. cbn [concat]. destruct n as [|n].
        - rewrite Nat.mul_0_r, Nat.add_0_l. rewrite app_nth1 by lia. reflexivity.
        - rewrite app_nth2 by lia. rewrite H1. replace (136 * S n + q - 136)%nat with (136 * n + q)%nat by lia. cbn [nth]. apply IH; [assumption|cbn [length] in Hn; lia]. }
      rewrite G by (try exact HB; lia). unfold bs. rewrite (nth_indep _ [] (blk (trow_at t 0))) by (rewrite map_length, seq_length; lia). rewrite (map_nth (fun j => blk (trow_at t j))), seq_nth by lia.
      replace (s + (j - s))%nat with j by lia. unfold blk. apply nth_map_seq. exact Hq. }
  split; [exact Hs|]. split; [|split].
  - unfold m. apply Forall_app. assert (FB : forall j, Forall byte (blk (trow_at t j))) by (intros j; unfold blk; rewrite Forall_map; apply Forall_forall; intros q Hq; apply in_seq in Hq; apply BYT; lia).
    split.
    + unfold bs. apply Forall_concat. rewrite Forall_map. apply Forall_forall. intros j _. apply FB.
    + specialize (FB i). fold b in FB. rewrite <- (firstn_skipn k b) in FB. apply Forall_app in FB. apply FB.
  - unfold sp_looked_data, hash_claim. rewrite Ci, Gi, Vi, Ti, Ai. change KECCAK_RATE_BYTES with 136%nat. rewrite (sum_pads _ k) by (try exact PADS; lia). rewrite looked_digest by exact DB.
    apply f_equal2; [rewrite LM; repeat f_equal; lia|]. f_equal. f_equal. rewrite <- squeeze_digest by exact DB. rewrite PM. unfold keccak256. rewrite PD, blocks_concat.
    + f_equal. unfold absorb. rewrite fold_left_app. reflexivity.
    + apply Forall_app. split; [exact HB|]. constructor; [apply blk_length|constructor].
  - intros j q Hj Hq. cbv zeta. destruct (AB (j - s)%nat ltac:(lia)) as (Aj & Cj & Gj & Vj & Tj). replace (s + (j - s))%nat with j in Aj, Cj, Gj, Vj, Tj by lia.
    assert (FL : sp_memory_filter q (trow_at t j) = if (136 * (j - s) + q <? length m)%nat then 1 else 0).
    { rewrite LM. unfold sp_memory_filter. change (KECCAK_RATE_BYTES - 1)%nat with 135%nat. destruct (Nat.eq_dec j i) as [->|N].
      - assert (F0 : trow_at t i S_FULL = 0) by (destruct (lo_full _ (LOC i ltac:(lia))) as [E|E]; [exact E|exfalso; apply (lo_excl _ (LOC i ltac:(lia))); auto]). rewrite F0, FIN.
        rewrite PADS by exact Hq. destruct (Nat.eqb_spec q 135); [replace (136 * (i - s) + q <? 136 * (i - s) + k)%nat with false by lia; reflexivity|].
        destruct (Nat.leb_spec k q); [replace (136 * (i - s) + q <? 136 * (i - s) + k)%nat with false by lia|replace (136 * (i - s) + q <? 136 * (i - s) + k)%nat with true by lia]; reflexivity.
      - pose proof (SF j ltac:(lia)) as F1. pose proof (LOC j ltac:(lia)) as LJ. assert (F0 : is_final (trow_at t j) = 0).
        { destruct (lo_pad _ LJ 135%nat ltac:(lia)) as [E|E]; [exact E|]. exfalso. apply (lo_excl _ LJ). split; [exact F1|exact E]. }
        assert (Pq : is_pad (trow_at t j) q = 0).
        { destruct (lo_pad _ LJ q Hq) as [E|E]; [exact E|]. exfalso.
          assert (M : forall n, (q + n <= 135)%nat -> is_pad (trow_at t j) (q + n) = 1).
          { induction n as [|n IHn]; intros Hn; [rewrite Nat.add_0_r; exact E|]. rewrite Nat.add_succ_r. apply (lo_mono _ LJ); [lia|apply IHn; lia]. }
          specialize (M (135 - q)%nat ltac:(lia)). replace (q + (135 - q))%nat with 135%nat in M by lia. change (is_final (trow_at t j) = 1) in M. rewrite F0 in M. discriminate. }
        rewrite F1, F0, Pq. replace (136 * (j - s) + q <? 136 * (i - s) + k)%nat with true by nia. destruct (q =? 135)%nat; reflexivity. }
    rewrite FL. destruct (Nat.ltb_spec (136 * (j - s) + q) (length m)) as [L|L]; [|reflexivity]. split; [reflexivity|].
    unfold sp_memory, byte_read. rewrite Cj, Gj, Vj, Tj, Aj. rewrite NB by assumption. replace (trow_at t s S_VIRT + 136 * Z.of_nat (j - s) + Z.of_nat q) with (trow_at t s S_VIRT + Z.of_nat (136 * (j - s) + q)) by (clear; lia). reflexivity.
Qed.
Print Assumptions C83_sponge_sound_partial.
