(** An operation in an accepted sponge table computes Keccak-256. *)
From Coq Require Import ZArith List Lia Bool Arith.
From Coq Require Import ZifyBool ZifyNat.
From Verif Require Import Stark.Field Stark.ArithModel Stark.LogicModel Stark.LogicProps Stark.MemModel Stark.MemSound Stark.Lookup
  Keccak.KeccakSpec Keccak.SpongeModel Keccak.SpongeFacts.
Import ListNotations.
Local Open Scope Z_scope.

(** * What the other tables contribute *)

Definition reduced (l : list Z) : list Z := map (fun x => x mod P) l.

(** Every exclusive or is one the logic table shows (C25). *)
Definition logic_served (t : list row) : Prop := forall j i, (j < length t)%nat -> (i < num_logic_ctls)%nat ->
  sp_logic_filter (trow_at t j) mod P <> 0 -> exists op a b, lword a /\ lword b /\ shows (reduced (sp_logic i (trow_at t j))) op a b.

(** The output of a row is the permutation of its input. *)
Definition permuted (f : list Z -> list Z) (r : row) : Prop :=
  reduced (firstn 50 (sp_keccak_outputs r)) = f (reduced (firstn 50 (sp_keccak_inputs r))).

Definition digest_is_bytes (r : row) : Prop := forall k, (k < 32)%nat -> 0 <= digest r k < 256.

(** * Lists *)

Lemma nth_map_seq : forall (g : nat -> Z) a n q, (q < n)%nat -> nth q (map g (seq a n)) 0 = g (a + q)%nat.
Proof. intros g a n q H. rewrite (nth_indep _ 0 (g 0%nat)) by (rewrite map_length, seq_length; exact H). rewrite map_nth, seq_nth by exact H. reflexivity. Qed.

Lemma nth_reduced : forall l q, (q < length l)%nat -> nth q (reduced l) 0 = nth q l 0 mod P.
Proof. intros l q H. unfold reduced. rewrite (nth_indep _ 0 (0 mod P)) by (rewrite map_length; exact H). apply (map_nth (fun x => x mod P)). Qed.

Lemma canon_mod : forall x, canonical x -> x mod P = x.
Proof. intros x H. apply Z.mod_small. exact H. Qed.

Lemma reduced_canonical : forall l, Forall canonical l -> reduced l = l.
Proof. induction l as [|x l IH]; intros H; [reflexivity|]. inversion H; subst. cbn [reduced map]. rewrite canon_mod by assumption. f_equal. apply IH. assumption. Qed.

(** * Exclusive or *)

Lemma limb_xor : forall a b n, 0 <= n -> (Z.lxor a b / 2 ^ n) mod 2^32 = Z.lxor ((a / 2 ^ n) mod 2^32) ((b / 2 ^ n) mod 2^32).
Proof.
  intros a b n Hn. rewrite <- !Z.shiftr_div_pow2 by exact Hn. rewrite <- !Z.land_ones by lia. apply Z.bits_inj'. intros i Hi.
  rewrite !Z.land_spec, Z.lxor_spec, !Z.land_spec, !Z.shiftr_spec, Z.lxor_spec by exact Hi. destruct (Z.testbit _ _), (Z.testbit _ _), (Z.testbit _ _); reflexivity.
Qed.

Lemma bitwise_lxor : forall a b c, 0 <= a -> 0 <= b -> is_bitwise xorb a b c -> c = Z.lxor a b.
Proof. intros a b c Ha Hb [_ H]. apply Z.bits_inj'. intros i Hi. rewrite Z.lxor_spec. apply H. exact Hi. Qed.

Lemma le4_bytes : forall (g : nat -> Z) i, (forall j, (4 * i <= j < 4 * i + 4)%nat -> 0 <= g j < 256) ->
  le4 g i = g (4 * i)%nat + 2^8 * g (4 * i + 1)%nat + 2^16 * g (4 * i + 2)%nat + 2^24 * g (4 * i + 3)%nat /\ 0 <= le4 g i < 2^32.
Proof.
  intros g i H. pose proof (H (4 * i)%nat ltac:(lia)). pose proof (H (4 * i + 1)%nat ltac:(lia)). pose proof (H (4 * i + 2)%nat ltac:(lia)). pose proof (H (4 * i + 3)%nat ltac:(lia)).
  assert (E : le4 g i = g (4 * i)%nat + 2^8 * g (4 * i + 1)%nat + 2^16 * g (4 * i + 2)%nat + 2^24 * g (4 * i + 3)%nat).
  { unfold le4. cbn [map seq sum fold_right]. rewrite Nat.add_0_r. change (2 ^ Z.of_nat (8 * 0)) with 1. change (2 ^ Z.of_nat (8 * 1)) with (2^8). change (2 ^ Z.of_nat (8 * 2)) with (2^16). change (2 ^ Z.of_nat (8 * 3)) with (2^24). ring. }
  split; [exact E|]. rewrite E. lia.
Qed.

Definition blk (r : row) : list Z := map (block_byte r) (seq 0 136).
Definition stin (r : row) : list Z := map (state_in r) (seq 0 50).
Definition inputs (r : row) : list Z := firstn 50 (sp_keccak_inputs r).

Lemma blk_length : forall r, length (blk r) = 136%nat.
Proof. intros r. unfold blk. rewrite map_length, seq_length. reflexivity. Qed.

Section Xor.
  Variable r : row.
  Hypothesis CAN : forall c, canonical (r c).
  Hypothesis BYT : forall j, (j < 136)%nat -> 0 <= block_byte r j < 256.
  Hypothesis LOG : forall i, (i < 5)%nat -> exists op a b, lword a /\ lword b /\ shows (reduced (sp_logic i r)) op a b.

  Lemma block_word : forall k, (k < 34)%nat -> le4 (block_byte r) k = le_word (blk r) k /\ 0 <= le4 (block_byte r) k < 2^32.
  Proof.
    clear CAN LOG. intros k Hk. destruct (le4_bytes (block_byte r) k) as [E B]; [intros j Hj; apply BYT; lia|]. split; [|exact B]. rewrite E. unfold le_word, blk.
    rewrite !nth_map_seq by lia. rewrite !Nat.add_0_l. reflexivity.
  Qed.

  Lemma xor_word : forall k, (k < 34)%nat -> xored r k = Z.lxor (rate r k) (le4 (block_byte r) k).
  Proof.
    intros k Hk. set (i := (k / 8)%nat). set (q := (k mod 8)%nat). pose proof (Nat.div_mod k 8 ltac:(lia)) as DM. fold i q in DM.
    assert (Hq : (q < 8)%nat) by (apply Nat.mod_upper_bound; lia). assert (Hi : (i < 5)%nat) by lia.
    destruct (LOG i Hi) as (op & a & b & Ha & Hb & c & BW & E).
    assert (OP : op = LXor).
    { apply (f_equal (fun l => nth 0 l 0)) in E. cbn [nth] in E. destruct op; [| |reflexivity]; vm_compute in E; discriminate. }
    subst op. apply bitwise_lxor in BW; [|apply Ha|apply Hb]. subst c.
    assert (LEN : forall g : nat -> Z, length (map g (seq (8 * i) 8)) = 8%nat) by (intros g; rewrite map_length, seq_length; reflexivity).
    assert (LL : forall x, length (limbs32 x) = 8%nat) by (intros x; unfold limbs32; rewrite map_length, seq_length; reflexivity).
    assert (ND : forall x, nth q (limbs32 x) 0 = (x / 2 ^ (32 * Z.of_nat q)) mod 2^32) by (intros x; unfold limbs32; rewrite nth_map_seq by exact Hq; reflexivity).
    assert (SZ : length (sp_logic i r) = 25%nat) by (unfold sp_logic; rewrite !app_length, !LEN; reflexivity).
    pose proof (f_equal (fun l => nth (1 + q) l 0) E) as E1. pose proof (f_equal (fun l => nth (9 + q) l 0) E) as E2. pose proof (f_equal (fun l => nth (17 + q) l 0) E) as E3. cbv beta in E1, E2, E3. clear E.
    rewrite nth_reduced in E1, E2, E3 by lia. unfold sp_logic in E1, E2, E3.
    change (evm_opcode LXor :: limbs32 a ++ limbs32 b ++ limbs32 (Z.lxor a b)) with ([evm_opcode LXor] ++ limbs32 a ++ limbs32 b ++ limbs32 (Z.lxor a b)) in E1, E2, E3.
    rewrite (app_nth2 [24]), (app_nth2 [evm_opcode LXor]) in E1, E2, E3 by (cbn [length]; lia). cbn [length] in E1, E2, E3.
    replace (1 + q - 1)%nat with q in E1 by lia. replace (9 + q - 1)%nat with (8 + q)%nat in E2 by lia. replace (17 + q - 1)%nat with (16 + q)%nat in E3 by lia.
    rewrite !app_nth1 in E1 by (rewrite ?LEN, ?LL; exact Hq).
    rewrite (app_nth2 (map _ _)), (app_nth2 (limbs32 a)) in E2, E3 by (rewrite ?LEN, ?LL; lia). rewrite LEN, LL in E2, E3.
    replace (8 + q - 8)%nat with q in E2 by lia. replace (16 + q - 8)%nat with (8 + q)%nat in E3 by lia.
    rewrite !app_nth1 in E2 by (rewrite ?LEN, ?LL; exact Hq).
    rewrite (app_nth2 (map _ _)), (app_nth2 (limbs32 b)) in E3 by (rewrite ?LEN, ?LL; lia). rewrite LEN, LL in E3. replace (8 + q - 8)%nat with q in E3 by lia.
    rewrite nth_map_seq in E1, E2, E3 by exact Hq. rewrite ND in E1, E2, E3. unfold u32_or_zero in E1, E2, E3. rewrite <- DM in E1, E2, E3.
    replace (k <? KECCAK_RATE_U32S)%nat with true in E1, E2, E3 by (unfold KECCAK_RATE_U32S; lia).
    rewrite canon_mod in E1 by apply CAN. rewrite canon_mod in E3 by apply CAN. destruct (block_word k Hk) as [_ B]. rewrite canon_mod in E2 by (unfold canonical, P; lia).
    rewrite E1, E2, E3. apply limb_xor. lia.
  Qed.

  Lemma inputs_xor : inputs r = xor_block (stin r) (blk r) /\ Forall canonical (inputs r).
  Proof.
    assert (I : inputs r = map (fun k => if (k <? 34)%nat then xored r k else capacity r (k - 34)) (seq 0 50)) by reflexivity.
    rewrite I. split.
    - unfold xor_block. apply map_ext_in. intros k Hk. apply in_seq in Hk. unfold stin. rewrite nth_map_seq by lia. rewrite Nat.add_0_l. unfold state_in. destruct (Nat.ltb_spec k 34) as [L|L].
      + rewrite xor_word by exact L. destruct (block_word k L) as [-> _]. reflexivity.
      + unfold le_word. rewrite !nth_overflow by (rewrite blk_length; lia). rewrite Z.lxor_0_r. reflexivity.
    - rewrite Forall_map. apply Forall_forall. intros k _. destruct (k <? 34)%nat; apply CAN.
  Qed.
End Xor.

Definition stout (r : row) : list Z := map (fun k => state_out r k mod P) (seq 0 50).
Lemma outputs_eq : forall r, reduced (firstn 50 (sp_keccak_outputs r)) = stout r.
Proof. reflexivity. Qed.

(** * Operations *)

Section Op.
  Variable f : list Z -> list Z.
  Variable t : list row.
  Hypothesis OK : sponge_table_ok t.
  Hypothesis SM : 136 * Z.of_nat (length t) < P.

  Let MEAN : meaning t.
  Proof. destruct OK as (H & _ & C). apply read_meaning; assumption. Qed.
  Let CAN : forall i c, canonical (trow_at t i c).
  Proof. destruct OK as (_ & _ & C). intros. apply cell_can. exact C. Qed.

  (** From any active row, back to the start of its operation. *)
  Lemma op_start : forall i, (i < length t)%nat -> is_active (trow_at t i) ->
    exists s, (s <= i)%nat /\ start_ok (trow_at t s) /\ (forall j, (s <= j < i)%nat -> trow_at t j S_FULL = 1).
  Proof.
    destruct MEAN as (LOC & START & STEP). induction i as [|i IH]; intros L A.
    - exists 0%nat. split; [lia|]. split; [apply START; lia|]. intros j Hj. lia.
    - pose proof (STEP i L) as S1. destruct (lo_full _ (LOC i ltac:(lia))) as [F|F].
      + destruct (lo_pad _ (LOC i ltac:(lia)) 135%nat ltac:(lia)) as [G|G]; change (is_pad (trow_at t i) 135) with (is_final (trow_at t i)) in G.
        * exfalso. apply (st_dummy _ _ S1); [|exact A]. unfold is_active. rewrite F, G. intros [X|X]; discriminate.
        * exists (S i). split; [lia|]. split; [apply (st_final _ _ S1 G)|]. intros j Hj. lia.
      + destruct (IH ltac:(lia) (or_introl F)) as (s & Hs & S0 & SF). exists s. split; [lia|]. split; [exact S0|]. intros j Hj. destruct (Nat.eq_dec j i) as [->|N]; [exact F|]. apply SF. lia.
  Qed.

  Lemma op_absorbed : forall s i, (s <= i < length t)%nat -> start_ok (trow_at t s) -> (forall j, (s <= j < i)%nat -> trow_at t j S_FULL = 1) ->
    forall k, (s + k <= i)%nat -> trow_at t (s + k) S_ABSORBED = 136 * Z.of_nat k /\
      trow_at t (s + k) S_CONTEXT = trow_at t s S_CONTEXT /\ trow_at t (s + k) S_SEGMENT = trow_at t s S_SEGMENT /\ trow_at t (s + k) S_VIRT = trow_at t s S_VIRT /\ trow_at t (s + k) S_TIMESTAMP = trow_at t s S_TIMESTAMP.
  Proof.
    destruct MEAN as (LOC & START & STEP). intros s i Hi S0 SF. induction k as [|k IH]; intros Hk.
    - rewrite Nat.add_0_r. destruct S0 as (-> & _). repeat split.
    - rewrite Nat.add_succ_r in *. destruct (IH ltac:(lia)) as (A & C1 & C2 & C3 & C4). pose proof (STEP (s + k)%nat ltac:(lia)) as S1. pose proof (SF (s + k)%nat ltac:(lia)) as F.
      rewrite (st_absorbed _ _ S1 F), A. destruct (st_keep _ _ S1 F) as (K1 & K2 & K3 & K4). rewrite K1, K2, K3, K4. split; [|auto].
      rewrite Z.mod_small by lia. lia.
  Qed.

  Lemma pads_shape : forall r, local_ok r -> is_final r = 1 -> exists k, (k <= 135)%nat /\ forall j, (j < 136)%nat -> is_pad r j = (if (k <=? j)%nat then 1 else 0).
  Proof.
    intros r LO F. change (is_pad r 135 = 1) in F.
    assert (G : forall n, (n <= 135)%nat -> exists k, (k <= 135)%nat /\ (forall j, (k <= j < 136)%nat -> is_pad r j = 1) /\ (k = (135 - n)%nat \/ (135 - n < k)%nat /\ is_pad r (k - 1) = 0)).
    { induction n as [|n IH]; intros Hn.
      - exists 135%nat. split; [lia|]. split; [intros j Hj; replace j with 135%nat by lia; exact F|left; reflexivity].
      - destruct (IH ltac:(lia)) as (k & Hk & Hp & [E|[E E0]]).
        + destruct (lo_pad _ LO (k - 1)%nat ltac:(lia)) as [Z0|Z1].
          * exists k. split; [exact Hk|]. split; [exact Hp|]. right. split; [lia|exact Z0].
          * exists (k - 1)%nat. split; [lia|]. split; [|left; lia]. intros j Hj. destruct (Nat.eq_dec j (k - 1)) as [->|N]; [exact Z1|apply Hp; lia].
        + exists k. split; [exact Hk|]. split; [exact Hp|]. right. split; [lia|exact E0]. }
    destruct (G 135%nat ltac:(lia)) as (k & Hk & Hp & Hz). exists k. split; [exact Hk|]. intros j Hj. destruct (Nat.leb_spec k j) as [L|L]; [apply Hp; lia|].
    destruct Hz as [Hz|[_ Hz]]; [lia|]. destruct (lo_pad _ LO j Hj) as [E|E]; [exact E|]. exfalso.
    assert (M : forall n, (j + n <= k - 1)%nat -> is_pad r (j + n) = 1).
    { induction n as [|n IHn]; intros Hn; [rewrite Nat.add_0_r; exact E|]. rewrite Nat.add_succ_r. apply (lo_mono _ LO); [lia|apply IHn; lia]. }
    specialize (M (k - 1 - j)%nat ltac:(lia)). replace (j + (k - 1 - j))%nat with (k - 1)%nat in M by lia. rewrite Hz in M. discriminate.
  Qed.

  Hypothesis LOG : logic_served t.

  Lemma row_inputs : forall i, (i < length t)%nat -> is_active (trow_at t i) -> inputs (trow_at t i) = xor_block (stin (trow_at t i)) (blk (trow_at t i)) /\ Forall canonical (inputs (trow_at t i)).
  Proof.
    intros i L A. apply inputs_xor; [apply CAN|intros j Hj; apply block_range; assumption|].
    intros k Hk. apply LOG; [exact L|exact Hk|]. unfold sp_logic_filter. destruct MEAN as (LOC & _ & _). specialize (LOC i L).
    pose proof (lo_excl _ LOC) as X. destruct (lo_full _ LOC) as [E|E]; destruct (lo_pad _ LOC 135%nat ltac:(lia)) as [G|G]; change (is_pad (trow_at t i) 135) with (is_final (trow_at t i)) in G; rewrite E, G; try discriminate; try tauto.
    unfold is_active in A. rewrite E, G in A. destruct A; discriminate.
  Qed.

  Lemma op_states : forall s i, (s <= i < length t)%nat -> start_ok (trow_at t s) -> (forall j, (s <= j < i)%nat -> trow_at t j S_FULL = 1) ->
    (forall j, (s <= j < i)%nat -> permuted f (trow_at t j)) ->
    forall k, (s + k <= i)%nat -> stin (trow_at t (s + k)) = absorb f (repeat 0 50) (map (fun j => blk (trow_at t j)) (seq s k)).
  Proof.
    intros s i Hi S0 SF PERM. induction k as [|k IH]; intros Hk.
    - rewrite Nat.add_0_r. cbn [seq map]. destruct S0 as (_ & R & C). unfold stin, absorb. cbn [fold_left].
      apply (nth_ext _ _ 0 0); [rewrite map_length, seq_length, repeat_length; reflexivity|]. intros q Hq. rewrite map_length, seq_length in Hq. rewrite nth_repeat, nth_map_seq by exact Hq.
      rewrite Nat.add_0_l. unfold state_in. destruct (Nat.ltb_spec q 34); [apply R|apply C]; lia.
    - rewrite Nat.add_succ_r in *. specialize (IH ltac:(lia)). pose proof (SF (s + k)%nat ltac:(lia)) as F. destruct MEAN as (_ & _ & STEP). pose proof (STEP (s + k)%nat ltac:(lia)) as S1.
      destruct (row_inputs (s + k)%nat ltac:(lia) (or_introl F)) as [EI EC]. pose proof (PERM (s + k)%nat ltac:(lia)) as PM. unfold permuted in PM. fold (inputs (trow_at t (s + k))) in PM.
      rewrite outputs_eq, reduced_canonical, EI, IH in PM by exact EC. rewrite seq_S, map_app. unfold absorb in *. rewrite fold_left_app. cbn [map fold_left].
      rewrite <- PM. unfold stin, stout. apply map_ext_in. intros q Hq. apply in_seq in Hq. apply (st_state _ _ S1 F). lia.
  Qed.
End Op.

(** * Padding *)

Lemma blocks_concat : forall bs : list (list Z), Forall (fun b => length b = 136%nat) bs -> blocks (concat bs) = bs.
Proof.
  assert (LEN : forall bs : list (list Z), Forall (fun b => length b = 136%nat) bs -> length (concat bs) = (136 * length bs)%nat).
  { induction bs as [|b bs IH]; intros H; [reflexivity|]. inversion H; subst. cbn [concat length]. rewrite app_length, IH by assumption. lia. }
  intros bs H. unfold blocks. rewrite LEN by exact H. replace (136 * length bs / 136)%nat with (length bs) by (rewrite Nat.mul_comm, Nat.div_mul; lia).
  assert (G : forall pre bs : list (list Z), Forall (fun b => length b = 136%nat) pre -> Forall (fun b => length b = 136%nat) bs ->
    map (fun i => firstn 136 (skipn (136 * i) (concat (pre ++ bs)))) (seq (length pre) (length bs)) = bs).
  { clear bs H. intros pre bs. revert pre. induction bs as [|b bs IH]; intros pre HP H; [reflexivity|]. inversion H; subst. cbn [length seq map]. f_equal.
    - rewrite concat_app, skipn_app, LEN by exact HP. rewrite Nat.sub_diag. rewrite skipn_all2 by (rewrite LEN by exact HP; lia). cbn [app skipn concat]. rewrite firstn_app. rewrite H2, Nat.sub_diag, firstn_O, app_nil_r. apply firstn_all2. lia.
    - specialize (IH (pre ++ [b])). rewrite app_length in IH. cbn [length] in IH. rewrite Nat.add_1_r in IH. rewrite <- app_assoc in IH. apply IH; [|assumption].
      apply Forall_app. split; [exact HP|]. constructor; [assumption|constructor]. }
  apply (G [] bs); [constructor|exact H].
Qed.

Lemma pad_last : forall (bs : list (list Z)) b k, Forall (fun b => length b = 136%nat) bs -> length b = 136%nat -> (k <= 135)%nat ->
  (forall j, (k <= j < 136)%nat -> nth j b 0 = if (j =? 135)%nat then (if (k <=? 134)%nat then 0x80 else 0x81) else if (j =? k)%nat then 1 else 0) ->
  pad (concat bs ++ firstn k b) = concat (bs ++ [b]) /\ length (concat bs ++ firstn k b) = (136 * length bs + k)%nat.
Proof.
  intros bs b k HB Lb Hk HJ.
  assert (LC : length (concat bs) = (136 * length bs)%nat).
  { clear -HB. induction bs as [|c bs IH]; [reflexivity|]. inversion HB; subst. cbn [concat length]. rewrite app_length, IH by assumption. lia. }
  assert (LM : length (concat bs ++ firstn k b) = (136 * length bs + k)%nat) by (rewrite app_length, LC, firstn_length; lia).
  split; [|exact LM]. unfold pad. rewrite LM.
  replace ((136 * length bs + k) mod 136)%nat with k by (rewrite Nat.add_comm, Nat.mul_comm, Nat.mod_add, Nat.mod_small; lia).
  rewrite concat_app. cbn [concat]. rewrite app_nil_r, <- app_assoc. f_equal. rewrite <- (firstn_skipn k b) at 2. f_equal.
  apply (nth_ext _ _ 0 0).
  - rewrite skipn_length, Lb. destruct (Nat.eqb_spec (136 - k) 1); [cbn [length]; lia|]. cbn [length]. rewrite app_length, repeat_length. cbn [length]. lia.
  - intros j Hj. assert (Hj' : (j < 136 - k)%nat).
    { revert Hj. destruct (Nat.eqb_spec (136 - k) 1); [cbn [length]; lia|]. cbn [length]. rewrite app_length, repeat_length. cbn [length]. lia. }
    assert (SK : nth j (skipn k b) 0 = nth (k + j) b 0).
    { rewrite <- (firstn_skipn k b) at 2. rewrite app_nth2 by (rewrite firstn_length; lia). rewrite firstn_length. f_equal. lia. }
    rewrite SK, HJ by lia. destruct (Nat.eqb_spec (136 - k) 1) as [E|N].
    + replace k with 135%nat in * by lia. replace j with 0%nat by lia. reflexivity.
    + replace (k <=? 134)%nat with true by lia. destruct j as [|j].
      * rewrite Nat.add_0_r. replace (k =? 135)%nat with false by lia. rewrite Nat.eqb_refl. reflexivity.
      * cbn [nth]. replace (k + S j =? k)%nat with false by lia. destruct (Nat.eqb_spec (k + S j) 135) as [E1|N1].
        -- rewrite app_nth2 by (rewrite repeat_length; lia). rewrite repeat_length. replace (j - (136 - k - 2))%nat with 0%nat by lia. reflexivity.
        -- rewrite app_nth1 by (rewrite repeat_length; lia). apply nth_repeat.
Qed.

(** * The digest *)

Lemma be_value_app : forall a b, be_value (a ++ b) = 256 ^ Z.of_nat (length b) * be_value a + be_value b.
Proof.
  intros a b. unfold be_value. rewrite fold_left_app. generalize (fold_left (fun acc b => 256 * acc + b) a 0). intros x. revert x. induction b as [|c b IH]; intros x; [cbn [fold_left length]; change (256 ^ Z.of_nat 0) with 1; ring|].
  cbn [fold_left length]. rewrite IH, (IH (256 * 0 + c)). rewrite Nat2Z.inj_succ, Z.pow_succ_r by lia. ring.
Qed.

Lemma be4_bytes : forall (g : nat -> Z) i, (forall j, (4 * i <= j < 4 * i + 4)%nat -> 0 <= g j < 256) ->
  be4 g i = 2^24 * g (4 * i)%nat + 2^16 * g (4 * i + 1)%nat + 2^8 * g (4 * i + 2)%nat + g (4 * i + 3)%nat /\ 0 <= be4 g i < 2^32.
Proof.
  intros g i H. pose proof (H (4 * i)%nat ltac:(lia)). pose proof (H (4 * i + 1)%nat ltac:(lia)). pose proof (H (4 * i + 2)%nat ltac:(lia)). pose proof (H (4 * i + 3)%nat ltac:(lia)).
  assert (E : be4 g i = 2^24 * g (4 * i)%nat + 2^16 * g (4 * i + 1)%nat + 2^8 * g (4 * i + 2)%nat + g (4 * i + 3)%nat).
  { unfold be4. cbn [map seq sum fold_right]. rewrite Nat.add_0_r. change (2 ^ Z.of_nat (24 - 8 * 0)) with (2^24). change (2 ^ Z.of_nat (24 - 8 * 1)) with (2^16). change (2 ^ Z.of_nat (24 - 8 * 2)) with (2^8). change (2 ^ Z.of_nat (24 - 8 * 3)) with 1. ring. }
  split; [exact E|]. rewrite E. lia.
Qed.

Lemma bytes_grouped : forall (g : nat -> Z) n, map g (seq 0 (4 * n)) = flat_map (fun i => map g (seq (4 * i) 4)) (seq 0 n).
Proof.
  intros g n. induction n as [|n IH]; [reflexivity|]. replace (4 * S n)%nat with (4 * n + 4)%nat by lia. rewrite seq_app, map_app, IH, (seq_S n 0), flat_map_app. cbn [flat_map]. rewrite app_nil_r. reflexivity.
Qed.

(** The big-endian value of 4n bytes, in 32-bit limbs. *)
Lemma be_value_limbs : forall (g : nat -> Z) n, (forall j, (j < 4 * n)%nat -> 0 <= g j < 256) ->
  let v := be_value (map g (seq 0 (4 * n))) in 0 <= v < 2 ^ (32 * Z.of_nat n) /\
  forall i, (i < n)%nat -> (v / 2 ^ (32 * Z.of_nat i)) mod 2^32 = be4 g (n - 1 - i).
Proof.
  intros g. induction n as [|n IH]; intros H; cbv zeta.
  - cbn. split; [lia|]. intros i Hi. lia.
  - destruct (IH ltac:(intros j Hj; apply H; lia)) as [B L]. cbv zeta in B, L. destruct (be4_bytes g n) as [E4 B4]; [intros j Hj; apply H; lia|].
    replace (4 * S n)%nat with (4 * n + 4)%nat by lia. rewrite seq_app, map_app, be_value_app. cbn [Nat.add].
    assert (EV : be_value (map g (seq (4 * n) 4)) = be4 g n).
    { rewrite E4. cbn [seq map]. unfold be_value. cbn [fold_left]. replace (S (4 * n)) with (4 * n + 1)%nat by lia. replace (S (4 * n + 1)) with (4 * n + 2)%nat by lia. replace (S (4 * n + 2)) with (4 * n + 3)%nat by lia. ring. }
    rewrite EV. rewrite map_length, seq_length. change (256 ^ Z.of_nat 4) with (2^32). set (v := be_value (map g (seq 0 (4 * n)))) in *. set (w := be4 g n) in *. clearbody v.
    replace (32 * Z.of_nat (S n)) with (32 + 32 * Z.of_nat n) by lia. rewrite Z.pow_add_r by lia. assert (0 < 2 ^ (32 * Z.of_nat n)) by (apply Z.pow_pos_nonneg; lia).
    split; [nia|]. intros i Hi. destruct i as [|i].
    + cbn [Z.of_nat]. change (2 ^ (32 * 0)) with 1. rewrite Z.div_1_r. rewrite Z.add_comm, Z.mul_comm, Z.mod_add by lia. rewrite Z.mod_small by exact B4. unfold w. f_equal. lia.
    + replace (32 * Z.of_nat (S i)) with (32 + 32 * Z.of_nat i) by lia. rewrite Z.pow_add_r by lia. rewrite <- Z.div_div by (try apply Z.pow_pos_nonneg; lia).
      rewrite Z.add_comm, Z.mul_comm, Z.div_add by lia. rewrite (Z.div_small w) by exact B4. rewrite Z.add_0_l. rewrite L by lia. f_equal. lia.
Qed.

Lemma word_bytes_le : forall b0 b1 b2 b3, 0 <= b0 < 256 -> 0 <= b1 < 256 -> 0 <= b2 < 256 -> 0 <= b3 < 256 ->
  word_bytes (b0 + 2^8 * b1 + 2^16 * b2 + 2^24 * b3) = [b0; b1; b2; b3].
Proof.
  intros b0 b1 b2 b3 H0 H1 H2 H3. unfold word_bytes. set (w := _ + _). assert (E : w = b0 + 256 * (b1 + 256 * (b2 + 256 * b3))) by (unfold w; ring).
  assert (M : forall a b, 0 <= a < 256 -> (a + 256 * b) mod 256 = a /\ (a + 256 * b) / 256 = b).
  { intros a b Ha. rewrite Z.mul_comm, Z.mod_add, Z.div_add, Z.mod_small, Z.div_small by lia. lia. }
  replace (2^24) with (256 * 256 * 256) by reflexivity. replace (2^16) with (256 * 256) by reflexivity. replace (2^8) with 256 by reflexivity.
  rewrite <- !Z.div_div by lia. rewrite E. clearbody w.
  destruct (M b0 (b1 + 256 * (b2 + 256 * b3)) H0) as [-> ->]. destruct (M b1 (b2 + 256 * b3) H1) as [-> ->]. destruct (M b2 b3 H2) as [-> ->]. rewrite Z.mod_small by exact H3. reflexivity.
Qed.

Lemma squeeze_digest : forall r, digest_is_bytes r -> squeeze (stout r) = map (digest r) (seq 0 32).
Proof.
  intros r H. unfold squeeze. change (firstn 8 (stout r)) with (map (fun k => le4 (digest r) k mod P) (seq 0 8)).
  change 32%nat with (4 * 8)%nat. rewrite bytes_grouped. rewrite flat_map_concat_map, map_map, <- flat_map_concat_map.
  assert (G : forall l, (forall k, In k l -> (k < 8)%nat) -> flat_map (fun k => word_bytes (le4 (digest r) k mod P)) l = flat_map (fun i => map (digest r) (seq (4 * i) 4)) l).
  { induction l as [|k l IH]; intros Hl; [reflexivity|]. cbn [flat_map]. rewrite IH by (intros; apply Hl; right; assumption). apply (f_equal (fun z => z ++ _)).
    pose proof (Hl k (or_introl eq_refl)) as Hk. destruct (le4_bytes (digest r) k) as [E B]; [intros j Hj; apply H; lia|]. rewrite canon_mod by (unfold canonical, P; lia). rewrite E. rewrite word_bytes_le by (apply H; lia).
    cbn [seq map]. replace (S (4 * k)) with (4 * k + 1)%nat by lia. replace (S (4 * k + 1)) with (4 * k + 2)%nat by lia. replace (S (4 * k + 2)) with (4 * k + 3)%nat by lia. reflexivity. }
  apply G. intros k Hk. apply in_seq in Hk. lia.
Qed.

Lemma looked_digest : forall r, digest_is_bytes r -> map (be4 (digest r)) (rev (seq 0 8)) = limbs (be_value (map (digest r) (seq 0 32))).
Proof.
  intros r H. destruct (be_value_limbs (digest r) 8) as [_ L]; [intros j Hj; apply H; lia|]. cbv zeta in L. change (4 * 8)%nat with 32%nat in L.
  unfold limbs. change (rev (seq 0 8)) with (map (fun i => 7 - i)%nat (seq 0 8)). rewrite map_map. apply map_ext_in. intros i Hi. apply in_seq in Hi. rewrite L by lia. f_equal.
Qed.
