(** The rows that generation writes in the sponge table. *)
From Coq Require Import ZArith List Lia Bool Arith.
From Coq Require Import ZifyBool ZifyNat.
From Verif Require Import Stark.Field Stark.ArithModel Stark.ArithGen Stark.LogicModel Stark.LogicProps Stark.MemModel Stark.MemSound Stark.Lookup Stark.BytePackProps
  Keccak.KeccakSpec Keccak.SpongeModel Keccak.SpongeFacts Keccak.SpongeSound.
Import ListNotations.
Local Open Scope Z_scope.

Definition u32 (x : Z) : Prop := 0 <= x < 2^32.
Definition state_like (s : list Z) : Prop := length s = 50%nat /\ Forall u32 s.
Definition sop_ok (op : sponge_op) : Prop :=
  canonical (so_context op) /\ canonical (so_segment op) /\ canonical (so_virt op) /\ canonical (so_timestamp op).

Ltac sp_cols := unfold S_FULL, S_CONTEXT, S_SEGMENT, S_VIRT, S_TIMESTAMP, S_ABSORBED, S_PADDING, S_RATE, S_CAPACITY, S_BLOCK, S_XORED, S_PARTIAL, S_DIGEST, S_RANGE_COUNTER, S_RC_FREQUENCIES in *.

(** * Exclusive or through the logic table *)

Definition limbs_val (l : list Z) : Z := fold_right (fun x acc => x + 2^32 * acc) 0 l.

Lemma limbs_val_bound : forall l, Forall u32 l -> 0 <= limbs_val l < 2 ^ (32 * Z.of_nat (length l)).
Proof.
  induction l as [|x l IH]; intros H; [cbn; lia|]. inversion H; subst. specialize (IH H3). unfold u32 in H2. cbn [limbs_val fold_right length]. fold (limbs_val l).
  replace (32 * Z.of_nat (S (length l))) with (32 + 32 * Z.of_nat (length l)) by lia. rewrite Z.pow_add_r by lia. nia.
Qed.

Lemma limbs_val_nth : forall l i, Forall u32 l -> (i < length l)%nat -> (limbs_val l / 2 ^ (32 * Z.of_nat i)) mod 2^32 = nth i l 0.
Proof.
  induction l as [|x l IH]; intros i H Hi; [cbn [length] in Hi; lia|]. inversion H; subst. unfold u32 in H2. cbn [limbs_val fold_right length] in *. fold (limbs_val l). destruct i as [|i].
  - change (2 ^ (32 * Z.of_nat 0)) with 1. rewrite Z.div_1_r, Z.mul_comm, Z.mod_add by lia. apply Z.mod_small. exact H2.
  - replace (32 * Z.of_nat (S i)) with (32 + 32 * Z.of_nat i) by lia. rewrite Z.pow_add_r by lia. rewrite <- Z.div_div by (try apply Z.pow_pos_nonneg; lia).
    rewrite Z.mul_comm, Z.div_add by lia. rewrite (Z.div_small x) by exact H2. rewrite Z.add_0_l. apply IH; [assumption|lia].
Qed.

Lemma limbs32_val : forall l, Forall u32 l -> length l = 8%nat -> limbs32 (limbs_val l) = l.
Proof.
  intros l H L. apply (nth_ext _ _ 0 0); [unfold limbs32; rewrite map_length, seq_length; lia|]. unfold limbs32 at 1. rewrite map_length, seq_length. intros i Hi.
  unfold limbs32. rewrite nth_map_seq by exact Hi. apply limbs_val_nth; [exact H|lia].
Qed.

Lemma mod_lxor : forall a b n, 0 <= n -> (Z.lxor a b) mod 2 ^ n = Z.lxor (a mod 2 ^ n) (b mod 2 ^ n).
Proof.
  intros a b n Hn. rewrite <- !Z.land_ones by exact Hn. apply Z.bits_inj'. intros i Hi.
  rewrite ?Z.land_spec, ?Z.lxor_spec, ?Z.land_spec. destruct (Z.testbit _ _), (Z.testbit _ _), (Z.testbit _ _); reflexivity.
Qed.
Lemma lxor_bound : forall a b n, 0 <= n -> 0 <= a < 2 ^ n -> 0 <= b < 2 ^ n -> 0 <= Z.lxor a b < 2 ^ n.
Proof.
  intros a b n Hn Ha Hb. rewrite <- (Z.mod_small a (2 ^ n)), <- (Z.mod_small b (2 ^ n)) by assumption. rewrite <- mod_lxor by exact Hn. apply Z.mod_pos_bound. apply Z.pow_pos_nonneg; lia.
Qed.

Lemma xor_shows : forall A B, length A = 8%nat -> length B = 8%nat -> Forall u32 A -> Forall u32 B ->
  exists a b, lword a /\ lword b /\ shows ([0x18] ++ A ++ B ++ map (fun i => Z.lxor (nth i A 0) (nth i B 0)) (seq 0 8)) LXor a b.
Proof.
  intros A B LA LB HA HB. exists (limbs_val A), (limbs_val B). pose proof (limbs_val_bound A HA) as BA. pose proof (limbs_val_bound B HB) as BB. rewrite LA in BA. rewrite LB in BB.
  split; [exact BA|]. split; [exact BB|]. exists (Z.lxor (limbs_val A) (limbs_val B)). split.
  - split; [apply lxor_bound; [lia|exact BA|exact BB]|]. intros i Hi. apply Z.lxor_spec.
  - rewrite !limbs32_val by assumption. cbn [app evm_opcode]. do 3 f_equal. unfold limbs32. apply map_ext_in. intros i Hi. apply in_seq in Hi. rewrite limb_xor by lia.
    rewrite !limbs_val_nth by (try assumption; lia). reflexivity.
Qed.

(** * One row *)

Lemma le4_ext : forall g h i, (forall j, (4 * i <= j < 4 * i + 4)%nat -> g j = h j) -> le4 g i = le4 h i.
Proof. intros g h i H. unfold le4. f_equal. apply map_ext_in. intros j Hj. apply in_seq in Hj. rewrite H by lia. reflexivity. Qed.

Lemma write_canonical : forall r s vs, (forall c, canonical (r c)) -> Forall canonical vs -> forall c, canonical (write r s vs c).
Proof. intros r s vs H V c. unfold write. destruct ((s <=? c)%nat && (c <? s + length vs)%nat) eqn:E; [|apply H]. rewrite Forall_forall in V. apply V. apply nth_In. lia. Qed.
Lemma set_canonical : forall r s v, (forall c, canonical (r c)) -> canonical v -> forall c, canonical (set r s v c).
Proof. intros r s v H V. apply write_canonical; [exact H|]. constructor; [exact V|constructor]. Qed.
Lemma u32_canonical : forall x, u32 x -> canonical x.
Proof. intros x H. unfold u32 in H. unfold canonical, P. lia. Qed.
Lemma nth_u32 : forall l i, Forall u32 l -> u32 (nth i l 0).
Proof. intros l i H. destruct (Nat.lt_ge_cases i (length l)) as [L|L]; [rewrite Forall_forall in H; apply H; apply nth_In; exact L|]. rewrite nth_overflow by exact L. unfold u32. lia. Qed.
Lemma nth_firstn' : forall (l : list Z) n i, (i < n)%nat -> nth i (firstn n l) 0 = nth i l 0.
Proof. induction l as [|x l IH]; intros n i H; [rewrite firstn_nil; reflexivity|]. destruct n as [|n]; [lia|]. destruct i as [|i]; [reflexivity|]. cbn [firstn nth]. apply IH. lia. Qed.
Lemma nth_skipn' : forall (l : list Z) n i, nth i (skipn n l) 0 = nth (n + i) l 0.
Proof. induction l as [|x l IH]; intros n i; [rewrite skipn_nil; destruct i, n; reflexivity|]. destruct n as [|n]; [reflexivity|]. cbn [skipn Nat.add nth]. apply IH. Qed.
Lemma Forall_firstn' : forall (Q : Z -> Prop) n l, Forall Q l -> Forall Q (firstn n l).
Proof. intros Q n l H. rewrite <- (firstn_skipn n l) in H. apply Forall_app in H. apply H. Qed.
Lemma Forall_skipn' : forall (Q : Z -> Prop) n l, Forall Q l -> Forall Q (skipn n l).
Proof. intros Q n l H. rewrite <- (firstn_skipn n l) in H. apply Forall_app in H. apply H. Qed.

Lemma xor_block_u32 : forall s b, length s = 50%nat -> Forall u32 s -> length b = 136%nat -> Forall (fun x => 0 <= x < 256) b -> state_like (xor_block s b).
Proof.
  intros s b L H Lb Hb. split; [unfold xor_block; rewrite map_length, seq_length; reflexivity|]. unfold xor_block. rewrite Forall_map. apply Forall_forall. intros i _.
  apply lxor_bound; [lia|apply nth_u32; exact H|]. assert (B : forall j, 0 <= nth j b 0 < 256).
  { intros j. destruct (Nat.lt_ge_cases j (length b)) as [Lj|Lj]; [rewrite Forall_forall in Hb; apply Hb; apply nth_In; exact Lj|rewrite nth_overflow by exact Lj; lia]. }
  unfold le_word. pose proof (B (4 * i)%nat). pose proof (B (4 * i + 1)%nat). pose proof (B (4 * i + 2)%nat). pose proof (B (4 * i + 3)%nat). lia.
Qed.

Lemma seq_offset : forall a n, seq a n = map (fun q => (a + q)%nat) (seq 0 n).
Proof. intros a n. revert a. induction n as [|n IH]; intros a; [reflexivity|]. cbn [seq map]. rewrite Nat.add_0_r. f_equal. rewrite (IH (S a)), (IH 1%nat), map_map. apply map_ext. intros q. lia. Qed.

Section Common.
  Variable f : list Z -> list Z.
  Variable r : row.
  Variable op : sponge_op.
  Variable absorbed : Z.
  Variable state : list Z.
  Hypothesis RC : forall c, canonical (r c).
  Hypothesis RB : forall j, (j < 136)%nat -> 0 <= block_byte r j < 256.
  Hypothesis ST : state_like state.
  Hypothesis OPC : sop_ok op.
  Hypothesis AC : canonical absorbed.
  Let inp := xor_block state (blk r).
  Hypothesis OUT : state_like (f inp).
  Let R := generate_common_fields f r op absorbed state.

  Let r7 : row := write (write (set (set (set (set (set r S_CONTEXT (so_context op)) S_SEGMENT (so_segment op)) S_VIRT (so_virt op)) S_TIMESTAMP (so_timestamp op)) S_ABSORBED absorbed)
    S_RATE (firstn 34 state)) S_CAPACITY (skipn 34 state).
  Let xs : list Z := map (fun i => Z.lxor (nth i state 0) (le4 (block_byte r7) i)) (seq 0 34).
  Let dbytes (w : Z) : list Z := map (fun j => (w / 2 ^ Z.of_nat (8 * j)) mod 256) (seq 0 4).

  Lemma len34 : length (firstn 34 state) = 34%nat /\ length (skipn 34 state) = 16%nat.
  Proof. destruct ST as [L _]. rewrite firstn_length, skipn_length. lia. Qed.

  Lemma r7_out : forall c, (c = 0 \/ 6 <= c < 142 \/ 192 <= c)%nat -> r7 c = r c.
  Proof. destruct len34 as [L1 L2]. intros c Hc. unfold r7. rewrite !write_out by (rewrite ?L1, ?L2; sp_cols; lia). rewrite !set_neq by (sp_cols; lia). reflexivity. Qed.

  Lemma block_word_r : forall k, (k < 34)%nat -> le4 (block_byte r7) k = le_word (blk r) k.
  Proof.
    intros k Hk. destruct (block_word r RB k Hk) as [<- _]. apply le4_ext. intros j Hj. apply r7_out. sp_cols. lia.
  Qed.

  Lemma inp_split : xs ++ skipn 34 state = inp.
  Proof.
    destruct ST as [L _]. destruct len34 as [_ L2].
    assert (LX : length xs = 34%nat) by (unfold xs; rewrite map_length, seq_length; reflexivity).
    apply (nth_ext _ _ 0 0); [rewrite app_length, LX, L2; unfold inp, xor_block; rewrite map_length, seq_length; reflexivity|]. intros i Hi. rewrite app_length, LX, L2 in Hi.
    unfold inp, xor_block. rewrite nth_map_seq by exact Hi. rewrite Nat.add_0_l. destruct (Nat.lt_ge_cases i 34) as [H|H].
    - rewrite app_nth1 by lia. unfold xs. rewrite nth_map_seq by exact H. rewrite Nat.add_0_l. rewrite block_word_r by exact H. reflexivity.
    - rewrite app_nth2 by lia. rewrite LX, nth_skipn'. replace (34 + (i - 34))%nat with i by lia. unfold le_word. rewrite !(nth_overflow (blk r)) by (rewrite blk_length; lia). rewrite Z.lxor_0_r. reflexivity.
  Qed.

  Let dl : list Z := flat_map dbytes (firstn 8 (f inp)).

  Lemma R_eq : R = write (write (write r7 S_XORED xs) S_PARTIAL (skipn 8 (f inp))) S_DIGEST dl.
  Proof. unfold dl. rewrite <- inp_split. reflexivity. Qed.

  Lemma lens : length xs = 34%nat /\ length (skipn 8 (f inp)) = 42%nat /\ length dl = 32%nat.
  Proof.
    destruct OUT as [L _]. split; [unfold xs; rewrite map_length, seq_length; reflexivity|]. split; [rewrite skipn_length; lia|].
    unfold dl. assert (G : forall l, length (flat_map dbytes l) = (4 * length l)%nat) by (induction l as [|w l IH]; [reflexivity|]; cbn [flat_map length]; rewrite app_length, IH; unfold dbytes; rewrite map_length, seq_length; lia).
    rewrite G, firstn_length. lia.
  Qed.

  Lemma gc_low : forall c, (c = 0 \/ 6 <= c < 142 \/ 192 <= c < 328 \/ 436 <= c)%nat -> R c = r c.
  Proof. intros c Hc. destruct lens as (L1 & L2 & L3). rewrite R_eq. rewrite !write_out by (rewrite ?L1, ?L2, ?L3; sp_cols; lia). apply r7_out. lia. Qed.
  Lemma gc_full : R S_FULL = r S_FULL. Proof. apply gc_low. sp_cols. lia. Qed.
  Lemma gc_pad : forall i, (i < 136)%nat -> is_pad R i = is_pad r i. Proof. intros i Hi. apply gc_low. sp_cols. lia. Qed.
  Lemma gc_final : is_final R = is_final r. Proof. apply gc_pad. unfold KECCAK_RATE_BYTES. lia. Qed.
  Lemma gc_block : forall i, (i < 136)%nat -> block_byte R i = block_byte r i. Proof. intros i Hi. apply gc_low. sp_cols. lia. Qed.
  Lemma gc_blk : blk R = blk r.
  Proof. unfold blk. apply map_ext_in. intros i Hi. apply in_seq in Hi. apply gc_block. lia. Qed.

  Ltac mid := destruct lens as (L1 & L2 & L3); destruct len34 as [L4 L5]; rewrite R_eq; rewrite !write_out by (rewrite ?L1, ?L2, ?L3; sp_cols; lia); unfold r7.
  Lemma gc_context : R S_CONTEXT = so_context op. Proof. mid. rewrite !write_out by (rewrite ?L4, ?L5; sp_cols; lia). rewrite !set_neq by (sp_cols; lia). apply set_eq. Qed.
  Lemma gc_segment : R S_SEGMENT = so_segment op. Proof. mid. rewrite !write_out by (rewrite ?L4, ?L5; sp_cols; lia). rewrite !set_neq by (sp_cols; lia). apply set_eq. Qed.
  Lemma gc_virt : R S_VIRT = so_virt op. Proof. mid. rewrite !write_out by (rewrite ?L4, ?L5; sp_cols; lia). rewrite !set_neq by (sp_cols; lia). apply set_eq. Qed.
  Lemma gc_timestamp : R S_TIMESTAMP = so_timestamp op. Proof. mid. rewrite !write_out by (rewrite ?L4, ?L5; sp_cols; lia). rewrite !set_neq by (sp_cols; lia). apply set_eq. Qed.
  Lemma gc_absorbed : R S_ABSORBED = absorbed. Proof. mid. rewrite !write_out by (rewrite ?L4, ?L5; sp_cols; lia). apply set_eq. Qed.
  Lemma gc_rate : forall i, (i < 34)%nat -> rate R i = nth i state 0.
  Proof. intros i Hi. unfold rate. mid. rewrite write_out by (rewrite ?L5; sp_cols; lia). rewrite write_in by (rewrite L4; sp_cols; lia). rewrite nth_firstn' by (sp_cols; lia). f_equal. sp_cols. lia. Qed.
  Lemma gc_capacity : forall i, (i < 16)%nat -> capacity R i = nth (34 + i) state 0.
  Proof. intros i Hi. unfold capacity. mid. rewrite write_in by (rewrite L5; sp_cols; lia). rewrite nth_skipn'. f_equal. sp_cols. lia. Qed.
  Lemma gc_xored : forall i, (i < 34)%nat -> xored R i = Z.lxor (nth i state 0) (le_word (blk r) i).
  Proof.
    intros i Hi. unfold xored. destruct lens as (L1 & L2 & L3). rewrite R_eq. rewrite !(write_out _ _ _ (S_XORED + i)) by (rewrite ?L2, ?L3; sp_cols; lia). rewrite write_in by (rewrite L1; sp_cols; lia).
    replace (S_XORED + i - S_XORED)%nat with i by lia. unfold xs. rewrite nth_map_seq by exact Hi. rewrite Nat.add_0_l, block_word_r by exact Hi. reflexivity.
  Qed.
  Lemma gc_partial : forall i, (i < 42)%nat -> partial R i = nth (8 + i) (f inp) 0.
  Proof.
    intros i Hi. unfold partial. destruct lens as (L1 & L2 & L3). rewrite R_eq. rewrite (write_out _ _ dl) by (rewrite ?L3; sp_cols; lia). rewrite write_in by (rewrite L2; sp_cols; lia).
    replace (S_PARTIAL + i - S_PARTIAL)%nat with i by lia. apply nth_skipn'.
  Qed.
  Lemma gc_digest : forall i j, (i < 8)%nat -> (j < 4)%nat -> digest R (4 * i + j) = (nth i (f inp) 0 / 2 ^ Z.of_nat (8 * j)) mod 256.
  Proof.
    intros i j Hi Hj. unfold digest. destruct lens as (L1 & L2 & L3). rewrite R_eq. rewrite write_in by (rewrite L3; sp_cols; lia). replace (S_DIGEST + (4 * i + j) - S_DIGEST)%nat with (4 * i + j)%nat by lia. unfold dl.
    assert (G : forall l i, (i < length l)%nat -> nth (4 * i + j) (flat_map dbytes l) 0 = nth j (dbytes (nth i l 0)) 0).
    { induction l as [|w l IH]; intros k Hk; [cbn [length] in Hk; lia|]. assert (LD : length (dbytes w) = 4%nat) by (unfold dbytes; rewrite map_length, seq_length; reflexivity). cbn [flat_map]. destruct k as [|k].
      - rewrite app_nth1 by lia. f_equal. - rewrite app_nth2 by lia. rewrite LD. replace (4 * S k + j - 4)%nat with (4 * k + j)%nat by lia. cbn [nth]. apply IH. cbn [length] in Hk. lia. }
    destruct OUT as [LO _]. rewrite G by (rewrite firstn_length; lia). rewrite nth_firstn' by exact Hi. unfold dbytes. rewrite nth_map_seq by exact Hj. reflexivity.
  Qed.
  Lemma gc_digest_bytes : digest_is_bytes R.
  Proof.
    intros k Hk. pose proof (Nat.div_mod k 4 ltac:(lia)) as E. pose proof (Nat.mod_upper_bound k 4 ltac:(lia)). rewrite E. rewrite gc_digest by lia. apply Z.mod_pos_bound. lia.
  Qed.
  Lemma gc_stin : stin R = state.
  Proof.
    destruct ST as [L _]. apply (nth_ext _ _ 0 0); [unfold stin; rewrite map_length, seq_length; lia|]. unfold stin at 1. rewrite map_length, seq_length. intros i Hi. unfold stin. rewrite nth_map_seq by exact Hi. rewrite Nat.add_0_l. unfold state_in.
    destruct (Nat.ltb_spec i 34) as [H|H]; [apply gc_rate; exact H|]. rewrite gc_capacity by lia. f_equal. lia.
  Qed.
  Lemma gc_out : forall i, (i < 50)%nat -> state_out R i = nth i (f inp) 0.
  Proof.
    intros i Hi. unfold state_out. destruct (Nat.ltb_spec i 8) as [H|H]; [|rewrite gc_partial by lia; f_equal; lia].
    destruct (le4_bytes (digest R) i) as [-> _]; [intros j Hj; apply gc_digest_bytes; lia|]. rewrite <- (Nat.add_0_r (4 * i)) at 1. rewrite !gc_digest by lia.
    destruct OUT as [_ UO]. pose proof (nth_u32 _ i UO) as B. unfold u32 in B. set (w := nth i (f inp) 0) in *. clearbody w.
    change (2 ^ Z.of_nat (8 * 0)) with 1. change (2 ^ Z.of_nat (8 * 1)) with 256. change (2 ^ Z.of_nat (8 * 2)) with (256 * 256). change (2 ^ Z.of_nat (8 * 3)) with (256 * 256 * 256). rewrite Z.div_1_r. rewrite <- !Z.div_div by lia.
    pose proof (Z.div_mod w 256 ltac:(lia)). pose proof (Z.div_mod (w / 256) 256 ltac:(lia)). pose proof (Z.div_mod (w / 256 / 256) 256 ltac:(lia)).
    rewrite (Z.mod_small (w / 256 / 256 / 256)).
    - lia.
    - split; [repeat apply Z.div_pos; lia|]. rewrite !Z.div_div by lia. apply Z.div_lt_upper_bound; lia.
  Qed.
  Lemma gc_stout : stout R = f inp /\ state_after R = f inp.
  Proof.
    assert (E : state_after R = map (state_out R) (seq 0 50)) by reflexivity. destruct OUT as [LO UO].
    assert (E2 : map (state_out R) (seq 0 50) = f inp).
    { apply (nth_ext _ _ 0 0); rewrite map_length, seq_length; [lia|]. intros i Hi. rewrite nth_map_seq by exact Hi. apply gc_out. exact Hi. }
    split; [|rewrite E; exact E2]. rewrite <- E2. unfold stout. apply map_ext_in. intros i Hi. apply in_seq in Hi. apply canon_mod. rewrite gc_out by lia. apply u32_canonical. apply nth_u32. exact UO.
  Qed.
  Lemma gc_canonical : forall c, canonical (R c).
  Proof.
    destruct ST as [LS US]. destruct OUT as [LO UO]. destruct OPC as (O1 & O2 & O3 & O4). assert (UC : forall l, Forall u32 l -> Forall canonical l) by (intros l; apply Forall_impl; apply u32_canonical).
    assert (C7 : forall c, canonical (r7 c)) by (unfold r7; apply write_canonical; [apply write_canonical; [repeat apply set_canonical; assumption|apply UC, Forall_firstn', US]|apply UC, Forall_skipn', US]).
    rewrite R_eq. apply write_canonical; [apply write_canonical; [apply write_canonical; [exact C7|]|apply UC, Forall_skipn', UO]|].
    - apply UC. unfold xs. rewrite Forall_map. apply Forall_forall. intros i Hi. apply in_seq in Hi. apply lxor_bound; [lia|apply nth_u32; exact US|]. rewrite block_word_r by lia. destruct (block_word r RB i ltac:(lia)) as [<- B]. exact B.
    - unfold dl. apply Forall_forall. intros x Hx. apply in_flat_map in Hx. destruct Hx as (w & _ & Hx). unfold dbytes in Hx. apply in_map_iff in Hx. destruct Hx as (j & <- & _).
      pose proof (Z.mod_pos_bound (w / 2 ^ Z.of_nat (8 * j)) 256 ltac:(lia)). unfold canonical, P. lia.
  Qed.
  Lemma gc_inputs : inputs R = inp.
  Proof.
    assert (I : inputs R = map (fun k => if (k <? 34)%nat then xored R k else capacity R (k - 34)) (seq 0 50)) by reflexivity. rewrite I. unfold inp, xor_block. apply map_ext_in. intros k Hk. apply in_seq in Hk.
    destruct (Nat.ltb_spec k 34) as [H|H]; [apply gc_xored; exact H|]. rewrite gc_capacity by lia. replace (34 + (k - 34))%nat with k by lia. unfold le_word. rewrite !(nth_overflow (blk r)) by (rewrite blk_length; lia). rewrite Z.lxor_0_r. reflexivity.
  Qed.
  Lemma gc_permuted : permuted f R.
  Proof.
    unfold permuted. fold (inputs R). rewrite outputs_eq, gc_inputs. rewrite (proj1 gc_stout). rewrite reduced_canonical; [reflexivity|].
    rewrite <- gc_inputs. assert (I : inputs R = map (fun k => if (k <? 34)%nat then xored R k else capacity R (k - 34)) (seq 0 50)) by reflexivity. rewrite I, Forall_map. apply Forall_forall. intros k _. destruct (k <? 34)%nat; apply gc_canonical.
  Qed.
  Lemma gc_logic : forall i, (i < 5)%nat -> exists o a b, lword a /\ lword b /\ shows (reduced (sp_logic i R)) o a b.
  Proof.
    intros i Hi. destruct ST as [LS US].
    assert (RR : forall k, u32 (u32_or_zero (rate R) k)).
    { intros k. unfold u32_or_zero, KECCAK_RATE_U32S. destruct (Nat.ltb_spec k 34); [rewrite gc_rate by assumption; apply nth_u32; exact US|unfold u32; lia]. }
    assert (BW : forall k, (k < 34)%nat -> le4 (block_byte R) k = le_word (blk r) k /\ u32 (le4 (block_byte R) k)).
    { intros k Hk. destruct (block_word r RB k Hk) as [E B]. assert (E2 : le4 (block_byte R) k = le4 (block_byte r) k) by (apply le4_ext; intros j Hj; apply gc_block; lia). rewrite E2. split; [exact E|exact B]. }
    assert (BB : forall k, u32 (u32_or_zero (le4 (block_byte R)) k)).
    { intros k. unfold u32_or_zero, KECCAK_RATE_U32S. destruct (Nat.ltb_spec k 34) as [H|H]; [apply BW; exact H|unfold u32; lia]. }
    assert (XX : forall k, u32_or_zero (xored R) k = Z.lxor (u32_or_zero (rate R) k) (u32_or_zero (le4 (block_byte R)) k)).
    { intros k. unfold u32_or_zero, KECCAK_RATE_U32S. destruct (Nat.ltb_spec k 34) as [H|H]; [|reflexivity]. rewrite gc_xored, gc_rate by exact H. destruct (BW k H) as [-> _]. reflexivity. }
    set (A := map (u32_or_zero (rate R)) (seq (8 * i) 8)). set (B := map (u32_or_zero (le4 (block_byte R))) (seq (8 * i) 8)).
    assert (FA : Forall u32 A) by (unfold A; rewrite Forall_map; apply Forall_forall; intros k _; apply RR). assert (FB : Forall u32 B) by (unfold B; rewrite Forall_map; apply Forall_forall; intros k _; apply BB).
    assert (LA : length A = 8%nat) by (unfold A; rewrite map_length, seq_length; reflexivity). assert (LB : length B = 8%nat) by (unfold B; rewrite map_length, seq_length; reflexivity).
    destruct (xor_shows A B LA LB FA FB) as (a & b & Ha & Hb & Hs). exists LXor, a, b. split; [exact Ha|]. split; [exact Hb|].
    assert (E : sp_logic i R = [0x18] ++ A ++ B ++ map (fun i => Z.lxor (nth i A 0) (nth i B 0)) (seq 0 8)).
    { unfold sp_logic. fold A B. do 3 f_equal. rewrite (seq_offset (8 * i)). unfold A, B. rewrite map_map. apply map_ext_in. intros q Hq. apply in_seq in Hq. rewrite !nth_map_seq by lia. apply XX. }
    rewrite reduced_canonical; [rewrite E; exact Hs|]. unfold sp_logic. rewrite !Forall_app, !Forall_map. split; [constructor; [split; [discriminate|reflexivity]|constructor]|].
    repeat split; apply Forall_forall; intros k _; apply u32_canonical; [apply RR|apply BB|]. rewrite XX. apply lxor_bound; [lia|apply RR|apply BB].
  Qed.
End Common.
