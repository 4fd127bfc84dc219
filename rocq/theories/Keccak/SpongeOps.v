(** The rows of one operation, and of a whole table. *)
From Coq Require Import ZArith List Lia Bool Arith.
From Coq Require Import ZifyBool ZifyNat.
From Verif Require Import Stark.Field Stark.ArithModel Stark.ArithGen Stark.LogicModel Stark.LogicProps Stark.MemModel Stark.MemSound Stark.Lookup Stark.BytePackProps
  Keccak.KeccakSpec Keccak.SpongeModel Keccak.SpongeFacts Keccak.SpongeSound Keccak.SpongeGen Keccak.SpongeProps.
Import ListNotations.
Local Open Scope Z_scope.

Record built (f : list Z -> list Z) (R : row) (op : sponge_op) (absorbed : Z) (state block : list Z) : Prop := {
  b_context : R S_CONTEXT = so_context op;
  b_segment : R S_SEGMENT = so_segment op;
  b_virt : R S_VIRT = so_virt op;
  b_timestamp : R S_TIMESTAMP = so_timestamp op;
  b_absorbed : R S_ABSORBED = absorbed;
  b_stin : stin R = state;
  b_inputs : inputs R = xor_block state block;
  b_stout : stout R = f (xor_block state block);
  b_after : state_after R = f (xor_block state block);
  b_blk : blk R = block;
  b_digest : digest_is_bytes R;
  b_canonical : forall c, canonical (R c);
  b_permuted : permuted f R;
  b_logic : forall i, (i < 5)%nat -> exists o a b, lword a /\ lword b /\ shows (reduced (sp_logic i R)) o a b }.

Lemma common_built : forall f r op absorbed state,
  (forall c, canonical (r c)) -> (forall j, (j < 136)%nat -> byte (block_byte r j)) -> state_like state -> sop_ok op -> canonical absorbed ->
  state_like (f (xor_block state (blk r))) ->
  let R := generate_common_fields f r op absorbed state in
  built f R op absorbed state (blk r) /\ R S_FULL = r S_FULL /\ (forall i, (i < 136)%nat -> is_pad R i = is_pad r i).
Proof.
  intros f r op absorbed state H1 H2 H3 H4 H5 H6 R. split; [|split; [apply gc_full; assumption|intros; apply gc_pad; assumption]].
  constructor.
  - apply gc_context; assumption.
  - apply gc_segment; assumption.
  - apply gc_virt; assumption.
  - apply gc_timestamp; assumption.
  - apply gc_absorbed; assumption.
  - apply gc_stin; assumption.
  - apply gc_inputs; assumption.
  - apply gc_stout; assumption.
  - apply gc_stout; assumption.
  - apply gc_blk; assumption.
  - apply gc_digest_bytes; assumption.
  - apply gc_canonical; assumption.
  - apply gc_permuted; assumption.
  - apply gc_logic; assumption.
Qed.

Lemma canon0 : canonical 0. Proof. split; [discriminate|reflexivity]. Qed.
Lemma canon1 : canonical 1. Proof. split; [discriminate|reflexivity]. Qed.
Lemma byte_canonical : forall b, byte b -> canonical b.
Proof. intros b H. unfold byte in H. unfold canonical, P. lia. Qed.

Lemma blk_bytes : forall r, Forall byte (blk r) -> forall j, (j < 136)%nat -> byte (block_byte r j).
Proof.
  intros r H j Hj. rewrite Forall_forall in H. apply H. unfold blk. apply in_map. apply in_seq. lia.
Qed.

Lemma full_built : forall f op absorbed state block, length block = 136%nat -> Forall byte block -> state_like state -> sop_ok op -> canonical absorbed ->
  state_like (f (xor_block state block)) ->
  let R := generate_full_input_row f op absorbed state block in
  built f R op absorbed state block /\ R S_FULL = 1 /\ (forall i, (i < 136)%nat -> is_pad R i = 0).
Proof.
  intros f op absorbed state block LB FB ST OP AC OUT R. set (r := write (set zero_row S_FULL 1) S_BLOCK block).
  assert (EB : blk r = block).
  { apply (nth_ext _ _ 0 0); [rewrite blk_length; lia|]. rewrite blk_length. intros j Hj. unfold blk. rewrite nth_map_seq by exact Hj. unfold r, block_byte. rewrite write_in by (rewrite LB; sp_cols; lia). f_equal. sp_cols. lia. }
  destruct (common_built f r op absorbed state) as (B & F & Q); try assumption.
  - unfold r. apply write_canonical; [apply set_canonical; [intros; apply canon0|apply canon1]|]. revert FB. apply Forall_impl. apply byte_canonical.
  - apply blk_bytes. rewrite EB. exact FB.
  - rewrite EB. exact OUT.
  - rewrite EB in B. split; [exact B|]. split.
    + etransitivity; [exact F|]. unfold r. rewrite write_out by (sp_cols; lia). apply set_eq.
    + intros i Hi. etransitivity; [apply Q; exact Hi|]. unfold r, is_pad. rewrite write_out by (sp_cols; lia). rewrite set_neq by (sp_cols; lia). reflexivity.
Qed.

Lemma pad_short : forall m, (length m < 136)%nat -> length (pad m) = 136%nat /\
  forall j, (j < 136)%nat -> nth j (pad m) 0 = if (j <? length m)%nat then nth j m 0 else if (j =? 135)%nat then (if (length m <=? 134)%nat then 0x80 else 0x81) else if (j =? length m)%nat then 1 else 0.
Proof.
  intros m L. unfold pad. rewrite Nat.mod_small by exact L. set (n := length m) in *. split.
  - rewrite app_length. fold n. destruct (Nat.eqb_spec (136 - n) 1); [cbn [length]; lia|]. cbn [length]. rewrite app_length, repeat_length. cbn [length]. lia.
  - intros j Hj. destruct (Nat.ltb_spec j n) as [H|H]; [rewrite app_nth1 by exact H; reflexivity|]. rewrite app_nth2 by exact H. fold n. destruct (Nat.eqb_spec (136 - n) 1) as [E|E].
    + replace j with 135%nat by lia. replace (135 - n)%nat with 0%nat by lia. replace (n <=? 134)%nat with false by lia. reflexivity.
    + replace (n <=? 134)%nat with true by lia. destruct (Nat.eqb_spec j n) as [->|N].
      * rewrite Nat.sub_diag. replace (n =? 135)%nat with false by lia. reflexivity.
      * replace (j - n)%nat with (S (j - n - 1)) by lia. cbn [nth]. destruct (Nat.eqb_spec j 135) as [->|N1].
        -- rewrite app_nth2 by (rewrite repeat_length; lia). rewrite repeat_length. replace (135 - n - 1 - (136 - n - 2))%nat with 0%nat by lia. reflexivity.
        -- rewrite app_nth1 by (rewrite repeat_length; lia). apply nth_repeat.
Qed.

Lemma pad_bytes : forall m, Forall byte m -> Forall byte (pad m).
Proof.
  intros m H. unfold pad. apply Forall_app. split; [exact H|]. destruct (_ =? 1)%nat; [constructor; [unfold byte; lia|constructor]|]. constructor; [unfold byte; lia|]. apply Forall_app. split.
  - apply Forall_forall. intros x Hx. apply repeat_spec in Hx. subst. unfold byte. lia.
  - constructor; [unfold byte; lia|constructor].
Qed.

Lemma final_built : forall f op absorbed state input, (length input < 136)%nat -> Forall byte input -> state_like state -> sop_ok op -> canonical absorbed ->
  state_like (f (xor_block state (pad input))) ->
  let R := generate_final_row f op absorbed state input in
  built f R op absorbed state (pad input) /\ R S_FULL = 0 /\ (forall i, (i < 136)%nat -> is_pad R i = if (length input <=? i)%nat then 1 else 0).
Proof.
  intros f op absorbed state input LI FB ST OP AC OUT R. set (n := length input) in *.
  set (r1 := if (n =? KECCAK_RATE_BYTES - 1)%nat then set (write zero_row S_BLOCK input) (S_BLOCK + n) 0x81
             else set (set (write zero_row S_BLOCK input) (S_BLOCK + n) 1) (S_BLOCK + (KECCAK_RATE_BYTES - 1)) 0x80).
  set (r := write r1 (S_PADDING + n) (repeat 1 (KECCAK_RATE_BYTES - n))).
  destruct (pad_short input LI) as [PL PN]. fold n in PN.
  assert (BY : forall j, (j < 136)%nat -> block_byte r j = nth j (pad input) 0).
  { intros j Hj. rewrite PN by exact Hj. unfold r, block_byte. rewrite write_out by (rewrite repeat_length; unfold KECCAK_RATE_BYTES; sp_cols; lia). unfold r1. change (KECCAK_RATE_BYTES - 1)%nat with 135%nat.
    destruct (Nat.eqb_spec n 135) as [E|E].
    - destruct (Nat.ltb_spec j n) as [H|H].
      + rewrite set_neq by lia. rewrite write_in by (fold n; lia). f_equal. lia.
      + replace j with n by lia. rewrite set_eq. rewrite E. reflexivity.
    - destruct (Nat.eqb_spec j 135) as [->|N]; [rewrite set_eq; replace (135 <? n)%nat with false by lia; replace (n <=? 134)%nat with true by lia; reflexivity|].
      rewrite set_neq by lia. destruct (Nat.ltb_spec j n) as [H|H].
      + rewrite set_neq by lia. rewrite write_in by (fold n; lia). f_equal. lia.
      + destruct (Nat.eqb_spec j n) as [->|N2]; [apply set_eq|]. rewrite set_neq by lia. rewrite write_out by (fold n; lia). reflexivity. }
  assert (EB : blk r = pad input).
  { apply (nth_ext _ _ 0 0); [rewrite blk_length; lia|]. rewrite blk_length. intros j Hj. unfold blk. rewrite nth_map_seq by exact Hj. apply BY. exact Hj. }
  assert (C1 : forall c, canonical (r1 c)).
  { assert (C0 : forall c, canonical (write zero_row S_BLOCK input c)) by (apply write_canonical; [intros; apply canon0|revert FB; apply Forall_impl; apply byte_canonical]).
    unfold r1. destruct (n =? _)%nat; repeat apply set_canonical; try exact C0; split; (discriminate || reflexivity). }
  destruct (common_built f r op absorbed state) as (B & F & Q); try assumption.
  - unfold r. apply write_canonical; [exact C1|]. apply Forall_forall. intros x Hx. apply repeat_spec in Hx. subst. apply canon1.
  - apply blk_bytes. rewrite EB. apply pad_bytes. exact FB.
  - rewrite EB. exact OUT.
  - rewrite EB in B. split; [exact B|]. split.
    + etransitivity; [exact F|]. unfold r. rewrite write_out by (sp_cols; lia). unfold r1. destruct (n =? _)%nat; rewrite !set_neq by (sp_cols; lia); rewrite write_out by (sp_cols; lia); reflexivity.
    + intros i Hi. etransitivity; [apply Q; exact Hi|]. unfold r, is_pad. destruct (Nat.leb_spec n i) as [H|H].
      * rewrite write_in by (rewrite repeat_length; unfold KECCAK_RATE_BYTES; lia). replace (S_PADDING + i - (S_PADDING + n))%nat with (i - n)%nat by lia.
        rewrite (nth_indep _ 0 1) by (rewrite repeat_length; unfold KECCAK_RATE_BYTES; lia). apply nth_repeat.
      * rewrite write_out by lia. unfold r1. destruct (n =? _)%nat; rewrite !set_neq by (sp_cols; lia); rewrite write_out by (sp_cols; lia); reflexivity.
Qed.

(** * The rows of an operation *)

Definition row_reads (r : row) : list (list Z) :=
  map (fun b => sp_memory b r) (filter (fun b => negb (sp_memory_filter b r mod P =? 0)) (seq 0 136)).

Record good (f : list Z -> list Z) (r : row) : Prop := {
  g_local : local_ok r;
  g_bytes : forall j, (j < 136)%nat -> byte (block_byte r j);
  g_canonical : forall c, canonical (r c);
  g_permuted : permuted f r;
  g_logic : forall i, (i < 5)%nat -> exists o a b, lword a /\ lword b /\ shows (reduced (sp_logic i r)) o a b }.

Definition self_pad (r : row) : Prop := forall i, (i < 136)%nat -> is_pad r i = 1 -> block_byte r i = pad_byte r i.

Fixpoint linked (l : list row) : Prop :=
  match l with
  | a :: ((b :: _) as l') => step_ok a b /\ linked l'
  | _ => True
  end.

Lemma full_good : forall f R op absorbed state block, Forall byte block -> built f R op absorbed state block -> R S_FULL = 1 -> (forall i, (i < 136)%nat -> is_pad R i = 0) ->
  good f R /\ self_pad R /\ is_final R = 0.
Proof.
  intros f R op absorbed state block FB B F PD. assert (FZ : is_final R = 0) by (apply PD; unfold KECCAK_RATE_BYTES; lia). split; [|split; [|exact FZ]].
  - constructor; try (apply B).
    + constructor.
      * right. exact F. * intros i Hi. left. apply PD. exact Hi. * intros i Hi E. rewrite PD in E by lia. discriminate. * intros [_ E]. rewrite FZ in E. discriminate.
    + apply blk_bytes. rewrite (b_blk _ _ _ _ _ _ B). exact FB.
  - intros i Hi E. rewrite PD in E by exact Hi. discriminate.
Qed.

Lemma final_good : forall f R op absorbed state input, (length input < 136)%nat -> Forall byte input -> built f R op absorbed state (pad input) -> R S_FULL = 0 ->
  (forall i, (i < 136)%nat -> is_pad R i = if (length input <=? i)%nat then 1 else 0) -> good f R /\ self_pad R /\ is_final R = 1.
Proof.
  intros f R op absorbed state input LI FB B F PD. assert (FZ : is_final R = 1).
  { unfold is_final. change (KECCAK_RATE_BYTES - 1)%nat with 135%nat. rewrite PD by lia. replace (length input <=? 135)%nat with true by lia. reflexivity. }
  split; [|split; [|exact FZ]].
  - constructor; try (apply B).
    + constructor.
      * left. exact F.
      * intros i Hi. rewrite PD by exact Hi. destruct (_ <=? _)%nat; [right|left]; reflexivity.
      * intros i Hi E. rewrite PD in E |- * by lia. destruct (Nat.leb_spec (length input) i); [|discriminate]. replace (length input <=? S i)%nat with true by lia. reflexivity.
      * intros [E _]. rewrite F in E. discriminate.
    + apply blk_bytes. rewrite (b_blk _ _ _ _ _ _ B). apply pad_bytes. exact FB.
  - intros i Hi E. rewrite PD in E by exact Hi. destruct (Nat.leb_spec (length input) i) as [H|H]; [|discriminate].
    assert (E2 : block_byte R i = nth i (pad input) 0) by (rewrite <- (b_blk _ _ _ _ _ _ B); unfold blk; rewrite nth_map_seq by exact Hi; reflexivity).
    rewrite E2. destruct (pad_short input LI) as [_ PN]. rewrite PN by exact Hi. replace (i <? length input)%nat with false by lia. unfold pad_byte.
    destruct (Nat.eqb_spec i 135) as [->|N].
    + rewrite PD by lia. destruct (length input <=? 134)%nat; reflexivity.
    + destruct (Nat.ltb_spec 0 i) as [J|J]; cbn [andb].
      * rewrite PD by lia. destruct (Nat.leb_spec (length input) (i - 1)); [replace (i =? length input)%nat with false by lia|replace (i =? length input)%nat with true by lia]; reflexivity.
      * replace (i =? length input)%nat with true by lia. reflexivity.
Qed.

Lemma filter_all : forall {A} (p : A -> bool) l, (forall x, In x l -> p x = true) -> filter p l = l.
Proof. intros A p. induction l as [|x l IH]; intros H; [reflexivity|]. cbn [filter]. rewrite (H x (or_introl eq_refl)), IH by (intros; apply H; right; assumption). reflexivity. Qed.
Lemma filter_none : forall {A} (p : A -> bool) l, (forall x, In x l -> p x = false) -> filter p l = [].
Proof. intros A p. induction l as [|x l IH]; intros H; [reflexivity|]. cbn [filter]. rewrite (H x (or_introl eq_refl)). apply IH. intros; apply H; right; assumption. Qed.

Definition reads_from (op : sponge_op) (absorbed : Z) (m : list Z) : list (list Z) :=
  map (fun k => byte_read (so_context op) (so_segment op) (so_virt op + absorbed + Z.of_nat k) (so_timestamp op) (nth k m 0)) (seq 0 (length m)).

Lemma reads_app : forall op absorbed a b, reads_from op absorbed (a ++ b) = reads_from op absorbed a ++ reads_from op (absorbed + Z.of_nat (length a)) b.
Proof.
  intros op absorbed a b. unfold reads_from. rewrite app_length, seq_app, map_app. f_equal.
  - apply map_ext_in. intros k Hk. apply in_seq in Hk. rewrite app_nth1 by lia. reflexivity.
  - rewrite (seq_offset (0 + length a)), map_map. apply map_ext_in. intros k Hk. rewrite app_nth2 by lia. f_equal; [lia|f_equal; lia].
Qed.

Lemma full_reads : forall f R op absorbed state block, length block = 136%nat -> built f R op absorbed state block -> R S_FULL = 1 -> (forall i, (i < 136)%nat -> is_pad R i = 0) ->
  row_reads R = reads_from op absorbed block.
Proof.
  intros f R op absorbed state block LB B F PD. unfold row_reads, reads_from. rewrite LB. rewrite filter_all.
  - apply map_ext_in. intros k Hk. apply in_seq in Hk. unfold sp_memory, byte_read. rewrite (b_context _ _ _ _ _ _ B), (b_segment _ _ _ _ _ _ B), (b_virt _ _ _ _ _ _ B), (b_timestamp _ _ _ _ _ _ B), (b_absorbed _ _ _ _ _ _ B).
    rewrite <- (b_blk _ _ _ _ _ _ B). unfold blk. rewrite nth_map_seq by lia. reflexivity.
  - intros k Hk. apply in_seq in Hk. unfold sp_memory_filter. unfold is_final. change (KECCAK_RATE_BYTES - 1)%nat with 135%nat. rewrite F, !PD by lia. destruct (k =? 135)%nat; reflexivity.
Qed.

Lemma final_reads : forall f R op absorbed state input, (length input < 136)%nat -> built f R op absorbed state (pad input) -> R S_FULL = 0 ->
  (forall i, (i < 136)%nat -> is_pad R i = if (length input <=? i)%nat then 1 else 0) -> row_reads R = reads_from op absorbed input.
Proof.
  intros f R op absorbed state input LI B F PD. unfold row_reads, reads_from. set (n := length input) in *.
  replace 136%nat with (n + (136 - n))%nat by lia. rewrite seq_app, filter_app, filter_all, filter_none, app_nil_r.
  - apply map_ext_in. intros k Hk. apply in_seq in Hk. unfold sp_memory, byte_read. rewrite (b_context _ _ _ _ _ _ B), (b_segment _ _ _ _ _ _ B), (b_virt _ _ _ _ _ _ B), (b_timestamp _ _ _ _ _ _ B), (b_absorbed _ _ _ _ _ _ B).
    assert (E2 : block_byte R k = nth k (pad input) 0) by (rewrite <- (b_blk _ _ _ _ _ _ B); unfold blk; rewrite nth_map_seq by lia; reflexivity).
    rewrite E2. destruct (pad_short input LI) as [_ PN]. rewrite PN by lia. fold n. replace (k <? n)%nat with true by lia. reflexivity.
  - intros k Hk. apply in_seq in Hk. unfold sp_memory_filter. unfold is_final. change (KECCAK_RATE_BYTES - 1)%nat with 135%nat. rewrite F, !PD by lia.
    destruct (k =? 135)%nat; [reflexivity|]. replace (n <=? 135)%nat with true by lia. replace (n <=? k)%nat with true by lia. reflexivity.
  - intros k Hk. apply in_seq in Hk. unfold sp_memory_filter. unfold is_final. change (KECCAK_RATE_BYTES - 1)%nat with 135%nat. rewrite F, !PD by lia.
    replace (k =? 135)%nat with false by lia. replace (n <=? 135)%nat with true by lia. replace (n <=? k)%nat with false by lia. reflexivity.
Qed.

Lemma pad_long : forall m, (136 <= length m)%nat -> pad m = firstn 136 m ++ pad (skipn 136 m).
Proof.
  intros m L. unfold pad. rewrite skipn_length. replace ((length m - 136) mod 136)%nat with (length m mod 136)%nat.
  - rewrite app_assoc, firstn_skipn. reflexivity.
  - replace (length m) with ((length m - 136) + 1 * 136)%nat at 1 by lia. rewrite Nat.mod_add by lia. reflexivity.
Qed.

Lemma blocks_cons : forall b m, length b = 136%nat -> blocks (b ++ m) = b :: blocks m.
Proof.
  intros b m L. unfold blocks. rewrite app_length, L. replace ((136 + length m) / 136)%nat with (S (length m / 136)).
  - cbn [seq map]. rewrite Nat.mul_0_r. cbn [skipn]. f_equal; [rewrite firstn_app, L, Nat.sub_diag, firstn_O, app_nil_r; apply firstn_all2; lia|].
    rewrite <- seq_shift, map_map. apply map_ext. intros i. replace (136 * S i)%nat with (136 + 136 * i)%nat by lia. rewrite skipn_app, L. replace (136 + 136 * i - 136)%nat with (136 * i)%nat by lia. rewrite skipn_all2 by lia. reflexivity.
  - replace (136 + length m)%nat with (length m + 1 * 136)%nat by lia. rewrite Nat.div_add by lia. lia.
Qed.

Definition op_facts (f : list Z -> list Z) (op : sponge_op) (absorbed : Z) (state input : list Z) (l : list row) : Prop :=
  exists front last, l = front ++ [last] /\ linked l /\ Forall (good f) l /\ Forall (fun r => is_final r = 0) front /\ is_final last = 1 /\ self_pad last /\
    (forall a, In a l -> is_active a) /\
    hd zero_row l S_ABSORBED = absorbed /\ stin (hd zero_row l) = state /\
    hd zero_row l S_CONTEXT = so_context op /\ hd zero_row l S_SEGMENT = so_segment op /\ hd zero_row l S_VIRT = so_virt op /\ hd zero_row l S_TIMESTAMP = so_timestamp op /\
    sp_looked_data last = [so_context op; so_segment op; so_virt op; absorbed + Z.of_nat (length input); so_timestamp op] ++ limbs (be_value (squeeze (absorb f state (blocks (pad input))))) /\
    flat_map row_reads l = reads_from op absorbed input.

Lemma final_facts : forall f op absorbed state input, (length input < 136)%nat -> Forall byte input -> state_like state -> sop_ok op -> canonical absorbed ->
  state_like (f (xor_block state (pad input))) -> op_facts f op absorbed state input [generate_final_row f op absorbed state input].
Proof.
  intros f op absorbed state input LI FB ST OP AC OUT. destruct (final_built f op absorbed state input) as (B & F & PD); try assumption. set (R := generate_final_row f op absorbed state input) in *.
  destruct (final_good f R op absorbed state input LI FB B F PD) as (G & SP & FZ). exists [], R. split; [reflexivity|]. split; [exact I|]. split; [constructor; [exact G|constructor]|]. split; [constructor|]. split; [exact FZ|]. split; [exact SP|].
  split; [intros a [<-|[]]; right; exact FZ|]. cbn [hd]. split; [apply B|]. split; [apply B|]. split; [apply B|]. split; [apply B|]. split; [apply B|]. split; [apply B|]. split.
  - unfold sp_looked_data. rewrite (b_context _ _ _ _ _ _ B), (b_segment _ _ _ _ _ _ B), (b_virt _ _ _ _ _ _ B), (b_timestamp _ _ _ _ _ _ B), (b_absorbed _ _ _ _ _ _ B). change KECCAK_RATE_BYTES with 136%nat.
    rewrite (sum_pads R (length input)) by (try exact PD; lia). rewrite looked_digest by apply B. rewrite <- squeeze_digest by apply B. rewrite (b_stout _ _ _ _ _ _ B).
    destruct (pad_short input LI) as [PL _]. assert (EB : blocks (pad input) = [pad input]).
    { rewrite <- (app_nil_r (pad input)) at 1. rewrite blocks_cons by exact PL. reflexivity. }
    rewrite EB. unfold absorb. cbn [fold_left]. apply f_equal2; [|reflexivity]. do 3 f_equal. f_equal. lia.
  - cbn [flat_map]. rewrite app_nil_r. apply (final_reads f R op absorbed state input); assumption.
Qed.

Lemma linked_cons : forall a l, l <> [] -> step_ok a (hd zero_row l) -> linked l -> linked (a :: l).
Proof. intros a [|b l] N H K; [congruence|]. split; assumption. Qed.

Lemma blocks_facts : forall f op, (forall s, state_like s -> state_like (f s)) -> sop_ok op ->
  forall fuel absorbed state input, (length input <= fuel)%nat -> Forall byte input -> state_like state -> 0 <= absorbed -> absorbed + Z.of_nat (length input) < P ->
  op_facts f op absorbed state input (generate_blocks f fuel op absorbed state input).
Proof.
  intros f op HF OP. induction fuel as [|fuel IH]; intros absorbed state input LF FB ST A0 A1; cbn [generate_blocks].
  - apply final_facts; try assumption; [lia|unfold canonical; lia|]. apply HF. destruct ST. apply xor_block_u32; try assumption; [apply pad_short; lia|apply pad_bytes; exact FB].
  - change KECCAK_RATE_BYTES with 136%nat. destruct (Nat.ltb_spec (length input) 136) as [LI|LI].
    + apply final_facts; try assumption; [unfold canonical; lia|]. apply HF. destruct ST. apply xor_block_u32; try assumption; [apply pad_short; lia|apply pad_bytes; exact FB].
    + set (block := firstn 136 input). set (rest := skipn 136 input). assert (LB : length block = 136%nat) by (unfold block; rewrite firstn_length; lia).
      assert (LR : length rest = (length input - 136)%nat) by (unfold rest; rewrite skipn_length; reflexivity).
      assert (BB : Forall byte block) by (apply Forall_firstn'; exact FB). assert (BR : Forall byte rest) by (apply Forall_skipn'; exact FB).
      assert (OUT : state_like (f (xor_block state block))) by (apply HF; destruct ST; apply xor_block_u32; assumption).
      destruct (full_built f op absorbed state block) as (B & F & PD); try assumption; [unfold canonical; lia|]. set (R := generate_full_input_row f op absorbed state block) in *. cbv zeta.
      destruct (full_good f R op absorbed state block BB B F PD) as (G & SP & FZ). change (Z.of_nat 136) with 136.
      destruct (IH (absorbed + 136) (state_after R) rest) as (front & last & E & LK & GD & FF & FL & SL & AC & HA & HS & H1 & H2 & H3 & H4 & LD & RD); try assumption; try lia; [rewrite (b_after _ _ _ _ _ _ B); exact OUT|].
      set (l := generate_blocks f fuel op (absorbed + 136) (state_after R) rest) in *. assert (NE : l <> []) by (rewrite E; destruct front; discriminate).
      exists (R :: front), last. split; [rewrite E; reflexivity|]. split.
      * apply linked_cons; [exact NE| |exact LK]. constructor.
        -- intros X. rewrite FZ in X. discriminate.
        -- intros _. rewrite H1, H2, H3, H4. rewrite (b_context _ _ _ _ _ _ B), (b_segment _ _ _ _ _ _ B), (b_virt _ _ _ _ _ _ B), (b_timestamp _ _ _ _ _ _ B). auto.
        -- intros _. rewrite HA, (b_absorbed _ _ _ _ _ _ B). symmetry. apply Z.mod_small. lia.
        -- intros _ i Hi. transitivity (nth i (stin (hd zero_row l)) 0); [unfold stin; rewrite nth_map_seq by exact Hi; reflexivity|]. rewrite HS, (b_after _ _ _ _ _ _ B), <- (b_stout _ _ _ _ _ _ B). unfold stout. rewrite nth_map_seq by exact Hi. reflexivity.
        -- exact SP.
        -- intros X. exfalso. apply X. left. exact F.
      * split; [constructor; assumption|]. split; [constructor; assumption|]. split; [exact FL|]. split; [exact SL|]. split; [intros a [<-|Ha]; [left; exact F|apply AC; exact Ha]|]. cbn [hd].
        split; [apply B|]. split; [apply B|]. split; [apply B|]. split; [apply B|]. split; [apply B|]. split; [apply B|]. split.
        -- rewrite LD. apply f_equal2; [do 3 f_equal; f_equal; lia|]. do 3 f_equal. rewrite (pad_long input) by exact LI. fold block rest. rewrite blocks_cons by exact LB. unfold absorb. cbn [fold_left]. rewrite (b_after _ _ _ _ _ _ B). reflexivity.
        -- cbn [flat_map]. rewrite RD. rewrite (full_reads f R op absorbed state block) by assumption. rewrite <- (firstn_skipn 136 input). fold block rest. rewrite reads_app, LB. reflexivity.
Qed.

(** * Tables *)

Lemma linked_nth : forall l i, linked l -> (S i < length l)%nat -> step_ok (trow_at l i) (trow_at l (S i)).
Proof.
  induction l as [|a l IH]; intros i H L; [cbn [length] in L; lia|]. destruct l as [|b l]; [cbn [length] in L; lia|]. destruct H as [H1 H2]. destruct i as [|i]; [exact H1|].
  apply (IH i H2). cbn [length] in *. lia.
Qed.

Lemma linked_app : forall l1 x l2, linked (l1 ++ [x]) -> linked l2 -> (l2 <> [] -> step_ok x (hd zero_row l2)) -> linked ((l1 ++ [x]) ++ l2).
Proof.
  induction l1 as [|a l1 IH]; intros x l2 H1 H2 H3.
  - cbn [app]. destruct l2 as [|b l2]; [exact I|]. split; [apply H3; discriminate|exact H2].
  - cbn [app] in *. destruct l1 as [|c l1].
    + cbn [app] in *. destruct H1 as [H1 _]. split; [exact H1|]. apply (IH x l2); [exact I|exact H2|exact H3].
    + cbn [app] in *. destruct H1 as [H1 H1']. split; [exact H1|]. apply (IH x l2); [exact H1'|exact H2|exact H3].
Qed.

Lemma zero_local : local_ok zero_row.
Proof. constructor; [left; reflexivity|intros; left; reflexivity|intros i _ E; discriminate|intros [E _]; discriminate]. Qed.
Lemma zero_start : start_ok zero_row.
Proof. repeat split. Qed.
Lemma zero_step : step_ok zero_row zero_row.
Proof. constructor; try (intros E; discriminate E); [intros i Hi E; discriminate E|]. intros H. exact H. Qed.

Lemma zeros_linked : forall k, linked (repeat zero_row k).
Proof. induction k as [|k IH]; [exact I|]. cbn [repeat]. destruct k; [exact I|]. split; [apply zero_step|exact IH]. Qed.

Lemma final_step : forall a b, local_ok a -> is_final a = 1 -> self_pad a -> start_ok b -> step_ok a b.
Proof.
  intros a b LO F SP SB. assert (F0 : a S_FULL = 0) by (destruct (lo_full _ LO) as [E|E]; [exact E|exfalso; apply (lo_excl _ LO); auto]).
  constructor; try (intros E; rewrite F0 in E; discriminate); [intros _; exact SB|exact SP|]. intros H. exfalso. apply H. right. exact F.
Qed.

Lemma state_start : forall r, r S_ABSORBED = 0 -> stin r = repeat 0 50 -> start_ok r.
Proof.
  intros r A S. assert (N : forall i, (i < 50)%nat -> state_in r i = 0).
  { intros i Hi. transitivity (nth i (stin r) 0); [unfold stin; rewrite nth_map_seq by exact Hi; reflexivity|]. rewrite S. apply nth_repeat. }
  split; [exact A|]. split; intros i Hi.
  - specialize (N i ltac:(lia)). unfold state_in in N. replace (i <? 34)%nat with true in N by lia. exact N.
  - specialize (N (34 + i)%nat ltac:(lia)). unfold state_in in N. replace (34 + i <? 34)%nat with false in N by lia. replace (34 + i - 34)%nat with i in N by lia. exact N.
Qed.

(** Any rows whose meaning is right become an accepted table. *)
Definition finish (rows : list row) : list row :=
  map (fun i => set (set (trow_at rows i) S_RANGE_COUNTER (Z.of_nat (Nat.min i 255))) S_RC_FREQUENCIES
    ((if (i <=? 255)%nat then count (Z.of_nat i) (cells_in sp_cols rows) else 0) mod P)) (seq 0 (length rows)).

Definition agree (a b : row) : Prop := forall c, (c < 436)%nat -> a c = b c.

Lemma agree_sym : forall a b, agree a b -> agree b a.
Proof. intros a b H c Hc. symmetry. apply H. exact Hc. Qed.
Lemma agree_pad : forall a b, agree a b -> forall i, (i < 136)%nat -> is_pad a i = is_pad b i.
Proof. intros a b H i Hi. apply H. sp_cols. lia. Qed.
Lemma agree_final : forall a b, agree a b -> is_final a = is_final b.
Proof. intros a b H. apply agree_pad; [exact H|unfold KECCAK_RATE_BYTES; lia]. Qed.
Lemma agree_block : forall a b, agree a b -> forall i, (i < 136)%nat -> block_byte a i = block_byte b i.
Proof. intros a b H i Hi. apply H. sp_cols. lia. Qed.
Lemma agree_digest : forall a b, agree a b -> forall i, (i < 32)%nat -> digest a i = digest b i.
Proof. intros a b H i Hi. apply H. sp_cols. lia. Qed.
Lemma agree_in : forall a b, agree a b -> forall i, (i < 50)%nat -> state_in a i = state_in b i.
Proof. intros a b H i Hi. unfold state_in, rate, capacity. destruct (Nat.ltb_spec i 34); apply H; sp_cols; lia. Qed.
Lemma agree_le4 : forall a b, agree a b -> forall i, (i < 8)%nat -> le4 (digest a) i = le4 (digest b) i.
Proof. intros a b H i Hi. apply le4_ext. intros j Hj. apply agree_digest; [exact H|lia]. Qed.
Lemma agree_out : forall a b, agree a b -> forall i, (i < 50)%nat -> state_out a i = state_out b i.
Proof. intros a b H i Hi. unfold state_out. destruct (Nat.ltb_spec i 8); [apply agree_le4; assumption|]. apply H. sp_cols. lia. Qed.
Lemma agree_cells : forall a b, agree a b -> a S_FULL = b S_FULL /\ a S_CONTEXT = b S_CONTEXT /\ a S_SEGMENT = b S_SEGMENT /\ a S_VIRT = b S_VIRT /\ a S_TIMESTAMP = b S_TIMESTAMP /\ a S_ABSORBED = b S_ABSORBED.
Proof. intros a b H. repeat split; apply H; sp_cols; lia. Qed.
Lemma agree_active : forall a b, agree a b -> is_active a -> is_active b.
Proof. intros a b H A. unfold is_active in *. rewrite (agree_final a b H) in A. destruct (agree_cells a b H) as (-> & _) in A. exact A. Qed.

Lemma agree_local : forall a b, agree a b -> local_ok a -> local_ok b.
Proof.
  intros a b H L. destruct (agree_cells a b H) as (EF & _). constructor.
  - rewrite <- EF. apply L.
  - intros i Hi. rewrite <- (agree_pad a b H) by exact Hi. apply L. exact Hi.
  - intros i Hi. rewrite <- !(agree_pad a b H) by lia. apply L. exact Hi.
  - rewrite <- EF, <- (agree_final a b H). apply L.
Qed.
Lemma agree_start : forall a b, agree a b -> start_ok a -> start_ok b.
Proof.
  intros a b H (S1 & S2 & S3). split; [rewrite <- S1; symmetry; apply H; sp_cols; lia|]. split; intros i Hi; [rewrite <- (S2 i Hi)|rewrite <- (S3 i Hi)]; symmetry; apply H; sp_cols; lia.
Qed.
Lemma agree_step : forall a b a' b', agree a a' -> agree b b' -> step_ok a b -> step_ok a' b'.
Proof.
  intros a b a' b' HA HB S. destruct (agree_cells a a' HA) as (A1 & A2 & A3 & A4 & A5 & A6). destruct (agree_cells b b' HB) as (B1 & B2 & B3 & B4 & B5 & B6). constructor.
  - rewrite <- (agree_final a a' HA). intros E. apply (agree_start b b' HB). apply S. exact E.
  - rewrite <- A1, <- A2, <- A3, <- A4, <- A5, <- B2, <- B3, <- B4, <- B5. apply S.
  - rewrite <- A1, <- A6, <- B6. apply S.
  - rewrite <- A1. intros E i Hi. rewrite <- (agree_in b b' HB), <- (agree_out a a' HA) by exact Hi. apply S; assumption.
  - intros i Hi. rewrite <- (agree_pad a a' HA), <- (agree_block a a' HA) by exact Hi. intros E. rewrite (st_pad _ _ S i Hi E). unfold pad_byte.
    destruct (i =? 135)%nat; [rewrite (agree_pad a a' HA) by lia; reflexivity|]. rewrite (agree_pad a a' HA (i - 1)) by lia. reflexivity.
  - intros N X. apply (st_dummy _ _ S).
    + intros Y. apply N. apply (agree_active a a' HA Y).
    + apply (agree_active b' b (agree_sym _ _ HB) X).
Qed.

Lemma agree_views : forall a b, agree a b -> sp_looked_data a = sp_looked_data b /\ sp_looked_filter a = sp_looked_filter b /\ sp_keccak_inputs a = sp_keccak_inputs b /\ sp_keccak_outputs a = sp_keccak_outputs b /\
  sp_keccak_filter a = sp_keccak_filter b /\ (forall i, (i < 5)%nat -> sp_logic i a = sp_logic i b) /\ (forall i, (i < 136)%nat -> sp_memory i a = sp_memory i b /\ sp_memory_filter i a = sp_memory_filter i b) /\ row_reads a = row_reads b.
Proof.
  intros a b H. destruct (agree_cells a b H) as (E1 & E2 & E3 & E4 & E5 & E6). pose proof (agree_final a b H) as EF.
  assert (M : forall i, (i < 136)%nat -> sp_memory i a = sp_memory i b /\ sp_memory_filter i a = sp_memory_filter i b).
  { intros i Hi. unfold sp_memory, sp_memory_filter. rewrite E1, E2, E3, E4, E5, E6, EF, (agree_block a b H), (agree_pad a b H) by exact Hi. split; reflexivity. }
  split; [|split; [|split; [|split; [|split; [|split; [|split]]]]]].
  - unfold sp_looked_data. rewrite E2, E3, E4, E5, E6. apply f_equal2.
    + do 3 f_equal. f_equal. f_equal. f_equal. f_equal. apply map_ext_in. intros i Hi. apply in_seq in Hi. apply agree_pad; [exact H|unfold KECCAK_RATE_BYTES in Hi; lia].
    + apply map_ext_in. intros i Hi. apply in_rev, in_seq in Hi. unfold be4. f_equal. apply map_ext_in. intros j Hj. apply in_seq in Hj. rewrite (agree_digest a b H) by lia. reflexivity.
  - exact EF.
  - unfold sp_keccak_inputs. rewrite E5. f_equal; [|f_equal]; apply map_ext_in; intros i Hi; apply in_seq in Hi; unfold KECCAK_RATE_U32S, KECCAK_CAPACITY_U32S in Hi; apply H; sp_cols; lia.
  - unfold sp_keccak_outputs. rewrite E5. f_equal; [|f_equal]; apply map_ext_in; intros i Hi; apply in_seq in Hi; unfold KECCAK_DIGEST_U32S, KECCAK_WIDTH_U32S in Hi; [apply agree_le4; [exact H|lia]|apply H; sp_cols; lia].
  - unfold sp_keccak_filter. rewrite E1, EF. reflexivity.
  - intros i Hi. unfold sp_logic. do 2 f_equal; [|f_equal]; apply map_ext_in; intros j Hj; apply in_seq in Hj; unfold u32_or_zero, KECCAK_RATE_U32S; destruct (Nat.ltb_spec j 34); try reflexivity; [apply H; sp_cols; lia|apply le4_ext; intros q Hq; apply agree_block; [exact H|lia]|apply H; sp_cols; lia].
  - exact M.
  - unfold row_reads. assert (F : filter (fun b0 => negb (sp_memory_filter b0 a mod P =? 0)) (seq 0 136) = filter (fun b0 => negb (sp_memory_filter b0 b mod P =? 0)) (seq 0 136)).
    { apply filter_ext_in. intros i Hi. apply in_seq in Hi. destruct (M i ltac:(lia)) as [_ ->]. reflexivity. }
    rewrite F. apply map_ext_in. intros i Hi. apply filter_In in Hi. destruct Hi as [Hi _]. apply in_seq in Hi. apply M. lia.
Qed.

Section Finish.
  Variable rows : list row.
  Hypothesis LEN : (256 <= length rows)%nat.
  Hypothesis MEAN : meaning rows.
  Hypothesis BYT : forall r, In r rows -> forall j, (j < 136)%nat -> byte (block_byte r j).
  Hypothesis CAN : forall r, In r rows -> forall c, canonical (r c).

  Lemma finish_length : length (finish rows) = length rows.
  Proof. unfold finish. rewrite map_length, seq_length. reflexivity. Qed.

  Lemma finish_at : forall i, (i < length rows)%nat -> trow_at (finish rows) i = set (set (trow_at rows i) S_RANGE_COUNTER (Z.of_nat (Nat.min i 255))) S_RC_FREQUENCIES
    ((if (i <=? 255)%nat then count (Z.of_nat i) (cells_in sp_cols rows) else 0) mod P).
  Proof.
    intros i Hi. unfold finish, trow_at at 1. set (g := fun i : nat => _). rewrite (nth_indep _ zero_row (g 0%nat)) by (rewrite map_length, seq_length; exact Hi). rewrite map_nth, seq_nth by exact Hi. reflexivity.
  Qed.

  Lemma finish_agree : forall i, (i < length rows)%nat -> agree (trow_at rows i) (trow_at (finish rows) i).
  Proof. intros i Hi c Hc. rewrite finish_at by exact Hi. rewrite !set_neq by (sp_cols; lia). reflexivity. Qed.

  Lemma row_in : forall i, (i < length rows)%nat -> In (trow_at rows i) rows.
  Proof. intros i Hi. apply nth_In. exact Hi. Qed.

  Lemma finish_counter : forall i, (i < length rows)%nat -> trow_at (finish rows) i S_RANGE_COUNTER = Z.of_nat (Nat.min i 255).
  Proof. intros i Hi. rewrite finish_at by exact Hi. rewrite set_neq by (sp_cols; lia). apply set_eq. Qed.

  Lemma finish_hold : rows_hold eval_sponge (finish rows).
  Proof.
    destruct MEAN as (LOC & START & STEP). apply write_meaning.
    - unfold meaning. rewrite finish_length. split; [|split].
      + intros i Hi. apply (agree_local _ _ (finish_agree i Hi)). apply LOC. exact Hi.
      + intros H0. apply (agree_start _ _ (finish_agree 0%nat H0)). apply START. exact H0.
      + intros i Hi. apply (agree_step _ _ _ _ (finish_agree i ltac:(lia)) (finish_agree (S i) Hi)). apply STEP. exact Hi.
    - unfold counter_ok. rewrite finish_length. split; [|split].
      + intros H0. rewrite finish_counter by lia. reflexivity.
      + intros i Hi. rewrite !finish_counter by lia. lia.
      + intros _. rewrite finish_counter by lia. lia.
  Qed.

  Lemma finish_cells : cells_in sp_cols (finish rows) = cells_in sp_cols rows.
  Proof.
    assert (E : rows = map (trow_at rows) (seq 0 (length rows))).
    { apply (nth_ext _ _ zero_row zero_row); [rewrite map_length, seq_length; reflexivity|]. intros i Hi.
      rewrite (nth_indep (map _ _) zero_row (trow_at rows 0)) by (rewrite map_length, seq_length; exact Hi). rewrite map_nth, seq_nth by exact Hi. reflexivity. }
    transitivity (cells_in sp_cols (map (trow_at rows) (seq 0 (length rows)))); [|rewrite <- E; reflexivity]. clear E.
    unfold cells_in, finish. rewrite !flat_map_concat_map, !map_map. apply (f_equal (@concat Z)). apply map_ext_in. intros i Hi. apply map_ext_in. intros c Hc. unfold sp_cols in Hc. apply in_seq in Hc. unfold KECCAK_RATE_BYTES in Hc.
    rewrite !set_neq by (sp_cols; lia). reflexivity.
  Qed.

  Lemma finish_ok : sponge_table_ok (finish rows).
  Proof.
    split; [apply finish_hold|]. split.
    - unfold finish. apply honest_logup with (M := 255%nat); [lia| | |].
      + intros i _. rewrite set_neq by (sp_cols; lia). apply set_eq.
      + intros i _. fold (finish rows). rewrite finish_cells. rewrite set_eq. rewrite Zminus_mod_idemp_l, Z.sub_diag. reflexivity.
      + intros i c Hi Hc. unfold sp_cols, KECCAK_RATE_BYTES in Hc. apply in_seq in Hc. rewrite !set_neq by (sp_cols; lia). pose proof (BYT _ (row_in i Hi) (c - S_BLOCK)%nat ltac:(lia)) as B. unfold byte, block_byte in B.
        replace (S_BLOCK + (c - S_BLOCK))%nat with c in B by lia. lia.
    - unfold canonical_rows, finish. rewrite Forall_map. apply Forall_forall. intros i Hi. apply in_seq in Hi. apply set_canonical; [apply set_canonical; [apply CAN; apply row_in; lia|unfold canonical, P; lia]|]. apply Z.mod_pos_bound. reflexivity.
  Qed.

  Lemma finish_generated : sp_generate_range_checks rows = Some (finish rows).
  Proof.
    unfold sp_generate_range_checks. replace (forallb _ rows) with true; [reflexivity|]. symmetry. apply forallb_forall. intros r Hr. apply forallb_forall. intros c Hc. unfold sp_cols, KECCAK_RATE_BYTES in Hc. apply in_seq in Hc.
    pose proof (BYT r Hr (c - S_BLOCK)%nat ltac:(lia)) as B. unfold byte, block_byte in B. replace (S_BLOCK + (c - S_BLOCK))%nat with c in B by lia. change (Z.of_nat BYTE_RANGE_MAX) with 256. lia.
  Qed.
End Finish.

(** The properties of a row that only depend on the columns other tables see. *)
Lemma agree_good : forall f a b, agree a b -> permuted f a -> permuted f b.
Proof. intros f a b H G. destruct (agree_views a b H) as (_ & _ & E1 & E2 & _). unfold permuted in *. rewrite <- E1, <- E2. exact G. Qed.

Lemma map_finish : forall {A} (g : row -> A) rows, (forall a b, agree a b -> g a = g b) -> map g (finish rows) = map g rows.
Proof.
  intros A g rows H. assert (E : rows = map (trow_at rows) (seq 0 (length rows))).
  { apply (nth_ext _ _ zero_row zero_row); [rewrite map_length, seq_length; reflexivity|]. intros i Hi.
    rewrite (nth_indep (map _ _) zero_row (trow_at rows 0)) by (rewrite map_length, seq_length; exact Hi). rewrite map_nth, seq_nth by exact Hi. reflexivity. }
  transitivity (map g (map (trow_at rows) (seq 0 (length rows)))); [|rewrite <- E; reflexivity]. unfold finish. rewrite !map_map. apply map_ext. intros i. apply H. intros c Hc. rewrite !set_neq by (sp_cols; lia). reflexivity.
Qed.
