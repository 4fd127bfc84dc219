(** The Keccak sponge table: what its constraints leave open (C84). *)
From Coq Require Import ZArith List Lia Bool Arith Permutation.
From Coq Require Import ZifyBool ZifyNat.
From Verif Require Import Stark.Field Stark.ArithModel Stark.ArithGen Stark.LogicModel Stark.LogicProps Stark.MemModel Stark.MemSound Stark.Lookup Stark.BytePackProps
  Keccak.KeccakSpec Keccak.SpongeModel Keccak.SpongeFacts Keccak.SpongeSound Keccak.SpongeProps Keccak.SpongeGen Keccak.SpongeOps Keccak.SpongeTable.
Import ListNotations.
Local Open Scope Z_scope.

(** * The digest bytes are not range-checked *)

(** The inverse of 2^32 - 2^16. *)
Definition gap_inv : Z := 18446744065119551489.
Lemma gap_inv_ok : (gap_inv * (2^32 - 2^16)) mod P = 1.
Proof. vm_compute. reflexivity. Qed.

(** Two cells that keep the little-endian value [v] and give the big-endian [w]. *)
Definition cell1 (v w : Z) : Z := ((2^24 * v - w) * gap_inv) mod P.
Definition cell0 (v w : Z) : Z := (v - 2^8 * cell1 v w) mod P.

Lemma cell_le : forall v w, (cell0 v w + 2^8 * cell1 v w) mod P = v mod P.
Proof. intros v w. unfold cell0. rewrite Zplus_mod_idemp_l. f_equal. ring. Qed.
Lemma cell_be : forall v w, (2^24 * cell0 v w + 2^16 * cell1 v w) mod P = w mod P.
Proof.
  intros v w. unfold cell0. set (y := cell1 v w). rewrite Zplus_mod, Zmult_mod_idemp_r, <- Zplus_mod.
  replace (2^24 * (v - 2^8 * y) + 2^16 * y) with (2^24 * v - (2^32 - 2^16) * y) by ring.
  unfold y, cell1. rewrite Zminus_mod, Zmult_mod_idemp_r, <- Zminus_mod.
  replace (2^24 * v - (2^32 - 2^16) * ((2^24 * v - w) * gap_inv)) with (2^24 * v - (2^24 * v - w) * (gap_inv * (2^32 - 2^16))) by ring.
  assert (E : ((2^24 * v - w) * (gap_inv * (2^32 - 2^16))) mod P = (2^24 * v - w) mod P) by (rewrite Zmult_mod, gap_inv_ok, Z.mul_1_r, Z.mod_mod by discriminate; reflexivity).
  rewrite Zminus_mod, E, <- Zminus_mod. f_equal. ring.
Qed.

Definition forged_digest (r : row) (w : list Z) : list Z :=
  flat_map (fun k => [cell0 (le4 (digest r) k) (nth (7 - k) w 0); cell1 (le4 (digest r) k) (nth (7 - k) w 0); 0; 0]) (seq 0 8).
Definition forge (r : row) (w : list Z) : row := write r S_DIGEST (forged_digest r w).

Lemma forge_out : forall r w c, (c < 404 \/ 436 <= c)%nat -> forge r w c = r c.
Proof. intros r w c H. unfold forge. apply write_out. sp_cols. cbn [forged_digest length flat_map map seq app]. lia. Qed.

Lemma forge_digest : forall r w k, (k < 8)%nat ->
  digest (forge r w) (4 * k) = cell0 (le4 (digest r) k) (nth (7 - k) w 0) /\ digest (forge r w) (4 * k + 1) = cell1 (le4 (digest r) k) (nth (7 - k) w 0) /\
  digest (forge r w) (4 * k + 2) = 0 /\ digest (forge r w) (4 * k + 3) = 0.
Proof. intros r w k H. do 8 (destruct k as [|k]; [repeat split; reflexivity|]). lia. Qed.

Lemma forge_le : forall r w k, (k < 8)%nat -> le4 (digest (forge r w)) k mod P = le4 (digest r) k mod P.
Proof.
  intros r w k H. destruct (forge_digest r w k H) as (E0 & E1 & E2 & E3). rewrite <- (cell_le (le4 (digest r) k) (nth (7 - k) w 0)). unfold le4 at 1. cbn [map seq]. rewrite Nat.add_0_r, E0, E1, E2, E3.
  change (Z.of_nat (8 * 0)) with 0. change (Z.of_nat (8 * 1)) with 8. cbn [sum fold_right]. rewrite !Z.mul_0_l, !Z.add_0_l, Z.add_0_r, Z.pow_0_r, Z.mul_1_r. f_equal. ring.
Qed.
Lemma forge_be : forall r w k, (k < 8)%nat -> be4 (digest (forge r w)) k mod P = nth (7 - k) w 0 mod P.
Proof.
  intros r w k H. destruct (forge_digest r w k H) as (E0 & E1 & E2 & E3). rewrite <- (cell_be (le4 (digest r) k) (nth (7 - k) w 0)). unfold be4. cbn [map seq]. rewrite Nat.add_0_r, E0, E1, E2, E3.
  change (Z.of_nat (24 - 8 * 0)) with 24. change (Z.of_nat (24 - 8 * 1)) with 16. cbn [sum fold_right]. f_equal. ring.
Qed.

Lemma forge_canonical : forall r w, (forall c, canonical (r c)) -> forall c, canonical (forge r w c).
Proof.
  intros r w H. apply write_canonical; [exact H|]. apply Forall_forall. intros x Hx. unfold forged_digest in Hx. apply in_flat_map in Hx. destruct Hx as (k & _ & Hx).
  assert (M : forall z, canonical (z mod P)) by (intros z; unfold canonical; pose proof (Z.mod_pos_bound z P ltac:(reflexivity)); lia).
  destruct Hx as [<-|[<-|[<-|[<-|[]]]]]; try apply M; split; (discriminate || reflexivity).
Qed.

(** What the other tables and the memory see of a row, apart from the CPU. *)
Definition same_lookups (a b : row) : Prop :=
  reduced (sp_keccak_inputs a) = reduced (sp_keccak_inputs b) /\ reduced (sp_keccak_outputs a) = reduced (sp_keccak_outputs b) /\ sp_keccak_filter a = sp_keccak_filter b /\
  (forall i, (i < 136)%nat -> sp_memory i a = sp_memory i b /\ sp_memory_filter i a = sp_memory_filter i b) /\
  (forall i, (i < 5)%nat -> sp_logic i a = sp_logic i b) /\ sp_logic_filter a = sp_logic_filter b /\ sp_looked_filter a = sp_looked_filter b.

Lemma forge_same : forall r w, same_lookups (forge r w) r.
Proof.
  intros r w. assert (OUT := forge_out r w). assert (PD : forall i, (i < 136)%nat -> is_pad (forge r w) i = is_pad r i) by (intros i Hi; apply OUT; sp_cols; lia).
  assert (FI : is_final (forge r w) = is_final r) by (apply PD; unfold KECCAK_RATE_BYTES; lia).
  assert (EC : forall c, (c < 6)%nat -> forge r w c = r c) by (intros; apply OUT; lia).
  assert (BK : forall i, (i < 136)%nat -> block_byte (forge r w) i = block_byte r i) by (intros i Hi; apply OUT; sp_cols; lia).
  split; [|split; [|split; [|split; [|split; [|split]]]]].
  - reflexivity.
  - unfold sp_keccak_outputs, reduced. rewrite !map_app, !map_map. apply f_equal2; [|reflexivity]. apply map_ext_in. intros i Hi. apply in_seq in Hi. apply forge_le. exact (proj2 Hi).
  - unfold sp_keccak_filter. rewrite FI, EC by (sp_cols; lia). reflexivity.
  - intros i Hi. unfold sp_memory, sp_memory_filter. rewrite FI, BK, PD, !EC by (try assumption; sp_cols; lia). split; reflexivity.
  - intros i Hi. do 5 (destruct i as [|i]; [reflexivity|]). lia.
  - unfold sp_logic_filter. rewrite FI, EC by (sp_cols; lia). reflexivity.
  - exact FI.
Qed.

(** The same table with another row at [i]. *)
Definition replace_row (t : list row) (i : nat) (r : row) : list row := map (fun j => if (j =? i)%nat then r else trow_at t j) (seq 0 (length t)).

Lemma replace_length : forall t i r, length (replace_row t i r) = length t.
Proof. intros t i r. unfold replace_row. rewrite map_length, seq_length. reflexivity. Qed.
Lemma replace_at : forall t i r j, (j < length t)%nat -> trow_at (replace_row t i r) j = if (j =? i)%nat then r else trow_at t j.
Proof.
  intros t i r j Hj. unfold trow_at at 1, replace_row. rewrite (nth_indep _ zero_row ((fun j => if (j =? i)%nat then r else trow_at t j) 0%nat)) by (rewrite map_length, seq_length; exact Hj).
  rewrite (map_nth (fun j => if (j =? i)%nat then r else trow_at t j)), seq_nth by exact Hj. reflexivity.
Qed.

Lemma eval_next_forged : forall lv nv w, eval_sponge lv (forge nv w) = eval_sponge lv nv.
Proof. intros. reflexivity. Qed.

Lemma eval_forged : forall (Q : constr -> Prop) lv nv w, (forall x, Q (Transition, lv S_FULL * x)) -> Forall Q (eval_sponge lv nv) -> Forall Q (eval_sponge (forge lv w) nv).
Proof.
  intros Q lv nv w F H. unfold eval_sponge in *. rewrite !Forall_app in *. repeat match goal with H : _ /\ _ |- _ => destruct H end. repeat split.
  all: try assumption.
  apply Forall_forall. intros c Hc. apply in_map_iff in Hc. destruct Hc as (k & <- & _). apply F.
Qed.

(** For every accepted table, every final row and every eight field elements,
    there is an accepted table with the same lookups into the Keccak, logic and
    memory tables in which the CPU sees these elements as the digest. *)
Theorem C84_any_digest_refuted : forall t i w, sponge_table_ok t -> (i < length t)%nat -> sp_looked_filter (trow_at t i) mod P <> 0 -> length w = 8%nat -> Forall canonical w ->
  exists t', sponge_table_ok t' /\ length t' = length t /\
    (forall j, (j < length t)%nat -> same_lookups (trow_at t' j) (trow_at t j)) /\
    (forall j, (j < length t)%nat -> j <> i -> sp_looked_data (trow_at t' j) = sp_looked_data (trow_at t j)) /\
    reduced (sp_looked_data (trow_at t' i)) = reduced (firstn 5 (sp_looked_data (trow_at t i))) ++ w.
Proof.
  intros t i w OK Hi NZ LW CW. set (r := forge (trow_at t i) w). exists (replace_row t i r).
  assert (MEAN : meaning t) by (destruct OK as (H & _ & C); apply read_meaning; assumption). destruct MEAN as (LOC & _ & _).
  assert (FIN : is_final (trow_at t i) = 1) by (apply filter_bit; [apply (lo_pad _ (LOC i Hi)); unfold KECCAK_RATE_BYTES; lia|exact NZ]).
  assert (F0 : trow_at t i S_FULL = 0) by (destruct (lo_full _ (LOC i Hi)) as [E|E]; [exact E|exfalso; apply (lo_excl _ (LOC i Hi)); auto]).
  destruct OK as (HOLD & LOOK & CAN). split; [|split; [apply replace_length|split; [|split]]].
  - split; [|split].
    + intros j Hj. rewrite replace_length in *. unfold tnext. rewrite replace_length. assert (Hn : (S j mod length t < length t)%nat) by (apply Nat.mod_upper_bound; lia). rewrite !replace_at by assumption. specialize (HOLD j Hj). unfold tnext in HOLD.
      assert (E : Forall (fun c => applies (fst c) j (length t) = true -> snd c mod P = 0) (eval_sponge (trow_at t j) (if (S j mod length t =? i)%nat then r else trow_at t (S j mod length t)))).
      { destruct (Nat.eqb_spec (S j mod length t) i) as [E|_]; [|exact HOLD]. unfold r. rewrite eval_next_forged, <- E. exact HOLD. }
      destruct (Nat.eqb_spec j i) as [->|_]; [|exact E]. apply eval_forged; [|exact E]. intros x _. cbn [snd]. rewrite F0. reflexivity.
    + intros v. rewrite <- (LOOK v). assert (G : forall h : row -> Z, h r = h (trow_at t i) -> map h (replace_row t i r) = map h t).
      { intros h Hh. apply (nth_ext _ _ 0 0); [rewrite !map_length; apply replace_length|]. rewrite map_length, replace_length. intros k Hk.
        rewrite (nth_indep (map h (replace_row t i r)) 0 (h zero_row)), (nth_indep (map h t) 0 (h zero_row)) by (rewrite map_length, ?replace_length; exact Hk). rewrite !map_nth. fold (trow_at t k). fold (trow_at (replace_row t i r) k).
        rewrite replace_at by exact Hk. destruct (Nat.eqb_spec k i) as [->|_]; [exact Hh|reflexivity]. }
      unfold col_count, freq_count. rewrite !G by reflexivity. reflexivity.
    + unfold canonical_rows, replace_row. rewrite Forall_map. apply Forall_forall. intros j Hj. apply in_seq in Hj. unfold canonical_rows in CAN. rewrite Forall_forall in CAN.
      destruct (j =? i)%nat; [apply forge_canonical|]; apply CAN; apply nth_In; lia.
  - intros j Hj. rewrite replace_at by exact Hj. destruct (Nat.eqb_spec j i) as [->|_]; [apply forge_same|repeat split].
  - intros j Hj N. rewrite replace_at by exact Hj. destruct (Nat.eqb_spec j i) as [->|_]; [congruence|reflexivity].
  - rewrite replace_at by exact Hi. rewrite Nat.eqb_refl. unfold sp_looked_data at 1. rewrite reduced_app. apply f_equal2; [reflexivity|].
    unfold reduced. rewrite map_map. apply (nth_ext _ _ 0 0); [rewrite map_length, rev_length, seq_length; symmetry; exact LW|]. rewrite map_length, rev_length, seq_length. intros k Hk.
    rewrite (nth_indep _ 0 ((fun k => be4 (digest r) k mod P) 0%nat)) by (rewrite map_length, rev_length, seq_length; exact Hk). rewrite (map_nth (fun k => be4 (digest r) k mod P)).
    rewrite rev_nth by (rewrite seq_length; exact Hk). rewrite seq_length, seq_nth by lia. unfold r. rewrite forge_be by lia. replace (7 - (0 + (8 - S k)))%nat with k by lia.
    apply canon_mod. rewrite Forall_forall in CW. apply CW. apply nth_In. lia.
Qed.
Print Assumptions C84_any_digest_refuted.

(** * The padding is not checked in the last row *)

(** Tables from rows of operations, as generation finishes them. *)
Lemma rows_accepted : forall f rows, (256 <= length rows)%nat -> linked rows -> start_ok (hd zero_row rows) -> Forall (good f) rows ->
  sponge_table_ok (finish rows) /\ logic_served (finish rows) /\ (forall r, In r (finish rows) -> permuted f r).
Proof.
  intros f rows LEN LK SO GD. rewrite Forall_forall in GD.
  assert (MEAN : meaning rows) by (apply rows_meaning; [exact LK|exact SO|intros r Hr; apply (GD r Hr)]). split; [|split].
  - apply finish_ok; [exact LEN|exact MEAN|intros r Hr; apply (GD r Hr)|intros r Hr; apply (GD r Hr)].
  - intros j i Hj Hi _. destruct (in_finish rows (trow_at (finish rows) j) (nth_In _ _ Hj)) as (a & Ha & Hab). destruct (agree_views _ _ Hab) as (_ & _ & _ & _ & _ & EL & _). rewrite <- (EL i Hi). apply (GD a Ha). exact Hi.
  - intros r Hr. destruct (in_finish rows r Hr) as (a & Ha & Hab). apply (agree_good f a r Hab). apply (GD a Ha).
Qed.

Definition empty_op (ts : Z) : sponge_op := {| so_context := 0; so_segment := 0; so_virt := 0; so_timestamp := ts; so_input := [] |}.
(** A final row whose block is all zeros, that is, without any padding. *)
Definition bare_row (f : list Z -> list Z) (op : sponge_op) : row := generate_common_fields f (write zero_row S_PADDING (repeat 1 136)) op 0 (repeat 0 50).
Definition bare_table (f : list Z -> list Z) (op : sponge_op) : list row := finish (repeat (generate_final_row f op 0 (repeat 0 50) []) 255 ++ [bare_row f op]).

Lemma xor_nothing : xor_block (repeat 0 50) (repeat 0 136) = repeat 0 50.
Proof. vm_compute. reflexivity. Qed.

Lemma zeros_bytes : Forall byte (repeat 0 136).
Proof. apply Forall_forall. intros x Hx. apply repeat_spec in Hx. subst. unfold byte. lia. Qed.

Lemma linked_repeat : forall a l n, step_ok a a -> (l <> [] -> step_ok a (hd zero_row l)) -> linked l -> linked (repeat a n ++ l).
Proof.
  intros a l n H1 H2 H3. induction n as [|n IH]; [exact H3|]. cbn [repeat app]. destruct n as [|n].
  - cbn [repeat app] in *. destruct l as [|b l]; [exact I|]. split; [apply H2; discriminate|exact H3].
  - cbn [repeat app] in *. split; [exact H1|exact IH].
Qed.

Lemma map_repeat' : forall {A B} (g : A -> B) a n, map g (repeat a n) = repeat (g a) n.
Proof. intros A B g a n. induction n as [|n IH]; [reflexivity|]. cbn [repeat map]. rewrite IH. reflexivity. Qed.
Lemma concat_nils : forall {A} n, concat (repeat (@nil A) n) = [].
Proof. intros A n. induction n as [|n IH]; [reflexivity|exact IH]. Qed.
Lemma nth_repeat_in : forall i n, (i < n)%nat -> nth i (repeat 1 n) 0 = 1.
Proof. intros i n. revert i. induction n as [|n IH]; intros i H; [lia|]. destruct i; [reflexivity|]. apply IH. lia. Qed.

(** The table claims that the empty string has the digest squeezed from the
    permutation of the all-zero state, though every lookup is right and the
    digest bytes are bytes. *)
Theorem C84_last_row_refuted : forall f op, preserves_states f -> sop_ok op ->
  let t := bare_table f op in let r := trow_at t 255 in
  sponge_table_ok t /\ length t = 256%nat /\ logic_served t /\ (forall r, In r t -> permuted f r) /\ flat_map row_reads t = [] /\
  sp_looked_filter r = 1 /\ digest_is_bytes r /\
  sp_looked_data r = [so_context op; so_segment op; so_virt op; 0; so_timestamp op] ++ limbs (be_value (squeeze (f (repeat 0 50)))).
Proof.
  intros f op HF OP. cbv zeta. unfold bare_table. set (a := generate_final_row f op 0 (repeat 0 50) []). set (b := bare_row f op).
  assert (L0 : (@length Z [] < 136)%nat) by (cbn [length]; lia). assert (C0 : canonical 0) by (split; (discriminate || reflexivity)).
  assert (SA : state_like (f (xor_block (repeat 0 50) (pad [])))) by (apply HF; destruct zero_state; apply xor_block_u32; try assumption; [apply pad_short; exact L0|apply pad_bytes; constructor]).
  destruct (final_built f op 0 (repeat 0 50) [] L0 (Forall_nil _) zero_state OP C0 SA) as (Ba & Fa & Pa). fold a in Ba, Fa, Pa. destruct (final_good f a op 0 (repeat 0 50) [] L0 (Forall_nil _) Ba Fa Pa) as (Ga & SPa & FIa).
  set (r0 := write zero_row S_PADDING (repeat 1 136)). assert (BK0 : blk r0 = repeat 0 136) by reflexivity.
  destruct (common_built f r0 op 0 (repeat 0 50)) as (Bb & Fb & Pb); try assumption.
  { apply write_canonical; [intros; exact C0|]. apply Forall_forall. intros x Hx. apply repeat_spec in Hx. subst. split; (discriminate || reflexivity). }
  { intros j Hj. assert (E : block_byte r0 j = nth j (blk r0) 0) by (unfold blk; rewrite nth_map_seq by exact Hj; reflexivity). rewrite E, BK0, nth_repeat. unfold byte. lia. }
  { apply zero_state. }
  { rewrite BK0, xor_nothing. apply HF. apply zero_state. }
  cbv zeta in Bb, Fb, Pb. change (generate_common_fields f r0 op 0 (repeat 0 50)) with b in Bb, Fb, Pb. rewrite BK0, ?xor_nothing in Bb.
  assert (P1 : forall i, (i < 136)%nat -> is_pad b i = 1).
  { intros i Hi. rewrite Pb by exact Hi. unfold is_pad, r0. rewrite write_in by (rewrite repeat_length; sp_cols; lia). sp_cols. replace (6 + i - 6)%nat with i by lia. apply (nth_repeat_in i 136). exact Hi. }
  assert (FIb : is_final b = 1) by (apply P1; unfold KECCAK_RATE_BYTES; lia). assert (Fb0 : b S_FULL = 0) by (rewrite Fb; reflexivity).
  assert (Gb : good f b).
  { constructor; try (apply Bb).
    - constructor; [left; exact Fb0|intros i Hi; right; apply P1; exact Hi|intros i Hi _; apply P1; exact Hi|intros [X _]; rewrite Fb0 in X; discriminate].
    - intros j Hj. assert (E : block_byte b j = nth j (blk b) 0) by (unfold blk; rewrite nth_map_seq by exact Hj; reflexivity). rewrite E, (b_blk _ _ _ _ _ _ Bb), nth_repeat. unfold byte. lia. }
  assert (STa : start_ok a) by (apply state_start; [apply Ba|apply Ba]). assert (STb : start_ok b) by (apply state_start; [apply Bb|apply Bb]).
  assert (LEN : length (repeat a 255 ++ [b]) = 256%nat) by (rewrite app_length, repeat_length; reflexivity).
  destruct (rows_accepted f (repeat a 255 ++ [b])) as (OK & LOG & PERM).
  { rewrite LEN. lia. }
  { apply linked_repeat; [apply final_step; (assumption || apply Ga)|intros _; apply final_step; (assumption || apply Ga)|exact I]. }
  { exact STa. }
  { apply Forall_app. split; [apply Forall_forall; intros x Hx; apply repeat_spec in Hx; subst; exact Ga|constructor; [exact Gb|constructor]]. }
  split; [exact OK|]. split; [rewrite finish_length; exact LEN|]. split; [exact LOG|]. split; [exact PERM|].
  assert (AG : agree b (trow_at (finish (repeat a 255 ++ [b])) 255)).
  { rewrite finish_at by (rewrite LEN; lia). replace (trow_at (repeat a 255 ++ [b]) 255) with b; [|unfold trow_at; rewrite app_nth2; rewrite repeat_length; [reflexivity|lia]].
    intros c Hc. rewrite !set_neq by (sp_cols; lia). reflexivity. }
  set (r := trow_at _ 255) in *. destruct (agree_views b r AG) as (E1 & E2 & _). split; [|split; [|split]].
  - rewrite !flat_map_concat_map, map_finish by (intros x y Hxy; apply (agree_views x y Hxy)). rewrite map_app, map_repeat'. cbn [map].
    assert (Ra : row_reads a = []) by (rewrite (final_reads f a op 0 (repeat 0 50) [] L0 Ba Fa Pa); reflexivity).
    assert (Rb : row_reads b = []).
    { unfold row_reads. rewrite filter_none; [reflexivity|]. intros i Hi. apply in_seq in Hi. unfold sp_memory_filter. rewrite Fb0, FIb, P1 by lia. destruct (i =? _)%nat; reflexivity. }
    rewrite Ra, Rb, concat_app. cbn [concat app]. rewrite app_nil_r. apply concat_nils.
  - rewrite <- E2. exact FIb.
  - intros k Hk. unfold digest. rewrite <- (AG (S_DIGEST + k)%nat) by (sp_cols; lia). apply (b_digest _ _ _ _ _ _ Bb k Hk).
  - rewrite <- E1. unfold sp_looked_data. rewrite (b_context _ _ _ _ _ _ Bb), (b_segment _ _ _ _ _ _ Bb), (b_virt _ _ _ _ _ _ Bb), (b_timestamp _ _ _ _ _ _ Bb), (b_absorbed _ _ _ _ _ _ Bb). change KECCAK_RATE_BYTES with 136%nat.
    rewrite (sum_pads b 0) by (try lia; intros j Hj; rewrite P1 by exact Hj; reflexivity). rewrite looked_digest by apply Bb. rewrite <- squeeze_digest by apply Bb. rewrite (b_stout _ _ _ _ _ _ Bb), xor_nothing. reflexivity.
Qed.
Print Assumptions C84_last_row_refuted.
