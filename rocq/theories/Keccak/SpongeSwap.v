(** The Keccak sponge table: inputs and outputs of the permutation are looked
    up separately (C84), and what follows for whole tables. *)
From Coq Require Import ZArith List Lia Bool Arith Permutation.
From Coq Require Import ZifyBool ZifyNat.
From Verif Require Import Stark.Field Stark.ArithModel Stark.ArithGen Stark.LogicModel Stark.LogicProps Stark.MemModel Stark.MemSound Stark.Lookup Stark.BytePackProps
  Keccak.KeccakSpec Keccak.SpongeModel Keccak.SpongeFacts Keccak.SpongeSound Keccak.SpongeProps Keccak.SpongeGen Keccak.SpongeOps Keccak.SpongeTable Keccak.SpongeGaps.
Import ListNotations.
Local Open Scope Z_scope.

(** * Keccak-f keeps states *)

Lemma lane64 : forall s x y, Forall (fun w => 0 <= w < 2^64) s -> 0 <= lane s x y < 2^64.
Proof. intros s x y H. unfold lane. destruct (Nat.lt_ge_cases (x + 5 * y) (length s)) as [L|L]; [rewrite Forall_forall in H; apply H; apply nth_In; exact L|rewrite nth_overflow by exact L; lia]. Qed.
Lemma build64 : forall g, (forall x y, 0 <= g x y < 2^64) -> Forall (fun w => 0 <= w < 2^64) (build g).
Proof. intros g H. unfold build. rewrite Forall_map. apply Forall_forall. intros i _. apply H. Qed.
Lemma rotl64 : forall w n, 0 <= w < 2^64 -> 0 <= n < 64 -> 0 <= rotl w n < 2^64.
Proof.
  intros w n Hw Hn. unfold rotl. assert (E : 2^64 = 2 ^ n * 2 ^ (64 - n)) by (rewrite <- Z.pow_add_r by lia; f_equal; lia).
  assert (A : 0 < 2 ^ n) by (apply Z.pow_pos_nonneg; lia). assert (B : 0 < 2 ^ (64 - n)) by (apply Z.pow_pos_nonneg; lia).
  rewrite E in Hw |- *. rewrite (Z.mul_comm w), Zmult_mod_distr_l. set (p := 2 ^ n) in *. set (q := 2 ^ (64 - n)) in *. clearbody p q.
  pose proof (Z.mod_pos_bound w q B). pose proof (Z.div_pos w q ltac:(lia) B). assert (w / q < p) by (apply Z.div_lt_upper_bound; lia). nia.
Qed.
Lemma lxor64 : forall a b, 0 <= a < 2^64 -> 0 <= b < 2^64 -> 0 <= Z.lxor a b < 2^64.
Proof. intros a b. apply lxor_bound. lia. Qed.
Lemma ldiff64 : forall a b, 0 <= a < 2^64 -> 0 <= b < 2^64 -> 0 <= Z.ldiff a b < 2^64.
Proof.
  intros a b Ha Hb. assert (E : Z.ldiff a b = Z.lxor a (Z.land a b)).
  { apply Z.bits_inj'. intros i Hi. rewrite Z.ldiff_spec, Z.lxor_spec, Z.land_spec. destruct (Z.testbit a i), (Z.testbit b i); reflexivity. }
  assert (L : Z.land a b = Z.land a b mod 2^64).
  { rewrite <- Z.land_ones by lia. rewrite <- Z.land_assoc. f_equal. rewrite Z.land_ones by lia. symmetry. apply Z.mod_small. exact Hb. }
  rewrite E. apply lxor64; [exact Ha|]. rewrite L. apply Z.mod_pos_bound. lia.
Qed.

Lemma nth64 : forall s i, Forall (fun w => 0 <= w < 2^64) s -> 0 <= nth i s 0 < 2^64.
Proof. intros s i H. destruct (Nat.lt_ge_cases i (length s)) as [L|L]; [rewrite Forall_forall in H; apply H; apply nth_In; exact L|rewrite nth_overflow by exact L; lia]. Qed.

Lemma offset_bound : forall x y, 0 <= offset x y < 64.
Proof.
  intros x y. unfold offset. assert (G : forall l, Forall (fun e : nat * nat * Z => 0 <= snd e < 64) l -> 0 <= find_offset l x y < 64).
  { induction l as [|[[a b] r] l IH]; intros H; [cbn [find_offset]; lia|]. inversion H; subst. cbn [find_offset]. destruct (_ && _); [assumption|apply IH; assumption]. }
  apply G. assert (W : forall n t a b, Forall (fun e : nat * nat * Z => 0 <= snd e < 64) (walk n t a b)).
  { induction n as [|n IH]; intros t a b; cbn [walk]; constructor; [cbn [snd]; apply Z.mod_pos_bound; lia|apply IH]. }
  apply W.
Qed.

Lemma round64 : forall ir s, (ir < 24)%nat -> Forall (fun w => 0 <= w < 2^64) s -> Forall (fun w => 0 <= w < 2^64) (round ir s).
Proof.
  intros ir s Hir H. unfold round.
  assert (H1 : Forall (fun w => 0 <= w < 2^64) (theta s)).
  { unfold theta. cbv zeta. set (c := map (parity s) (seq 0 5)). assert (HC : Forall (fun w => 0 <= w < 2^64) c).
    { unfold c. rewrite Forall_map. apply Forall_forall. intros x _. unfold parity. repeat apply lxor64; apply lane64; exact H. }
    set (d := map _ (seq 0 5)). assert (HD : Forall (fun w => 0 <= w < 2^64) d).
    { unfold d. rewrite Forall_map. apply Forall_forall. intros x _. apply lxor64; [apply nth64; exact HC|]. apply rotl64; [apply nth64; exact HC|lia]. }
    apply build64. intros x y. apply lxor64; [apply lane64; exact H|apply nth64; exact HD]. }
  assert (H2 : Forall (fun w => 0 <= w < 2^64) (rho (theta s))) by (apply build64; intros x y; apply rotl64; [apply lane64; exact H1|apply offset_bound]).
  assert (H3 : Forall (fun w => 0 <= w < 2^64) (pi (rho (theta s)))) by (apply build64; intros x y; apply lane64; exact H2).
  assert (H4 : Forall (fun w => 0 <= w < 2^64) (chi (pi (rho (theta s))))) by (apply build64; intros x y; apply lxor64; [|apply ldiff64]; apply lane64; exact H3).
  apply build64. intros x y. destruct (_ && _); [|apply lane64; exact H4]. apply lxor64; [apply lane64; exact H4|].
  assert (R : forallb (fun i => (0 <=? round_constant i) && (round_constant i <? 2^64)) (seq 0 24) = true) by (vm_compute; reflexivity).
  rewrite forallb_forall in R. specialize (R ir). rewrite in_seq in R. specialize (R ltac:(lia)). lia.
Qed.

Lemma keccak_f64 : forall s, Forall (fun w => 0 <= w < 2^64) s -> Forall (fun w => 0 <= w < 2^64) (keccak_f s).
Proof.
  intros s. unfold keccak_f. assert (G : forall l s, (forall i, In i l -> (i < 24)%nat) -> Forall (fun w => 0 <= w < 2^64) s -> Forall (fun w => 0 <= w < 2^64) (fold_left (fun s ir => round ir s) l s)).
  { induction l as [|i l IH]; intros s0 Hl H; [exact H|]. cbn [fold_left]. apply IH; [intros; apply Hl; right; assumption|]. apply round64; [apply Hl; left; reflexivity|exact H]. }
  apply G. intros i Hi. apply in_seq in Hi. lia.
Qed.
Lemma keccak_f_length : forall s, length (keccak_f s) = 25%nat.
Proof. intros s. unfold keccak_f. rewrite (seq_S 23 0), fold_left_app. reflexivity. Qed.

(** The permutation of FIPS 202 meets the hypothesis of the theorems. *)
Theorem keccak_preserves : preserves_states keccak_f_words.
Proof.
  intros s (LS & HS). unfold keccak_f_words. assert (HL : Forall (fun w => 0 <= w < 2^64) (lanes_of s)).
  { unfold lanes_of. rewrite Forall_map. apply Forall_forall. intros i _. pose proof (nth_u32 s (2 * i) HS) as A. pose proof (nth_u32 s (2 * i + 1) HS) as B. unfold u32 in *. lia. }
  pose proof (keccak_f64 _ HL) as K. pose proof (keccak_f_length (lanes_of s)) as LK. set (l := keccak_f (lanes_of s)) in *. clearbody l. split.
  - unfold words_of. rewrite flat_map_concat_map. assert (G : forall q : list Z, length (concat (map (fun l => [l mod 2^32; l / 2^32]) q)) = (2 * length q)%nat) by (induction q as [|x q IH]; [reflexivity|]; cbn [map concat app length]; rewrite IH; lia). rewrite G, LK. reflexivity.
  - unfold words_of. apply Forall_flat_map. apply Forall_forall. intros w Hw. rewrite Forall_forall in K. specialize (K w Hw). constructor; [unfold u32; apply Z.mod_pos_bound; lia|]. constructor; [|constructor]. unfold u32. split; [apply Z.div_pos; lia|apply Z.div_lt_upper_bound; lia].
Qed.
Print Assumptions keccak_preserves.

(** * Inputs and outputs of one operation can be exchanged *)

Section Swap.
  Variable f : list Z -> list Z.
  Variable op : sponge_op.
  Variables (b1 b2 tail : list Z).
  Let in1 : list Z := xor_block (repeat 0 50) b1.
  Let in3 : list Z := xor_block (f in1) (pad tail).
  Let in2 : list Z := xor_block (f in3) b2.
  (** Three rows that read the message b1 ++ b2 ++ tail; the first has the
      output of the third, the second that of the first and the third that of
      the second. *)
  Definition swap_rows : list row :=
    [generate_full_input_row (fun _ => f in3) op 0 (repeat 0 50) b1;
     generate_full_input_row (fun _ => f in1) op 136 (f in3) b2;
     generate_final_row (fun _ => f in2) op 272 (f in1) tail].
  Definition swap_table : list row := finish (swap_rows ++ repeat zero_row 253).

  Hypothesis HF : preserves_states f.
  Hypothesis OP : sop_ok op.
  Hypothesis LB1 : length b1 = 136%nat.
  Hypothesis LB2 : length b2 = 136%nat.
  Hypothesis LT : (length tail < 136)%nat.
  Hypothesis HB1 : Forall byte b1.
  Hypothesis HB2 : Forall byte b2.
  Hypothesis HT : Forall byte tail.

  Lemma in1_state : state_like in1.
  Proof. destruct zero_state. apply xor_block_u32; assumption. Qed.
  Lemma in3_state : state_like in3.
  Proof. destruct (HF _ in1_state). apply xor_block_u32; try assumption; [apply pad_short; exact LT|apply pad_bytes; exact HT]. Qed.
  Lemma in2_state : state_like in2.
  Proof. destruct (HF _ in3_state). apply xor_block_u32; assumption. Qed.

  Lemma full_step : forall g h R R' a s b s' b', built g R op a s b -> R S_FULL = 1 -> self_pad R -> is_final R = 0 -> built h R' op (a + 136) s' b' -> s' = g (xor_block s b) -> 0 <= a < 1000 -> step_ok R R'.
  Proof.
    intros g h R R' a s b s' b' B F SP FZ B' E Ha. constructor.
    - intros X. rewrite FZ in X. discriminate.
    - intros _. rewrite (b_context _ _ _ _ _ _ B), (b_segment _ _ _ _ _ _ B), (b_virt _ _ _ _ _ _ B), (b_timestamp _ _ _ _ _ _ B), (b_context _ _ _ _ _ _ B'), (b_segment _ _ _ _ _ _ B'), (b_virt _ _ _ _ _ _ B'), (b_timestamp _ _ _ _ _ _ B'). auto.
    - intros _. rewrite (b_absorbed _ _ _ _ _ _ B'), (b_absorbed _ _ _ _ _ _ B). symmetry. apply Z.mod_small. unfold P. lia.
    - intros _ i Hi. transitivity (nth i (stin R') 0); [unfold stin; rewrite nth_map_seq by exact Hi; reflexivity|]. rewrite (b_stin _ _ _ _ _ _ B'), E, <- (b_stout _ _ _ _ _ _ B). unfold stout. rewrite nth_map_seq by exact Hi. reflexivity.
    - exact SP.
    - intros X. exfalso. apply X. left. exact F.
  Qed.

  Definition swap_perms : list kperm :=
    [ {| kp_in := in1; kp_out := f in1; kp_time := so_timestamp op |};
      {| kp_in := in2; kp_out := f in2; kp_time := so_timestamp op |};
      {| kp_in := in3; kp_out := f in3; kp_time := so_timestamp op |} ].

  Theorem swap_accepted :
    sponge_table_ok swap_table /\ length swap_table = 256%nat /\ logic_served swap_table /\
    keccak_lookups swap_table swap_perms /\
    flat_map row_reads swap_table = op_reads {| so_context := so_context op; so_segment := so_segment op; so_virt := so_virt op; so_timestamp := so_timestamp op; so_input := b1 ++ b2 ++ tail |} /\
    digest_is_bytes (trow_at swap_table 2) /\
    map sp_looked_data (filter (fun r => negb (sp_looked_filter r mod P =? 0)) swap_table) =
      [[so_context op; so_segment op; so_virt op; Z.of_nat (length (b1 ++ b2 ++ tail)); so_timestamp op] ++ limbs (be_value (squeeze (absorb f (repeat 0 50) [b1; pad tail; b2])))].
  Proof.
    pose proof in1_state as S1. pose proof in2_state as S2. pose proof in3_state as S3.
    assert (C : forall a, 0 <= a < 1000 -> canonical a) by (intros a Ha; unfold canonical, P; lia).
    destruct (full_built (fun _ => f in3) op 0 (repeat 0 50) b1 LB1 HB1 zero_state OP (C 0 ltac:(lia)) (HF _ S3)) as (B1 & F1 & P1). set (R1 := generate_full_input_row _ op 0 _ b1) in *.
    destruct (full_built (fun _ => f in1) op 136 (f in3) b2 LB2 HB2 (HF _ S3) OP (C 136 ltac:(lia)) (HF _ S1)) as (B2 & F2 & P2). set (R2 := generate_full_input_row _ op 136 _ b2) in *.
    destruct (final_built (fun _ => f in2) op 272 (f in1) tail LT HT (HF _ S1) OP (C 272 ltac:(lia)) (HF _ S2)) as (B3 & F3 & P3). set (R3 := generate_final_row _ op 272 _ tail) in *.
    destruct (full_good _ R1 op 0 _ b1 HB1 B1 F1 P1) as (G1 & SP1 & FZ1). destruct (full_good _ R2 op 136 _ b2 HB2 B2 F2 P2) as (G2 & SP2 & FZ2). destruct (final_good _ R3 op 272 _ tail LT HT B3 F3 P3) as (G3 & SP3 & FZ3).
    assert (ES : swap_rows = [R1; R2; R3]) by reflexivity. unfold swap_table. rewrite ES. set (rows := [R1; R2; R3] ++ repeat zero_row 253).
    assert (LEN : length rows = 256%nat) by reflexivity.
    assert (LK : linked rows).
    { unfold rows. change ([R1; R2; R3] ++ repeat zero_row 253) with (([R1; R2] ++ [R3]) ++ repeat zero_row 253). apply linked_app; [|apply zeros_linked|intros _; apply final_step; [apply G3|exact FZ3|exact SP3|apply zero_start]].
      cbn [app linked]. split; [|split; [|exact I]].
      - apply (full_step _ _ R1 R2 0 _ _ _ _ B1 F1 SP1 FZ1 B2); [reflexivity|lia].
      - apply (full_step _ _ R2 R3 136 _ _ _ _ B2 F2 SP2 FZ2 B3); [reflexivity|lia]. }
    assert (ST : start_ok (hd zero_row rows)) by (apply state_start; [apply B1|apply B1]).
    assert (IN : forall r, In r rows -> (exists g, good g r) \/ r = zero_row).
    { intros r Hr. apply in_app_or in Hr. destruct Hr as [[<-|[<-|[<-|[]]]]|Hr]; [left; eexists; exact G1|left; eexists; exact G2|left; eexists; exact G3|right; apply repeat_spec in Hr; exact Hr]. }
    assert (LO : forall r, In r rows -> local_ok r) by (intros r Hr; destruct (IN r Hr) as [[g G]| ->]; [apply G|apply zero_local]).
    assert (BY : forall r, In r rows -> forall j, (j < 136)%nat -> byte (block_byte r j)) by (intros r Hr; destruct (IN r Hr) as [[g G]| ->]; [apply G|intros; unfold byte, block_byte, zero_row; lia]).
    assert (CA : forall r, In r rows -> forall c, canonical (r c)) by (intros r Hr; destruct (IN r Hr) as [[g G]| ->]; [apply G|intros; apply (C 0); lia]).
    split; [|split; [|split; [|split; [|split; [|split]]]]].
    - apply finish_ok; [rewrite LEN; lia|apply rows_meaning; assumption|exact BY|exact CA].
    - rewrite finish_length. exact LEN.
    - intros j i Hj Hi NZ. destruct (in_finish rows (trow_at (finish rows) j) (nth_In _ _ Hj)) as (a & Ha & Hab). destruct (agree_views _ _ Hab) as (_ & _ & _ & _ & EF & EL & _). rewrite <- (EL i Hi).
      destruct (IN a Ha) as [[g G]| ->]; [apply G; exact Hi|]. exfalso. apply NZ. unfold sp_logic_filter. unfold sp_keccak_filter in EF. rewrite <- EF. reflexivity.
    - assert (AR : filter (fun r => negb (sp_keccak_filter r mod P =? 0)) rows = [R1; R2; R3]).
      { unfold rows. rewrite filter_app, (filter_none _ (repeat zero_row 253)) by (intros r Hr; apply repeat_spec in Hr; subst; reflexivity). cbn [filter]. unfold sp_keccak_filter. rewrite F1, F2, F3, FZ1, FZ2, FZ3. reflexivity. }
      assert (CM : forall g : row -> list Z, (forall a b, agree a b -> g a = g b) -> map g (active_rows (finish rows)) = map g [R1; R2; R3]).
      { intros g Hg. unfold active_rows. rewrite (filter_map_finish (A := list Z)); [rewrite AR; reflexivity|]. intros a b Hab. split; [apply Hg; exact Hab|]. destruct (agree_views a b Hab) as (_ & _ & _ & _ & E & _). rewrite E. reflexivity. }
      assert (CT : forall x, canonical (so_timestamp op) -> reduced (x ++ [so_timestamp op]) = reduced x ++ [so_timestamp op]) by (intros x Hx; rewrite reduced_app; unfold reduced at 2; cbn [map]; rewrite canon_mod by exact Hx; reflexivity).
      destruct OP as (_ & _ & _ & TC).
      assert (RI : forall g R a s b, built g R op a s b -> state_like (xor_block s b) -> reduced (sp_keccak_inputs R) = xor_block s b ++ [so_timestamp op]).
      { intros g R a s b B (_ & SB). rewrite inputs_split, (b_timestamp _ _ _ _ _ _ B), CT by exact TC. fold (inputs R). rewrite (b_inputs _ _ _ _ _ _ B). f_equal. apply reduced_canonical. eapply Forall_impl; [|exact SB]. apply u32_canonical. }
      assert (RO : forall g R a s b, built g R op a s b -> reduced (sp_keccak_outputs R) = g (xor_block s b) ++ [so_timestamp op]).
      { intros g R a s b B. rewrite outputs_split, (b_timestamp _ _ _ _ _ _ B), CT by exact TC. rewrite outputs_eq, (b_stout _ _ _ _ _ _ B). reflexivity. }
      split.
      + rewrite CM by (intros a b Hab; destruct (agree_views a b Hab) as (_ & _ & E & _); rewrite E; reflexivity). cbn [map swap_perms kp_in kp_time].
        rewrite (RI _ _ _ _ _ B1 S1), (RI _ _ _ _ _ B2 S2), (RI _ _ _ _ _ B3 S3). apply Permutation_refl.
      + rewrite CM by (intros a b Hab; destruct (agree_views a b Hab) as (_ & _ & _ & E & _); rewrite E; reflexivity). cbn [map swap_perms kp_out kp_time].
        rewrite (RO _ _ _ _ _ B1), (RO _ _ _ _ _ B2), (RO _ _ _ _ _ B3). apply (Permutation_cons_app [_; _] []). apply Permutation_refl.
    - rewrite !flat_map_concat_map, map_finish by (intros x y Hxy; apply (agree_views x y Hxy)). rewrite <- flat_map_concat_map. unfold rows. rewrite flat_map_app.
      rewrite (flat_map_concat_map row_reads (repeat zero_row 253)), map_repeat'. change (row_reads zero_row) with (@nil (list Z)). rewrite concat_nils. rewrite app_nil_r. cbn [flat_map]. rewrite app_nil_r.
      rewrite (full_reads _ R1 op 0 _ b1 LB1 B1 F1 P1), (full_reads _ R2 op 136 _ b2 LB2 B2 F2 P2), (final_reads _ R3 op 272 _ tail LT B3 F3 P3).
      transitivity (reads_from op 0 (b1 ++ b2 ++ tail)).
      + rewrite !reads_app, LB1, LB2. reflexivity.
      + unfold reads_from, op_reads. cbn [so_input so_context so_segment so_virt so_timestamp]. apply map_ext. intros q. rewrite Z.add_0_r. reflexivity.
    - assert (AG : agree R3 (trow_at (finish rows) 2)) by (rewrite finish_at by (rewrite LEN; lia); intros c Hc; rewrite !set_neq by (sp_cols; lia); reflexivity).
      intros k Hk. unfold digest. rewrite <- (AG (S_DIGEST + k)%nat) by (sp_cols; lia). apply (b_digest _ _ _ _ _ _ B3 k Hk).
    - rewrite filter_map_finish by (intros a b Hab; destruct (agree_views a b Hab) as (E1 & E2 & _); rewrite E1, E2; split; reflexivity).
      unfold rows. rewrite filter_app, (filter_none _ (repeat zero_row 253)) by (intros r Hr; apply repeat_spec in Hr; subst; reflexivity). cbn [filter]. unfold sp_looked_filter. rewrite FZ1, FZ2, FZ3. change (1 mod P) with 1. change (0 mod P) with 0. cbn [Z.eqb negb filter map app].
      f_equal. unfold sp_looked_data. rewrite (b_context _ _ _ _ _ _ B3), (b_segment _ _ _ _ _ _ B3), (b_virt _ _ _ _ _ _ B3), (b_timestamp _ _ _ _ _ _ B3), (b_absorbed _ _ _ _ _ _ B3). change KECCAK_RATE_BYTES with 136%nat.
      rewrite (sum_pads R3 (length tail)) by (try exact P3; lia). rewrite looked_digest by apply B3. rewrite <- squeeze_digest by apply B3. rewrite (b_stout _ _ _ _ _ _ B3). cbn [app]. rewrite !app_length, LB1, LB2. do 3 f_equal. f_equal. lia.
  Qed.
End Swap.

(** Every lookup is right, and yet the CPU sees the digest of the blocks in
    another order. *)
Theorem C84_exchanged_outputs_refuted : forall f op b1 b2 tail, preserves_states f -> sop_ok op -> length b1 = 136%nat -> length b2 = 136%nat -> (length tail < 136)%nat ->
  Forall byte b1 -> Forall byte b2 -> Forall byte tail ->
  exists t ks, sponge_table_ok t /\ logic_served t /\ keccak_lookups t ks /\ (forall k, In k ks -> kp_out k = f (kp_in k)) /\
    flat_map row_reads t = op_reads {| so_context := so_context op; so_segment := so_segment op; so_virt := so_virt op; so_timestamp := so_timestamp op; so_input := b1 ++ b2 ++ tail |} /\
    digest_is_bytes (trow_at t 2) /\
    map sp_looked_data (filter (fun r => negb (sp_looked_filter r mod P =? 0)) t) =
      [[so_context op; so_segment op; so_virt op; Z.of_nat (length (b1 ++ b2 ++ tail)); so_timestamp op] ++ limbs (be_value (squeeze (absorb f (repeat 0 50) [b1; pad tail; b2])))].
Proof.
  intros f op b1 b2 tail HF OP L1 L2 L3 H1 H2 H3. destruct (swap_accepted f op b1 b2 tail HF OP L1 L2 L3 H1 H2 H3) as (A & _ & B & C & D & E & F).
  exists (swap_table f op b1 b2 tail), (swap_perms f op b1 b2 tail). repeat (split; [assumption|]). split; [|auto]. intros k [<-|[<-|[<-|[]]]]; reflexivity.
Qed.
Print Assumptions C84_exchanged_outputs_refuted.

(** * Concrete cases *)

(** The premises of C83_sponge_complete hold for FIPS 202 and these operations,
    a hash of the empty string and one of two blocks. *)
Definition sample_ops : list sponge_op :=
  [ empty_op 7; {| so_context := 1; so_segment := 3; so_virt := 32; so_timestamp := 20; so_input := repeat 97 200 |} ].
Lemma sample_valid : Forall valid_sponge_op sample_ops.
Proof.
  assert (K : forall z, 0 <= z < 1000 -> canonical z) by (intros z Hz; unfold canonical, P; lia).
  constructor; [|constructor; [|constructor]]; (split; [repeat split; cbn; (lia || reflexivity)|split; [|vm_compute; reflexivity]]).
  - constructor.
  - apply Forall_forall. intros x Hx. apply repeat_spec in Hx. subst. unfold byte. lia.
Qed.
(** The CPU finds the published digest of the empty string in the table. *)
Example complete_case : exists t, sp_generate_trace keccak_f_words sample_ops 0 = Some t /\ sponge_table_ok t /\
  exists r, In r t /\ sp_looked_filter r mod P <> 0 /\ sp_looked_data r = [0; 0; 0; 0; 7] ++ limbs 0xc5d2460186f7233c927e7db2dcc703c0e500b653ca82273b7bfad8045d85a470.
Proof.
  destruct (C83_sponge_complete keccak_f_words sample_ops 0 keccak_preserves sample_valid) as (t & G & OK & _ & _ & L & _). exists t. split; [exact G|]. split; [exact OK|].
  destruct (filter _ t) as [|r l] eqn:E; [discriminate L|]. assert (Hr : In r (filter (fun r => negb (sp_looked_filter r mod P =? 0)) t)) by (rewrite E; left; reflexivity). apply filter_In in Hr. destruct Hr as [Hr F].
  exists r. split; [exact Hr|]. split; [intros X; rewrite X in F; discriminate F|]. pose proof (f_equal (hd []) L : sp_looked_data r = op_claim keccak_f_words (empty_op 7)) as L1. clear L. rewrite L1.
  unfold op_claim, hash_claim. change (so_input (empty_op 7)) with (@nil Z). rewrite keccak_empty. reflexivity.
Qed.

Lemma first_agrees : forall a b, agree a (trow_at (finish (repeat a 255 ++ [b])) 0).
Proof.
  intros a b. rewrite finish_at by (rewrite app_length, repeat_length; cbn [length]; lia). change (trow_at (repeat a 255 ++ [b]) 0) with a. set (x := count _ _). clearbody x. intros c Hc. rewrite !set_neq by (sp_cols; lia). reflexivity.
Qed.
Lemma first_final : forall f op, preserves_states f -> sop_ok op -> let a := generate_final_row f op 0 (repeat 0 50) [] in is_final a = 1 /\ digest_is_bytes a.
Proof.
  intros f op HF SO. cbv zeta. assert (L0 : (@length Z [] < 136)%nat) by (cbn [length]; lia). assert (C0 : canonical 0) by (split; (discriminate || reflexivity)).
  assert (SA : state_like (f (xor_block (repeat 0 50) (pad [])))) by (apply HF; destruct zero_state; apply xor_block_u32; try assumption; [apply pad_short; exact L0|apply pad_bytes; constructor]).
  destruct (final_built f op 0 (repeat 0 50) [] L0 (Forall_nil _) zero_state SO C0 SA) as (Ba & Fa & Pa). destruct (final_good f _ op 0 (repeat 0 50) [] L0 (Forall_nil _) Ba Fa Pa) as (_ & _ & FI). split; [exact FI|apply Ba].
Qed.
Lemma case_of : forall f t a, sponge_table_ok t -> length t = 256%nat -> logic_served t -> (forall r, In r t -> permuted f r) -> agree a (trow_at t 0) -> is_final a = 1 -> digest_is_bytes a ->
  sponge_table_ok t /\ 136 * Z.of_nat (length t) < P /\ logic_served t /\ (1 < length t)%nat /\ sp_looked_filter (trow_at t 0) mod P <> 0 /\
  (forall r, In r (active_rows t) -> permuted f r) /\ digest_is_bytes (trow_at t 0).
Proof.
  intros f t a OK LEN LOG PERM AG FI DB. rewrite LEN. split; [exact OK|]. split; [reflexivity|]. split; [exact LOG|]. split; [lia|]. split; [|split].
  - destruct (agree_views _ _ AG) as (_ & E & _). rewrite <- E. unfold sp_looked_filter. rewrite FI. discriminate.
  - intros r Hr. apply filter_In in Hr. apply PERM. apply Hr.
  - intros k Hk. unfold digest. rewrite <- (AG (S_DIGEST + k)%nat) by (sp_cols; lia). apply (DB k Hk).
Qed.
(** The premises of C83_sponge_sound_partial hold for the first row of a table. *)
Example sound_case : forall f, preserves_states f -> exists t, sponge_table_ok t /\ 136 * Z.of_nat (length t) < P /\ logic_served t /\ (1 < length t)%nat /\ sp_looked_filter (trow_at t 0) mod P <> 0 /\
  (forall r, In r (active_rows t) -> permuted f r) /\ digest_is_bytes (trow_at t 0).
Proof.
  intros f HF. assert (SO : sop_ok (empty_op 7)) by (repeat split; cbn; (lia || reflexivity)). destruct (first_final f (empty_op 7) HF SO) as (FI & DB).
  destruct (C84_last_row_refuted f (empty_op 7) HF SO) as (OK & LEN & LOG & PERM & _). exists (bare_table f (empty_op 7)).
  apply (case_of f _ _ OK LEN LOG PERM (first_agrees _ _) FI DB).
Qed.

(** With Keccak itself: an accepted table, with every lookup right, in which
    the empty string does not have its Keccak-256 digest. *)
Theorem C84_empty_string_refuted : exists t, sponge_table_ok t /\ logic_served t /\ (forall r, In r t -> permuted keccak_f_words r) /\
  exists r, In r t /\ sp_looked_filter r mod P <> 0 /\ digest_is_bytes r /\ firstn 5 (sp_looked_data r) = [0; 0; 0; 0; 7] /\ sp_looked_data r <> hash_claim keccak_f_words 0 0 0 7 [].
Proof.
  assert (SO : sop_ok (empty_op 7)) by (repeat split; cbn; (lia || reflexivity)).
  assert (G : forall f, preserves_states f -> limbs (be_value (squeeze (f (repeat 0 50)))) <> limbs (be_value (keccak256 f [])) ->
    exists t, sponge_table_ok t /\ logic_served t /\ (forall r, In r t -> permuted f r) /\
    exists r, In r t /\ sp_looked_filter r mod P <> 0 /\ digest_is_bytes r /\ firstn 5 (sp_looked_data r) = [0; 0; 0; 0; 7] /\ sp_looked_data r <> hash_claim f 0 0 0 7 []).
  { intros f HF N. destruct (C84_last_row_refuted f (empty_op 7) HF SO) as (OK & LEN & LOG & PERM & _ & F & D & L).
    exists (bare_table f (empty_op 7)). split; [exact OK|]. split; [exact LOG|]. split; [exact PERM|]. exists (trow_at (bare_table f (empty_op 7)) 255). split; [apply nth_In; rewrite LEN; apply (Nat.lt_succ_diag_r 255)|].
    rewrite F, L. split; [discriminate|]. split; [exact D|]. split; [reflexivity|]. unfold hash_claim. intros X. apply app_inv_head in X. exact (N X). }
  apply (G keccak_f_words keccak_preserves). rewrite keccak_empty. vm_compute. discriminate.
Qed.
Print Assumptions C84_empty_string_refuted.

(** A permutation for which the order of the blocks matters. *)
Definition rotate_words (s : list Z) : list Z := skipn 1 s ++ firstn 1 s.
Theorem C84_exchanged_case_refuted : exists f m t ks, sponge_table_ok t /\ logic_served t /\ keccak_lookups t ks /\ (forall k, In k ks -> kp_out k = f (kp_in k)) /\
  flat_map row_reads t = op_reads {| so_context := 0; so_segment := 0; so_virt := 0; so_timestamp := 7; so_input := m |} /\
  exists d, map sp_looked_data (filter (fun r => negb (sp_looked_filter r mod P =? 0)) t) = [d] /\ firstn 5 d = firstn 5 (hash_claim f 0 0 0 7 m) /\ d <> hash_claim f 0 0 0 7 m.
Proof.
  set (b1 := repeat 0 136). set (b2 := repeat 0 20 ++ [1] ++ repeat 0 115). exists rotate_words, (b1 ++ b2 ++ []).
  destruct (C84_exchanged_outputs_refuted rotate_words (empty_op 7) b1 b2 []) as (t & ks & A & B & C & D & E & _ & F).
  - intros s (L & H). unfold rotate_words. split; [rewrite app_length, skipn_length, firstn_length; lia|]. apply Forall_app. split; [apply Forall_skipn'|apply Forall_firstn']; exact H.
  - repeat split; cbn; (lia || reflexivity).
  - reflexivity.
  - reflexivity.
  - cbn [length]. lia.
  - apply zeros_bytes.
  - unfold b2. rewrite !Forall_app. repeat split; apply Forall_forall; intros x Hx; [|destruct Hx as [<-|[]]; unfold byte; lia|]; apply repeat_spec in Hx; subst; unfold byte; lia.
  - constructor.
  - exists t, ks. split; [exact A|]. split; [exact B|]. split; [exact C|]. split; [exact D|]. split; [exact E|]. eexists. split; [exact F|]. split; [reflexivity|].
    intros X. unfold hash_claim in X. apply (f_equal (skipn 5)) in X. revert X. vm_compute. discriminate.
Qed.
Print Assumptions C84_exchanged_case_refuted.

(** * The tables together *)

(** With an accepted logic table, right permutations in the Keccak table and
    timestamps that differ, the CPU sees the digest of what memory served. *)
Theorem C83_sponge_tables_partial : forall f t i lt ks,
  sponge_table_ok t -> 136 * Z.of_nat (length t) < P -> (S i < length t)%nat -> sp_looked_filter (trow_at t i) mod P <> 0 -> digest_is_bytes (trow_at t i) ->
  logic_table_ok lt ->
  (forall r j, In r t -> (j < num_logic_ctls)%nat -> sp_logic_filter r mod P <> 0 -> exists q, In q lt /\ l_ctl_filter q mod P <> 0 /\ reduced (sp_logic j r) = reduced (l_ctl_data q)) ->
  keccak_lookups t ks -> (forall k, In k ks -> kp_out k = f (kp_in k)) ->
  NoDup (map (fun r => r S_TIMESTAMP mod P) (active_rows t)) ->
  exists s c g v ts m, (s <= i)%nat /\ Forall byte m /\ sp_looked_data (trow_at t i) = hash_claim f c g v ts m /\ reads_message t s i c g v ts m.
Proof.
  intros f t i lt ks OK SM Hi NZ DB LT LL KL KF ND. apply C83_sponge_sound_partial; try assumption; [apply (C83_logic_link t lt LT LL)|].
  assert (MEAN : meaning t) by (destruct OK as (H & _ & C); apply read_meaning; assumption). destruct MEAN as (LOC & _ & _).
  assert (FIN : is_final (trow_at t i) = 1) by (apply filter_bit; [apply (lo_pad _ (LOC i ltac:(lia))); unfold KECCAK_RATE_BYTES; lia|exact NZ]).
  intros j (Hj & Hk). apply (C83_lookups_link_rows f t ks KL KF ND). apply filter_In. split; [apply nth_In; lia|]. unfold sp_keccak_filter.
  pose proof (LOC j ltac:(lia)) as LJ. destruct (Nat.eq_dec j i) as [->|N].
  - assert (F0 : trow_at t i S_FULL = 0) by (destruct (lo_full _ LJ) as [E|E]; [exact E|exfalso; apply (lo_excl _ LJ); auto]). rewrite F0, FIN. reflexivity.
  - pose proof (Hk j ltac:(lia)) as F1. assert (F0 : is_final (trow_at t j) = 0) by (destruct (lo_pad _ LJ 135%nat ltac:(lia)) as [E|E]; [exact E|exfalso; apply (lo_excl _ LJ); split; [exact F1|exact E]]). rewrite F1, F0. reflexivity.
Qed.
Print Assumptions C83_sponge_tables_partial.
