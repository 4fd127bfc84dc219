(** The Keccak sponge table, whole tables: C83 (links and completeness), C84. *)
From Coq Require Import ZArith List Lia Bool Arith Permutation.
From Coq Require Import ZifyBool ZifyNat.
From Verif Require Import Stark.Field Stark.ArithModel Stark.ArithGen Stark.LogicModel Stark.LogicProps Stark.MemModel Stark.MemSound Stark.Lookup Stark.BytePackProps
  Keccak.KeccakSpec Keccak.SpongeModel Keccak.SpongeFacts Keccak.SpongeSound Keccak.SpongeProps Keccak.SpongeGen Keccak.SpongeOps.
Import ListNotations.
Local Open Scope Z_scope.

(** * C83: the links follow from the lookups when timestamps are unique *)

Definition active_rows (t : list row) : list row := filter (fun r => negb (sp_keccak_filter r mod P =? 0)) t.

(** A permutation that the Keccak table serves: input, output, time. *)
Record kperm : Type := { kp_in : list Z; kp_out : list Z; kp_time : Z }.

(** The two lookups into the Keccak table: the inputs with the timestamp, and
    separately the outputs with the timestamp. *)
Definition keccak_lookups (t : list row) (ks : list kperm) : Prop :=
  Permutation (map (fun r => reduced (sp_keccak_inputs r)) (active_rows t)) (map (fun k => kp_in k ++ [kp_time k]) ks) /\
  Permutation (map (fun r => reduced (sp_keccak_outputs r)) (active_rows t)) (map (fun k => kp_out k ++ [kp_time k]) ks).

Lemma last_split : forall (a b : list Z) x y, length a = length b -> a ++ [x] = b ++ [y] -> a = b /\ x = y.
Proof. intros a b x y _ H. apply app_inj_tail. exact H. Qed.

Lemma reduced_app : forall a b, reduced (a ++ b) = reduced a ++ reduced b.
Proof. intros a b. apply map_app. Qed.

Lemma inputs_split : forall r, sp_keccak_inputs r = firstn 50 (sp_keccak_inputs r) ++ [r S_TIMESTAMP].
Proof. reflexivity. Qed.
Lemma outputs_split : forall r, sp_keccak_outputs r = firstn 50 (sp_keccak_outputs r) ++ [r S_TIMESTAMP].
Proof. reflexivity. Qed.

(** If no two active rows have the same timestamp, the lookups link the output
    of each row with its own input. *)
Theorem C83_lookups_link_rows : forall f t ks, keccak_lookups t ks -> (forall k, In k ks -> kp_out k = f (kp_in k)) ->
  NoDup (map (fun r => r S_TIMESTAMP mod P) (active_rows t)) -> forall r, In r (active_rows t) -> permuted f r.
Proof.
  intros f t ks [PI PO] KF ND r Hr.
  assert (I1 : In (reduced (sp_keccak_inputs r)) (map (fun k => kp_in k ++ [kp_time k]) ks)) by (apply (Permutation_in _ PI); apply (in_map (fun r => reduced (sp_keccak_inputs r))); exact Hr).
  assert (I2 : In (reduced (sp_keccak_outputs r)) (map (fun k => kp_out k ++ [kp_time k]) ks)) by (apply (Permutation_in _ PO); apply (in_map (fun r => reduced (sp_keccak_outputs r))); exact Hr).
  apply in_map_iff in I1. destruct I1 as (k1 & E1 & K1). apply in_map_iff in I2. destruct I2 as (k2 & E2 & K2).
  rewrite inputs_split, reduced_app in E1. rewrite outputs_split, reduced_app in E2. apply app_inj_tail in E1. apply app_inj_tail in E2. destruct E1 as [E1 T1]. destruct E2 as [E2 T2].
  assert (NK : NoDup (map kp_time ks)).
  { assert (PT : Permutation (map (fun r => r S_TIMESTAMP mod P) (active_rows t)) (map kp_time ks)).
    { pose proof (Permutation_map (fun l => last l 0) PI) as PT. rewrite !map_map in PT.
      erewrite (map_ext (fun x => last (reduced (sp_keccak_inputs x)) 0)) in PT; [erewrite (map_ext (fun x => last (kp_in x ++ [kp_time x]) 0)) in PT; [exact PT|]|]; intros x; [apply last_last|].
      rewrite inputs_split, reduced_app. apply last_last. }
    apply (Permutation_NoDup PT ND). }
  assert (k1 = k2).
  { assert (TT : kp_time k1 = kp_time k2) by congruence. clear -NK K1 K2 TT. induction ks as [|k ks IH]; [destruct K1|]. cbn [map] in NK. inversion NK; subst. destruct K1 as [<-|K1], K2 as [<-|K2]; [reflexivity| | |apply IH; assumption].
    - exfalso. apply H1. rewrite TT. apply in_map. exact K2.
    - exfalso. apply H1. rewrite <- TT. apply in_map. exact K1. }
  subst k2. unfold permuted. rewrite <- E1, <- E2. apply KF. exact K1.
Qed.
Print Assumptions C83_lookups_link_rows.

(** The exclusive ors, from an accepted logic table. *)
Theorem C83_logic_link : forall t lt, logic_table_ok lt ->
  (forall r i, In r t -> (i < num_logic_ctls)%nat -> sp_logic_filter r mod P <> 0 ->
    exists q, In q lt /\ l_ctl_filter q mod P <> 0 /\ reduced (sp_logic i r) = reduced (l_ctl_data q)) -> logic_served t.
Proof.
  intros t lt LOK H j i Hj Hi NZ. destruct (H (trow_at t j) i (nth_In _ _ Hj) Hi NZ) as (q & Hq & Fq & E).
  destruct (C25_logic_sound lt q LOK Hq Fq) as (op & a & b & Ha & Hb & c & BW & S). exists op, a, b. split; [exact Ha|]. split; [exact Hb|]. exists c. split; [exact BW|]. rewrite E, S.
  apply reduced_canonical. assert (LB : forall x, Forall canonical (limbs32 x)).
  { intros x. unfold limbs32. rewrite Forall_map. apply Forall_forall. intros k _. pose proof (Z.mod_pos_bound (x / 2 ^ (32 * Z.of_nat k)) (2^32) ltac:(lia)). unfold canonical, P. lia. }
  constructor; [destruct op; split; (discriminate || reflexivity)|]. rewrite !Forall_app. auto.
Qed.
Print Assumptions C83_logic_link.

(** * C83, completeness *)

Definition valid_sponge_op (op : sponge_op) : Prop := sop_ok op /\ Forall byte (so_input op) /\ Z.of_nat (length (so_input op)) < P.
Definition op_claim (f : list Z -> list Z) (op : sponge_op) : list Z := hash_claim f (so_context op) (so_segment op) (so_virt op) (so_timestamp op) (so_input op).
Definition op_reads (op : sponge_op) : list (list Z) :=
  map (fun k => byte_read (so_context op) (so_segment op) (so_virt op + Z.of_nat k) (so_timestamp op) (nth k (so_input op) 0)) (seq 0 (length (so_input op))).
Definition preserves_states (f : list Z -> list Z) : Prop := forall s, state_like s -> state_like (f s).

Lemma zero_state : state_like (repeat 0 50).
Proof. split; [apply repeat_length|]. apply Forall_forall. intros x Hx. apply repeat_spec in Hx. subst. unfold u32. lia. Qed.

Lemma op_rows : forall f op, preserves_states f -> valid_sponge_op op -> op_facts f op 0 (repeat 0 50) (so_input op) (generate_rows_for_op f op).
Proof.
  intros f op HF (O & FB & LP). unfold generate_rows_for_op. change KECCAK_WIDTH_U32S with 50%nat. apply blocks_facts; try assumption; try lia. apply zero_state.
Qed.

Lemma table_rows : forall f ops k, preserves_states f -> Forall valid_sponge_op ops ->
  let rows := flat_map (generate_rows_for_op f) ops ++ repeat zero_row k in
  linked rows /\ start_ok (hd zero_row rows) /\
  (forall r, In r rows -> good f r \/ r = zero_row) /\
  map sp_looked_data (filter (fun r => negb (sp_looked_filter r mod P =? 0)) rows) = map (op_claim f) ops /\
  flat_map row_reads rows = flat_map op_reads ops.
Proof.
  intros f ops k HF. induction ops as [|op ops IH]; intros V; cbv zeta.
  - cbn [flat_map app]. split; [apply zeros_linked|]. split; [destruct k; apply zero_start|]. split; [intros r Hr; apply repeat_spec in Hr; auto|].
    rewrite filter_none by (intros r Hr; apply repeat_spec in Hr; subst; reflexivity). split; [reflexivity|]. induction k as [|k IH]; [reflexivity|exact IH].
  - inversion V; subst. destruct (IH H2) as (LK & SO & GD & LD & RD). cbv zeta in *. destruct (op_rows f op HF H1) as (front & lst & E & LKo & GO & FF & FL & SP & _ & HA & HS & _ & _ & _ & _ & LDo & RDo).
    cbn [flat_map]. rewrite <- app_assoc. set (rest := flat_map (generate_rows_for_op f) ops ++ repeat zero_row k) in *. set (l := generate_rows_for_op f op) in *.
    assert (GL : good f lst) by (rewrite E in GO; apply Forall_app in GO; destruct GO as [_ GO]; inversion GO; assumption).
    split; [|split; [|split; [|split]]].
    + rewrite E in LKo |- *. apply linked_app; [exact LKo|exact LK|]. intros _. apply final_step; [apply GL|exact FL|exact SP|exact SO].
    + assert (HH : hd zero_row (l ++ rest) = hd zero_row l) by (rewrite E; destruct front; reflexivity). rewrite HH. apply state_start; [exact HA|exact HS].
    + intros r Hr. apply in_app_or in Hr. destruct Hr as [Hr|Hr]; [left; rewrite Forall_forall in GO; apply GO; exact Hr|apply GD; exact Hr].
    + rewrite filter_app, map_app, LD. cbn [map]. rewrite E, filter_app. rewrite filter_none.
      * cbn [app filter]. unfold sp_looked_filter at 1. rewrite FL. replace (negb (1 mod P =? 0)) with true by reflexivity. cbn [map app]. rewrite LDo. reflexivity.
      * intros r Hr. rewrite Forall_forall in FF. unfold sp_looked_filter. rewrite (FF r Hr). reflexivity.
    + rewrite flat_map_app, RD, RDo. cbn [flat_map]. f_equal. unfold reads_from, op_reads. apply map_ext. intros q. rewrite Z.add_0_r. reflexivity.
Qed.

Lemma filter_map_finish : forall {A} (g : row -> A) (p : row -> bool) rows, (forall a b, agree a b -> g a = g b /\ p a = p b) -> map g (filter p (finish rows)) = map g (filter p rows).
Proof.
  intros A g p rows H. assert (G : forall l : list row, map g (filter p l) = flat_map (fun x : bool * A => if fst x then [snd x] else []) (map (fun r => (p r, g r)) l)).
  { induction l as [|r l IH]; [reflexivity|]. cbn [filter map flat_map fst snd]. destruct (p r); cbn [map app]; rewrite IH; reflexivity. }
  rewrite !G. f_equal. apply map_finish. intros a b Hab. destruct (H a b Hab) as [-> ->]. reflexivity.
Qed.

Lemma in_finish : forall rows r, In r (finish rows) -> exists a, In a rows /\ agree a r.
Proof.
  intros rows r Hr. unfold finish in Hr. apply in_map_iff in Hr. destruct Hr as (i & <- & Hi). apply in_seq in Hi. exists (trow_at rows i). split; [apply nth_In; lia|]. intros c Hc. rewrite !set_neq by (sp_cols; lia). reflexivity.
Qed.

Lemma rows_meaning : forall rows, linked rows -> start_ok (hd zero_row rows) -> (forall r, In r rows -> local_ok r) -> meaning rows.
Proof.
  intros rows LK SO LO. split; [intros i Hi; apply LO; apply nth_In; exact Hi|]. split; [|intros i Hi; apply linked_nth; assumption].
  intros _. destruct rows; exact SO.
Qed.

(** The generated table is accepted; the CPU sees the Keccak-256 digest of
    every operation, in order; memory sees every byte of every input once, in
    order; and the logic and Keccak tables are asked for right results. *)
Theorem C83_sponge_complete : forall f ops min_rows, preserves_states f -> Forall valid_sponge_op ops ->
  exists t, sp_generate_trace f ops min_rows = Some t /\ sponge_table_ok t /\ (exists k, length t = Nat.pow 2 k) /\ (min_rows <= length t)%nat /\
    map sp_looked_data (filter (fun r => negb (sp_looked_filter r mod P =? 0)) t) = map (op_claim f) ops /\
    flat_map row_reads t = flat_map op_reads ops /\
    logic_served t /\ (forall r, In r (active_rows t) -> permuted f r).
Proof.
  intros f ops min_rows HF V. unfold sp_generate_trace, sp_generate_trace_rows. cbv zeta.
  set (l := flat_map (generate_rows_for_op f) ops). destruct (next_power_of_two_spec (Nat.max (length l) (Nat.max min_rows BYTE_RANGE_MAX))) as [L K]. set (n := next_power_of_two _) in *. clearbody n. unfold BYTE_RANGE_MAX in L.
  destruct (table_rows f ops (n - length l) HF V) as (LK & SO & GD & LD & RD). cbv zeta in *. fold l in LK, SO, GD, LD, RD. set (rows := l ++ repeat zero_row (n - length l)) in *.
  assert (LEN : length rows = n) by (unfold rows; rewrite app_length, repeat_length; lia).
  assert (LO : forall r, In r rows -> local_ok r) by (intros r Hr; destruct (GD r Hr) as [G| ->]; [apply G|apply zero_local]).
  assert (BY : forall r, In r rows -> forall j, (j < 136)%nat -> byte (block_byte r j)) by (intros r Hr; destruct (GD r Hr) as [G| ->]; [apply G|intros; unfold byte, block_byte, zero_row; lia]).
  assert (CA : forall r, In r rows -> forall c, canonical (r c)) by (intros r Hr; destruct (GD r Hr) as [G| ->]; [apply G|intros; apply canon0]).
  pose proof (rows_meaning rows LK SO LO) as MEAN. exists (finish rows).
  split; [apply finish_generated; try assumption; lia|]. split; [apply finish_ok; try assumption; lia|]. rewrite finish_length, LEN. split; [exact K|]. split; [lia|]. split; [|split; [|split]].
  - rewrite filter_map_finish; [exact LD|]. intros a b Hab. destruct (agree_views a b Hab) as (E1 & E2 & _). rewrite E1, E2. split; reflexivity.
  - rewrite !flat_map_concat_map, map_finish; [rewrite <- flat_map_concat_map; rewrite <- flat_map_concat_map; exact RD|]. intros a b Hab. apply (agree_views a b Hab).
  - intros j i Hj Hi NZ. destruct (in_finish rows (trow_at (finish rows) j) (nth_In _ _ Hj)) as (a & Ha & Hab). destruct (agree_views _ _ Hab) as (_ & _ & _ & _ & EF & EL & _). rewrite <- (EL i Hi).
    destruct (GD a Ha) as [G| ->]; [apply G; exact Hi|]. exfalso. apply NZ. unfold sp_logic_filter. unfold sp_keccak_filter in EF. rewrite <- EF. reflexivity.
  - intros r Hr. apply filter_In in Hr. destruct Hr as [Hr NZ]. destruct (in_finish rows r Hr) as (a & Ha & Hab). apply (agree_good f a r Hab). destruct (GD a Ha) as [G| ->]; [apply G|].
    exfalso. destruct (agree_views _ _ Hab) as (_ & _ & _ & _ & EF & _). rewrite <- EF in NZ. discriminate NZ.
Qed.
Print Assumptions C83_sponge_complete.

