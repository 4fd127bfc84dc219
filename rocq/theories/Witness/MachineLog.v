(** The memory operations of one transition. *)
From Coq Require Import ZArith List Bool Lia Permutation.
From Verif Require Import Stark.ArithModel Stark.LogicModel Witness.MemoryModel Witness.MachineModel Witness.MemoryProps Witness.MachineSpec Witness.MachineLemmas.
Import ListNotations.
Local Open Scope Z_scope.

(** * Memories *)
Lemma after_app : forall l m f, after f (l ++ m) = after (after f l) m.
Proof. induction l as [|o l IH]; intros m f; [reflexivity|]. cbn [app after]. destruct (mo_kind o); apply IH. Qed.
Lemma reads_ok_app : forall l m f, reads_ok f (l ++ m) <-> reads_ok f l /\ reads_ok (after f l) m.
Proof.
  induction l as [|o l IH]; intros m f; cbn [app reads_ok after]; [tauto|]. destruct (mo_kind o); rewrite IH; tauto.
Qed.
Definition is_write (o : mop) : bool := match mo_kind o with MWrite => true | MRead => false end.
Lemma after_writes : forall l f, after f (filter is_write l) = after f l.
Proof.
  induction l as [|o l IH]; intros f; [reflexivity|]. cbn [filter after]. destruct (mo_kind o) eqn:K; unfold is_write at 1; rewrite K; [apply IH|].
  cbn [after]. rewrite K. apply IH.
Qed.
Lemma upd_same : forall f a v, upd f a v a = v.
Proof. intros. unfold upd. destruct (maddr_eqb_spec a a); congruence. Qed.
Lemma upd_other : forall f a v b, b <> a -> upd f a v b = f b.
Proof. intros. unfold upd. destruct (maddr_eqb_spec b a); congruence. Qed.
Lemma upd_ext : forall f g a v b, (b <> a -> f b = g b) -> upd f a v b = upd g a v b.
Proof. intros. unfold upd. destruct (maddr_eqb_spec b a); auto. Qed.

(** The memories may differ where no operation goes. *)
Definition touched (l : list mop) (a : maddr) : Prop := exists o, In o l /\ mo_address o = a.
Lemma after_ext : forall l f g a, f a = g a -> after f l a = after g l a.
Proof.
  induction l as [|o l IH]; intros f g a E; [exact E|]. cbn [after]. destruct (mo_kind o); apply IH; [exact E|apply upd_ext; intros; exact E].
Qed.
Lemma reads_ok_ext : forall l f g, (forall a, touched l a -> f a = g a) -> reads_ok f l -> reads_ok g l.
Proof.
  induction l as [|o l IH]; intros f g E H; [exact I|]. cbn [reads_ok] in *. destruct (mo_kind o).
  - destruct H as [H1 H2]. split; [rewrite H1; apply E; exists o; split; [left|]; reflexivity|].
    apply (IH f); [|exact H2]. intros a (x & X & <-). apply E. exists x. split; [right; exact X|reflexivity].
  - apply (IH (upd f (mo_address o) (mo_value o))); [|exact H]. intros a (x & X & <-). apply upd_ext. intros _. apply E. exists x. split; [right; exact X|reflexivity].
Qed.
Lemma after_untouched : forall l f a, ~ touched l a -> after f l a = f a.
Proof.
  induction l as [|o l IH]; intros f a N; [reflexivity|]. cbn [after].
  assert (N1 : ~ touched l a) by (intros (x & X & E); apply N; exists x; split; [right; exact X|exact E]).
  destruct (mo_kind o); rewrite IH by exact N1; [reflexivity|]. apply upd_other. intros ->. apply N. exists o. split; [left|]; reflexivity.
Qed.

(** * Timestamps *)
Definition tick (c : nat) (i : Z) : Z := Z.of_nat c * 5 + 1 + i.
Lemma stamp_tick : forall ch c i, (stamp ch c =? tick c i) = (channel_index ch =? i).
Proof. intros. unfold stamp, tick, NUM_CHANNELS. destruct (Z.eqb_spec (channel_index ch) i); destruct (Z.eqb_spec (Z.of_nat c * 5 + 1 + channel_index ch) (Z.of_nat c * 5 + 1 + i)); lia. Qed.

Definition at_tick (c : nat) (i : Z) (l : list mop) : list mop := filter (fun o => mo_timestamp o =? tick c i) l.
Definition ch_sort (c : nat) (l : list mop) : list mop := at_tick c 0 l ++ at_tick c 1 l ++ at_tick c 2 l ++ at_tick c 3 l ++ at_tick c 4 l.
Definition ticks (c : nat) (o : mop) : Prop := exists i, 0 <= i <= 4 /\ mo_timestamp o = tick c i.

Lemma at_tick_app : forall c i l m, at_tick c i (l ++ m) = at_tick c i l ++ at_tick c i m.
Proof. intros. apply filter_app. Qed.
Lemma at_tick_cons : forall c i ch a k v l,
  at_tick c i (mk_mop (stamp ch c) a k v :: l) = if channel_index ch =? i then mk_mop (stamp ch c) a k v :: at_tick c i l else at_tick c i l.
Proof. intros. unfold at_tick. cbn [filter mo_timestamp]. rewrite stamp_tick. reflexivity. Qed.
Lemma at_tick_nil : forall c i, at_tick c i [] = [].
Proof. reflexivity. Qed.

Lemma cells_length : forall n a, length (cells a n) = n.
Proof. induction n; intros; cbn [cells length]; [reflexivity|]. f_equal. apply IHn. Qed.

Lemma in_byte_ops : forall k c l a o, In o (byte_ops k c a l) -> mo_timestamp o = stamp ChCode c /\ mo_kind o = k /\ In (mo_address o) (cells a (length l)) /\ In (mo_value o) l.
Proof.
  intros k c l a o H. unfold byte_ops in H. apply in_map_iff in H. destruct H as ([x y] & <- & H). cbn [fst snd mo_timestamp mo_kind mo_address mo_value].
  split; [reflexivity|]. split; [reflexivity|]. split; [exact (in_combine_l _ _ _ _ H)|exact (in_combine_r _ _ _ _ H)].
Qed.
Lemma filter_all : forall {A} (f : A -> bool) l, (forall x, In x l -> f x = true) -> filter f l = l.
Proof.
  intros A f l. induction l as [|x l IH]; intros H; [reflexivity|]. cbn [filter]. rewrite H by (left; reflexivity). f_equal. apply IH. intros; apply H; right; assumption.
Qed.
Lemma filter_none : forall {A} (f : A -> bool) l, (forall x, In x l -> f x = false) -> filter f l = [].
Proof.
  intros A f l. induction l as [|x l IH]; intros H; [reflexivity|]. cbn [filter]. rewrite H by (left; reflexivity). apply IH. intros; apply H; right; assumption.
Qed.
Lemma at_tick_bytes : forall k c l a i, at_tick c i (byte_ops k c a l) = if 0 =? i then byte_ops k c a l else [].
Proof.
  intros. unfold at_tick. destruct (Z.eqb_spec 0 i) as [<-|N].
  - apply filter_all. intros o H. apply in_byte_ops in H. destruct H as (-> & _). rewrite stamp_tick. reflexivity.
  - apply filter_none. intros o H. apply in_byte_ops in H. destruct H as (-> & _). rewrite stamp_tick. cbn [channel_index]. destruct (Z.eqb_spec 0 i); congruence.
Qed.
Lemma writes_bytes_read : forall c l a, filter is_write (byte_ops MRead c a l) = [].
Proof. intros. apply filter_none. intros o H. apply in_byte_ops in H. unfold is_write. destruct H as (_ & -> & _). reflexivity. Qed.
Lemma writes_bytes_write : forall c l a, filter is_write (byte_ops MWrite c a l) = byte_ops MWrite c a l.
Proof. intros. apply filter_all. intros o H. apply in_byte_ops in H. unfold is_write. destruct H as (_ & -> & _). reflexivity. Qed.

Lemma after_bytes_read : forall c l a f, after f (byte_ops MRead c a l) = f.
Proof. intros. rewrite <- after_writes, writes_bytes_read. reflexivity. Qed.

(** * One step of the machine *)
Record good_log (c : nat) (f : maddr -> Z) (l : list mop) : Prop := {
  gl_valid : Forall (fun o => valid_addr (mo_address o)) l;
  gl_word : Forall (fun o => word (mo_value o)) l;
  gl_ticks : Forall (ticks c) l;
  gl_reads : reads_ok f (ch_sort c l);
  gl_writes : filter is_write (ch_sort c l) = filter is_write l }.

Lemma good_log_after : forall c f l, good_log c f l -> after f (ch_sort c l) = after f l.
Proof. intros c f l H. rewrite <- after_writes, (gl_writes _ _ _ H), after_writes. reflexivity. Qed.

(** The contents of the memory after [apply_ops]. *)
Lemma apply_ops_after : forall l m, mem_wf m -> Forall (fun o => valid_addr (mo_address o)) l ->
  exists m', apply_ops m l = Some m' /\ mem_wf m' /\ m_preinit m' = m_preinit m /\ forall a, valid_addr a -> contents m' a = after (contents m) l a.
Proof.
  induction l as [|o l IH]; intros m W F.
  - exists m. cbn [apply_ops after]. auto.
  - inversion F; subst. cbn [apply_ops after]. destruct (mo_kind o); [apply IH; assumption|].
    destruct (mem_set_some m (mo_address o) (mo_value o) W H1) as (m1 & E & W1 & P1). rewrite E.
    destruct (IH m1 W1 H2) as (m' & E' & W' & P' & C'). exists m'. split; [exact E'|]. split; [exact W'|]. split; [congruence|].
    intros a A. rewrite C' by exact A. apply after_ext. rewrite (contents_set _ _ _ _ a W H1 A E). reflexivity.
Qed.

(** ** by_time on a log that grows by one step *)
Lemma by_time_none : forall T l, Forall (fun o => Z.of_nat T <= mo_timestamp o) l -> by_time T l = [].
Proof.
  intros T l F. unfold by_time. rewrite Forall_forall in F. assert (H : forall ts, (forall t, In t ts -> (t < T)%nat) -> flat_map (fun t => filter (fun o => mo_timestamp o =? Z.of_nat t) l) ts = []).
  { induction ts as [|t ts IH]; intros B; [reflexivity|]. cbn [flat_map]. rewrite IH by (intros; apply B; right; assumption). rewrite filter_none; [reflexivity|].
    intros o Ho. specialize (F o Ho). specialize (B t (or_introl eq_refl)). apply Z.eqb_neq. lia. }
  apply H. intros t Ht. apply in_seq in Ht. lia.
Qed.
Lemma flat_map_app' : forall {A B} (f : A -> list B) l m, flat_map f (l ++ m) = flat_map f l ++ flat_map f m.
Proof. intros A B f l m. induction l; [reflexivity|]. cbn [app flat_map]. rewrite IHl. apply app_assoc. Qed.

Lemma by_time_step : forall c l s, Forall (fun o => mo_timestamp o < tick c 0) l -> Forall (ticks c) s ->
  by_time (5 * S c + 1) (l ++ s) = by_time (5 * c + 1) l ++ ch_sort c s.
Proof.
  intros c l s L S. replace (5 * Datatypes.S c + 1)%nat with ((5 * c + 1) + 5)%nat by lia. unfold by_time.
  rewrite seq_app, flat_map_app'. f_equal.
  - assert (forall ts, (forall t, In t ts -> (t < 5 * c + 1)%nat) -> flat_map (fun t => filter (fun o => mo_timestamp o =? Z.of_nat t) (l ++ s)) ts = flat_map (fun t => filter (fun o => mo_timestamp o =? Z.of_nat t) l) ts) as H.
    { induction ts as [|t ts IH]; intros B; [reflexivity|]. cbn [flat_map]. rewrite IH by (intros; apply B; right; assumption). f_equal.
      rewrite filter_app, (filter_none _ s), app_nil_r; [reflexivity|]. intros o Ho. rewrite Forall_forall in S. destruct (S o Ho) as (i & I & E).
      specialize (B t (or_introl eq_refl)). apply Z.eqb_neq. rewrite E. unfold tick. lia. }
    apply H. intros t Ht. apply in_seq in Ht. lia.
  - cbn [Nat.add seq flat_map]. unfold ch_sort. rewrite app_nil_r.
    assert (P : forall i n, Z.of_nat n = tick c i -> 0 <= i -> filter (fun o => mo_timestamp o =? Z.of_nat n) (l ++ s) = at_tick c i s).
    { intros i n E I. unfold at_tick. rewrite E, filter_app, (filter_none _ l); [reflexivity|]. intros o Ho. rewrite Forall_forall in L. specialize (L o Ho).
      apply Z.eqb_neq. unfold tick in *. lia. }
    rewrite (P 0), (P 1), (P 2), (P 3), (P 4) by (unfold tick; lia). reflexivity.
Qed.
