(** The memory log the witness generator hands to the prover is the log of a
    memory (MachineSpec.v). *)
From Coq Require Import ZArith List Bool Lia ZifyBool Permutation.
From Verif Require Import Stark.ArithModel Stark.LogicModel Witness.MemoryModel Witness.MachineModel Witness.MemoryProps Witness.MachineSpec
  Witness.MachineLemmas Witness.MachineLog Witness.MachineStep Witness.MachineRun.
Import ListNotations.
Local Open Scope Z_scope.

(** * Sorting by time loses nothing *)
Lemma in_by_time : forall T l o, In o (by_time T l) -> In o l.
Proof. intros T l o H. unfold by_time in H. apply in_flat_map in H. destruct H as (t & _ & H). apply filter_In in H. tauto. Qed.
Lemma in_ch_sort : forall c l o, In o (ch_sort c l) -> In o l.
Proof. intros c l o H. unfold ch_sort in H. repeat (apply in_app_or in H; destruct H as [H|H]; [unfold at_tick in H; apply filter_In in H; tauto|]). unfold at_tick in H. apply filter_In in H. tauto. Qed.
Lemma filter_split : forall {A} (p q r : A -> bool) l, (forall x, In x l -> r x = p x || q x) -> (forall x, In x l -> p x && q x = false) ->
  Permutation (filter p l ++ filter q l) (filter r l).
Proof.
  intros A p q r. induction l as [|x l IH]; intros R D; [constructor|]. cbn [filter].
  specialize (IH (fun y I => R y (or_intror I)) (fun y I => D y (or_intror I))).
  rewrite (R x (or_introl eq_refl)). specialize (D x (or_introl eq_refl)). destruct (p x), (q x); cbn [orb andb] in *; try discriminate.
  - cbn [app]. constructor. exact IH.
  - symmetry. apply Permutation_cons_app. symmetry. exact IH.
  - exact IH.
Qed.
Lemma by_time_permutation : forall T l, Forall (fun o => 0 <= mo_timestamp o < Z.of_nat T) l -> Permutation (by_time T l) l.
Proof.
  intros T l F. assert (H : forall n, Permutation (by_time n l) (filter (fun o => mo_timestamp o <? Z.of_nat n) l)).
  { induction n as [|n IH].
    - unfold by_time. cbn [seq flat_map]. rewrite filter_none; [constructor|]. intros o I. rewrite Forall_forall in F. specialize (F o I). cbv beta in F. lia.
    - unfold by_time in *. rewrite seq_S, flat_map_app'. cbn [flat_map plus]. rewrite app_nil_r.
      etransitivity; [apply Permutation_app_tail; exact IH|]. apply filter_split; intros; lia. }
  etransitivity; [apply H|]. rewrite filter_all; [reflexivity|]. intros o I. rewrite Forall_forall in F. specialize (F o I). cbv beta in F. lia.
Qed.

Section Props.
  Context {O : Type}.
  Notation gstate := (gstate O).
  Variable keccakf : list Z -> list Z.
  Variables syscall_jumptable exception_jumptable max_code_size : Z.
  Variable eth_mainnet : bool.
  Variable keccak : list Z -> Z.
  Variable prover_input : registers -> mem_state -> O -> option (perror + Z * mem_state * O).
  Variable observe : Z -> registers -> mem_state -> O -> option (perror + O).
  Variables halt halt_final : Z.

  Notation transition := (transition O keccakf syscall_jumptable exception_jumptable max_code_size eth_mainnet keccak prover_input observe).
  Notation exception := (exception O exception_jumptable).
  Notation run_cpu := (run_cpu O keccakf syscall_jumptable exception_jumptable max_code_size eth_mainnet keccak prover_input observe halt halt_final).
  Notation log := (@log O). Notation clock := (@clock O).
  Notation clean := (clean prover_input).

  (** The memory log of a state is the log of a memory that starts as [init]
      and ends as the memory of the state: the operations, taken in the order
      of their timestamps, return what was last written. *)
  Definition consistent (init : maddr -> Z) (g : gstate) : Prop :=
    let T := (5 * clock g + 1)%nat in
    Forall (fun o => valid_addr (mo_address o) /\ 0 <= mo_timestamp o < Z.of_nat T) (log g) /\
    Permutation (by_time T (log g)) (log g) /\
    reads_ok init (by_time T (log g)) /\
    (forall a, valid_addr a -> contents (g_mem g) a = after init (by_time T (log g)) a).

  Definition differ (m m' : mem_state) (a : maddr) : bool :=
    (0 <=? a_context a) && (0 <=? a_segment a) && (a_segment a <? 39) && (0 <=? a_virt a) && negb (contents m' a =? contents m a).
  Lemma consistent_step : forall init (g g' : gstate), consistent init g -> stepped g g' ->
    exists init', (forall a, ~ preinit_segment a -> init' a = init a) /\ consistent init' g'.
  Proof.
    intros init g g' (F & PM & R & E) (m & ops & U & L & CL & G & CT & _).
    set (init' := fun a => if differ (g_mem g) m a then contents m a else init a).
    assert (DF : forall a, valid_addr a -> differ (g_mem g) m a = true -> preinit_segment a /\ ~ touched (log g) a).
    { intros a V D. unfold differ in D. destruct (U a V) as [P N]; [lia|]. split; [exact P|]. intros T. apply N. apply touched_app. left. exact T. }
    assert (TL : forall a, touched (by_time (5 * clock g + 1) (log g)) a -> touched (log g) a /\ valid_addr a).
    { intros a (o & I & <-). apply in_by_time in I. split; [exists o; split; [exact I|reflexivity]|]. rewrite Forall_forall in F. apply (F o I). }
    assert (CM : forall a, valid_addr a -> contents m a = after init' (by_time (5 * clock g + 1) (log g)) a).
    { intros a V. destruct (differ (g_mem g) m a) eqn:D.
      - rewrite after_untouched; [unfold init'; rewrite D; reflexivity|]. intros T. destruct (DF a V D) as [_ N]. apply N, TL, T.
      - rewrite (after_ext _ init' init) by (unfold init'; rewrite D; reflexivity). rewrite <- E by exact V.
        destruct V as (V1 & V2 & V3). unfold differ in D. lia. }
    exists init'. split.
    { intros a N. unfold init'. destruct (differ (g_mem g) m a) eqn:D; [|reflexivity]. exfalso. apply N. apply DF; [|exact D]. unfold differ in D. unfold valid_addr. lia. }
    assert (FT : Forall (fun o => mo_timestamp o < tick (clock g) 0) (log g)).
    { eapply Forall_impl; [|exact F]. intros o [_ B]. unfold tick. lia. }
    assert (BT : by_time (5 * S (clock g) + 1) (log g') = by_time (5 * clock g + 1) (log g) ++ ch_sort (clock g) ops).
    { rewrite L. apply by_time_step; [exact FT|apply (gl_ticks _ _ _ G)]. }
    assert (F' : Forall (fun o => valid_addr (mo_address o) /\ 0 <= mo_timestamp o < Z.of_nat (5 * S (clock g) + 1)) (log g')).
    { rewrite L. apply Forall_app. split.
      - eapply Forall_impl; [|exact F]. intros o [V B]. split; [exact V|]. clear -B. lia.
      - apply Forall_forall. intros o I. split; [pose proof (gl_valid _ _ _ G) as X; rewrite Forall_forall in X; apply X, I|].
        pose proof (gl_ticks _ _ _ G) as X. rewrite Forall_forall in X. destruct (X o I) as (i & B & ->). unfold tick. clear -B. lia. }
    unfold consistent. cbv zeta. rewrite CL. split; [exact F'|]. split.
    { apply by_time_permutation. eapply Forall_impl; [|exact F']. intros o [_ X]. exact X. }
    rewrite BT. split.
    - apply reads_ok_app. split.
      + eapply reads_ok_ext; [|exact R]. intros a T. destruct (TL a T) as [T' V]. unfold init'. destruct (differ (g_mem g) m a) eqn:D; [|reflexivity].
        exfalso. apply (DF a V D). exact T'.
      + eapply reads_ok_ext; [|exact (gl_reads _ _ _ G)]. intros a (o & I & <-). apply CM. apply in_ch_sort in I. pose proof (gl_valid _ _ _ G) as X. rewrite Forall_forall in X. apply X, I.
    - intros a V. rewrite after_app. rewrite CT by exact V. rewrite <- (good_log_after _ _ _ G). apply after_ext. apply CM, V.
  Qed.

  (** A run through clean states: transitions, and the exception that stops a
      segment. *)
  Inductive clean_run : gstate -> gstate -> Prop :=
  | run_nil : forall g, clean_run g g
  | run_step : forall g g1 g2, clean g -> transition g = Ok tt g1 -> clean_run g1 g2 -> clean_run g g2
  | run_stop : forall g g1 g2, bounded g -> exception EXC_STOP_CODE g = Ok tt g1 -> clean_run g1 g2 -> clean_run g g2.

  Theorem C62_run_log : (forall l, word (keccak l)) -> 0 <= syscall_jumptable -> 0 <= exception_jumptable ->
    forall g g', clean_run g g' -> forall init, wf g -> consistent init g ->
    wf g' /\ exists init', (forall a, ~ preinit_segment a -> init' a = init a) /\ consistent init' g'.
  Proof.
    intros KW SJ EJ g g' R. induction R as [g|g g1 g2 C H R IH|g g1 g2 B H R IH]; intros init W CS.
    - split; [exact W|]. exists init. split; [reflexivity|exact CS].
    - pose proof (transition_step keccakf syscall_jumptable exception_jumptable max_code_size eth_mainnet keccak prover_input observe KW SJ EJ g g1 W C H) as ST.
      destruct (consistent_step init g g1 CS ST) as (i1 & A1 & CS1). destruct ST as (m & ops & _ & _ & _ & _ & _ & W1).
      destruct (IH i1 W1 CS1) as (W2 & i2 & A2 & CS2). split; [exact W2|]. exists i2. split; [|exact CS2]. intros a N. rewrite A2, A1 by exact N. reflexivity.
    - assert (ST : stepped g g1) by (refine (exception_step keccakf exception_jumptable max_code_size keccak prover_input observe KW EJ _ g g1 W B _ H); discriminate).
      destruct (consistent_step init g g1 CS ST) as (i1 & A1 & CS1). destruct ST as (m & ops & _ & _ & _ & _ & _ & W1).
      destruct (IH i1 W1 CS1) as (W2 & i2 & A2 & CS2). split; [exact W2|]. exists i2. split; [|exact CS2]. intros a N. rewrite A2, A1 by exact N. reflexivity.
  Qed.

  (** The states in which [run_cpu] executes an instruction or the stopping
      exception. *)
  Fixpoint visits (fuel : nat) (cycle_limit : option nat) (final : option registers) (g : gstate) : list gstate :=
    match fuel with
    | 0%nat => []
    | S fuel =>
        let r := g_regs g in
        let halting := match final with None => at_stop O halt cycle_limit g | Some _ => false end in
        let continue final g := if is_kernel r && (program_counter r =? halt_final) then []
          else g :: match transition g with Ok _ g => visits fuel cycle_limit final g | _ => [] end in
        if halting then g :: match exception EXC_STOP_CODE g with Ok _ g => continue (Some (final_registers r)) g | _ => [] end
        else continue final g
    end.
  Lemma run_cpu_clean : forall fuel cycle_limit final g res g', run_cpu fuel cycle_limit final g = Ok res g' ->
    Forall clean (visits fuel cycle_limit final g) -> clean_run g g'.
  Proof.
    induction fuel as [|fuel IH]; intros lim fin g res g' H F.
    - cbn [MachineModel.run_cpu] in H. apply ok_inj in H. subst. constructor.
    - cbn [MachineModel.run_cpu] in H. cbn [visits] in F.
      set (halting := match fin with None => at_stop O halt lim g | Some _ => false end) in *. clearbody halting.
      assert (REST : forall fin g1, (if is_kernel (g_regs g) && (program_counter (g_regs g) =? halt_final) then ret (Some fin) else bind transition (fun _ => run_cpu fuel lim fin)) g1 = Ok res g' ->
        Forall clean (if is_kernel (g_regs g) && (program_counter (g_regs g) =? halt_final) then [] else g1 :: match transition g1 with Ok _ g => visits fuel lim fin g | _ => [] end) ->
        clean_run g1 g').
      { intros fin1 g1 E Fl. destruct (is_kernel (g_regs g) && (program_counter (g_regs g) =? halt_final)).
        - apply ok_inj in E. subst. constructor.
        - unfold bind in E. inversion Fl as [|? ? C F']; subst. destruct (transition g1) as [[] g2|e g2|] eqn:T; try discriminate E.
          eapply run_step; [exact C|exact T|]. eapply IH; eassumption. }
      destruct halting.
      + unfold bind at 1 2 in H. inversion F as [|? ? C F']; subst. destruct (exception EXC_STOP_CODE g) as [[] g1|e g1|] eqn:X; try discriminate H.
        eapply run_stop; [apply (cl_bounded _ _ C)|exact X|]. unfold ret at 1 in H. eapply REST; eassumption.
      + unfold bind at 1, ret at 1 in H. eapply REST; eassumption.
  Qed.

  (** * The start of a segment
      [generate_traces] puts writes with the timestamp of the second channel
      of the first cycle into the log (generation/mod.rs:255-432). *)
  Definition initial_writes (W : list mop) : Prop := Forall (fun o => mo_kind o = MWrite /\ mo_timestamp o = 2 /\ valid_addr (mo_address o)) W.
  Lemma reads_ok_writes : forall l f, Forall (fun o => mo_kind o = MWrite) l -> reads_ok f l.
  Proof. induction l as [|o l IH]; intros f F; [exact I|]. inversion F as [|? ? K F']; subst. cbn [reads_ok]. rewrite K. apply IH, F'. Qed.
  Lemma touched_dec : forall l a, touched l a \/ ~ touched l a.
  Proof.
    induction l as [|o l IH]; intros a; [right; intros (x & [] & _)|]. destruct (maddr_eqb_spec (mo_address o) a) as [E|N].
    - left. exists o. split; [left; reflexivity|exact E].
    - destruct (IH a) as [(x & I & E)|M]; [left; exists x; split; [right|]; assumption|]. right. intros (x & [<-|I] & E); [contradiction|]. apply M. exists x. auto.
  Qed.
  Lemma after_swap : forall A W f a, (forall x, touched A x -> ~ touched W x) -> after (after f A) W a = after (after f W) A a.
  Proof.
    intros A W f a D. destruct (touched_dec A a) as [T|N].
    - rewrite (after_untouched W) by (apply D, T). apply after_ext. symmetry. apply after_untouched, D, T.
    - rewrite (after_untouched A (after f W)) by exact N. apply after_ext. apply after_untouched, N.
  Qed.
  Lemma by_time_6 : forall l, by_time 6 l = filter (fun o => mo_timestamp o =? 0) l ++ ch_sort 0 l.
  Proof. intros l. unfold by_time, ch_sort, at_tick. cbn [seq flat_map]. rewrite app_nil_r. reflexivity. Qed.

  Lemma consistent_first : forall base (g g' : gstate), clock g = 0%nat -> initial_writes (log g) ->
    (forall a, valid_addr a -> contents (g_mem g) a = after base (log g) a) -> stepped g g' ->
    (forall o, In o (log g') -> mo_timestamp o = 1 -> ~ touched (log g) (mo_address o)) ->
    exists init, (forall a, ~ preinit_segment a -> init a = base a) /\ consistent init g'.
  Proof.
    intros base g g' C0 IW E (m & ops & U & L & CL & G & CT & _) D. rewrite C0 in *. set (W := log g) in *.
    assert (DF : forall a, valid_addr a -> differ (g_mem g) m a = true -> preinit_segment a /\ ~ touched W a).
    { intros a V X. unfold differ in X. destruct (U a V) as [P N]; [lia|]. split; [exact P|]. intros T. apply N. apply touched_app. left. exact T. }
    set (init := fun a => if differ (g_mem g) m a then contents m a else base a).
    assert (CM : forall a, valid_addr a -> contents m a = after init W a).
    { intros a V. destruct (differ (g_mem g) m a) eqn:X.
      - rewrite after_untouched; [unfold init; rewrite X; reflexivity|]. apply (DF a V X).
      - rewrite (after_ext _ init base) by (unfold init; rewrite X; reflexivity). rewrite <- E by exact V.
        destruct V as (V1 & V2 & V3). unfold differ in X. lia. }
    exists init. split.
    { intros a N. unfold init. destruct (differ (g_mem g) m a) eqn:X; [|reflexivity]. exfalso. apply N. apply DF; [|exact X]. unfold differ in X. unfold valid_addr. lia. }
    assert (F' : Forall (fun o => valid_addr (mo_address o) /\ 0 <= mo_timestamp o < 6) (log g')).
    { rewrite L. apply Forall_app. split.
      - eapply Forall_impl; [|exact IW]. intros o (_ & B & V). split; [exact V|]. clear -B. lia.
      - apply Forall_forall. intros o I. split; [pose proof (gl_valid _ _ _ G) as X; rewrite Forall_forall in X; apply X, I|].
        pose proof (gl_ticks _ _ _ G) as X. rewrite Forall_forall in X. destruct (X o I) as (i & B & ->). unfold tick. clear -B. lia. }
    set (A := at_tick 0 0 ops). set (B := at_tick 0 1 ops ++ at_tick 0 2 ops ++ at_tick 0 3 ops ++ at_tick 0 4 ops).
    assert (SO : ch_sort 0 ops = A ++ B) by reflexivity.
    assert (BT : by_time 6 (log g') = A ++ W ++ B).
    { rewrite by_time_6, L. unfold ch_sort. rewrite filter_app, !at_tick_app.
      assert (NW : forall i, i <> 1 -> at_tick 0 i W = []).
      { intros i N. apply filter_none. intros o I. unfold initial_writes in IW. rewrite Forall_forall in IW. destruct (IW o I) as (_ & T & _). rewrite T. unfold tick. clear -N. lia. }
      rewrite (NW 0), (NW 2), (NW 3), (NW 4) by discriminate.
      replace (at_tick 0 1 W) with W.
      2:{ symmetry. apply filter_all. intros o I. unfold initial_writes in IW. rewrite Forall_forall in IW. destruct (IW o I) as (_ & T & _). rewrite T. reflexivity. }
      replace (filter (fun o => mo_timestamp o =? 0) W) with (@nil mop).
      2:{ symmetry. apply filter_none. intros o I. unfold initial_writes in IW. rewrite Forall_forall in IW. destruct (IW o I) as (_ & T & _). rewrite T. reflexivity. }
      replace (filter (fun o => mo_timestamp o =? 0) ops) with (@nil mop).
      2:{ symmetry. apply filter_none. intros o I. pose proof (gl_ticks _ _ _ G) as X. rewrite Forall_forall in X. destruct (X o I) as (i & Bi & ->). unfold tick. clear -Bi. lia. }
      cbn [app]. unfold A, B. rewrite <- !app_assoc.
  reflexivity. }
    assert (VA : forall a, touched (A ++ B) a -> valid_addr a).
    { intros a (o & I & <-). rewrite <- SO in I. apply in_ch_sort in I. pose proof (gl_valid _ _ _ G) as X. rewrite Forall_forall in X. apply X, I. }
    assert (DJ : forall x, touched A x -> ~ touched W x).
    { intros x (o & I & <-). unfold A, at_tick in I. apply filter_In in I. destruct I as [I T]. apply D; [rewrite L; apply in_or_app; right; exact I|]. unfold tick in T. lia. }
    pose proof (gl_reads _ _ _ G) as GR. rewrite SO in GR. apply reads_ok_app in GR. destruct GR as [GA GB].
    unfold consistent. cbv zeta. rewrite CL. change (5 * 1 + 1)%nat with 6%nat. split; [exact F'|]. split.
    { apply by_time_permutation. eapply Forall_impl; [|exact F']. intros o [_ X]. exact X. }
    rewrite BT. split.
    - apply reads_ok_app. split; [|apply reads_ok_app; split].
      + eapply reads_ok_ext; [|exact GA]. intros a T. rewrite CM by (apply VA, touched_app; left; exact T). apply after_untouched, DJ, T.
      + apply reads_ok_writes. eapply Forall_impl; [|exact IW]. intros o X. apply X.
      + eapply reads_ok_ext; [|exact GB]. intros a T. rewrite after_swap by exact DJ. apply after_ext. apply CM, VA, touched_app. right. exact T.
    - intros a V. rewrite CT by exact V. rewrite <- (good_log_after _ _ _ G), SO, !after_app. apply after_ext. rewrite after_swap by exact DJ. apply after_ext, CM, V.
  Qed.

  Theorem C62_segment_log : (forall l, word (keccak l)) -> 0 <= syscall_jumptable -> 0 <= exception_jumptable ->
    forall base g0 g1 g', wf g0 -> clean g0 -> clock g0 = 0%nat -> initial_writes (log g0) ->
    (forall a, valid_addr a -> contents (g_mem g0) a = after base (log g0) a) ->
    transition g0 = Ok tt g1 -> (forall o, In o (log g1) -> mo_timestamp o = 1 -> ~ touched (log g0) (mo_address o)) ->
    clean_run g1 g' ->
    exists init, (forall a, ~ preinit_segment a -> init a = base a) /\ consistent init g'.
  Proof.
    intros KW SJ EJ base g0 g1 g' W C C0 IW E T D R.
    pose proof (transition_step keccakf syscall_jumptable exception_jumptable max_code_size eth_mainnet keccak prover_input observe KW SJ EJ g0 g1 W C T) as ST.
    destruct (consistent_first base g0 g1 C0 IW E ST D) as (i1 & A1 & CS1). destruct ST as (m & ops & _ & _ & _ & _ & _ & W1).
    destruct (C62_run_log KW SJ EJ g1 g' R i1 W1 CS1) as (_ & i2 & A2 & CS2). exists i2. split; [|exact CS2]. intros a N. rewrite A2, A1 by exact N. reflexivity.
  Qed.

  (** The run of a segment. *)
  Theorem C62_run_cpu : (forall l, word (keccak l)) -> 0 <= syscall_jumptable -> 0 <= exception_jumptable ->
    forall base g0 fuel cycle_limit res g', wf g0 -> clock g0 = 0%nat -> initial_writes (log g0) ->
    (forall a, valid_addr a -> contents (g_mem g0) a = after base (log g0) a) ->
    at_stop O halt cycle_limit g0 = false -> is_kernel (g_regs g0) && (program_counter (g_regs g0) =? halt_final) = false ->
    run_cpu (S fuel) cycle_limit None g0 = Ok res g' ->
    Forall clean (visits (S fuel) cycle_limit None g0) ->
    (forall g1 o, transition g0 = Ok tt g1 -> In o (log g1) -> mo_timestamp o = 1 -> ~ touched (log g0) (mo_address o)) ->
    exists init, (forall a, ~ preinit_segment a -> init a = base a) /\ consistent init g'.
  Proof.
    intros KW SJ EJ base g0 fuel lim res g' W C0 IW E NS NF R V D. cbn [MachineModel.run_cpu] in R. cbn [visits] in V. rewrite NS in R, V. rewrite NF in R, V.
    unfold bind, ret at 1 in R. inversion V as [|? ? C V']; subst. destruct (transition g0) as [[] g1|e g1|] eqn:T; try discriminate R.
    eapply C62_segment_log; try eassumption; [intros o I; apply (D g1 o eq_refl I)|]. eapply run_cpu_clean; eassumption.
  Qed.
End Props.
Print Assumptions C62_run_log.
Print Assumptions C62_segment_log.
Print Assumptions C62_run_cpu.
