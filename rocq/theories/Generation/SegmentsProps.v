(** C91: the segments of a batch are one execution cut into pieces. *)
From Coq Require Import List Arith NArith Bool Lia.
From Verif.Generation Require Import SegmentsModel.
Import ListNotations.
Local Open Scope nat_scope.

Section Segments.
  Variable memory extra rest : Type.
  Variable main init halt : nat.
  Variable run : interp memory extra rest -> option (regs * option memory) * interp memory extra rest.
  Variable write_registers : memory -> list N -> memory.
  Variable preinitialized : memory -> memory.

  Notation interp := (interp memory extra rest).
  Notation segment := (segment memory extra).
  Notation next := (next memory extra rest main init halt run write_registers preinitialized).
  Notation calls := (calls memory extra rest main init halt run write_registers preinitialized).
  Notation new_iter := (new_iter memory extra rest).
  Notation Data := (Data memory extra).
  Notation Failure := (Failure memory extra).
  Notation End := (End memory extra).

  (** * Specification *)

  (** Execution from registers [r], memory [m] and extra data [e]: it starts at
      the label [init] in kernel mode at clock 0, with [r] written in memory. *)
  Definition start (r : regs) (m : memory) (e : extra) (x : rest) : interp :=
    {| i_regs := {| program_counter := init; is_kernel := true; stack_len := stack_len r; stack_top := stack_top r; context := context r;
                    is_stack_top_read := is_stack_top_read r; check_overflow := check_overflow r; gas_used := gas_used r |};
       i_mem := write_registers m [N.of_nat (program_counter r); if is_kernel r then 1%N else 0%N; N.of_nat (stack_len r); stack_top r; N.of_nat (context r); gas_used r];
       i_extra := e; i_clock := 0; i_rest := x |}.

  (** Running from a start gives the registers at the end of segment [d], and
      the memory and extra data that segment [d'] starts with. *)
  Definition leads (it : interp) (d d' : segment) : Prop :=
    exists m it', run it = (Some (registers_after _ _ d, m), it') /\ registers_before _ _ d' = registers_after _ _ d /\
      seg_memory _ _ d' = match m with Some m => m | None => preinitialized (i_mem _ _ _ it') end /\ extra_data _ _ d' = i_extra _ _ _ it'.

  (** * Proof *)

  (** What is known of the data of the next segment. *)
  Definition fresh (p : segment) : Prop := registers_before _ _ p = registers_after _ _ p.

  Lemma next_data : forall s p d s', partial_next_data _ _ _ s = Some p -> fresh p -> next s = (Data d, s') ->
    program_counter (registers_after _ _ p) <> halt /\ segment_index _ _ d = segment_index _ _ p /\ registers_before _ _ d = registers_before _ _ p /\ seg_memory _ _ d = seg_memory _ _ p /\ extra_data _ _ d = extra_data _ _ p /\
    exists p', partial_next_data _ _ _ s' = Some p' /\ fresh p' /\ segment_index _ _ p' = S (segment_index _ _ d) /\
      leads (start (registers_before _ _ d) (seg_memory _ _ d) (extra_data _ _ d) (i_rest _ _ _ (interpreter _ _ _ s))) d p'.
  Proof.
    intros s p d s' E F H. unfold SegmentsModel.next, generate_next_segment in H. rewrite E in H. destruct (Nat.eqb_spec (program_counter (registers_after _ _ p)) halt) as [|N]; [discriminate H|].
    unfold set_registers_and_run in H. cbn [i_mem i_extra i_rest set_memory set_segment_data] in H.
    match type of H with context [run ?i] => set (I := i) in *; destruct (run I) as [[[u m]|] it'] eqn:R end; [|discriminate H]. injection H as <- <-. cbn [segment_index registers_before registers_after seg_memory extra_data partial_next_data].
    repeat split; auto. eexists. split; [reflexivity|]. split; [reflexivity|]. cbn [build_segment_data segment_index]. split; [lia|].
    exists m, it'. cbn [build_segment_data registers_before registers_after seg_memory extra_data]. split; [|auto].
    rewrite <- R. f_equal. unfold start, I. rewrite <- F. reflexivity.
  Qed.

  Lemma first_data : forall it d s', next (new_iter it) = (Data d, s') ->
    segment_index _ _ d = 0 /\ registers_before _ _ d = new_regs main /\ seg_memory _ _ d = preinitialized (i_mem _ _ _ it) /\ extra_data _ _ d = i_extra _ _ _ it /\
    exists p', partial_next_data _ _ _ s' = Some p' /\ fresh p' /\ segment_index _ _ p' = 1 /\ leads (start (new_regs main) (i_mem _ _ _ it) (i_extra _ _ _ it) (i_rest _ _ _ it)) d p'.
  Proof.
    intros it d s' H. unfold SegmentsModel.next, generate_next_segment in H. cbn [partial_next_data SegmentsModel.new_iter interpreter] in H. unfold set_registers_and_run in H. cbn [build_segment_data registers_after] in H.
    match type of H with context [run ?i] => set (I := i) in *; destruct (run I) as [[[u m]|] it'] eqn:R end; [|discriminate H]. injection H as <- <-. cbn [segment_index registers_before registers_after seg_memory extra_data partial_next_data build_segment_data].
    repeat split; auto. eexists. split; [reflexivity|]. split; [reflexivity|]. split; [reflexivity|]. exists m, it'. cbn [registers_before registers_after seg_memory extra_data]. split; [exact R|auto].
  Qed.

  Definition linked (d d' : segment) : Prop :=
    segment_index _ _ d' = S (segment_index _ _ d) /\ program_counter (registers_after _ _ d) <> halt /\ registers_before _ _ d' = registers_after _ _ d.

  Lemma calls_data : forall n s p ds s', partial_next_data _ _ _ s = Some p -> fresh p -> calls n s = (map Data ds, s') ->
    (forall k d, nth_error ds k = Some d -> segment_index _ _ d = segment_index _ _ p + k) /\
    (forall d, nth_error ds 0 = Some d -> program_counter (registers_after _ _ p) <> halt /\ registers_before _ _ d = registers_before _ _ p /\ seg_memory _ _ d = seg_memory _ _ p /\ extra_data _ _ d = extra_data _ _ p) /\
    (forall k d d', nth_error ds k = Some d -> nth_error ds (S k) = Some d' ->
       program_counter (registers_after _ _ d) <> halt /\ exists x, leads (start (registers_before _ _ d) (seg_memory _ _ d) (extra_data _ _ d) x) d d') /\
    exists q, partial_next_data _ _ _ s' = Some q /\ fresh q /\ registers_after _ _ q = last (map (registers_after _ _) ds) (registers_after _ _ p).
  Proof.
    induction n as [|n IH]; intros s p ds s' E F H; cbn [SegmentsModel.calls] in H.
    - injection H as H <-. destruct ds; [|discriminate H]. split; [intros [|k] d D; discriminate D|]. split; [intros d D; discriminate D|]. split; [intros [|k] d d' D; discriminate D|]. exists p. auto.
    - destruct (next s) as [x s1] eqn:N. destruct (calls n s1) as [xs s2] eqn:C. injection H as H <-. destruct ds as [|d0 ds]; [discriminate H|]. cbn [map] in H. injection H as -> ->.
      destruct (next_data s p d0 s1 E F N) as (NH & I & B & M & X & p' & E' & F' & I' & L). destruct (IH s1 p' ds s2 E' F' C) as (A1 & A2 & A3 & q & Q1 & Q2 & Q3).
      assert (BP : registers_before _ _ p' = registers_after _ _ d0) by (destruct L as (? & ? & _ & L & _); exact L).
      split; [|split; [|split]].
      + intros [|k] d D; cbn [nth_error] in D; [injection D as <-; lia|]. rewrite (A1 k d D). lia.
      + intros d D. injection D as <-. auto.
      + intros [|k] d d' D D'; cbn [nth_error] in D, D'.
        * injection D as <-. destruct (A2 d' D') as (NH' & B' & M' & X'). rewrite <- F', BP in NH'. split; [exact NH'|]. exists (i_rest _ _ _ (interpreter _ _ _ s)). destruct L as (m & it' & R & _ & Lm & Lx). exists m, it'. split; [exact R|]. split; [congruence|]. split; [congruence|congruence].
        * apply (A3 k d d' D D').
      + exists q. split; [exact Q1|]. split; [exact Q2|]. rewrite Q3. cbn [map]. rewrite <- F', BP. destruct ds as [|a b]; [reflexivity|]. cbn [map]. clear. generalize (registers_after _ _ a) as y. generalize (map (registers_after _ _) b) as l. intros l y. revert y. induction l as [|z l IH]; intros y; [reflexivity|]. apply IH.
  Qed.

  Theorem C91_segments : forall n it ds s, calls n (new_iter it) = (map Data ds, s) ->
    (forall k d, nth_error ds k = Some d -> segment_index _ _ d = k) /\
    (forall d, nth_error ds 0 = Some d -> registers_before _ _ d = new_regs main /\ extra_data _ _ d = i_extra _ _ _ it /\ seg_memory _ _ d = preinitialized (i_mem _ _ _ it)) /\
    (forall d d', nth_error ds 0 = Some d -> nth_error ds 1 = Some d' -> leads (start (new_regs main) (i_mem _ _ _ it) (i_extra _ _ _ it) (i_rest _ _ _ it)) d d') /\
    (forall k d d', nth_error ds (S k) = Some d -> nth_error ds (S (S k)) = Some d' ->
       exists x, leads (start (registers_before _ _ d) (seg_memory _ _ d) (extra_data _ _ d) x) d d') /\
    (forall k d d', nth_error ds k = Some d -> nth_error ds (S k) = Some d' -> registers_before _ _ d' = registers_after _ _ d /\ program_counter (registers_after _ _ d) <> halt).
  Proof.
    intros [|n] it ds s H; cbn [SegmentsModel.calls] in H.
    - injection H as H <-. destruct ds; [|discriminate H]. split; [intros [|k] d D; discriminate D|]. split; [intros d D; discriminate D|]. split; [intros d d' D; discriminate D|]. split; [intros k d d' D; discriminate D|intros [|k] d d' D; discriminate D].
    - destruct (next (new_iter it)) as [x s1] eqn:N. destruct (calls n s1) as [xs s2] eqn:C. injection H as H <-. destruct ds as [|d0 ds]; [discriminate H|]. cbn [map] in H. injection H as -> ->.
      destruct (first_data it d0 s1 N) as (I & B & M & X & p' & E' & F' & I' & L). destruct (calls_data n s1 p' ds s2 E' F' C) as (A1 & A2 & A3 & _).
      assert (BP : registers_before _ _ p' = registers_after _ _ d0) by (destruct L as (? & ? & _ & L & _); exact L).
      split; [|split; [|split; [|split]]].
      + intros [|k] d D; cbn [nth_error] in D; [injection D as <-; exact I|]. rewrite (A1 k d D). lia.
      + intros d D. injection D as <-. auto.
      + intros d d' D D'. injection D as <-. cbn [nth_error] in D'. destruct (A2 d' D') as (_ & B' & M' & X'). destruct L as (m & it' & R & _ & Lm & Lx). exists m, it'. split; [exact R|]. split; [congruence|]. split; [congruence|congruence].
      + intros k d d' D D'. cbn [nth_error] in D, D'. apply (A3 k d d' D D').
      + intros [|k] d d' D D'; cbn [nth_error] in D, D'.
        * injection D as <-. destruct (A2 d' D') as (NH & B' & _). rewrite <- F', BP in NH. split; [congruence|exact NH].
        * destruct (A3 k d d' D D') as (NH & x & m & it' & _ & B' & _). auto.
  Qed.

  Lemma after_data : forall n it ds s, calls n (new_iter it) = (map Data ds, s) -> ds <> [] ->
    exists q, partial_next_data _ _ _ s = Some q /\ fresh q /\ registers_after _ _ q = last (map (registers_after _ _) ds) (new_regs main).
  Proof.
    intros [|n] it ds s H NE; cbn [SegmentsModel.calls] in H; [injection H as H <-; destruct ds; [contradiction|discriminate H]|].
    destruct (next (new_iter it)) as [x s1] eqn:N. destruct (calls n s1) as [xs s2] eqn:C. injection H as H <-. destruct ds as [|d0 ds]; [discriminate H|]. cbn [map] in H. injection H as -> ->.
    destruct (first_data it d0 s1 N) as (_ & _ & _ & _ & p' & E' & F' & _ & L). destruct (calls_data n s1 p' ds s2 E' F' C) as (_ & _ & _ & q & Q1 & Q2 & Q3). exists q. split; [exact Q1|]. split; [exact Q2|]. rewrite Q3. destruct L as (? & ? & _ & BP & _). rewrite <- F', BP. cbn [map].
    destruct ds as [|a b]; [reflexivity|]. cbn [map]. clear. generalize (registers_after _ _ a) as y. generalize (map (registers_after _ _) b) as l. intros l y. revert y. induction l as [|z l IH]; intros y; [reflexivity|]. apply IH.
  Qed.

  Lemma end_of : forall s p, partial_next_data _ _ _ s = Some p -> (fst (next s) = End <-> program_counter (registers_after _ _ p) = halt).
  Proof.
    intros s p E. unfold SegmentsModel.next, generate_next_segment. rewrite E. destruct (Nat.eqb_spec (program_counter (registers_after _ _ p)) halt) as [Eq|N]; [split; auto|].
    split; [|contradiction]. unfold set_registers_and_run. match goal with |- context [run ?i] => destruct (run i) as [[[u m]|] it'] end; intros H; discriminate H.
  Qed.

  (** The batch ends exactly when its last segment stopped at [halt], and never
      before a first segment; an iterator that ended stays ended. *)
  Theorem C91_end : forall n it ds s, calls n (new_iter it) = (map Data ds, s) ->
    (fst (next s) = End <-> ds <> [] /\ program_counter (last (map (registers_after _ _) ds) (new_regs main)) = halt) /\
    (fst (next s) = End -> forall m, fst (calls m s) = repeat End m).
  Proof.
    intros n it ds s H. assert (St : fst (next s) = End -> snd (next s) = s).
    { unfold SegmentsModel.next, generate_next_segment. destruct s as [i [p|]]; cbn [partial_next_data interpreter].
      - destruct (Nat.eqb_spec (program_counter (registers_after _ _ p)) halt); [reflexivity|]. unfold set_registers_and_run. match goal with |- context [run ?i] => destruct (run i) as [[[u m]|] it'] end; intros X; discriminate X.
      - unfold set_registers_and_run. match goal with |- context [run ?i] => destruct (run i) as [[[u m]|] it'] end; intros X; discriminate X. }
    split.
    - destruct ds as [|d ds].
      + split; [|intros (X & _); contradiction]. destruct n as [|n]; [injection H as <-|cbn [SegmentsModel.calls] in H; destruct (next (new_iter it)), (calls n i0); discriminate H].
        unfold SegmentsModel.next, generate_next_segment. cbn [partial_next_data SegmentsModel.new_iter]. unfold set_registers_and_run. match goal with |- context [run ?i] => destruct (run i) as [[[u m]|] it'] end; intros X; discriminate X.
      + destruct (after_data n it (d :: ds) s H ltac:(discriminate)) as (q & Q1 & _ & Q3). rewrite (end_of s q Q1), Q3. split; [intros X; split; [discriminate|exact X]|intros (_ & X); exact X].
    - intros X m. specialize (St X). induction m as [|m IH]; [reflexivity|]. cbn [SegmentsModel.calls repeat]. destruct (next s) as [x s1]. cbn [fst snd] in *. subst x s1. destruct (calls m s) as [xs s2]. cbn [fst] in *. congruence.
  Qed.

  (** When what a run returns depends on registers, memory, extra data and
      clock only, a batch that fails after its first segment fails again at every
      later call: the iterator never ends. *)
  Theorem C91_failure_forever : forall n it ds s, calls n (new_iter it) = (map Data ds, s) -> ds <> [] ->
    (forall a b, i_regs _ _ _ a = i_regs _ _ _ b -> i_mem _ _ _ a = i_mem _ _ _ b -> i_extra _ _ _ a = i_extra _ _ _ b -> i_clock _ _ _ a = i_clock _ _ _ b -> fst (run a) = fst (run b)) ->
    fst (next s) = Failure -> forall m, fst (calls m s) = repeat Failure m.
  Proof.
    intros n it ds s H NE D X. destruct (after_data n it ds s H NE) as (q & Q1 & _ & _). clear H NE. intros m. revert s Q1 X. induction m as [|m IH]; intros s Q1 X; [reflexivity|]. cbn [SegmentsModel.calls repeat].
    assert (St : forall s, partial_next_data _ _ _ s = Some q -> fst (next s) = Failure -> partial_next_data _ _ _ (snd (next s)) = Some q /\ forall s', partial_next_data _ _ _ s' = Some q -> fst (next s') = Failure).
    { clear -D. intros s Q1. unfold SegmentsModel.next, generate_next_segment. rewrite Q1. destruct (Nat.eqb_spec (program_counter (registers_after _ _ q)) halt) as [|N]; [intros X; discriminate X|]. unfold set_registers_and_run.
      match goal with |- context [run ?i] => destruct (run i) as [[[u m]|] it'] eqn:R end; intros X; [discriminate X|]. cbn [snd partial_next_data]. split; [reflexivity|]. intros s' Q2. rewrite Q2. destruct (Nat.eqb_spec (program_counter (registers_after _ _ q)) halt) as [|_]; [contradiction|].
      match type of R with run ?a = _ => match goal with |- context [run ?b] => pose proof (D a b eq_refl eq_refl eq_refl eq_refl) as DD; destruct (run b) as [[[u m]|] it''] eqn:R' end end; rewrite R in DD; cbn [fst] in DD; [discriminate DD|reflexivity]. }
    destruct (St s Q1 X) as (Q2 & F). specialize (IH (snd (next s)) Q2 (F _ Q2)). destruct (next s) as [x s1]. cbn [fst snd] in *. subst x. destruct (calls m s1) as [xs s2]. cbn [fst] in *. congruence.
  Qed.
End Segments.
Print Assumptions C91_segments.
Print Assumptions C91_end.
Print Assumptions C91_failure_forever.

(** * Cases *)

(** A machine with a number for memory that needs three segments: memory counts
    the runs, and the program counter is the label 9 = halt after the third. *)
Definition at_pc (pc : nat) : regs := {| program_counter := pc; is_kernel := true; stack_len := 2; stack_top := 7%N; context := 1; is_stack_top_read := false; check_overflow := false; gas_used := N.of_nat pc |}.
Definition three_runs (a : interp nat nat unit) : option (regs * option nat) * interp nat nat unit :=
  let m := S (i_mem _ _ _ a) in
  (Some (at_pc (if m =? 3 then 9 else 5), Some m), {| i_regs := at_pc 0; i_mem := m; i_extra := m * 10; i_clock := 100; i_rest := tt |}).
Definition initial : interp nat nat unit := {| i_regs := at_pc 0; i_mem := 0; i_extra := 1; i_clock := 0; i_rest := tt |}.
Definition sample_new (f : interp nat nat unit -> option (regs * option nat) * interp nat nat unit) (n : nat) : list (item nat nat) :=
  fst (calls nat nat unit 1 2 9 f (fun m _ => m) (fun m => m) n (new_iter _ _ _ initial)).
Theorem C91_case : sample_new three_runs 5 =
  [Data _ _ {| segment_index := 0; registers_before := new_regs 1; registers_after := at_pc 5; seg_memory := 0; extra_data := 1 |};
   Data _ _ {| segment_index := 1; registers_before := at_pc 5; registers_after := at_pc 5; seg_memory := 1; extra_data := 10 |};
   Data _ _ {| segment_index := 2; registers_before := at_pc 5; registers_after := at_pc 9; seg_memory := 2; extra_data := 20 |}; End _ _; End _ _].
Proof. vm_compute. reflexivity. Qed.

(** An iterator is expected to end after an error: this one does not. *)
Definition second_fails (a : interp nat nat unit) : option (regs * option nat) * interp nat nat unit := if i_mem _ _ _ a =? 1 then (None, a) else three_runs a.
Lemma second_fails_again : forall n s, partial_next_data _ _ _ s = Some {| segment_index := 1; registers_before := at_pc 5; registers_after := at_pc 5; seg_memory := 1; extra_data := 10 |} ->
  fst (calls nat nat unit 1 2 9 second_fails (fun m _ => m) (fun m => m) n s) = repeat (Failure _ _) n.
Proof.
  induction n as [|n IH]; intros s E; [reflexivity|]. cbn [calls]. unfold next, generate_next_segment. rewrite E. cbn. 
  match goal with |- context [calls _ _ _ _ _ _ _ _ _ n ?s'] => specialize (IH s' eq_refl); destruct (calls nat nat unit 1 2 9 second_fails (fun m _ => m) (fun m => m) n s') end. cbn in *. congruence.
Qed.
Theorem C91_ends_refuted : exists run : interp nat nat unit -> option (regs * option nat) * interp nat nat unit,
  exists d, forall n, sample_new run (S n) = d :: repeat (Failure _ _) n.
Proof.
  exists second_fails, (Data _ _ {| segment_index := 0; registers_before := new_regs 1; registers_after := at_pc 5; seg_memory := 0; extra_data := 1 |}). intros n. unfold sample_new. cbn [calls]. 
  destruct (next nat nat unit 1 2 9 second_fails (fun m _ => m) (fun m => m) (new_iter _ _ _ initial)) as [x s] eqn:N. vm_compute in N. injection N as <- <-.
  match goal with |- context [calls _ _ _ _ _ _ _ _ _ n ?s'] => pose proof (second_fails_again n s' eq_refl) as F; destruct (calls nat nat unit 1 2 9 second_fails (fun m _ => m) (fun m => m) n s') end. cbn [fst] in *. rewrite F. reflexivity.
Qed.

(** A second call after the first segment failed does not start from the
    initial memory: the failed run's memory is still there, and data comes out
    that no run of the batch from its beginning gives. *)
Definition first_fails (a : interp nat nat unit) : option (regs * option nat) * interp nat nat unit :=
  if i_mem _ _ _ a =? 0 then (None, {| i_regs := i_regs _ _ _ a; i_mem := 2; i_extra := i_extra _ _ _ a; i_clock := 50; i_rest := tt |}) else three_runs a.
Theorem C91_retry_refuted : exists run : interp nat nat unit -> option (regs * option nat) * interp nat nat unit,
  exists d, sample_new run 3 = [Failure _ _; Data _ _ d; End _ _] /\ segment_index _ _ d = 0 /\ fst (run (start nat nat unit 2 (fun m _ => m) (new_regs 1) (i_mem _ _ _ initial) (i_extra _ _ _ initial) tt)) = None.
Proof. exists first_fails. eexists. vm_compute. repeat split; reflexivity. Qed.
Print Assumptions C91_case.
Print Assumptions C91_ends_refuted.
Print Assumptions C91_retry_refuted.
