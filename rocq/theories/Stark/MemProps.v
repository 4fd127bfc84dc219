(** The memory table: C26 and C27. *)
From Coq Require Import ZArith Znumtheory List Lia Bool Permutation.
From Coq Require Import ZifyBool ZifyNat.
From Verif Require Import Stark.Field Stark.ArithModel Stark.LogicModel Stark.LogicProps Stark.MemModel Stark.MemSpec Stark.MemSound Stark.MemCheck.
Import ListNotations.
Local Open Scope Z_scope.

(** * Sequential memory, address by address *)

Lemma address_eqb_spec : forall a b, reflect (a = b) (address_eqb a b).
Proof.
  intros [[c s] v] [[c' s'] v']. unfold address_eqb. destruct (Z.eqb_spec c c'), (Z.eqb_spec s s'), (Z.eqb_spec v v'); cbn [andb]; constructor; congruence.
Qed.

(** The history of one cell. *)
Fixpoint cell_run (v : mvalue) (l : list event) : Prop :=
  match l with
  | [] => True
  | e :: l => if ev_read e then ev_value e = v /\ cell_run v l else cell_run (ev_value e) l
  end.
Fixpoint cell_final (v : mvalue) (l : list event) : mvalue :=
  match l with
  | [] => v
  | e :: l => if ev_read e then cell_final v l else cell_final (ev_value e) l
  end.

Definition at_address (a : maddress) (l : list event) : list event := filter (fun e => address_eqb a (ev_addr e)) l.

Lemma sequential_cells : forall l m, (forall a, cell_run (m a) (at_address a l)) -> sequential m l.
Proof.
  induction l as [|e l IH]; intros m H; [exact I|]. cbn [sequential]. destruct (ev_read e) eqn:RD.
  - split.
    + specialize (H (ev_addr e)). unfold at_address in H. cbn [filter] in H. destruct (address_eqb_spec (ev_addr e) (ev_addr e)); [|congruence].
      cbn [cell_run] in H. rewrite RD in H. apply H.
    + apply IH. intros a. specialize (H a). unfold at_address in *. cbn [filter] in H. destruct (address_eqb a (ev_addr e)); [|exact H].
      cbn [cell_run] in H. rewrite RD in H. apply H.
  - apply IH. intros a. specialize (H a). unfold at_address, update in *. cbn [filter] in H. destruct (address_eqb a (ev_addr e)); [|exact H].
    cbn [cell_run] in H. rewrite RD in H. exact H.
Qed.

Lemma cell_run_snoc : forall l v e, cell_run v (l ++ [e]) <-> cell_run v l /\ (ev_read e = true -> ev_value e = cell_final v l).
Proof.
  induction l as [|f l IH]; intros v e; cbn [app cell_run cell_final].
  - destruct (ev_read e); intuition congruence.
  - destruct (ev_read f); rewrite IH; tauto.
Qed.

Lemma cell_final_snoc : forall l v e, cell_run v (l ++ [e]) -> cell_final v (l ++ [e]) = ev_value e.
Proof.
  induction l as [|f l IH]; intros v e; cbn [app cell_run cell_final].
  - destruct (ev_read e); [intros [H _]; congruence|reflexivity].
  - destruct (ev_read f); [intros [_ H]; apply IH; exact H|apply IH].
Qed.

(** Dropping reads. *)
Lemma cell_run_drop : forall (p : event -> bool) l v, (forall e, In e l -> p e = false -> ev_read e = true) -> cell_run v l -> cell_run v (filter p l).
Proof.
  intros p. induction l as [|e l IH]; intros v H R; [exact I|]. cbn [filter]. cbn [cell_run] in R.
  assert (H' : forall f, In f l -> p f = false -> ev_read f = true) by (intros f Hf; apply H; right; exact Hf).
  destruct (p e) eqn:E; cbn [cell_run].
  - destruct (ev_read e); [split; [apply R|apply IH; [exact H'|apply R]]|apply IH; [exact H'|exact R]].
  - rewrite (H e (or_introl eq_refl) E) in R. apply IH; [exact H'|apply R].
Qed.

(** Strictly increasing times. *)
Fixpoint strictly_timed (l : list event) : Prop :=
  match l with
  | [] => True
  | e :: l => Forall (fun f => ev_time e < ev_time f) l /\ strictly_timed l
  end.

Lemma strict_permutation : forall l m, strictly_timed l -> strictly_timed m -> Permutation l m -> l = m.
Proof.
  induction l as [|e l IH]; intros m Hl Hm HP; [apply Permutation_nil in HP; congruence|].
  destruct m as [|f m]; [apply Permutation_sym, Permutation_nil in HP; discriminate|].
  destruct Hl as [Fl Hl], Hm as [Fm Hm]. rewrite Forall_forall in Fl, Fm.
  assert (E : e = f).
  { assert (I1 : In e (f :: m)) by (apply (Permutation_in e HP); left; reflexivity).
    assert (I2 : In f (e :: l)) by (apply (Permutation_in f (Permutation_sym HP)); left; reflexivity).
    destruct I1 as [->|I1]; [reflexivity|]. destruct I2 as [->|I2]; [reflexivity|]. pose proof (Fl f I2). pose proof (Fm e I1). lia. }
  subst f. f_equal. apply IH; [exact Hl|exact Hm|]. apply Permutation_cons_inv with e. exact HP.
Qed.

Lemma permutation_filter : forall {A} (p : A -> bool) l m, Permutation l m -> Permutation (filter p l) (filter p m).
Proof.
  intros A p l m H. induction H; cbn [filter]; try constructor.
  - destruct (p x); [constructor; assumption|assumption].
  - destruct (p x), (p y); try apply perm_swap; apply Permutation_refl.
  - eapply Permutation_trans; eassumption.
Qed.

(** Two events of the list at one address are at different times. *)
Definition no_races (l : list event) : Prop :=
  forall a, NoDup (map ev_time (at_address a l)).

Lemma timed_strict : forall l, timed l -> NoDup (map ev_time l) -> strictly_timed l.
Proof.
  induction l as [|e l IH]; intros T N; [exact I|]. destruct T as [F T]. cbn [map] in N. inversion N as [|? ? N1 N2]; subst. split; [|apply IH; assumption].
  rewrite Forall_forall in *. intros f Hf. specialize (F f Hf). assert (ev_time e <> ev_time f); [|lia].
  intros E. apply N1. rewrite E. apply in_map. exact Hf.
Qed.

Lemma timed_filter : forall p l, timed l -> timed (filter p l).
Proof.
  intros p. induction l as [|e l IH]; intros T; [exact I|]. destruct T as [F T]. cbn [filter]. destruct (p e); [|apply IH; exact T].
  split; [|apply IH; exact T]. rewrite Forall_forall in *. intros f Hf. apply filter_In in Hf. apply F. apply Hf.
Qed.

(** * C26 *)

(** What the other tables see of a row: columns of the cross-table lookup. *)
Definition event_of (r : row) : event :=
  {| ev_read := r M_IS_READ =? 1; ev_addr := m_address r; ev_value := m_value r; ev_time := r M_TIMESTAMP |}.
Definition visible_event (r : row) : bool := r M_FILTER =? 1.
Definition visible_rows (t : list row) : list row := filter visible_event t.
Definition visible_events (t : list row) : list event := map event_of (visible_rows t).

(** What the looking tables guarantee: read flags are 0 or 1 and times are
    bounded (a time is a clock value times the number of channels, plus a
    channel number). *)
Definition ctl_ok (t : list row) : Prop :=
  Forall (fun r => (r M_IS_READ = 0 \/ r M_IS_READ = 1) /\ r M_TIMESTAMP < 2^62) (visible_rows t).

Section Sound.
  Variable t : list row.
  Hypothesis OK : mem_table_ok t.
  Hypothesis LEN : Z.of_nat (length t) <= 2^31.
  Hypothesis CTL : ctl_ok t.

  Lemma read_flag : forall i, (i < length t)%nat -> mrow_at t i M_IS_READ = 0 \/ mrow_at t i M_IS_READ = 1.
  Proof.
    intros i Hi. destruct (filter_bool t OK i Hi) as [F|F].
    - right. exact (dummy_reads t OK i Hi F).
    - unfold ctl_ok, visible_rows in CTL. rewrite Forall_forall in CTL. apply CTL. apply filter_In. split; [apply nth_In; exact Hi|unfold visible_event; fold (mrow_at t i); rewrite F; reflexivity].
  Qed.

  Definition row_event (i : nat) : event := event_of (mrow_at t i).

  (** The first row of an address. *)
  Definition first_row (a : maddress) : option nat := find (fun i => address_eqb a (addr t i)) (seq 0 (length t)).
  (** The initial memory: what a first operation reads. *)
  Definition initial : memory := fun a =>
    match first_row a with
    | Some i => if mrow_at t i M_IS_READ =? 1 then m_value (mrow_at t i) else zero_value
    | None => zero_value
    end.

  Lemma find_first : forall (p : nat -> bool) s k i, find p (seq s k) = Some i -> (s <= i < s + k)%nat /\ p i = true /\ forall j, (s <= j < i)%nat -> p j = false.
  Proof.
    intros p s k. revert s. induction k as [|k IH]; intros s i H; [discriminate H|]. cbn [seq find] in H. destruct (p s) eqn:E.
    - injection H as ->. split; [lia|]. split; [exact E|]. intros j Hj. lia.
    - apply IH in H. destruct H as (A & B & C). split; [lia|]. split; [exact B|]. intros j Hj. destruct (Nat.eq_dec j s) as [->|]; [exact E|]. apply C. lia.
  Qed.

  Lemma first_row_spec : forall k, (k < length t)%nat -> (forall j, (j < k)%nat -> addr t j <> addr t k) -> first_row (addr t k) = Some k.
  Proof.
    intros k Hk N. unfold first_row. destruct (find _ _) as [i|] eqn:E.
    - apply find_first in E. destruct E as (A & B & C). destruct (address_eqb_spec (addr t k) (addr t i)) as [E|]; [|discriminate].
      f_equal. destruct (Nat.lt_trichotomy i k) as [L|[L|L]]; [destruct (N i L); congruence|exact L|].
      specialize (C k ltac:(lia)). destruct (address_eqb_spec (addr t k) (addr t k)); congruence.
    - exfalso. pose proof (find_none _ _ E k) as F. cbv beta in F. destruct (address_eqb_spec (addr t k) (addr t k)); [|congruence].
      specialize (F ltac:(apply in_seq; lia)). discriminate F.
  Qed.

  (** The rows below k at address a, as events. *)
  Definition upto (k : nat) (a : maddress) : list event := at_address a (map row_event (seq 0 k)).

  Lemma upto_S : forall k a, upto (S k) a = upto k a ++ (if address_eqb a (addr t k) then [row_event k] else []).
  Proof.
    intros k a. unfold upto, at_address. rewrite seq_S, map_app, filter_app. cbn [Nat.add map filter]. reflexivity.
  Qed.

  Lemma upto_empty : forall k a, (forall j, (j < k)%nat -> addr t j <> a) -> upto k a = [].
  Proof.
    induction k as [|k IH]; intros a H; [reflexivity|]. rewrite upto_S, IH by (intros j Hj; apply H; lia).
    destruct (address_eqb_spec a (addr t k)) as [E|]; [|reflexivity]. destruct (H k ltac:(lia)). congruence.
  Qed.

  (** Is there an earlier row of this address? *)
  Lemma earlier_dec : forall k a, (exists j, (j < k)%nat /\ addr t j = a) \/ (forall j, (j < k)%nat -> addr t j <> a).
  Proof.
    induction k as [|k IH]; intros a; [right; intros j Hj; lia|].
    destruct (address_eqb_spec (addr t k) a) as [E|N]; [left; exists k; split; [lia|exact E]|].
    destruct (IH a) as [(j & Hj & E)|F]; [left; exists j; split; [lia|exact E]|].
    right. intros j Hj. destruct (Nat.eq_dec j k) as [->|]; [exact N|apply F; lia].
  Qed.

  Lemma rows_run : forall k a, (k <= length t)%nat -> cell_run (initial a) (upto k a).
  Proof.
    induction k as [|k IH]; intros a Hk; [exact I|]. specialize (IH a ltac:(lia)). rewrite upto_S.
    destruct (address_eqb_spec a (addr t k)) as [->|]; [|rewrite app_nil_r; exact IH].
    apply cell_run_snoc. split; [exact IH|]. cbn [row_event event_of ev_read ev_value]. intros RD. apply Z.eqb_eq in RD.
    destruct (earlier_dec k (addr t k)) as [(j & Hj & E)|F].
    - assert (E' : addr t (k - 1) = addr t k).
      { rewrite <- E. apply (block_addr t OK LEN j k ltac:(lia) ltac:(lia) E). lia. }
      assert (U : upto k (addr t k) = upto (k - 1) (addr t k) ++ [row_event (k - 1)]).
      { replace k with (S (k - 1)) at 1 by lia. rewrite upto_S, E'. destruct (address_eqb_spec (addr t k) (addr t k)); congruence. }
      rewrite U in IH |- *. rewrite cell_final_snoc by exact IH. cbn [row_event event_of ev_value].
      replace k with (S (k - 1)) at 1 by lia. apply (read_same t OK LEN); replace (S (k - 1)) with k by lia; [lia|exact E'|exact RD].
    - rewrite upto_empty by exact F. cbn [cell_final]. unfold initial. rewrite first_row_spec by (try exact F; lia). rewrite RD. reflexivity.
  Qed.

  Lemma all_rows : map row_event (seq 0 (length t)) = map event_of t.
  Proof.
    unfold row_event, mrow_at. rewrite <- (map_map (fun i => nth i t zero_row) event_of). f_equal.
    clear.
    assert (G : forall l p : list row, map (fun i => nth i (p ++ l) zero_row) (seq (length p) (length l)) = l).
    { induction l as [|r l IH]; intros p; [reflexivity|]. cbn [length seq map]. f_equal.
      - rewrite app_nth2, Nat.sub_diag by lia. reflexivity.
      - specialize (IH (p ++ [r])). rewrite app_length, <- app_assoc in IH. cbn [length app] in IH. rewrite Nat.add_1_r in IH. exact IH. }
    exact (G t []).
  Qed.

  (** The visible rows of an address form a run of the cell. *)
  Lemma visible_run : forall a, cell_run (initial a) (at_address a (visible_events t)).
  Proof.
    intros a. pose proof (rows_run (length t) a (le_n _)) as R. unfold upto in R. rewrite all_rows in R.
    assert (D : forall r, In r t -> visible_event r = false -> ev_read (event_of r) = true).
    { intros r Hr V. apply (In_nth _ _ zero_row) in Hr. destruct Hr as (i & Hi & <-). fold (mrow_at t i) in *. unfold visible_event in V. cbn [ev_read event_of].
      destruct (filter_bool t OK i Hi) as [F|F]; [|rewrite F in V; discriminate]. rewrite (dummy_reads t OK i Hi F). reflexivity. }
    unfold visible_events, visible_rows, at_address in *.
    revert R D. generalize (initial a) as v. generalize t as l. clear. induction l as [|r l IH]; intros v R D; [exact I|].
    assert (D' : forall s, In s l -> visible_event s = false -> ev_read (event_of s) = true) by (intros s Hs; apply D; right; exact Hs).
    cbn [map filter] in R |- *. destruct (visible_event r) eqn:V; cbn [map filter].
    - destruct (address_eqb a (ev_addr (event_of r))); [|apply IH; assumption]. cbn [cell_run] in R |- *.
      destruct (ev_read (event_of r)); [split; [apply R|apply IH; [apply R|exact D']]|apply IH; assumption].
    - destruct (address_eqb a (ev_addr (event_of r))); [|apply IH; assumption]. cbn [cell_run] in R. rewrite (D r (or_introl eq_refl) V) in R. apply IH; [apply R|exact D'].
  Qed.

  (** Within an address the visible rows are in the order of time. *)
  Lemma visible_timed : forall a, timed (at_address a (visible_events t)).
  Proof.
    intros a.
    assert (G : forall l p, t = p ++ l -> timed (at_address a (map event_of (filter visible_event l)))).
    { induction l as [|r l IH]; intros p E; [exact I|]. cbn [filter]. specialize (IH (p ++ [r]) ltac:(rewrite <- app_assoc; exact E)).
      destruct (visible_event r) eqn:V; [|exact IH]. unfold at_address in *. cbn [map filter]. destruct (address_eqb_spec a (ev_addr (event_of r))) as [A|]; [|exact IH].
      split; [|exact IH]. rewrite Forall_forall. intros f Hf. apply filter_In in Hf. destruct Hf as [Hf Af].
      destruct (address_eqb_spec a (ev_addr f)) as [A2|]; [|discriminate]. apply in_map_iff in Hf. destruct Hf as (s & <- & Hs). apply filter_In in Hs. destruct Hs as [Hs Vs].
      apply (In_nth _ _ zero_row) in Hs. destruct Hs as (j & Hj & Ej).
      assert (E1 : mrow_at t (length p) = r) by (unfold mrow_at; rewrite E, app_nth2, Nat.sub_diag by lia; reflexivity).
      assert (E2 : mrow_at t (length p + S j) = s) by (unfold mrow_at; rewrite E, app_nth2 by lia; replace (length p + S j - length p)%nat with (S j) by lia; exact Ej).
      assert (L : length t = (length p + S (length l))%nat) by (rewrite E, app_length; reflexivity).
      assert (Ir : In r t) by (rewrite E; apply in_app_iff; right; left; reflexivity).
      assert (Is : In s t) by (rewrite <- E2; apply nth_In; lia).
      unfold ctl_ok, visible_rows in CTL. rewrite Forall_forall in CTL.
      assert (Tr := proj2 (CTL r ltac:(apply filter_In; split; assumption))).
      assert (Ts := proj2 (CTL s ltac:(apply filter_In; split; assumption))).
      cbn [event_of ev_time ev_addr] in *. rewrite <- E1 in Tr, A |- *. rewrite <- E2 in Ts, A2 |- *.
      apply (block_time t OK LEN); [lia|lia|unfold addr; congruence|exact Tr|exact Ts]. }
    exact (G t [] eq_refl).
  Qed.

  Lemma initial_zero : forall a, initial a <> zero_value -> preinitialized a \/ exists r, nth_error t 0 = Some r /\ m_address r = a.
  Proof.
    intros a. unfold initial. destruct (first_row a) as [i|] eqn:E; [|congruence]. unfold first_row in E. apply find_first in E. destruct E as (A & B & C).
    destruct (address_eqb_spec a (addr t i)) as [->|]; [|discriminate].
    destruct (Z.eqb_spec (mrow_at t i M_IS_READ) 1) as [RD|]; [|congruence]. intros NZ.
    destruct i as [|i].
    - right. exists (mrow_at t 0). split; [|reflexivity]. unfold mrow_at. apply nth_error_nth'. lia.
    - left. unfold preinitialized. destruct (addr t (S i)) as [[c s] v] eqn:Ea.
      destruct (in_dec Z.eq_dec s [0; 12; 34; 35]) as [H|H]; [exact H|exfalso]. apply NZ.
      apply (first_read_zero t OK LEN); [lia| |exact RD|rewrite Ea; exact H].
      intros X. specialize (C i ltac:(lia)). rewrite X, Ea in C. destruct (address_eqb_spec (c, s, v) (c, s, v)); congruence.
  Qed.
End Sound.

(** In every accepted memory table, whatever order the rows were put in by the
    prover: any time-ordered arrangement of the operations the other tables
    see is a sequential execution, from an initial memory that is zero except
    in the preinitialized segments and at the address of the very first row. *)
Theorem C26_memory_sound : forall t trace,
  mem_table_ok t -> Z.of_nat (length t) <= 2^31 -> ctl_ok t ->
  Permutation trace (visible_events t) -> timed trace -> no_races trace ->
  exists m : memory, sequential m trace /\
    forall a, m a <> zero_value -> preinitialized a \/ exists r, nth_error t 0 = Some r /\ m_address r = a.
Proof.
  intros t trace OK LEN CTL PERM T NR. exists (initial t). split; [|apply initial_zero; assumption].
  apply sequential_cells. intros a.
  assert (E : at_address a trace = at_address a (visible_events t)).
  { pose proof (permutation_filter (fun e => address_eqb a (ev_addr e)) _ _ PERM) as PA.
    apply strict_permutation; [| |exact PA].
    - apply timed_strict; [apply timed_filter; exact T|apply NR].
    - apply timed_strict; [apply visible_timed; assumption|].
      apply (Permutation_NoDup (l := map ev_time (at_address a trace))); [|apply NR]. apply Permutation_map. exact PA. }
  rewrite E. apply visible_run; assumption.
Qed.
Print Assumptions C26_memory_sound.

(** ** Non-vacuity, and the exceptions are real *)

Definition op_write (ts c s v x : Z) : mem_op := {| mo_filter := true; mo_timestamp := ts; mo_context := c; mo_segment := s; mo_virt := v; mo_read := false; mo_value := x |}.
Definition op_read (ts c s v x : Z) : mem_op := {| mo_filter := true; mo_timestamp := ts; mo_context := c; mo_segment := s; mo_virt := v; mo_read := true; mo_value := x |}.
Definition table_of (o : option (list row * list ((Z * Z * Z) * list Z))) : list (list Z) :=
  match o with Some (t, _) => map cells_of t | None => [] end.
Definition honest (ops : list mem_op) : list (list Z) := table_of (m_generate_trace ops [] []).
Definition with_cell (i c : nat) (v : Z) (ls : list (list Z)) : list (list Z) := map cells_of (tamper i c v (map row_of ls)).

(** Decides [ctl_ok] for a table given by its cells. *)
Definition ctl_okb (t : list row) : bool :=
  forallb (fun r => ((r M_IS_READ =? 0) || (r M_IS_READ =? 1)) && (r M_TIMESTAMP <? 2^62)) (visible_rows t).
Lemma ctl_okb_ok : forall t, ctl_okb t = true -> ctl_ok t.
Proof. intros t H. unfold ctl_okb in H. rewrite forallb_forall in H. apply Forall_forall. intros r Hr. specialize (H r Hr). lia. Qed.

(** Executing a list of events on a finite memory, to decide sequentiality. *)
Definition example_ops : list mem_op := [op_write 1 0 12 0 7; op_write 2 0 12 1 (2^255); op_read 3 0 12 0 7; op_write 5 1 13 0 9; op_read 6 1 13 1 0].

Example C26_example : let t := map row_of (honest example_ops) in
  mem_table_ok t /\ Z.of_nat (length t) <= 2^31 /\ ctl_ok t /\
  exists trace, Permutation trace (visible_events t) /\ timed trace /\ no_races trace /\ length trace = 5%nat /\ ev_time (nth 0 trace (event_of zero_row)) = 1.
Proof.
  cbv zeta. split; [apply mem_okb_ok; vm_compute; reflexivity|]. split; [vm_compute; discriminate|]. split; [apply ctl_okb_ok; vm_compute; reflexivity|].
  set (V := visible_events _).
  exists [nth 0 V (event_of zero_row); nth 2 V (event_of zero_row); nth 1 V (event_of zero_row); nth 3 V (event_of zero_row); nth 4 V (event_of zero_row)].
  assert (E : V = [nth 0 V (event_of zero_row); nth 1 V (event_of zero_row); nth 2 V (event_of zero_row); nth 3 V (event_of zero_row); nth 4 V (event_of zero_row)]) by (vm_compute; reflexivity).
  split; [rewrite E at 6; apply perm_skip, perm_swap|].
  assert (T0 : ev_time (nth 0 V (event_of zero_row)) = 1) by (vm_compute; reflexivity).
  assert (T1 : ev_time (nth 1 V (event_of zero_row)) = 3) by (vm_compute; reflexivity).
  assert (T2 : ev_time (nth 2 V (event_of zero_row)) = 2) by (vm_compute; reflexivity).
  assert (T3 : ev_time (nth 3 V (event_of zero_row)) = 5) by (vm_compute; reflexivity).
  assert (T4 : ev_time (nth 4 V (event_of zero_row)) = 6) by (vm_compute; reflexivity).
  split; [|split; [|split; [reflexivity|exact T0]]].
  - cbn [timed]. repeat (split; [repeat constructor; rewrite ?T0, ?T1, ?T2, ?T3, ?T4; discriminate|]). exact I.
  - intros a. assert (N : NoDup (map ev_time [nth 0 V (event_of zero_row); nth 2 V (event_of zero_row); nth 1 V (event_of zero_row); nth 3 V (event_of zero_row); nth 4 V (event_of zero_row)])).
    { cbn [map]. rewrite T0, T1, T2, T3, T4. repeat (constructor; [cbn [In]; lia|]). constructor. }
    revert N. generalize [nth 0 V (event_of zero_row); nth 2 V (event_of zero_row); nth 1 V (event_of zero_row); nth 3 V (event_of zero_row); nth 4 V (event_of zero_row)].
    clear. unfold at_address. induction l as [|e l IH]; intros N; [constructor|]. cbn [map filter] in *. inversion N as [|? ? N1 N2]; subst.
    destruct (address_eqb a (ev_addr e)); [|apply IH; exact N2]. cbn [map]. constructor; [|apply IH; exact N2].
    intros H. apply N1. apply in_map_iff in H. destruct H as (f & Ef & Hf). apply filter_In in Hf. rewrite <- Ef. apply in_map. apply Hf.
Qed.

(** The exception for the first row cannot be dropped: there is an accepted
    table in which the first operation on an ordinary segment reads 5. *)
Theorem C26_first_row_refuted : exists t e, mem_table_ok t /\ ctl_ok t /\ visible_events t = [e] /\
  ev_read e = true /\ ev_value e = [5; 0; 0; 0; 0; 0; 0; 0] /\ ev_addr e = (0, 13, 0) /\ ~ preinitialized (ev_addr e).
Proof.
  exists (map row_of (honest [op_read 1 0 13 0 5])), (event_of (row_of (nth 0 (honest [op_read 1 0 13 0 5]) []))).
  split; [apply mem_okb_ok; vm_compute; reflexivity|]. split; [apply ctl_okb_ok; vm_compute; reflexivity|].
  split; [vm_compute; reflexivity|]. split; [vm_compute; reflexivity|]. split; [vm_compute; reflexivity|]. split; [vm_compute; reflexivity|].
  intros H. vm_compute in H. intuition discriminate.
Qed.
Print Assumptions C26_first_row_refuted.

(** * C27 *)

(** The memory handed to the next segment proof: the rows looked up in the
    MemAfter table. *)
Definition exported (t : list row) (a : maddress) (v : mvalue) : Prop :=
  exists r, In r t /\ r M_MEM_AFTER_FILTER = 1 /\ m_address r = a /\ m_value r = v.
(** The last operation on an address leaves v there. *)
Definition leaves (t : list row) (a : maddress) (v : mvalue) : Prop :=
  exists l e, at_address a (visible_events t) = l ++ [e] /\ ev_value e = v.
(** The context has not been declared stale. *)
Definition live_context (t : list row) (a : maddress) : Prop :=
  let '(c, _, _) := a in Forall (fun r => r M_STALE_CONTEXTS <> c + 1) t.

Definition live_memory_exported (t : list row) : Prop :=
  forall a v, leaves t a v -> v <> zero_value -> live_context t a -> exported t a v.

Definition exportedb (t : list row) (a : maddress) : bool := existsb (fun r => (r M_MEM_AFTER_FILTER =? 1) && address_eqb a (m_address r)) t.
Lemma not_exported : forall t a v, exportedb t a = false -> ~ exported t a v.
Proof.
  intros t a v H (r & Hr & F & A & _). unfold exportedb in H. assert (existsb (fun r => (r M_MEM_AFTER_FILTER =? 1) && address_eqb a (m_address r)) t = true); [|congruence].
  apply existsb_exists. exists r. split; [exact Hr|]. rewrite F, A. destruct (address_eqb_spec a a); [reflexivity|congruence].
Qed.

Lemma live_check : forall t c s v, forallb (fun r => negb (r M_STALE_CONTEXTS =? c + 1)) t = true -> live_context t (c, s, v).
Proof. intros t c s v H. rewrite forallb_forall in H. apply Forall_forall. intros r Hr. specialize (H r Hr). lia. Qed.

Ltac refute a v e :=
  split; [apply mem_okb_ok; vm_compute; reflexivity|]; split; [apply ctl_okb_ok; vm_compute; reflexivity|];
  intros H; refine (not_exported _ a v _ (H a v _ _ _));
  [vm_compute; reflexivity|exists [], e; split; [vm_compute; reflexivity|vm_compute; reflexivity]|discriminate|apply live_check; vm_compute; reflexivity].

(** False, first: values in a preinitialized segment (here trie data) can be
    dropped, because the column that is meant to force the export is zero. *)
Definition drop_trie_data : list (list Z) := with_cell 0 M_MEM_AFTER_FILTER 0 (honest [op_write 1 0 12 0 7; op_write 2 0 12 1 8]).
Theorem C27_trie_data_refuted : exists t, mem_table_ok t /\ ctl_ok t /\ ~ live_memory_exported t.
Proof.
  exists (map row_of drop_trie_data).
  refute (0, 12, 0) [7; 0; 0; 0; 0; 0; 0; 0] (event_of (row_of (nth 0 drop_trie_data []))).
Qed.
Print Assumptions C27_trie_data_refuted.

(** False, second: a value of any segment is dropped when the prover appends a
    dummy read of its address. *)
Definition drop_by_dummy : list (list Z) := honest [op_write 1 0 13 0 7; new_dummy_read 0 13 0 2 7; op_write 3 0 13 1 8].
Theorem C27_dummy_read_refuted : exists t, mem_table_ok t /\ ctl_ok t /\ ~ live_memory_exported t.
Proof.
  exists (map row_of drop_by_dummy).
  refute (0, 13, 0) [7; 0; 0; 0; 0; 0; 0; 0] (event_of (row_of (nth 0 drop_by_dummy []))).
Qed.
Print Assumptions C27_dummy_read_refuted.

(** False, third: a row of a live context can be marked stale if another row
    of the context is marked with minus one, because the lookup only counts. *)
Definition drop_by_stale : list (list Z) :=
  with_cell 7 M_IS_STALE (P - 1) (with_cell 0 M_MAYBE_IN_MEM_AFTER 0 (with_cell 0 M_IS_STALE 1 (with_cell 0 M_MEM_AFTER_FILTER 0
    (honest [op_write 1 0 13 0 7; op_write 2 0 13 1 8; op_write 3 0 14 0 8; op_write 4 0 14 1 8])))).
Theorem C27_stale_refuted : exists t, mem_table_ok t /\ ctl_ok t /\ ~ live_memory_exported t.
Proof.
  exists (map row_of drop_by_stale).
  refute (0, 13, 0) [7; 0; 0; 0; 0; 0; 0; 0] (event_of (row_of (nth 0 drop_by_stale []))).
Qed.
Print Assumptions C27_stale_refuted.

(** What does hold: if the last row of a non-zero address is a real operation
    not marked stale, and the next row is not in a preinitialized segment, the
    value is exported; and under the last condition only such rows are. *)
Theorem C27_exported_partial : forall t i r r',
  mem_table_ok t -> Z.of_nat (length t) <= 2^31 ->
  nth_error t i = Some r -> nth_error t (S i) = Some r' ->
  ~ preinitialized (m_address r') -> m_value r <> zero_value ->
  (r M_MEM_AFTER_FILTER = 1 <-> r M_FILTER = 1 /\ m_address r <> m_address r' /\ r M_IS_STALE = 0).
Proof.
  intros t i r r' OK LEN Hr Hr' NP NZ.
  assert (Hi : (S i < length t)%nat) by (apply nth_error_Some; congruence). assert (Hi' : (i < length t)%nat) by lia.
  assert (Er : r = mrow_at t i) by (unfold mrow_at; rewrite (nth_error_nth t i zero_row Hr); reflexivity).
  assert (Er' : r' = mrow_at t (S i)) by (unfold mrow_at; rewrite (nth_error_nth t (S i) zero_row Hr'); reflexivity).
  subst r r'. clear Hr Hr'. set (r := mrow_at t i) in *. set (r' := mrow_at t (S i)) in *.
  assert (FB := filter_bool t OK i Hi'). cbv beta in FB. fold r in FB.
  assert (CAN : forall c, canonical (r c)) by (intros c; apply (cell_canonical t OK)).
  (* the flags tell whether the address changes *)
  assert (CH : (cfc t i + sfc t i + vfc t i = 1 /\ m_address r <> m_address r') \/ (cfc t i + sfc t i + vfc t i = 0 /\ m_address r = m_address r')).
  { destruct (address_eqb_spec (m_address r) (m_address r')) as [E|N].
    - right. split; [|exact E]. destruct (block t OK LEN i (S i) ltac:(lia) Hi E i ltac:(lia)) as (A & B & C). lia.
    - left. split; [|exact N]. destruct (flags t OK i Hi') as [(A & B & C)|[(A & B & C)|[(A & B & C)|(A & B & C)]]]; rewrite A, B, C; try reflexivity. exfalso. apply N.
      unfold cfc, sfc, vfc in *. destruct (step t OK LEN i Hi) as [D _ _ _ _|_ D _ _ _ _|_ _ D _ _ _|_ _ _ D1 D2 D3 _ _]; try (rewrite D in *; discriminate).
      apply addr_eq. auto. }
  assert (PRE : r M_PREINITIALIZED_SEGMENTS mod P <> 0).
  { intros Z0. assert (NZ2 : (r' M_SEGMENT * (r' M_SEGMENT - 12) * ((r' M_SEGMENT - 34) * (r' M_SEGMENT - 35))) mod P <> 0).
    { apply (not_preinitialized t); [apply (cell_canonical t OK)|exact NP]. }
    apply NZ2. pose proof (pre_aux_eq t OK i Hi) as T1. pose proof (pre_eq t OK i Hi) as T2. cbv beta in T1, T2. fold r r' in T1, T2.
    apply Zmod_divide in T1; [|discriminate]. apply Zmod_divide in T2; [|discriminate]. apply Zmod_divide in Z0; [|discriminate].
    destruct T1 as [q1 T1], T2 as [q2 T2], Z0 as [q0 Z0]. apply Zdivide_mod.
    set (s := r' M_SEGMENT) in *. set (pa := r M_PREINITIALIZED_SEGMENTS_AUX) in *. set (p := r M_PREINITIALIZED_SEGMENTS) in *.
    exists (q0 - q2 - s * (s - 12) * q1).
    replace ((q0 - q2 - s * (s - 12) * q1) * P) with (q0 * P - q2 * P - s * (s - 12) * (q1 * P)) by ring. rewrite <- T1, <- T2, <- Z0. ring. }
  assert (EQ : r M_MEM_AFTER_FILTER = r M_MAYBE_IN_MEM_AFTER).
  { destruct (after_eq t OK i Hi') as [E|E|E]; cbv beta in E; fold r in E; [exact E|destruct (PRE E)|destruct (NZ E)]. }
  pose proof (maybe_eq t OK i Hi) as MB. cbv beta in MB. fold r in MB. fold (cfc t i) (sfc t i) (vfc t i) in MB. rewrite EQ.
  pose proof (CAN M_MAYBE_IN_MEM_AFTER) as C1. pose proof (CAN M_IS_STALE) as C2. unfold canonical in C1, C2.
  set (x := r M_MAYBE_IN_MEM_AFTER) in *. set (s := r M_IS_STALE) in *. clear EQ PRE NZ NP. clearbody x s.
  destruct FB as [F|F], CH as [[K D]|[K D]]; rewrite F in *.
  - assert (MB' : x mod P = 0) by (rewrite <- MB; f_equal; ring). clear MB. rename MB' into MB. apply small_zero in MB; [|clear -C1; lia]. split; [intros E; rewrite E in MB; discriminate MB|intros (E & _); discriminate E].
  - assert (MB' : x mod P = 0) by (rewrite <- MB; f_equal; ring). clear MB. rename MB' into MB. apply small_zero in MB; [|clear -C1; lia]. split; [intros E; rewrite E in MB; discriminate MB|intros (E & _); discriminate E].
  - assert (X : (x + (s - 1)) mod P = 0).
    { rewrite <- MB. f_equal. replace (1 - (1 - cfc t i - sfc t i - vfc t i)) with 1 by (clear -K; lia). ring. }
    split.
    + intros E. split; [reflexivity|]. split; [exact D|]. apply small_zero in X; clear -X C1 C2 E; unfold P in *; lia.
    + intros (_ & _ & E). apply small_zero in X; clear -X C1 C2 E; unfold P in *; lia.
  - assert (X : x mod P = 0).
    { rewrite <- MB. f_equal. replace (1 - (1 - cfc t i - sfc t i - vfc t i)) with 0 by (clear -K; lia). ring. }
    apply small_zero in X; [|clear -C1; lia]. split; [intros E; rewrite E in X; discriminate X|intros (_ & E & _); destruct (E D)].
Qed.
Print Assumptions C27_exported_partial.

Example C27_example : exists t r r', mem_table_ok t /\ nth_error t 0 = Some r /\ nth_error t 1 = Some r' /\ ~ preinitialized (m_address r') /\
  m_value r <> zero_value /\ r M_MEM_AFTER_FILTER = 1.
Proof.
  set (h := honest [op_write 1 0 13 0 7; op_write 2 0 13 1 8]).
  exists (map row_of h), (row_of (nth 0 h [])), (row_of (nth 1 h [])).
  split; [apply mem_okb_ok; vm_compute; reflexivity|]. split; [vm_compute; reflexivity|]. split; [vm_compute; reflexivity|].
  split; [intros H; vm_compute in H; intuition discriminate|]. split; [vm_compute; discriminate|vm_compute; reflexivity].
Qed.
