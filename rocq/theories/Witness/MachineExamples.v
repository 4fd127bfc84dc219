(** Concrete runs of the machine: the hypotheses of the theorems of
    MachineProps.v are met, and cannot be dropped. *)
From Coq Require Import ZArith List Bool Lia ZifyBool.
From Verif Require Import Stark.ArithModel Stark.LogicModel Witness.MemoryModel Witness.MachineModel Witness.MemoryProps Witness.MachineSpec
  Witness.MachineLemmas Witness.MachineLog Witness.MachineStep Witness.MachineRun Witness.MachineProps.
Import ListNotations.
Local Open Scope Z_scope.

(** * Deciding the hypotheses *)
Definition cell_okb (P : Z -> bool) (v : option Z) : bool := match v with Some x => P x | None => true end.
Definition cells_okb (P : nat -> Z -> bool) (m : mem_state) : bool :=
  forallb (fun c => forallb (fun p => forallb (cell_okb (P (fst p))) (snd p)) (combine (seq 0 (length c)) c)) (m_contexts m) &&
  forallb (fun p => forallb (cell_okb (P (Z.to_nat (fst p)))) (snd p)) (m_preinit m).
Lemma combine_nth : forall {A} (l : list A) n k x, nth_error l n = Some x -> In ((k + n)%nat, x) (combine (seq k (length l)) l).
Proof.
  induction l as [|y l IH]; intros n k x H; [destruct n; discriminate|]. cbn [length seq combine]. destruct n as [|n]; cbn [nth_error] in H.
  - left. replace (k + 0)%nat with k by lia. congruence.
  - right. replace (k + S n)%nat with (S k + n)%nat by lia. apply IH, H.
Qed.
Lemma preinit_get_in : forall l s c, preinit_get l s = Some c -> In (s, c) l.
Proof.
  induction l as [|[t d] l IH]; intros s c H; [discriminate|]. cbn [preinit_get] in H. destruct (Z.eqb_spec t s) as [->|]; [left; congruence|right; apply IH, H].
Qed.
Lemma cells_ok : forall P m a, cells_okb P m = true -> (forall i, P i 0 = true) -> valid_addr a -> P (Z.to_nat (a_segment a)) (contents m a) = true.
Proof.
  intros P m a H P0 (V1 & V2 & V3). apply andb_true_iff in H. destruct H as [H1 H2]. rewrite forallb_forall in H1, H2.
  unfold contents, mem_get_with_init, mem_get. destruct (nth_error (m_contexts m) (Z.to_nat (a_context a))) as [c|] eqn:E.
  - specialize (H1 c (nth_error_In _ _ E)). rewrite forallb_forall in H1. destruct (Z.leb_spec SEGMENT_COUNT (a_segment a)) as [L|L]; [apply P0|].
    assert (PRE : P (Z.to_nat (a_segment a)) match match preinit_get (m_preinit m) (a_segment a) with
           | Some content => if a_virt a <? Z.of_nat (length content) then Some match nth_error content (Z.to_nat (a_virt a)) with Some (Some v) => v | _ => 0 end else Some 0
           | None => Some 0 end with Some v => v | None => 0 end = true).
    { destruct (preinit_get (m_preinit m) (a_segment a)) as [p|] eqn:EP; [|apply P0]. destruct (_ <? _); [|apply P0].
      destruct (nth_error p (Z.to_nat (a_virt a))) as [[v|]|] eqn:EV; try apply P0. specialize (H2 _ (preinit_get_in _ _ _ EP)). rewrite forallb_forall in H2.
      exact (H2 _ (nth_error_In _ _ EV)). }
    destruct (nth_error c (Z.to_nat (a_segment a))) as [s|] eqn:ES; [|exact PRE].
    destruct (seg_get s (a_virt a)) as [v|] eqn:EV; [|exact PRE].
    specialize (H1 _ (combine_nth c _ 0 _ ES)). cbn [fst snd plus] in H1. rewrite forallb_forall in H1. unfold seg_get in EV.
    destruct (nth_error s (Z.to_nat (a_virt a))) as [w|] eqn:EW; [|discriminate]. subst w. exact (H1 _ (nth_error_In _ _ EW)).
  - destruct (Z.leb_spec SEGMENT_COUNT (a_segment a)) as [L|L]; [apply P0|].
    destruct (preinit_get (m_preinit m) (a_segment a)) as [p|] eqn:EP; [|apply P0]. destruct (_ <? _); [|apply P0].
    destruct (nth_error p (Z.to_nat (a_virt a))) as [[v|]|] eqn:EV; try apply P0. specialize (H2 _ (preinit_get_in _ _ _ EP)). rewrite forallb_forall in H2.
    exact (H2 _ (nth_error_In _ _ EV)).
Qed.
Definition wordb (x : Z) : bool := (0 <=? x) && (x <? 2^256).
Lemma words_ok : forall m, cells_okb (fun _ => wordb) m = true -> forall a, valid_addr a -> word (contents m a).
Proof. intros m H a V. pose proof (cells_ok _ m a H (fun _ => eq_refl) V) as W. cbv beta in W. unfold wordb in W. unfold word. lia. Qed.
Definition bytesb (m : mem_state) : bool := cells_okb (fun i x => match i with 0%nat => x <? 256 | _ => true end) m.
Lemma bytes_ok : forall m, bytesb m = true -> forall a, valid_addr a -> a_segment a = SEG_CODE -> contents m a < 256.
Proof.
  intros m H a V S. pose proof (cells_ok _ m a H) as W. cbv beta in W. specialize (W ltac:(intros []; reflexivity) V). rewrite S in W. cbn in W. lia.
Qed.
Definition mem_wfb (m : mem_state) : bool := forallb (fun c => (length c =? 39)%nat) (m_contexts m) && (1 <=? length (m_contexts m))%nat.
Lemma mem_wf_ok : forall m, mem_wfb m = true -> mem_wf m.
Proof. intros m H. unfold mem_wfb in H. apply andb_true_iff in H. destruct H as [H1 H2]. split; [|lia]. rewrite forallb_forall in H1. apply Forall_forall. intros c I. specialize (H1 c I). lia. Qed.

Section Decide.
  Context {O : Type}.
  Notation gstate := (gstate O).
  Definition wfb (g : gstate) : bool :=
    let r := g_regs g in
    (0 <=? program_counter r) && (0 <=? stack_len r) && (0 <=? context r) && (0 <=? gas_used r) && wordb (stack_top r) && mem_wfb (g_mem g) &&
    cells_okb (fun _ => wordb) (g_mem g) &&
    (negb (is_stack_top_read r) || ((0 <? stack_len r) && (contents (g_mem g) (stack_addr r 0) =? stack_top r))).
  Lemma wf_ok : forall g, wfb g = true -> wf g.
  Proof.
    intros g H. unfold wfb in H. rewrite !andb_true_iff in H. destruct H as (((((((A1 & A2) & A3) & A4) & A5) & A6) & A7) & A8). unfold wordb in A5.
    constructor; try lia; try (unfold word; lia).
    - apply mem_wf_ok, A6.
    - apply words_ok, A7.
  Qed.
  Definition boundedb (g : gstate) : bool :=
    let r := g_regs g in (program_counter r <? 2^64) && (stack_len r <? 2^64) && (context r <? 2^64) && bytesb (g_mem g).
  Lemma bounded_ok : forall g, boundedb g = true -> bounded g.
  Proof.
    intros g H. unfold boundedb in H. rewrite !andb_true_iff in H. destruct H as (((A1 & A2) & A3) & A4). constructor; try lia. apply bytes_ok, A4.
  Qed.
  Variable prover_input : registers -> mem_state -> O -> option (perror + Z * mem_state * O).
  (** Sufficient for [clean] when the instruction is not PROVER_INPUT. *)
  Definition absent (a : maddr) (l : list maddr) : bool := negb (existsb (maddr_eqb a) l).
  Definition cleanb (g : gstate) : bool :=
    let r := g_regs g in let c := opcode g in
    if negb (boundedb g) then false
    else if negb (is_kernel r) then true
    else if (c =? 33) || (c =? 248) then
       match new_bundle (stack_top r) with
       | Some a => forallb (fun x => contents (g_mem g) x <? 256) (cells a (Z.to_nat (contents (g_mem g) (stack_addr r 1))))
       | None => true
       end
    else if c =? 252 then
       match new_bundle (contents (g_mem g) (stack_addr r 1)) with
       | Some a => (stack_len r <=? 2) || negb (maddr_eqb a (stack_addr r 2))
       | None => true
       end
    else if (192 <=? c) && (c <=? 223) then
       match new_bundle (stack_top r) with
       | Some a => absent (stack_addr r 0) (cells a (Z.to_nat (c - 191))) && absent (stack_addr r 1) (cells a (Z.to_nat (c - 191)))
       | None => true
       end
    else true.
  Lemma absent_ok : forall a l, absent a l = true -> ~ In a l.
  Proof.
    intros a l H I. unfold absent in H. apply negb_true_iff in H. assert (X : existsb (maddr_eqb a) l = true); [|congruence].
    apply existsb_exists. exists a. split; [exact I|]. destruct (maddr_eqb_spec a a); congruence.
  Qed.
  Lemma clean_ok : forall g, cleanb g = true ->
    (is_kernel (g_regs g) = true -> opcode g = 238 -> forall r v m' o', prover_input r (g_mem g) (g_oracle g) = Some (inr (v, m', o')) ->
      word v /\ mem_wf m' /\ (forall a, valid_addr a -> word (contents m' a)) /\ unlogged g m') -> clean prover_input g.
  Proof.
    intros g H PI. unfold cleanb in H. destruct (negb (boundedb g)) eqn:B; [discriminate H|]. apply negb_false_iff in B.
    constructor; [apply bounded_ok, B|..]; try exact PI; intros K; rewrite K in H; cbn [negb] in H.
    - intros C a E. assert ((opcode g =? 33) || (opcode g =? 248) = true) as X by lia. rewrite X, E in H.
      unfold bytes_at. rewrite forallb_forall in H. apply Forall_forall. intros x I. specialize (H x I). lia.
    - intros C a E L. rewrite E, C in H. cbn [Z.eqb Pos.eqb orb] in H. apply orb_true_iff in H. destruct H as [H|H]; [lia|].
      destruct (maddr_eqb_spec a (stack_addr (g_regs g) 2)); [discriminate|assumption].
    - intros C a E. assert ((opcode g =? 33) || (opcode g =? 248) = (opcode g =? 252) && (opcode g =? 248)) as X by lia. rewrite X, E in H.
      assert (opcode g =? 252 = false) as X1 by lia. assert ((192 <=? opcode g) && (opcode g <=? 223) = true) as X2 by lia. rewrite X1, X2 in H. cbn [andb] in H.
      apply andb_true_iff in H. destruct H as [A3 A4]. split; apply absent_ok; assumption.
  Qed.
End Decide.

(** * A segment
    Kernel code that pushes, adds, asks for a prover input, stores and loads a
    word, stores, loads and hashes bytes, goes to user mode and runs out of
    gas; the handler is interrupted by the cycle limit. *)
Definition ex_code : list Z :=
  [96; 5; 96; 7; 1; 238; 100; 13; 0; 0; 0; 3; 129; 252; 100; 13; 0; 0; 0; 3; 251;
   97; 1; 2; 100; 13; 0; 0; 0; 16; 193; 96; 2; 100; 13; 0; 0; 0; 16; 248; 96; 2; 100; 13; 0; 0; 0; 16; 33; 96; 80; 249] ++
  repeat 0 28 ++ [96; 1] ++ repeat 0 18 ++ repeat 91 10 ++ [91; 91] ++ repeat 0 8 ++
  [0; 0; 100; 0; 0; 0; 0; 0; 0; 0; 0; 0; 0; 0; 0; 0; 0; 0; 0; 0; 110].
Definition ex_keccakf (l : list Z) : list Z := l.
Definition ex_keccak (l : list Z) : Z := 1234 + from_big_endian l mod 100.
Definition ex_prover_input (r : registers) (m : mem_state) (o : unit) : option (perror + Z * mem_state * unit) :=
  match insert_preinitialized_segment m 12 [Some 5; None; Some 6] with Some m => Some (inr (9, m, tt)) | None => None end.
Definition ex_observe (d : Z) (r : registers) (m : mem_state) (o : unit) : option (perror + unit) := Some (inr tt).
Definition ex_base : mem_state := mem_new ex_code.
Definition ex_writes : list mop := [mk_mop 2 (mk_maddr 0 6 3) MWrite 77; mk_mop 2 (mk_maddr 0 6 4) MWrite 78].
Definition ex_mem : mem_state := match apply_ops ex_base ex_writes with Some m => m | None => ex_base end.
Definition ex_start : gstate unit := mk_g (mk_regs 0 true 0 0 false false 0 0) ex_mem (mk_traces [] [] 0 [] ex_writes []) [] tt.
Notation ex_transition := (transition unit ex_keccakf 200 120 1000 true ex_keccak ex_prover_input ex_observe).
Notation ex_run fuel := (run_cpu unit ex_keccakf 200 120 1000 true ex_keccak ex_prover_input ex_observe 99 111 fuel (Some 24%nat) None ex_start).
Lemma ex_input_clean : forall g : gstate unit, mem_wfb (g_mem g) && cells_okb (fun _ => wordb) (g_mem g) &&
  forallb (fun o => negb (a_segment (mo_address o) =? 12)) (log g ++ code_log g ++ top_log g) = true ->
  forall r v m' o', ex_prover_input r (g_mem g) (g_oracle g) = Some (inr (v, m', o')) ->
  word v /\ mem_wf m' /\ cells_okb (fun _ => wordb) m' = true /\ unlogged g m'.
Proof.
  intros g H r v m' o' E. rewrite !andb_true_iff in H. destruct H as ((H1 & H2) & H4). unfold ex_prover_input, insert_preinitialized_segment in E.
  change (existsb (Z.eqb 12) PREINIT_INDICES) with true in E. cbv iota in E.
  assert (v = 9) as -> by congruence. assert (m' = mk_mem (m_contexts (g_mem g)) (preinit_insert (m_preinit (g_mem g)) 12 [Some 5; None; Some 6])) as -> by congruence.
  split; [unfold word; lia|]. split; [apply mem_wf_ok in H1; exact H1|]. split.
  - unfold cells_okb in *. rewrite andb_true_iff in H2. apply andb_true_iff. split; [apply H2|]. destruct H2 as [_ H2]. cbn [m_preinit].
    clear -H2. induction (m_preinit (g_mem g)) as [|[t d] l IH]; [vm_compute; reflexivity|]. cbn [preinit_insert forallb] in *. apply andb_true_iff in H2. destruct H2 as [A B].
    destruct (t =? 12); cbn [forallb]; apply andb_true_iff; (split; [|auto]); [vm_compute; reflexivity|exact A].
  - intros a V N. assert (S : a_segment a = 12).
    { destruct (Z.eq_dec (a_segment a) 12) as [E1|N1]; [exact E1|]. exfalso. apply N. unfold contents, mem_get_with_init, mem_get. cbn [m_contexts m_preinit].
      assert (PG : preinit_get (preinit_insert (m_preinit (g_mem g)) 12 [Some 5; None; Some 6]) (a_segment a) = preinit_get (m_preinit (g_mem g)) (a_segment a)).
      { clear -N1. induction (m_preinit (g_mem g)) as [|[t d] l IH]; cbn [preinit_insert preinit_get].
        - destruct (Z.eqb_spec 12 (a_segment a)); [lia|reflexivity].
        - destruct (Z.eqb_spec t 12) as [->|]; cbn [preinit_get]; [destruct (Z.eqb_spec 12 (a_segment a)); [lia|reflexivity]|]. rewrite IH. reflexivity. }
      rewrite PG. reflexivity. }
    split; [unfold preinit_segment; rewrite S; cbn; tauto|]. intros (o & I & Eo). rewrite forallb_forall in H4. specialize (H4 o I). rewrite Eo, S in H4. discriminate.
Qed.
Definition ex_cleanb (g : gstate unit) : bool :=
  cleanb g && (negb (opcode g =? 238) ||
    (mem_wfb (g_mem g) && cells_okb (fun _ => wordb) (g_mem g) &&
     forallb (fun o => negb (a_segment (mo_address o) =? 12)) (log g ++ code_log g ++ top_log g))).
Lemma ex_clean_ok : forall g, ex_cleanb g = true -> clean ex_prover_input g.
Proof.
  intros g H. unfold ex_cleanb in H. apply andb_true_iff in H. destruct H as [H1 H2]. apply clean_ok; [exact H1|]. intros K E r v m' o' P.
  rewrite E in H2. cbn [Z.eqb Pos.eqb negb orb] in H2. destruct (ex_input_clean g H2 r v m' o' P) as (A & B & C & D). split; [exact A|]. split; [exact B|]. split; [apply words_ok, C|exact D].
Qed.

(** The run meets all the hypotheses of [C62_run_cpu]: 26 cycles and 64
    operations on the memory. *)
Example C62_example : exists g',
  ex_run 40 = Ok (Some (Some (mk_regs 103 true 7 80 false false 0 3))) g' /\ clock g' = 26%nat /\ length (log g') = 64%nat /\
  (forall l, word (ex_keccak l)) /\ wf ex_start /\ initial_writes (log ex_start) /\
  (forall a, valid_addr a -> contents (g_mem ex_start) a = after (contents ex_base) (log ex_start) a) /\
  Forall (clean ex_prover_input) (visits ex_keccakf 200 120 1000 true ex_keccak ex_prover_input ex_observe 99 111 40 (Some 24%nat) None ex_start) /\
  (forall g1 o, ex_transition ex_start = Ok tt g1 -> In o (log g1) -> mo_timestamp o = 1 -> ~ touched (log ex_start) (mo_address o)) /\
  exists init, (forall a, ~ preinit_segment a -> init a = contents ex_base a) /\ consistent init g'.
Proof.
  assert (X : exists g', ex_run 40 = Ok (Some (Some (mk_regs 103 true 7 80 false false 0 3))) g' /\ clock g' = 26%nat /\ length (log g') = 64%nat).
  { eexists. split; [vm_compute; reflexivity|]. split; vm_compute; reflexivity. }
  destruct X as (g' & R & C & L). exists g'.
  assert (KW : forall l, word (ex_keccak l)).
  { intros l. unfold ex_keccak, word. pose proof (Z.mod_pos_bound (from_big_endian l) 100). lia. }
  assert (W : wf ex_start) by (apply wf_ok; vm_compute; reflexivity).
  assert (IW : initial_writes (log ex_start)).
  { unfold initial_writes. repeat (apply Forall_cons; [split; [reflexivity|split; [reflexivity|unfold valid_addr; cbn; lia]]|]). apply Forall_nil. }
  assert (E : forall a, valid_addr a -> contents (g_mem ex_start) a = after (contents ex_base) (log ex_start) a).
  { assert (MW : mem_wf ex_base) by (apply mem_wf_ok; vm_compute; reflexivity).
    destruct (apply_ops_after ex_writes ex_base MW) as (m' & EA & _ & _ & CT).
    - repeat (apply Forall_cons; [unfold valid_addr; cbn; lia|]). apply Forall_nil.
    - intros a V. change (g_mem ex_start) with ex_mem. unfold ex_mem. rewrite EA. apply CT, V. }
  assert (V : Forall (clean ex_prover_input) (visits ex_keccakf 200 120 1000 true ex_keccak ex_prover_input ex_observe 99 111 40 (Some 24%nat) None ex_start)).
  { assert (F : forallb ex_cleanb (visits ex_keccakf 200 120 1000 true ex_keccak ex_prover_input ex_observe 99 111 40 (Some 24%nat) None ex_start) = true) by (vm_compute; reflexivity).
    rewrite forallb_forall in F. apply Forall_forall. intros g I. apply ex_clean_ok, F, I. }
  assert (D : forall g1 o, ex_transition ex_start = Ok tt g1 -> In o (log g1) -> mo_timestamp o = 1 -> ~ touched (log ex_start) (mo_address o)).
  { intros g1 o T I TS (w & Iw & Ew).
    assert (F : forallb (fun o => negb (mo_timestamp o =? 1) || (a_segment (mo_address o) =? 0)) (match ex_transition ex_start with Ok _ g => log g | _ => [] end) = true) by (vm_compute; reflexivity).
    rewrite T, forallb_forall in F. specialize (F o I). rewrite TS in F. cbn [Z.eqb Pos.eqb negb orb] in F.
    assert (SW : forallb (fun o => a_segment (mo_address o) =? 6) (log ex_start) = true) by reflexivity. rewrite forallb_forall in SW. specialize (SW w Iw). rewrite Ew in SW. lia. }
  repeat (split; [assumption|]).
  pose proof (C62_run_cpu ex_keccakf 200 120 1000 true ex_keccak ex_prover_input ex_observe 99 111 KW ltac:(lia) ltac:(lia) (contents ex_base) ex_start 39 (Some 24%nat)) as T.
  specialize (T (Some (Some (mk_regs 103 true 7 80 false false 0 3))) g' W eq_refl IW E).
  specialize (T ltac:(vm_compute; reflexivity) ltac:(vm_compute; reflexivity)).
  specialize (T R).
  specialize (T V).
  exact (T D).
Qed.

(** * The conditions are needed *)
(** MSTORE_32BYTES over its second operand: the log says that the operand is
    read after the bytes have been written. *)
Definition bad_start (code : list Z) (stack : list Z) (top : Z) : gstate unit :=
  mk_g (mk_regs 0 true (Z.of_nat (length stack) + 1) top false false 0 0)
    (mk_mem [update_at 1 (map Some stack) (update_at 0 (map Some code) context_default)] []) (mk_traces [] [] 0 [] [] []) [] tt.
Lemma consistent_start : forall g : gstate unit, clock g = 0%nat -> log g = [] -> consistent (contents (g_mem g)) g.
Proof. intros g C L. unfold consistent. rewrite C, L. cbn. split; [constructor|]. split; [constructor|]. split; [exact I|]. reflexivity. Qed.
Theorem C62_store_over_operand_refuted : exists g g', wf g /\ bounded g /\ consistent (contents (g_mem g)) g /\ ex_transition g = Ok tt g' /\ forall init, ~ consistent init g'.
Proof.
  set (g := bad_start [192] [5; 300] (2^32 + 1)).
  assert (X : exists g', ex_transition g = Ok tt g' /\ clock g' = 1%nat /\ by_time 6 (log g') =
    [mk_mop 1 (mk_maddr 0 0 0) MRead 192; mk_mop 1 (mk_maddr 0 1 1) MWrite 44; mk_mop 3 (mk_maddr 0 1 1) MRead 300]).
  { eexists. split; [vm_compute; reflexivity|]. split; vm_compute; reflexivity. }
  destruct X as (g' & T & C & B). exists g, g'. split; [apply wf_ok; vm_compute; reflexivity|]. split; [apply bounded_ok; vm_compute; reflexivity|].
  split; [apply consistent_start; reflexivity|]. split; [exact T|]. intros init (_ & _ & R & _). rewrite C in R. change (5 * 1 + 1)%nat with 6%nat in R. rewrite B in R.
  cbn [reads_ok mo_kind mo_value mo_address] in R. destruct R as (_ & R & _). rewrite upd_same in R. discriminate.
Qed.
Print Assumptions C62_store_over_operand_refuted.
(** MSTORE_GENERAL to the cell of the value that becomes the top of the stack:
    the machine goes on with the old value and logs it as read in the next
    cycle. *)
Theorem C62_store_over_top_refuted : exists g g1 g', wf g /\ bounded g /\ consistent (contents (g_mem g)) g /\
  ex_transition g = Ok tt g1 /\ ex_transition g1 = Ok tt g' /\ forall init, ~ consistent init g'.
Proof.
  set (g := bad_start [252; 91] [5; 2^32] 300).
  assert (X : exists g1 g', ex_transition g = Ok tt g1 /\ ex_transition g1 = Ok tt g' /\ clock g' = 2%nat /\ by_time 11 (log g') =
    [mk_mop 1 (mk_maddr 0 0 0) MRead 252; mk_mop 3 (mk_maddr 0 1 1) MRead (2^32); mk_mop 5 (mk_maddr 0 1 0) MWrite 300;
     mk_mop 6 (mk_maddr 0 0 1) MRead 91; mk_mop 7 (mk_maddr 0 1 0) MRead 5]).
  { eexists. eexists. split; [vm_compute; reflexivity|]. split; [vm_compute; reflexivity|]. split; vm_compute; reflexivity. }
  destruct X as (g1 & g' & T1 & T & C & B). exists g, g1, g'. split; [apply wf_ok; vm_compute; reflexivity|]. split; [apply bounded_ok; vm_compute; reflexivity|].
  split; [apply consistent_start; reflexivity|]. split; [exact T1|]. split; [exact T|]. intros init (_ & _ & R & _). rewrite C in R. change (5 * 2 + 1)%nat with 11%nat in R. rewrite B in R.
  cbn [reads_ok mo_kind mo_value mo_address] in R. destruct R as (_ & _ & _ & R & _). rewrite upd_same in R. discriminate.
Qed.
Print Assumptions C62_store_over_top_refuted.
