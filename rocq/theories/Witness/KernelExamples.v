(** Runs of user and kernel code that meet the hypotheses of EvmProps.v and
    KernelProps.v, and the jumps of a user that do more than jump. *)
From Coq Require Import ZArith List Bool Lia ZifyBool.
From Verif Require Import Stark.ArithModel Stark.LogicModel Witness.MemoryModel Witness.MachineModel Witness.MemoryProps Witness.MachineSpec
  Witness.MachineLemmas Witness.MachineLog Witness.MachineStep Witness.MachineRun Witness.EvmSpec Witness.MachineSem Witness.MachineView Witness.MachineControl
  Witness.EvmProps Witness.KernelProps Witness.ObserveModel Witness.MachineExamples.
Import ListNotations.
Local Open Scope Z_scope.

(** * The observations *)
Section Observations.
  Variable keccak : list Z -> Z.
  Variable address_bytes : Z -> list Z.
  Variables observe_new_address observe_new_contract : Z.
  Notation observe_at := (observe_at keccak address_bytes observe_new_address observe_new_contract).

  (** Only the label observe_new_contract can raise an error. *)
  Theorem C65_quiet : forall d, d <> observe_new_contract -> quiet observe_at d.
  Proof.
    intros d N r m o. unfold ObserveModel.observe_at. destruct (d =? observe_new_address); [eexists; reflexivity|]. destruct (Z.eqb_spec d observe_new_contract); [contradiction|]. eexists; reflexivity.
  Qed.
  (** The codes known to the prover hash to their keys. *)
  Definition codes_ok (o : observed) : Prop := forall h c, In (h, c) (o_code o) -> keccak c = h.
  (** The kernel observes a contract with its code as return data; then the
      codes stay right. *)
  Theorem C65_observe_contract : forall dst r m o o', codes_ok o ->
    (dst = observe_new_contract -> forall c content, nth_error (m_contexts m) (Z.to_nat (context r)) = Some c -> nth_error c (Z.to_nat SEG_RETURNDATA) = Some content ->
      keccak (map (fun x => match x with Some v => v mod 256 | None => 0 end) (firstn (Z.to_nat (mread m (mk_maddr (context r) SEG_CONTEXT_METADATA CTX_RETURNDATA_SIZE))) content)) = stack_top r) ->
    observe_at dst r m o = Some (inr o') -> codes_ok o'.
  Proof.
    intros dst r m o o' OK H E h c I. unfold ObserveModel.observe_at in E. destruct (dst =? observe_new_address).
    - assert (o' = observe_address keccak address_bytes (stack_top r) o) as -> by congruence. apply OK, I.
    - destruct (Z.eqb_spec dst observe_new_contract) as [->|]; [|assert (o' = o) as -> by congruence; apply OK, I].
      unfold observe_contract in E. destruct (existsb _ _); [assert (o' = o) as -> by congruence; apply OK, I|].
      destruct (2^64 <=? _); [discriminate E|]. destruct (nth_error (m_contexts m) _) as [c0|]; [|discriminate E]. destruct (nth_error c0 _) as [content|] eqn:EC; [|discriminate E].
      destruct (_ <? _); [discriminate E|]. specialize (H eq_refl c0 content eq_refl EC).
      assert (o' = mk_observed (o_addresses o) ((stack_top r, map (fun x => match x with Some v => v mod 256 | None => 0 end) (firstn (Z.to_nat (mread m (mk_maddr (context r) SEG_CONTEXT_METADATA CTX_RETURNDATA_SIZE))) content)) :: o_code o)) as -> by congruence.
      cbn [o_code In] in I. destruct I as [I|I]; [|apply OK, I]. congruence.
  Qed.
End Observations.
Print Assumptions C65_quiet.
Print Assumptions C65_observe_contract.

(** * A program of the user
    A loop that counts down from 3 and then stops. *)
Definition us_kernel : list Z := [249] ++ repeat 0 19 ++ [0; 0; 50; 0; 0; 60; 0; 0; 70; 0; 0; 80; 0; 0; 90; 0; 0; 100; 0; 0; 110; 0; 1; 44].
Definition us_code : list Z := [96; 3; 91; 96; 1; 144; 3; 128; 96; 2; 87; 0].
Definition us_writes (code : list Z) : list mop :=
  map (fun p => mk_mop 2 (mk_maddr 1 0 (Z.of_nat (fst p))) MWrite (snd p)) (combine (seq 0 (length code)) code) ++
  [mk_mop 2 (mk_maddr 1 SEG_JUMPDEST_BITS 2) MWrite 1; mk_mop 2 (mk_maddr 1 6 12) MWrite 200].
Definition us_mem (code : list Z) : mem_state := match apply_ops (mem_new us_kernel) (us_writes code) with Some m => m | None => mem_new [] end.
Definition us_oracle : observed := mk_observed [] [].
Definition us_start : gstate observed := mk_g (mk_regs 0 false 0 0 false false 1 7) (us_mem us_code) (mk_traces [] [] 0 [] [] []) [] us_oracle.
Definition us_input (r : registers) (m : mem_state) (o : observed) : option (perror + Z * mem_state * observed) := None.
Definition us_observe := observe_at ex_keccak (fun a => [a]) 3000 4000.
Definition us_special (d : Z) : bool := d =? 4000.
Notation us_transition := (transition observed ex_keccakf 41 20 1000 true ex_keccak us_input us_observe).
Lemma us_keccak_word : forall l, word (ex_keccak l).
Proof. intros l. unfold ex_keccak, word. pose proof (Z.mod_pos_bound (from_big_endian l) 100). lia. Qed.

Example C67_example : wf us_start /\ bounded us_start /\ (forall d, us_special d = false -> quiet us_observe d) /\
  run_of 1000 true (S (Z.to_nat (200 - 7))) us_start = Some (23%nat, (true, 0, 12), 88, [0]) /\
  avoiding 1000 true us_special (S (Z.to_nat (200 - 7))) us_start /\
  reaches (steps ex_keccakf 41 20 1000 true ex_keccak us_input us_observe 23 us_start) 23
    (mk_view 300 true 1 0 [info 12 false 88; 0] (contents (us_mem us_code))) (stack_cell 1).
Proof.
  assert (W : wf us_start) by (apply wf_ok; vm_compute; reflexivity).
  assert (B : bounded us_start) by (apply bounded_ok; vm_compute; reflexivity).
  assert (Q : forall d, us_special d = false -> quiet us_observe d) by (intros d E; apply C65_quiet; unfold us_special in E; lia).
  split; [exact W|]. split; [exact B|]. split; [exact Q|].
  assert (R : run_of 1000 true (S (Z.to_nat (200 - 7))) us_start = Some (23%nat, (true, 0, 12), 88, [0])) by (vm_compute; reflexivity).
  split; [exact R|].
  assert (A : avoiding 1000 true us_special (S (Z.to_nat (200 - 7))) us_start).
  { vm_compute. repeat split. }
  split; [exact A|].
  pose proof (C67_user_run ex_keccakf 41 20 1000 true ex_keccak us_input us_observe us_keccak_word ltac:(lia) ltac:(lia) ltac:(lia) ltac:(lia) us_special Q us_start W B eq_refl) as U.
  cbv zeta in U. change (limit_of us_start (context (g_regs us_start))) with 200 in U. change (gas_used (g_regs us_start)) with 7 in U.
  destruct U as (n & b & i & r & gas & s & R' & _ & RE); [lia|vm_compute; discriminate|cbn; lia|exact A|].
  rewrite R in R'. assert (n = 23%nat /\ b = true /\ i = 0 /\ r = 12 /\ gas = 88 /\ s = [0]) as (-> & -> & -> & -> & -> & ->) by (repeat split; congruence).
  replace (arrival 41 20 us_start true 0 12 88 [0]) with (mk_view 300 true 1 0 [info 12 false 88; 0] (contents (us_mem us_code))) in RE; [exact RE|].
  assert (T : table_entry (fun k => contents (g_mem us_start) (mk_maddr 0 SEG_CODE k)) 41 0 = 300) by (vm_compute; reflexivity).
  unfold arrival. cbv iota. rewrite T. cbn [us_start g_mem g_regs context]. reflexivity.
Qed.

(** * The exceptions of the user
    The same code with another stack, gas or byte. *)
Definition us_state (code : list Z) (pc : Z) (s : list Z) (gas : Z) : gstate observed :=
  let n := Z.of_nat (length s) in
  let m := match apply_ops (us_mem code) (map (fun p => mk_mop 2 (mk_maddr 1 1 (n - 1 - Z.of_nat (fst p))) MWrite (snd p)) (combine (seq 0 (length s)) s)) with Some m => m | None => us_mem code end in
  mk_g (mk_regs pc false n (hd 0 s) false false 1 gas) m (mk_traces [] [] 0 [] [] []) [] us_oracle.
Notation us_raised g code := (raised ex_keccakf 41 20 1000 true ex_keccak us_input us_observe g code).
(** Fewer operands than needed, a stack of 1024 elements, too little gas, an
    opcode of the kernel. *)
Example C63_example :
  let under := us_state [1] 0 [5] 0 in let over := us_state [88] 0 (repeat 9 1024) 0 in let poor := us_state [1] 0 [5; 6] 198 in let bad := us_state [249] 0 [5; 6] 0 in
  let fine := us_state [1] 0 [5; 6] 197 in
  us_raised under 2 /\ us_raised over 5 /\ us_raised poor 0 /\ us_raised bad 1 /\
  reaches (us_transition fine) 1 (mk_view 1 false 1 200 [11] (contents (g_mem fine))) (stack_cell 1).
Proof.
  cbv zeta.
  assert (Q : forall d, us_special d = false -> quiet us_observe d) by (intros d E; apply C65_quiet; unfold us_special in E; lia).
  assert (U : forall g, wfb g = true -> boundedb g = true -> is_kernel (g_regs g) = false -> program_counter (g_regs g) = 0 -> gas_used (g_regs g) <= 198 -> limit_of g (context (g_regs g)) = 200 ->
    (length (stack g) <=? 1024)%nat = true -> target (code_of g) (program_counter (g_regs g)) (stack g) = None ->
    follows ex_keccakf 41 20 1000 true ex_keccak us_input us_observe g (user_step true (code_of g) (dest_of 1000 g) (context (g_regs g)) (limit_of g (context (g_regs g))) (program_counter (g_regs g)) (gas_used (g_regs g)) (stack g))).
  { intros g W B K P G L S T. apply (C67_user_step ex_keccakf 41 20 1000 true ex_keccak us_input us_observe us_keccak_word ltac:(lia) ltac:(lia) ltac:(lia) ltac:(lia) us_special Q g);
      [apply wf_ok, W|apply bounded_ok, B|exact K|lia|lia|lia|lia|intros d X; congruence]. }
  split; [|split; [|split; [|split]]].
  - refine (U (us_state [1] 0 [5] 0) _ _ _ _ _ _ _ _); vm_compute; (reflexivity || discriminate).
  - assert (X := U (us_state [88] 0 (repeat 9 1024) 0) ltac:(vm_compute; reflexivity) ltac:(vm_compute; reflexivity) eq_refl eq_refl ltac:(vm_compute; discriminate) ltac:(vm_compute; reflexivity) ltac:(vm_compute; reflexivity) ltac:(vm_compute; reflexivity)).
    assert (R : user_step true (code_of (us_state [88] 0 (repeat 9 1024) 0)) (dest_of 1000 (us_state [88] 0 (repeat 9 1024) 0)) (context (g_regs (us_state [88] 0 (repeat 9 1024) 0))) (limit_of (us_state [88] 0 (repeat 9 1024) 0) (context (g_regs (us_state [88] 0 (repeat 9 1024) 0))))
      (program_counter (g_regs (us_state [88] 0 (repeat 9 1024) 0))) (gas_used (g_regs (us_state [88] 0 (repeat 9 1024) 0))) (stack (us_state [88] 0 (repeat 9 1024) 0)) = Enter false 5 0) by (vm_compute; reflexivity).
    rewrite R in X. exact X.
  - refine (U (us_state [1] 0 [5; 6] 198) _ _ _ _ _ _ _ _); vm_compute; (reflexivity || discriminate).
  - refine (U (us_state [249] 0 [5; 6] 0) _ _ _ _ _ _ _ _); vm_compute; (reflexivity || discriminate).
  - refine (U (us_state [1] 0 [5; 6] 197) _ _ _ _ _ _ _ _); vm_compute; (reflexivity || discriminate).
Qed.

(** * Instructions of the kernel *)
Definition ke_writes : list mop := [mk_mop 2 (mk_maddr 0 13 7) MWrite 77; mk_mop 2 (mk_maddr 0 13 8) MWrite 1; mk_mop 2 (mk_maddr 2 6 11) MWrite 2;
  mk_mop 2 (mk_maddr 2 1 0) MWrite 55; mk_mop 2 (mk_maddr 2 1 1) MWrite 66].
Definition ke_state (c : Z) (s : list Z) : gstate observed :=
  let n := Z.of_nat (length s) in
  let m := match apply_ops (mem_new ([c] ++ repeat 0 19 ++ skipn 20 us_kernel))
     (ke_writes ++ map (fun p => mk_mop 2 (mk_maddr 0 1 (n - 1 - Z.of_nat (fst p))) MWrite (snd p)) (combine (seq 0 (length s)) s)) with Some m => m | None => mem_new [] end in
  mk_g (mk_regs 0 true n (hd 0 s) false false 0 0) m (mk_traces [] [] 0 [] [] []) [] us_oracle.
Notation ke_shown g ctx s f := (shown ex_keccakf 41 20 1000 true ex_keccak us_input us_observe g ctx s f).
Lemma ke_sound : forall g : gstate observed, wfb g && boundedb g && (gas_used (g_regs g) <? 2^32) = true -> sound g.
Proof. intros g H. rewrite !andb_true_iff in H. destruct H as ((H1 & H2) & H3). constructor; [apply wf_ok, H1|apply bounded_ok, H2|lia]. Qed.
Definition ke_at (v : Z) : Z := 13 * 2^32 + v.

Ltac at_state T c s :=
  let A1 := fresh in let A2 := fresh in let A3 := fresh in
  assert (A1 : sound (ke_state c s)) by (apply ke_sound; vm_compute; reflexivity);
  assert (A2 : is_kernel (g_regs (ke_state c s)) = true) by (vm_compute; reflexivity);
  assert (A3 : opcode (ke_state c s) = c) by (vm_compute; reflexivity);
  assert (X := T observed ex_keccakf 41 20 1000 true ex_keccak us_input us_observe us_keccak_word ltac:(lia) ltac:(lia) (ke_state c s) A1 A2 A3);
  clear A1 A2 A3;
  replace (stack (ke_state c s)) with s in X by (vm_compute; reflexivity); cbv beta iota in X.
Lemma ke_bytes : forall m a n, forallb (fun x => mread m x <? 256) (cells a n) = true -> bytes_at m a n.
Proof. intros m a n H. apply Forall_forall. intros x X. rewrite forallb_forall in H. specialize (H x X). apply Z.ltb_lt in H. exact H. Qed.
Example C66_example :
  let load := ke_state 251 [ke_at 7; 3] in let store := ke_state 252 [5; ke_at 9; 3] in let load32 := ke_state 248 [ke_at 7; 2; 3] in let store32 := ke_state 194 [ke_at 9; 258; 3] in
  let hash := ke_state 33 [ke_at 7; 2; 3] in let switch := ke_state 247 [2 * 2^64; 3] in
  ke_shown load 0 [77; 3] (contents (g_mem load)) /\
  ke_shown store 0 [3] (upd (contents (g_mem store)) (mk_maddr 0 13 9) 5) /\
  ke_shown load32 0 [77 * 256 + 1; 3] (contents (g_mem load32)) /\
  ke_shown store32 0 [ke_at 12; 3] (store_bytes (contents (g_mem store32)) (mk_maddr 0 13 9) 3 258) /\
  ke_shown hash 0 [ex_keccak [77; 1]; 3] (contents (g_mem hash)) /\
  ke_shown switch 2 [66; 55] (upd (contents (g_mem switch)) (mk_maddr 0 6 11) 1).
Proof.
  cbv zeta. assert (NS : forall v, ~ stack_cell 0 (mk_maddr 0 13 v)) by (intros v X; vm_compute in X; intuition discriminate).
  split; [|split; [|split; [|split; [|split]]]].
  - at_state (@C66_mload_general) 251 [ke_at 7; 3]. replace (points (ke_at 7)) with (Some (mk_maddr 0 13 7)) in X by (vm_compute; reflexivity). exact X.
  - at_state (@C66_mstore_general) 252 [5; ke_at 9; 3]. replace (points (ke_at 9)) with (Some (mk_maddr 0 13 9)) in X by (vm_compute; reflexivity). exact (X (NS 9)).
  - at_state (@C66_mload_32bytes) 248 [ke_at 7; 2; 3]. replace (points (ke_at 7)) with (Some (mk_maddr 0 13 7)) in X by (vm_compute; reflexivity).
    apply X. apply ke_bytes. vm_compute. reflexivity.
  - assert (A1 : sound (ke_state 194 [ke_at 9; 258; 3])) by (apply ke_sound; vm_compute; reflexivity).
    assert (A3 : opcode (ke_state 194 [ke_at 9; 258; 3]) = 191 + 3) by (vm_compute; reflexivity).
    assert (X := @C66_mstore_32bytes _ ex_keccakf 41 20 1000 true ex_keccak us_input us_observe us_keccak_word ltac:(lia) ltac:(lia) (ke_state 194 [ke_at 9; 258; 3]) 3 A1 eq_refl ltac:(lia) A3).
    replace (stack (ke_state 194 [ke_at 9; 258; 3])) with [ke_at 9; 258; 3] in X by (vm_compute; reflexivity). cbv beta iota in X.
    replace (points (ke_at 9)) with (Some (mk_maddr 0 13 9)) in X by (vm_compute; reflexivity). exact (X (NS 9)).
  - at_state (@C66_keccak_general) 33 [ke_at 7; 2; 3]. replace (points (ke_at 7)) with (Some (mk_maddr 0 13 7)) in X by (vm_compute; reflexivity).
    apply X; [|vm_compute; reflexivity]. apply ke_bytes. vm_compute. reflexivity.
  - at_state (@C66_set_context) 247 [2 * 2^64; 3]. exact X.
Qed.

(** Return to the kernel at 12, and to the first context: its stack is [3]
    again. *)
Example C64_example : let g := ke_state 249 [info 12 true 9; 3] in
  settled ex_keccakf 41 20 1000 true ex_keccak us_input us_observe g (mk_view 12 true 0 9 [3] (contents (g_mem g))) (stack_cell 0).
Proof.
  cbv zeta. assert (A1 : sound (ke_state 249 [info 12 true 9; 3])) by (apply ke_sound; vm_compute; reflexivity).
  assert (A2 : opcode (ke_state 249 [info 12 true 9; 3]) = 249) by (vm_compute; reflexivity). assert (A3 : stack (ke_state 249 [info 12 true 9; 3]) = [info 12 true 9; 3]) by (vm_compute; reflexivity).
  exact (@C64_round_trip _ ex_keccakf 41 20 1000 true ex_keccak us_input us_observe us_keccak_word ltac:(lia) ltac:(lia) _ 12 true 9 [3] A1 eq_refl A2 ltac:(lia) ltac:(lia) A3).
Qed.
Definition ke_switched : gstate observed :=
  let g := ke_state 247 [2 * 2^64; 3] in
  mk_g (mk_regs 0 true 2 0 false false 2 0) (match apply_ops (g_mem g) [mk_mop 3 (mk_maddr 0 6 11) MWrite 1] with Some m => m | None => mem_new [] end) (mk_traces [] [] 0 [] [] []) [] us_oracle.
Example C66_context_example : ke_shown ke_switched 0 [3] (upd (contents (g_mem ke_switched)) (mk_maddr 2 6 11) 1).
Proof.
  assert (A1 : sound (ke_state 247 [2 * 2^64; 3])) by (apply ke_sound; vm_compute; reflexivity). assert (A2 : sound ke_switched) by (apply ke_sound; vm_compute; reflexivity).
  assert (A3 : opcode ke_switched = 247) by (vm_compute; reflexivity). assert (A4 : stack (ke_state 247 [2 * 2^64; 3]) = [2 * 2^64; 3]) by (vm_compute; reflexivity).
  assert (A5 : stack ke_switched = [0; 55]) by (vm_compute; reflexivity).
  assert (A6 : contents (g_mem ke_switched) (saved_height 0) = 1) by (vm_compute; reflexivity).
  refine (@C66_context_round_trip _ ex_keccakf 41 20 1000 true ex_keccak us_input us_observe us_keccak_word ltac:(lia) ltac:(lia) (ke_state 247 [2 * 2^64; 3]) ke_switched _ _ _ _ A1 A2 eq_refl A3 A4 A5 eq_refl _ _ A6); [discriminate|].
  intros a V C. destruct a as [c sg v]. destruct C as [C1 C2]. cbn [a_segment a_context] in C1, C2. cbn in C2. subst c sg. vm_compute. reflexivity.
Qed.

(** * A jump of the user that tells the prover a wrong code *)
(** PUSH1 42, PUSH1 8, JUMP, and a JUMPDEST at the offset of the kernel label
    observe_new_contract, here 8. *)
Definition po_code : list Z := [96; 42; 96; 8; 86; 0; 0; 0; 91; 0].
Definition po_observe := observe_at ex_keccak (fun a => [a]) 3000 8.
Definition po_mem (bit : Z) : mem_state := match apply_ops (us_mem po_code) [mk_mop 2 (mk_maddr 1 SEG_JUMPDEST_BITS 8) MWrite bit] with Some m => m | None => mem_new [] end.
Definition po_start (pc bit : Z) (s : list Z) : gstate observed := mk_g (mk_regs pc false (Z.of_nat (length s)) (hd 0 s) false false 1 7) (po_mem bit) (mk_traces [] [] 0 [] [] []) [] us_oracle.
Notation po_steps := (steps ex_keccakf 41 20 1000 true ex_keccak us_input po_observe).
(** Three instructions of the user, all valid, leave the prover with a code
    whose hash is not its key. *)
Theorem C65_user_jump_observes_refuted : exists g : gstate observed, sound g /\ is_kernel (g_regs g) = false /\ codes_ok ex_keccak (g_oracle g) /\
  exists g', po_steps 3 g = Ok tt g' /\ is_kernel (g_regs g') = false /\ ~ codes_ok ex_keccak (g_oracle g').
Proof.
  exists (po_start 0 1 []). split; [apply ke_sound; vm_compute; reflexivity|]. split; [reflexivity|]. split; [intros h c []|].
  remember (po_steps 3 (po_start 0 1 [])) as r eqn:E. vm_compute in E. subst r. eexists. split; [reflexivity|]. split; [reflexivity|].
  cbn [g_oracle]. intros C. specialize (C 42 [] (or_introl eq_refl)). vm_compute in C. discriminate C.
Qed.
(** A JUMPI to that offset that is refused, as no JUMPDEST is there, leaves it
    too: the state is rolled back but not the code. *)
Theorem C65_jumpi_poison_refuted : exists g g' : gstate observed, sound g /\ is_kernel (g_regs g) = false /\ codes_ok ex_keccak (g_oracle g) /\
  po_steps 1 g = Ok tt g' /\ program_counter (g_regs g') = 90 /\ is_kernel (g_regs g') = true /\ ~ codes_ok ex_keccak (g_oracle g').
Proof.
  set (g := us_state [87] 0 [8; 1; 42] 7). exists g. remember (po_steps 1 g) as r eqn:E. vm_compute in E. subst r. eexists.
  split; [apply ke_sound; vm_compute; reflexivity|]. split; [reflexivity|]. split; [intros h c []|]. split; [reflexivity|]. split; [reflexivity|]. split; [reflexivity|].
  cbn [g_oracle]. intros C. specialize (C 42 [] (or_introl eq_refl)). vm_compute in C. discriminate C.
Qed.
(** What is known first is kept: the true code of the hash, here [42], is not taken when the kernel observes it
    later. *)
Theorem C65_first_code_stays_refuted : exists r m o, ~ codes_ok ex_keccak o /\ mread m (mk_maddr (context r) SEG_CONTEXT_METADATA CTX_RETURNDATA_SIZE) = 1 /\
  mread m (mk_maddr (context r) SEG_RETURNDATA 0) = 42 /\ ex_keccak [42] = stack_top r /\
  observe_contract (stack_top r) r m o = Some (inr o).
Proof.
  exists (mk_regs 0 true 1 1276 false false 1 0), (match apply_ops (us_mem []) [mk_mop 2 (mk_maddr 1 6 3) MWrite 1; mk_mop 2 (mk_maddr 1 4 0) MWrite 42] with Some m => m | None => mem_new [] end), (mk_observed [] [(1276, [])]).
  split; [intros C; specialize (C 1276 [] (or_introl eq_refl)); vm_compute in C; discriminate C|]. vm_compute. repeat split.
Qed.
(** If the return data written is shorter than its recorded size, the jump
    panics.  Whether the kernel can leave memory so is not modelled. *)
Theorem C65_user_jump_panics_refuted : exists g : gstate observed, sound g /\ is_kernel (g_regs g) = false /\ po_steps 3 g = Panic.
Proof.
  exists (mk_g (mk_regs 0 false 0 0 false false 1 7) (match apply_ops (po_mem 1) [mk_mop 2 (mk_maddr 1 6 3) MWrite 1] with Some m => m | None => mem_new [] end) (mk_traces [] [] 0 [] [] []) [] us_oracle).
  split; [apply ke_sound; vm_compute; reflexivity|]. split; [reflexivity|]. vm_compute. reflexivity.
Qed.
Print Assumptions C65_user_jump_observes_refuted.
Print Assumptions C65_jumpi_poison_refuted.
Print Assumptions C65_first_code_stays_refuted.
Print Assumptions C65_user_jump_panics_refuted.
