(** Lemmas about the machine of MachineModel.v: what a computation may change,
    and the states an instruction goes through. *)
From Coq Require Import ZArith List Bool Lia.
From Verif Require Import Stark.ArithModel Stark.LogicModel Witness.MemoryModel Witness.MachineModel Witness.MemoryProps.
Import ListNotations.
Local Open Scope Z_scope.

Arguments Ok {Oracle A}. Arguments Err {Oracle A}. Arguments Panic {Oracle A}.
Arguments mk_g {Oracle}. Arguments g_regs {Oracle}. Arguments g_mem {Oracle}. Arguments g_traces {Oracle}.
Arguments g_stale {Oracle}. Arguments g_oracle {Oracle}.
Arguments bind {Oracle A B}. Arguments ret {Oracle A}. Arguments fail {Oracle A}. Arguments panic {Oracle A}.

Section Frames.
  Context {O : Type}.
  Notation gstate := (gstate O).
  Notation M := (M O).

  (** [pres R m]: whatever [m] returns, the state it leaves is related by [R]. *)
  Definition pres {A} (R : gstate -> gstate -> Prop) (m : M A) : Prop :=
    forall g, match m g with Ok _ g' => R g g' | Err _ g' => R g g' | Panic => True end.

  Section Rel.
    Variable R : gstate -> gstate -> Prop.
    Hypothesis R_refl : forall g, R g g.
    Hypothesis R_trans : forall g1 g2 g3, R g1 g2 -> R g2 g3 -> R g1 g3.

    Lemma pres_ret : forall A (a : A), pres R (ret a).
    Proof. intros A a g. apply R_refl. Qed.
    Lemma pres_fail : forall A e, pres R (@fail O A e).
    Proof. intros A e g. apply R_refl. Qed.
    Lemma pres_panic : forall A, pres R (@panic O A).
    Proof. intros A g. exact I. Qed.
    Lemma pres_gets : forall A (f : gstate -> A), pres R (gets O f).
    Proof. intros A f g. apply R_refl. Qed.
    Lemma pres_bind : forall A B (m : M A) (k : A -> M B), pres R m -> (forall a, pres R (k a)) -> pres R (bind m k).
    Proof.
      intros A B m k Hm Hk g. unfold bind. specialize (Hm g). destruct (m g) as [a g1|e g1|]; [|exact Hm|exact I].
      specialize (Hk a g1). destruct (k a g1); [eapply R_trans; eassumption|eapply R_trans; eassumption|exact I].
    Qed.
    Lemma pres_guard : forall b e, pres R (guard O b e).
    Proof. intros. unfold guard. destruct b; [apply pres_ret|apply pres_fail]. Qed.
    Lemma pres_assert : forall b, pres R (assert O b).
    Proof. intros. unfold assert. destruct b; [apply pres_ret|apply pres_panic]. Qed.
  End Rel.

  (** The traces only grow. *)
  Definition prefix {A} (l l' : list A) : Prop := firstn (length l) l' = l.
  Lemma prefix_refl : forall A (l : list A), prefix l l.
  Proof. intros. apply firstn_all. Qed.
  Lemma prefix_app : forall A (l m : list A), prefix l (l ++ m).
  Proof. intros. unfold prefix. rewrite firstn_app, Nat.sub_diag, firstn_all, firstn_O, app_nil_r. reflexivity. Qed.
  Lemma prefix_exists : forall A (l m : list A), prefix l m <-> exists d, m = l ++ d.
  Proof.
    intros. split.
    - intros H. exists (skipn (length l) m). unfold prefix in H. rewrite <- H at 1. symmetry. apply firstn_skipn.
    - intros (d & ->). apply prefix_app.
  Qed.
  Lemma prefix_trans : forall A (a b c : list A), prefix a b -> prefix b c -> prefix a c.
  Proof.
    intros A a b c H K. rewrite prefix_exists in *. destruct H as (d & ->), K as (e & ->). exists (d ++ e). symmetry. apply app_assoc.
  Qed.
  Definition grows (g g' : gstate) : Prop :=
    let t := g_traces g in let t' := g_traces g' in
    prefix (t_arithmetic t) (t_arithmetic t') /\ prefix (t_byte_packing t) (t_byte_packing t') /\ (t_clock t <= t_clock t')%nat /\
    prefix (t_logic t) (t_logic t') /\ prefix (t_memory t) (t_memory t') /\ prefix (t_sponge t) (t_sponge t').
  Lemma grows_refl : forall g, grows g g.
  Proof. intros g. unfold grows. cbv zeta. intuition auto using prefix_refl. Qed.
  Lemma grows_trans : forall g1 g2 g3, grows g1 g2 -> grows g2 g3 -> grows g1 g3.
  Proof.
    unfold grows. cbv zeta. intros g1 g2 g3 (A1 & A2 & A3 & A4 & A5 & A6) (B1 & B2 & B3 & B4 & B5 & B6).
    repeat (split; [solve [eauto using prefix_trans|lia]|]). eauto using prefix_trans.
  Qed.
  (** The memory is not touched: the writes stay in the log. *)
  Definition same_mem (g g' : gstate) : Prop := g_mem g' = g_mem g.
  Lemma same_mem_refl : forall g, same_mem g g.
  Proof. reflexivity. Qed.
  Lemma same_mem_trans : forall g1 g2 g3, same_mem g1 g2 -> same_mem g2 g3 -> same_mem g1 g3.
  Proof. unfold same_mem. intros. congruence. Qed.
  Definition frame (g g' : gstate) : Prop := grows g g' /\ same_mem g g'.
  Lemma frame_refl : forall g, frame g g.
  Proof. split; [apply grows_refl|apply same_mem_refl]. Qed.
  Lemma frame_trans : forall g1 g2 g3, frame g1 g2 -> frame g2 g3 -> frame g1 g3.
  Proof. unfold frame. intros g1 g2 g3 [] []. split; [eapply grows_trans; eassumption|eapply same_mem_trans; eassumption]. Qed.
  Lemma frame_grows : forall A (m : M A), pres frame m -> pres grows m.
  Proof. intros A m H g. specialize (H g). unfold frame in H. destruct (m g); tauto. Qed.
End Frames.

Ltac frame_step :=
  match goal with
  | |- pres frame (bind _ _) => apply (pres_bind frame frame_trans); [|intros]
  | |- pres frame (ret _) => apply (pres_ret frame frame_refl)
  | |- pres frame (fail _) => apply (pres_fail frame frame_refl)
  | |- pres frame panic => apply pres_panic
  | |- pres frame (gets _ _) => apply (pres_gets frame frame_refl)
  | |- pres frame (guard _ _ _) => apply (pres_guard frame frame_refl)
  | |- pres frame (assert _ _) => apply (pres_assert frame frame_refl)
  | |- pres frame (if ?b then _ else _) => destruct b
  | |- pres frame (match ?x with _ => _ end) => destruct x
  | |- pres frame (let _ := _ in _) => cbv zeta
  end.
Ltac frames := repeat (frame_step || auto with frames).

Section FramesOps.
  Context {O : Type}.
  Notation gstate := (gstate O).
  Notation M := (M O).

  Ltac prim := intros; match goal with |- pres frame ?m => intros g; split; [unfold grows; cbn; repeat split; auto using prefix_refl, prefix_app|reflexivity] end.
  Lemma frame_set_regs : forall r, pres frame (set_regs O r).
  Proof. prim. Qed.
  Lemma frame_push_cpu : pres frame (push_cpu O).
  Proof. prim. Qed.
  Lemma frame_push_logic : forall o, pres frame (push_logic O o).
  Proof. prim. Qed.
  Lemma frame_push_logics : forall o, pres frame (push_logics O o).
  Proof. prim. Qed.
  Lemma frame_push_arithmetic : forall o, pres frame (push_arithmetic O o).
  Proof. prim. Qed.
  Lemma frame_push_memory : forall o, pres frame (push_memory O o).
  Proof. prim. Qed.
  Lemma frame_push_memories : forall o, pres frame (push_memories O o).
  Proof. prim. Qed.
  Lemma frame_push_byte_packing : forall o, pres frame (push_byte_packing O o).
  Proof. prim. Qed.
  Lemma frame_push_sponge : forall o, pres frame (push_sponge O o).
  Proof. prim. Qed.
End FramesOps.
#[global] Hint Resolve frame_set_regs frame_push_cpu frame_push_logic frame_push_logics frame_push_arithmetic frame_push_memory
  frame_push_memories frame_push_byte_packing frame_push_sponge : frames.

Section FramesInstr.
  Context {O : Type}.
  Notation gstate := (gstate O).
  Variable keccakf : list Z -> list Z.
  Variables syscall_jumptable exception_jumptable max_code_size : Z.
  Variable eth_mainnet : bool.
  Variable keccak : list Z -> Z.
  Variable prover_input : registers -> mem_state -> O -> option (perror + Z * mem_state * O).
  Variable observe : Z -> registers -> mem_state -> O -> option (perror + O).

  Lemma frame_jump_to : forall d, pres frame (jump_to O observe d).
  Proof.
    intros d. unfold jump_to, set_pc, get_regs. frames. intros g. destruct (observe _ _ _ _) as [[e|o]|]; try exact I; (split; [|reflexivity]).
    - apply grows_refl.
    - unfold grows. cbn. repeat split; auto using prefix_refl.
  Qed.
  Hint Resolve frame_jump_to : frames.

  Ltac go := unfold append_shift, fill_stack_fields, push_with_write, push_no_write, stack_pop1, stack_pop2, stack_pop3, pop_prologue, pop_epilogue, mem_read_with_log,
    mem_write_log, new_op, bundle, u256_to_usize, read_bytes, byte_packing_log, byte_unpacking_log, keccak_sponge_log,
    set_stack, set_top_read, set_check_overflow, MachineModel.set_context, set_mode, set_pc, get_regs; frames.

  Lemma frame_enter_kernel : forall a b c d, pres frame (enter_kernel O a b c d).
  Proof. intros. unfold enter_kernel. go. Qed.
  Hint Resolve frame_enter_kernel : frames.

  Notation perform_op := (perform_op O keccakf syscall_jumptable max_code_size keccak prover_input observe).
  Lemma frame_perform_op : forall op, op <> ProverInput -> pres frame (perform_op op).
  Proof.
    intros op N. destruct op; try congruence; cbn [MachineModel.perform_op].
    - unfold generate_iszero. go.
    - unfold generate_not. go.
    - unfold generate_syscall. go.
    - unfold generate_eq. go.
    - unfold generate_binary_logic_op. go.
    - destruct op; unfold generate_shl, generate_shr, generate_binary_arithmetic_op; go.
    - unfold generate_ternary_arithmetic_op. go.
    - unfold generate_keccak_general. go.
    - unfold generate_pop. go.
    - unfold generate_jump. go.
    - unfold generate_jumpi. go.
    - unfold generate_pc. go.
    - unfold generate_jumpdest. go.
    - unfold generate_push. go.
    - unfold generate_dup. go.
    - unfold generate_swap. go.
    - unfold generate_get_context. go.
    - unfold generate_set_context. go. intros g. split; [|reflexivity]. unfold grows. cbn. repeat split; auto using prefix_refl.
    - unfold generate_mload_32bytes. go.
    - unfold generate_mstore_32bytes. go.
    - unfold generate_exit_kernel. go.
    - unfold generate_mload_general. go.
    - unfold generate_mstore_general. go.
  Qed.

  Lemma grows_perform_op : forall op, pres grows (perform_op op).
  Proof.
    intros op. assert (D : op = ProverInput \/ op <> ProverInput) by (destruct op; (left; reflexivity) || (right; discriminate)).
    destruct D as [->|N]; [|apply frame_grows, frame_perform_op, N].
    cbn [MachineModel.perform_op]. unfold generate_prover_input. apply (pres_bind grows grows_trans).
    - intros g. destruct (prover_input _ _ _) as [[e|[[v m] o]]|]; try exact I; unfold grows; cbn; repeat split; auto using prefix_refl.
    - intros a. apply frame_grows. go.
  Qed.

  Lemma frame_base_row : pres frame (base_row O).
  Proof. unfold base_row. go. Qed.
  Lemma frame_fill : pres frame (fill_stack_fields O).
  Proof. unfold fill_stack_fields. go. Qed.
  Lemma frame_state_op : forall op, op <> ProverInput -> pres frame (perform_state_op O keccakf syscall_jumptable max_code_size keccak prover_input observe op).
  Proof. intros op N. unfold perform_state_op. pose proof (frame_perform_op op N). go. Qed.
  Lemma frame_exception : forall c, pres frame (generate_exception O exception_jumptable c).
  Proof. intros c. unfold generate_exception. go. Qed.
End FramesInstr.
#[global] Hint Resolve frame_base_row frame_fill frame_exception : frames.
