(** From accepted tables to facts about two consecutive rows. *)
From Coq Require Import ZArith Znumtheory List Bool Arith Lia.
From Verif Require Import Stark.Field Stark.ArithModel Cpu.CpuModel.
Import ListNotations.
Local Open Scope Z_scope.

(** A constraint that holds on a row that is not the last one. *)
Definition ok (c : constr) : Prop := fst c = All \/ fst c = Transition -> snd c mod P = 0.
(** On any row. *)
Definition ok_all (c : constr) : Prop := fst c = All -> snd c mod P = 0.

Definition pair_ok (k : labels) (lv nv : row) : Prop :=
  Forall ok (eval_cpu k lv nv) /\ (forall c, canonical (lv c)) /\ (forall c, canonical (nv c)).

Lemma row_canonical : forall k t i, cpu_table_ok k t -> (i < length t)%nat -> forall c, canonical (crow_at t i c).
Proof.
  intros k t i [_ C] H c. rewrite Forall_forall in C. apply C. apply nth_In. exact H.
Qed.

Lemma table_pair : forall k t i, cpu_table_ok k t -> (S i < length t)%nat -> pair_ok k (crow_at t i) (crow_at t (S i)).
Proof.
  intros k t i OK H. split; [|split; apply (row_canonical k t); (exact OK || lia)].
  destruct OK as [OK _]. specialize (OK i ltac:(lia)). unfold cnext in OK. rewrite Nat.mod_small in OK by lia.
  eapply Forall_impl; [|exact OK]. intros c Hc [K|K]; apply Hc; rewrite K; cbn [applies]; [reflexivity|].
  destruct (Nat.eqb_spec (S i) (length t)); [lia|reflexivity].
Qed.

Lemma table_all : forall k t i, cpu_table_ok k t -> (i < length t)%nat -> Forall ok_all (eval_cpu k (crow_at t i) (cnext t i)).
Proof.
  intros k t i OK H. destruct OK as [OK _]. specialize (OK i H).
  eapply Forall_impl; [|exact OK]. intros c Hc K. apply Hc. rewrite K. reflexivity.
Qed.

Lemma ok_weaken : forall l, Forall ok l -> Forall ok_all l.
Proof. intros l H. eapply Forall_impl; [|exact H]. intros c Hc K. apply Hc. left. exact K. Qed.

Lemma use_all : forall e, ok_all (all e) -> e mod P = 0.
Proof. intros e H. apply H. reflexivity. Qed.
Lemma use_ok_all : forall e, ok (all e) -> e mod P = 0.
Proof. intros e H. apply H. left. reflexivity. Qed.
Lemma use_ok_trans : forall e, ok (trans e) -> e mod P = 0.
Proof. intros e H. apply H. right. reflexivity. Qed.

(** * Field facts *)

Lemma eq_mod : forall a e, canonical a -> (a - e) mod P = 0 -> a = e mod P.
Proof.
  intros a e C H. apply Zmod_divide in H; [|unfold P; lia]. destruct H as [q Hq].
  replace e with (a + (- q) * P) by lia. rewrite Z.mod_add by (unfold P; lia). rewrite Z.mod_small by exact C. reflexivity.
Qed.
Lemma eq_cell : forall a b, canonical a -> canonical b -> (a - b) mod P = 0 -> a = b.
Proof. intros a b A B H. rewrite (eq_mod a b A H). apply Z.mod_small. exact B. Qed.
Lemma eq_const : forall a b, canonical a -> 0 <= b < P -> (a - b) mod P = 0 -> a = b.
Proof. intros a b A B. apply eq_cell; assumption. Qed.
Lemma eq_zero : forall a, canonical a -> a mod P = 0 -> a = 0.
Proof. exact canonical_zero. Qed.
Lemma opp_zero : forall e, e mod P = 0 -> (- e) mod P = 0.
Proof.
  intros e H. apply Zmod_divide in H; [|unfold P; lia]. destruct H as [q Hq].
  replace (- e) with ((- q) * P) by lia. apply Z.mod_mul. unfold P; lia.
Qed.
Lemma add_zero : forall a b, a mod P = 0 -> b mod P = 0 -> (a + b) mod P = 0.
Proof. intros a b A B. rewrite Z.add_mod, A, B by (unfold P; lia). reflexivity. Qed.
Lemma mul_zero : forall a b, a mod P = 0 -> (a * b) mod P = 0.
Proof. intros a b A. rewrite Z.mul_mod, A by (unfold P; lia). rewrite Z.mul_0_l. apply Z.mod_0_l. unfold P; lia. Qed.
Lemma nonzero_factor : forall f e, (f * e) mod P = 0 -> f mod P <> 0 -> e mod P = 0.
Proof. intros f e H N. destruct (field_integral f e H); [contradiction|assumption]. Qed.

(** * Opening a list of constraints *)

(** Turn [H : Forall ok l] for an explicit list into equations modulo P. *)
Ltac opened H :=
  try unfold boolean in H;
  repeat first [rewrite Forall_app in H | rewrite Forall_cons_iff in H];
  decompose [and] H; clear H;
  repeat match goal with
         | X : ok (all _) |- _ => apply use_ok_all in X
         | X : ok (trans _) |- _ => apply use_ok_trans in X
         | X : ok_all (all _) |- _ => apply use_all in X
         | X : ok_all (trans _) |- _ => clear X
         | X : ok _ |- _ => clear X
         | X : ok_all _ |- _ => clear X
         | X : Forall _ [] |- _ => clear X
         end.

(** Find the equation that gives the goal [y mod P = 0]. *)
Ltac find_eq :=
  match goal with
  | H : ?x mod P = 0 |- ?y mod P = 0 => replace y with x by ring; exact H
  | H : ?x mod P = 0 |- ?y mod P = 0 => replace y with (- x) by ring; apply opp_zero; exact H
  end.

Section Modules.
  Variables (k : labels) (lv nv : row) (Q : constr -> Prop).
  Hypothesis H : Forall Q (eval_cpu k lv nv).

  Ltac part := unfold eval_cpu in H; rewrite !Forall_app in H; decompose [and] H; assumption.

  Lemma m_byte_unpacking : Forall Q (eval_byte_unpacking lv nv). Proof. part. Qed.
  Lemma m_clock : Forall Q (eval_clock lv nv). Proof. part. Qed.
  Lemma m_contextops : Forall Q (eval_contextops lv nv). Proof. part. Qed.
  Lemma m_control_flow : Forall Q (eval_control_flow k lv nv). Proof. part. Qed.
  Lemma m_decode : Forall Q (eval_decode lv). Proof. part. Qed.
  Lemma m_dup_swap : Forall Q (eval_dup_swap lv nv). Proof. part. Qed.
  Lemma m_gas : Forall Q (eval_gas lv nv). Proof. part. Qed.
  Lemma m_halt : Forall Q (eval_halt k lv nv). Proof. part. Qed.
  Lemma m_jumps : Forall Q (eval_jumps lv nv). Proof. part. Qed.
  Lemma m_membus : Forall Q (eval_membus lv). Proof. part. Qed.
  Lemma m_memio : Forall Q (eval_memio lv nv). Proof. part. Qed.
  Lemma m_modfp254 : Forall Q (eval_modfp254 lv). Proof. part. Qed.
  Lemma m_pc : Forall Q (eval_pc lv nv). Proof. part. Qed.
  Lemma m_push0 : Forall Q (eval_push0 lv nv). Proof. part. Qed.
  Lemma m_shift : Forall Q (eval_shift lv). Proof. part. Qed.
  Lemma m_simple_logic : Forall Q (eval_simple_logic lv nv). Proof. part. Qed.
  Lemma m_stack : Forall Q (eval_stack lv nv). Proof. part. Qed.
  Lemma m_syscalls : Forall Q (eval_syscalls_exceptions k lv nv). Proof. part. Qed.

  (** The behaviours of the stack. *)
  Lemma m_stack_one : forall op b o, In (op, Some b, o) STACK_BEHAVIORS -> Forall Q (eval_stack_one lv nv (lv op) b).
  Proof.
    intros op b o I. pose proof m_stack as S. unfold eval_stack in S. rewrite !Forall_app in S. destruct S as (S & _).
    rewrite Forall_forall in S |- *. intros c Hc. apply S. apply in_flat_map. exists (op, Some b, o). split; [exact I|].
    apply in_app_iff. left. exact Hc.
  Qed.
  Lemma m_overflow : forall op b, In (op, b, true) STACK_BEHAVIORS ->
    Q (trans (lv op * ((nv STACK_LEN - (MAX_USER_STACK_SIZE + 1)) * lv STACK_LEN_BOUNDS_AUX - (1 - nv IS_KERNEL_MODE)))).
  Proof.
    intros op b I. pose proof m_stack as S. unfold eval_stack in S. rewrite !Forall_app in S. destruct S as (S & _).
    rewrite Forall_forall in S. apply S. apply in_flat_map. exists (op, b, true). split; [exact I|].
    apply in_app_iff. right. left. reflexivity.
  Qed.
  Lemma m_jumpdest : Forall Q (eval_stack_one lv nv (lv JUMPDEST_KECCAK_GENERAL * bit lv 1) JUMPDEST_OP).
  Proof. pose proof m_stack as S. unfold eval_stack in S. rewrite !Forall_app in S. apply S. Qed.
  Lemma m_keccak : Forall Q (eval_stack_one lv nv (lv JUMPDEST_KECCAK_GENERAL * (1 - bit lv 1)) KECCAK_GENERAL_OP).
  Proof. pose proof m_stack as S. unfold eval_stack in S. rewrite !Forall_app in S. apply S. Qed.
  Lemma m_pop : Forall Q (eval_pop lv nv).
  Proof. pose proof m_stack as S. unfold eval_stack in S. rewrite !Forall_app in S. apply S. Qed.
  Lemma m_load : Forall Q (eval_load lv nv).
  Proof. pose proof m_memio as S. unfold eval_memio in S. rewrite !Forall_app in S. apply S. Qed.
  Lemma m_store : Forall Q (eval_store lv nv).
  Proof. pose proof m_memio as S. unfold eval_memio in S. rewrite !Forall_app in S. apply S. Qed.
  Lemma m_not : Forall Q (eval_not lv nv).
  Proof. pose proof m_simple_logic as S. unfold eval_simple_logic in S. rewrite !Forall_app in S. apply S. Qed.
  Lemma m_eq_iszero : Forall Q (eval_eq_iszero lv nv).
  Proof. pose proof m_simple_logic as S. unfold eval_simple_logic in S. rewrite !Forall_app in S. apply S. Qed.
  Lemma m_exit : Forall Q (eval_exit_kernel lv nv).
  Proof. pose proof m_jumps as S. unfold eval_jumps in S. rewrite !Forall_app in S. apply S. Qed.
  Lemma m_jump : Forall Q (eval_jump_jumpi lv nv).
  Proof. pose proof m_jumps as S. unfold eval_jumps in S. rewrite !Forall_app in S. apply S. Qed.
End Modules.
