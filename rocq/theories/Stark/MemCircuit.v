(** The recursive verifier evaluates the constraints of the memory tables: C51. *)
From Coq Require Import ZArith List Lia Bool Arith.
From Verif Require Import Stark.Field Stark.ArithModel Stark.LogicModel Stark.MemModel Stark.LogicProps Stark.BytePackProps.
Import ListNotations.
Local Open Scope Z_scope.

Lemma neg_34 : neg SEG_ACCOUNTS_LINKED_LIST = P - 34. Proof. reflexivity. Qed.
Lemma neg_35 : neg SEG_STORAGE_LINKED_LIST = P - 35. Proof. reflexivity. Qed.
Lemma neg_0 : neg SEG_CODE = 0. Proof. reflexivity. Qed.
Lemma neg_12 : neg SEG_TRIE_DATA = P - 12. Proof. reflexivity. Qed.
Lemma mult_mod : forall x y q, x - y = q * P -> (x - y) mod P = 0.
Proof. intros x y q ->. apply Z.mod_mul. discriminate. Qed.

Ltac circ := unfold sub_extension, mul_extension, add_extension, mul_sub_extension, mul_add_extension, add_const_extension, mul_many_extension; cbn [fold_left]; unfold mul_extension.
Theorem C51_memory_circuit : forall lv nv, same_constraints (eval_memory lv nv) (eval_memory_circuit lv nv).
Proof.
  intros lv nv. unfold eval_memory, eval_memory_circuit. cbv zeta. rewrite neg_34, neg_35, neg_0, neg_12.
  apply same_app; [|apply same_app; [|apply same_app; [|apply same_app]]].
  - repeat (apply Forall2_cons); [..|apply Forall2_nil]; (split; [reflexivity|]); cbn [fst snd]; circ; unfold SEG_ACCOUNTS_LINKED_LIST, SEG_STORAGE_LINKED_LIST, SEG_CODE, SEG_TRIE_DATA;
      try (apply zero_mod; ring).
    + apply mult_mod with (2 * nv M_SEGMENT + P - 69). ring.
    + apply mult_mod with (nv M_SEGMENT * lv M_PREINITIALIZED_SEGMENTS_AUX). ring.
  - induction (seq 0 VALUE_LIMBS) as [|i l IH]; [constructor|]. cbn [flat_map]. apply same_app; [|exact IH].
    repeat (apply Forall2_cons); [..|apply Forall2_nil]; (split; [reflexivity|]); cbn [fst snd]; circ; apply zero_mod; ring.
  - repeat (apply Forall2_cons); [..|apply Forall2_nil]; (split; [reflexivity|]); cbn [fst snd]; circ; apply zero_mod; ring.
  - apply same_map. intros i _. split; [reflexivity|]. cbn [snd]. circ. apply zero_mod. ring.
  - repeat (apply Forall2_cons); [..|apply Forall2_nil]; (split; [reflexivity|]); cbn [fst snd]; circ; apply zero_mod; ring.
Qed.
Print Assumptions C51_memory_circuit.

Theorem C51_mem_continuation_circuit : forall lv, same_constraints (eval_mem_continuation lv) (eval_mem_continuation_circuit lv).
Proof.
  intros lv. repeat constructor. cbn [snd]. circ. change (neg 1) with (P - 1). apply mult_mod with (- lv MC_FILTER). ring.
Qed.
Print Assumptions C51_mem_continuation_circuit.
