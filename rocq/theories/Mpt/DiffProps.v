(** C13: the trie diff tool. *)

From Coq Require Import List Arith NArith Bool Lia.
From Verif.Mpt Require Import TrieModel TrieSpec TrieFacts TrieOpsProofs TrieHistory TrieProps HashModel PruneSpec
  PruneProofs PartialProofs RlpProofs PartialProps QueryModel QuerySpec DiffModel DiffProofs.
Import ListNotations.
Local Open Scope nat_scope.

(** Tries with equal root hashes have an empty diff, whatever they are. *)
Theorem C13_equal_roots_no_diff : forall keccak a b,
  hash_trie keccak a = hash_trie keccak b -> create_full_diff keccak a b = Ok [].
Proof.
  intros keccak a b E. unfold create_full_diff. rewrite find_eq. apply bytes_eqb_eq in E. now rewrite E.
Qed.
Print Assumptions C13_equal_roots_no_diff.

(** Every reported point is a place, present in both tries, where the nodes have
    different hashes, and the report describes these two nodes. *)
Theorem C13_points_are_real : forall keccak a b pts d,
  create_full_diff keccak a b = Ok pts -> In d pts ->
  exists na nb, sub_at a (dp_key d) na /\ sub_at b (dp_key d) nb /\ hash_trie keccak na <> hash_trie keccak nb /\
    info_key (dp_a d) = dp_key d ++ key_piece na /\ info_value (dp_a d) = value_of na /\
    info_type (dp_a d) = type_of na /\ info_hash (dp_a d) = hash_trie keccak na /\
    info_key (dp_b d) = dp_key d ++ key_piece nb /\ info_value (dp_b d) = value_of nb /\
    info_type (dp_b d) = type_of nb /\ info_hash (dp_b d) = hash_trie keccak nb.
Proof.
  intros keccak a b pts d E Hd. unfold create_full_diff in E.
  destruct (find_rec keccak a b [] []) as [[det ps]| |] eqn:Ef; try discriminate. cbn [bind snd] in E. injection E as <-.
  assert (Hin : In d ps) by (rewrite <- (firstn_skipn max_diff_points ps); apply in_or_app; auto).
  destruct (find_real keccak a b [] [] det ps Ef d Hin) as (r & na & nb & Er & Sa & Sb & Hn & (A1 & A2 & A3 & A4) & (B1 & B2 & B3 & B4)).
  cbn in Er. subst r. exists na, nb. repeat split; auto.
Qed.
Print Assumptions C13_points_are_real.

(** For two tries built through the API from key sets without prefixes, unless
    Keccak collides on two of the strings hashed for them: the diff succeeds, and
    if it reports fewer than 10 points, every key whose value differs lies below a
    reported point. *)
Theorem C13_covers_all_differences : forall keccak K s1 s2 ops1 ops2 a b o1 o2,
  (forall x, length (keccak x) = 32) -> key_domain K ->
  Forall (fun o => K (op_key o)) ops1 -> Forall (fun o => K (op_key o)) ops2 ->
  trie_run s1 Empty ops1 = Ok (a, o1) -> trie_run s2 Empty ops2 = Ok (b, o2) ->
  (forall k v, fst (spec_run empty_map ops1) k = Some v \/ fst (spec_run empty_map ops2) k = Some v -> (N.of_nat (length v) < 2 ^ 60)%N) ->
  no_collision keccak a b ->
  exists pts, create_full_diff keccak a b = Ok pts /\
    (length pts < 10 -> forall k, fst (spec_run empty_map ops1) k <> fst (spec_run empty_map ops2) k ->
       exists d, In d pts /\ is_prefix (dp_key d) k).
Proof.
  intros keccak K s1 s2 ops1 ops2 a b o1 o2 L D F1 F2 E1 E2 V NC.
  destruct (run_represents K s1 ops1 Empty empty_map D (represents_empty K) F1) as (t1 & G1 & R1). rewrite E1 in G1. injection G1 as <- _.
  destruct (run_represents K s2 ops2 Empty empty_map D (represents_empty K) F2) as (t2 & G2 & R2). rewrite E2 in G2. injection G2 as <- _.
  pose proof (represents_hash_free _ _ _ R1) as H1. pose proof (represents_hash_free _ _ _ R2) as H2.
  pose proof (represents_bounded _ _ _ D R1) as B1. pose proof (represents_bounded _ _ _ D R2) as B2.
  destruct R1 as (C1 & L1 & K1). destruct R2 as (C2 & L2 & K2).
  destruct (find_cover keccak L a b [] []) as (det & pts & E & Cv); auto.
  - now apply canon_no_hash.
  - now apply canon_no_hash.
  - apply canon_wf; auto. intros k x Hx. split; [now apply (B1 k x)|]. rewrite L1 in Hx.
    destruct (fst (spec_run empty_map ops1) k) as [v|] eqn:Ev; [|discriminate]. injection Hx as <-. exists v. split; auto. apply (V k). auto.
  - apply canon_wf; auto. intros k x Hx. split; [now apply (B2 k x)|]. rewrite L2 in Hx.
    destruct (fst (spec_run empty_map ops2) k) as [v|] eqn:Ev; [|discriminate]. injection Hx as <-. exists v. split; auto. apply (V k). auto.
  - cbn. lia.
  - unfold create_full_diff. rewrite E. cbn [bind snd]. eexists. split; [reflexivity|]. intros Lp k Hk.
    destruct (Cv k) as (d & r & Hd & Er & P).
    { rewrite L1, L2. intros Q. apply Hk. destruct (fst (spec_run empty_map ops1) k), (fst (spec_run empty_map ops2) k); cbn in Q; congruence. }
    cbn in Er. subst r. exists d. split; auto. rewrite firstn_length in Lp. unfold max_diff_points in *.
    rewrite firstn_all2 by lia. auto.
Qed.
Print Assumptions C13_covers_all_differences.

(** Hence, for such tries, the diff is empty exactly when the roots are equal. *)
Theorem C13_empty_iff_equal_roots : forall keccak K s1 s2 ops1 ops2 a b o1 o2,
  (forall x, length (keccak x) = 32) -> key_domain K ->
  Forall (fun o => K (op_key o)) ops1 -> Forall (fun o => K (op_key o)) ops2 ->
  trie_run s1 Empty ops1 = Ok (a, o1) -> trie_run s2 Empty ops2 = Ok (b, o2) ->
  (forall k v, fst (spec_run empty_map ops1) k = Some v \/ fst (spec_run empty_map ops2) k = Some v -> (N.of_nat (length v) < 2 ^ 60)%N) ->
  no_collision keccak a b ->
  (create_full_diff keccak a b = Ok [] <-> hash_trie keccak a = hash_trie keccak b).
Proof.
  intros keccak K s1 s2 ops1 ops2 a b o1 o2 L D F1 F2 E1 E2 V NC. split; [|apply C13_equal_roots_no_diff].
  intros E. destruct (C13_covers_all_differences keccak K s1 s2 ops1 ops2 a b o1 o2 L D F1 F2 E1 E2 V NC) as (pts & E' & H).
  rewrite E in E'. injection E' as <-. apply (C03_same_contents_same_root keccak K s1 s2 ops1 ops2 a b o1 o2); auto.
  intros k. specialize (H ltac:(cbn; lia) k).
  destruct (fst (spec_run empty_map ops1) k) as [x|] eqn:Ex, (fst (spec_run empty_map ops2) k) as [y|] eqn:Ey; auto.
  - destruct (list_eq_dec N.eq_dec x y) as [->|Hne]; auto. destruct H as (d & [] & _). congruence.
  - destruct H as (d & [] & _). congruence.
  - destruct H as (d & [] & _). congruence.
Qed.
Print Assumptions C13_empty_iff_equal_roots.

(** ** Cases *)

(** Two tries of PartialProps.v whose contents differ below [1;2;3] and at [9;0;0;0]. *)
Definition d_ops2 : list op := [OpInsert [1;2;3;4] (val40 1); OpInsert [1;2;3;5] (val40 9); OpInsert [1;2;7;0] (val40 3)].
Definition d_ops1 : list op := [OpInsert [1;2;3;4] (val40 1); OpInsert [1;2;3;5] (val40 2); OpInsert [1;2;7;0] (val40 3)].
Definition d_a : node := match trie_run Reject Empty d_ops1 with Ok (t, _) => t | _ => Empty end.
Definition d_b : node := match trie_run Reject Empty d_ops2 with Ok (t, _) => t | _ => Empty end.

Example ex_diff : option_map (map dp_key) (match create_full_diff toy d_a d_b with Ok l => Some l | _ => None end) = Some [[1;2;3;5]].
Proof. vm_compute. reflexivity. Qed.

(** The hypotheses of the covering theorem hold of these tries. *)
Example ex_diff_no_collision : no_collision toy d_a d_b.
Proof.
  intros x y Hx Hy.
  assert (G : forallb (fun u => forallb (fun v => implb (bytes_eqb (toy u) (toy v)) (bytes_eqb u v)) (rlp_strings toy d_b)) (rlp_strings toy d_a) = true)
    by (vm_compute; reflexivity).
  rewrite forallb_forall in G. specialize (G x Hx). rewrite forallb_forall in G. specialize (G y Hy). intros E.
  apply (proj2 (bytes_eqb_eq _ _)) in E. rewrite E in G. now apply (proj1 (bytes_eqb_eq _ _)).
Qed.

(** Two tries that differ only in the value of a branch: the roots differ, but the
    diff is empty.  The cause is that the diff of two branches only looks at the
    children, and that [pick_most_significant_state] keeps the state with the
    largest number, which is [NoDiffDetected]. *)
Definition bv_ops (x : N) : list op := [OpInsert [1;2] [x]; OpInsert [1;2;3;4] [7%N]; OpInsert [1;2;5;6] [8%N]].
Definition bv_trie (x : N) : node := match trie_run Reject Empty (bv_ops x) with Ok (t, _) => t | _ => Empty end.

Theorem C13_branch_value_refuted : exists a b oa ob,
  trie_run Reject Empty (bv_ops 1) = Ok (a, oa) /\ trie_run Reject Empty (bv_ops 2) = Ok (b, ob) /\
  trie_get a [1;2] = Ok (Some [1%N]) /\ trie_get b [1;2] = Ok (Some [2%N]) /\
  (forall x y, toy x = toy y -> In x (rlp_strings toy a) -> In y (rlp_strings toy b) -> x = y) /\
  bytes_eqb (hash_trie toy a) (hash_trie toy b) = false /\
  create_full_diff toy a b = Ok [].
Proof.
  exists (bv_trie 1), (bv_trie 2), [OutInserted; OutInserted; OutInserted], [OutInserted; OutInserted; OutInserted].
  split; [vm_compute; reflexivity|]. split; [vm_compute; reflexivity|]. split; [vm_compute; reflexivity|]. split; [vm_compute; reflexivity|].
  split; [|split; vm_compute; reflexivity].
  intros x y E Hx Hy.
  assert (G : forallb (fun u => forallb (fun v => implb (bytes_eqb (toy u) (toy v)) (bytes_eqb u v)) (rlp_strings toy (bv_trie 2))) (rlp_strings toy (bv_trie 1)) = true)
    by (vm_compute; reflexivity).
  rewrite forallb_forall in G. specialize (G x Hx). rewrite forallb_forall in G. specialize (G y Hy).
  apply (proj2 (bytes_eqb_eq _ _)) in E. rewrite E in G. now apply (proj1 (bytes_eqb_eq _ _)).
Qed.
