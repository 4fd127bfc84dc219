(** C45: the root hash is the Yellow Paper's TRIE of the contents. *)

From Coq Require Import List Arith NArith Bool Lia.
From Verif.Mpt Require Import TrieModel TrieSpec TrieFacts TrieOpsProofs TrieHistory HashModel PruneSpec PartialProofs YellowSpec YellowProofs PartialProps.
Import ListNotations.
Local Open Scope nat_scope.

(** After any history of inserts and deletes, the root hash is TRIE(J) for any
    duplicate-free listing J of the resulting contents. *)
Theorem C45_root_is_yellow_paper_root : forall keccak K s ops t outs J,
  (forall b, length (keccak b) = 32) -> key_domain K -> Forall (fun o => K (op_key o)) ops ->
  (forall k v, fst (spec_run empty_map ops) k = Some v -> (N.of_nat (length v) < 2 ^ 60)%N) ->
  trie_run s Empty ops = Ok (t, outs) ->
  NoDup (map fst J) -> (forall k v, In (k, v) J <-> fst (spec_run empty_map ops) k = Some v) ->
  exists f0, forall f, f0 <= f -> hash_trie keccak t = yp_trie keccak f J.
Proof.
  intros keccak K s ops t outs J L D F V E ND HJ.
  destruct (run_represents K s ops Empty empty_map D (represents_empty K) F) as (t' & E' & R).
  rewrite E in E'. injection E' as <- ->. pose proof (represents_hash_free _ _ _ R) as HF. destruct R as (C & Lk & HK).
  exists (height t). intros f Hf. apply yp_root; auto.
  - apply canon_wf; auto. intros k x. rewrite Lk. destruct (fst (spec_run empty_map ops) k) as [v|] eqn:Em; [|discriminate].
    intros [= <-]. split; [|eauto]. apply HK in Em. now apply D in Em as [_ ?].
  - split; auto. intros k v. rewrite Lk, HJ. destruct (fst (spec_run empty_map ops) k); cbn; split; congruence.
Qed.
Print Assumptions C45_root_is_yellow_paper_root.

(** The hypotheses hold of a history with a delete, and both sides compute to the
    same hash. *)
Definition ex_J : pairs := [([1;2;7;0], val40 3); ([9;0;0;1], val40 8); ([1;2;3;5], val40 2); ([9;0;0;0], val40 4)].
Example ex_yellow : exists t outs, trie_run Reject Empty (ops0 ++ ops1) = Ok (t, outs) /\
  hash_trie toy t = yp_trie toy 10 ex_J /\ NoDup (map fst ex_J) /\
  (forall e, In e ex_J -> fst (spec_run empty_map (ops0 ++ ops1)) (fst e) = Some (snd e)) /\
  fst (spec_run empty_map (ops0 ++ ops1)) [1;2;3;4] = None.
Proof.
  do 2 eexists. split; [vm_compute; reflexivity|]. split; [vm_compute; reflexivity|].
  split; [repeat constructor; cbn; intuition discriminate|]. split; [|reflexivity].
  cbn. intros e [<-|[<-|[<-|[<-|[]]]]]; reflexivity.
Qed.
