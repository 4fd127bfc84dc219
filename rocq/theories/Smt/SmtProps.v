(** C14-C18 and C46-C48: the sparse Merkle tree. *)

From Coq Require Import List Arith NArith ZArith Lia Bool.
From Verif.Smt Require Import SmtModel SmtSpec KeyProofs SmtProofs SmtSetProofs SmtHistory SmtSerProofs SmtPartialProofs
  BitsModel CodeModel CodeSpec BitsProofs CodeProofs.
Import ListNotations.
Local Open Scope nat_scope.

(** ** A toy permutation for the concrete cases *)

Definition toy_mod : N := 2 ^ 61 - 1.
Definition toy_hash (a : N) (n : node) : N :=
  fold_left (fun acc e => (acc * a + e + 1) mod toy_mod)%N
    [e0 (n0 n); e1 (n0 n); e2 (n0 n); e3 (n0 n); e0 (n1 n); e1 (n1 n); e2 (n1 n); e3 (n1 n);
     e0 (n2 n); e1 (n2 n); e2 (n2 n); e3 (n2 n)] 0%N.
Definition toy (n : node) : quad :=
  Q (toy_hash 1000003 n) (toy_hash 7919 n) (toy_hash 104729 n) (toy_hash 15485863 n).

Lemma toy_valid : forall n, qvalid (toy n).
Proof.
  assert (H : forall a n, (toy_hash a n < 2 ^ 64)%N).
  { intros a n. unfold toy_hash. cbn [fold_left].
    match goal with |- (?x mod toy_mod < _)%N => pose proof (N.mod_lt x toy_mod ltac:(discriminate)) as L end.
    eapply N.lt_trans; [exact L|reflexivity]. }
  intros n. unfold toy, qvalid. cbn [e0 e1 e2 e3]. repeat split; apply H.
Qed.

(** Decides [separates]. *)
Definition sepb (pos : node -> quad) (ns : list node) : bool :=
  let hs := map (fun n => (pos n, n)) ns in
  forallb (fun e => negb (is_zero (fst e)) &&
                    forallb (fun f => implb (quad_eqb (fst e) (fst f)) (node_eqb (snd e) (snd f))) hs) hs.

Lemma node_eqb_eq : forall a b, node_eqb a b = true -> a = b.
Proof.
  intros [a0 a1 a2] [b0 b1 b2] H. unfold node_eqb in H. cbn [n0 n1 n2] in H. rewrite !andb_true_iff in H.
  destruct H as [[A B] C]. apply quad_eqb_eq in A, B, C. congruence.
Qed.

Lemma sepb_ok : forall pos ns, sepb pos ns = true -> separates pos ns.
Proof.
  intros pos ns H. unfold sepb in H. rewrite forallb_forall in H.
  assert (G : forall n, In n ns -> In (pos n, n) (map (fun n => (pos n, n)) ns)) by (intros n Hn; apply (in_map (fun n => (pos n, n))), Hn).
  split.
  - intros n m Hn Hm E. specialize (H _ (G n Hn)). apply andb_true_iff in H. destruct H as [_ H]. rewrite forallb_forall in H.
    specialize (H _ (G m Hm)). cbn [fst snd] in H. rewrite E, quad_eqb_refl in H. apply node_eqb_eq. exact H.
  - intros n Hn. specialize (H _ (G n Hn)). apply andb_true_iff in H. destruct H as [H _]. apply negb_true_iff, is_zero_neq in H. exact H.
Qed.

(** Keys sharing long path prefixes (path bits cycle through the four elements). *)
Definition kA : quad := Q 1 2 3 4.
Definition kB : quad := Q 1 2 3 5.
Definition kC : quad := Q 0 2 3 4.
Definition kD : quad := Q 1 2 3 6.
Definition ex_calls : list call :=
  [(kA, 10%N); (kB, 20%N); (kC, (2 ^ 255)%N); (kD, 7%N); (kB, 0%N); (kA, 11%N)].
Definition ex_other : list call := [(kD, 7%N); (kA, 11%N); (kC, 1%N); (kC, (2 ^ 255)%N)].

(** ** C14: keys and paths *)

Theorem C14_split_length : forall k, length (split k) = 256.
Proof. exact split_length. Qed.
Print Assumptions C14_split_length.

Theorem C14_join_split : forall k n, qvalid k -> n <= 252 ->
  exists r, remove_key_bits k n = Some r /\ join (firstn n (split k)) r = Some k.
Proof.
  intros k n Hk Hn. exists (rem k n). split; [apply remove_key_bits_rem, Hn|apply join_rem; assumption].
Qed.
Print Assumptions C14_join_split.

Theorem C14_split_injective : forall k k', qvalid k -> qvalid k' -> split k = split k' -> k = k'.
Proof. exact split_inj. Qed.
Print Assumptions C14_split_injective.

(** Prefix and remainder determine the key. *)
Theorem C14_remainder_injective : forall k k' n r, qvalid k -> qvalid k' ->
  firstn n (split k) = firstn n (split k') -> remove_key_bits k n = Some r -> remove_key_bits k' n = Some r -> k = k'.
Proof.
  intros k k' n r Hk Hk' Hf H H'. apply remove_key_bits_some in H, H'. destruct H as [Hn ->], H' as [_ H'].
  exact (rem_inj k k' n Hk Hk' Hn Hf H').
Qed.
Print Assumptions C14_remainder_injective.

(** The claim for every prefix length up to 256 is false: from 253 bits on both directions panic. *)
Theorem C14_long_prefix_refuted : exists k n, qvalid k /\ n <= 256 /\ remove_key_bits k n = None /\
  forall r, join (firstn n (split k)) r = None.
Proof.
  exists kA, 253. split; [vm_compute; repeat split|]. split; [lia|]. split; [vm_compute; reflexivity|].
  intros r. apply join_too_long. rewrite firstn_length, split_length. lia.
Qed.
Print Assumptions C14_long_prefix_refuted.

Example C14_case : remove_key_bits (Q 1 2 3 12) 13 = Some (Q 0 0 0 1) /\
  join (firstn 13 (split (Q 1 2 3 12))) (Q 0 0 0 1) = Some (Q 1 2 3 12).
Proof. split; [vm_compute; reflexivity|vm_compute; reflexivity]. Qed.

(** ** C15: [set]/[get] *)

Theorem C15_get : forall pos calls s k, Forall valid_call calls -> smt_run pos smt_default calls = Some s ->
  separates pos (hashed s) -> qvalid k ->
  (contents calls k <> 0%N -> get s k = Some (contents calls k)) /\
  (forall v, get s k = Some v -> v = contents calls k).
Proof.
  intros pos calls s k Hv Hrun HD Hk.
  destruct (run_inv pos (hashed s) calls s HD Hv Hrun ltac:(intros x Hx; exact Hx)) as (t & It & Pt & Ht).
  destruct (get_spec pos (hashed s) s t k It Hk) as (G1 & G2 & G3). split.
  - intros Hc. apply G1; [|exact Pt]. apply (inv_kv _ _ _ _ It). apply Ht. auto.
  - intros v Hg. rewrite (G2 v Hg). unfold kv_default. destruct (kv_get (kv_store s) k) as [w|] eqn:E.
    + apply (inv_kv _ _ _ _ It) in E. apply Ht in E. symmetry. apply E.
    + destruct (N.eq_dec (contents calls k) 0) as [Z|Z]; [auto|exfalso].
      assert (A : In (k, contents calls k) (leaves t)) by (apply Ht; auto).
      apply (inv_kv _ _ _ _ It) in A. congruence.
Qed.
Print Assumptions C15_get.

(** [set] succeeds as long as the keys differ early enough. *)
Theorem C15_set_total : forall pos calls s k v, Forall valid_call ((k, v) :: calls) ->
  smt_run pos smt_default calls = Some s -> separates pos (hashed s) -> spread (k :: map fst calls) ->
  exists s', set pos s k v = Some s'.
Proof.
  intros pos calls s k v Hv Hrun HD Hs. inversion Hv as [|? ? Hc Hv']; subst. apply valid_call_q in Hc. destruct Hc as [Hk Hval].
  destruct (run_inv pos (hashed s) calls s HD Hv' Hrun ltac:(intros x Hx; exact Hx)) as (t & It & Pt & Ht).
  assert (A : set pos s k v <> None).
  { apply (set_total pos (hashed s) s t k v (k :: map fst calls) It Pt Hk Hval); [|left; reflexivity|exact Hs].
    intros x w Hx. right. apply Ht in Hx. destruct Hx as [Hw Hx]. clear - Hw Hx. subst w.
    induction calls as [|c calls IH] using rev_ind; [cbn in Hw; congruence|]. rewrite contents_snoc in Hw. unfold upd in Hw.
    rewrite map_app, in_app_iff. destruct (quad_eqb x (fst c)) eqn:E; [apply quad_eqb_eq in E; subst; right; left; reflexivity|auto]. }
  destruct (set pos s k v) as [s'|]; [eauto|congruence].
Qed.
Print Assumptions C15_set_total.

Theorem C15_delete_is_set_zero : forall pos s k, delete pos s k = set pos s k 0.
Proof.
  intros pos s k. unfold delete, set. cbn [db kv_store root N.eqb].
  replace (kv_remove (kv_remove (kv_store s) k) k) with (kv_remove (kv_store s) k); [reflexivity|].
  unfold kv_remove. induction (kv_store s) as [|e l IH]; [reflexivity|]. cbn [filter].
  destruct (negb (quad_eqb (fst e) k)) eqn:E; [cbn [filter]; rewrite E; f_equal; exact IH|exact IH].
Qed.
Print Assumptions C15_delete_is_set_zero.

(** "[get] of an absent key is zero" is false: on the empty tree, or where the path ends in an
    empty slot, it panics. *)
Theorem C15_get_absent_refuted : exists calls s k, Forall valid_call calls /\
  smt_run toy smt_default calls = Some s /\ separates toy (hashed s) /\ qvalid k /\
  contents calls k = 0%N /\ get s k = None /\ calls <> [].
Proof.
  eexists [(Q 1 0 0 0, 5%N); (Q 1 1 0 0, 6%N)], _, zero.
  split; [repeat constructor|]. split; [vm_compute; reflexivity|].
  split; [apply sepb_ok; vm_compute; reflexivity|]. split; [vm_compute; repeat split|].
  split; [vm_compute; reflexivity|]. split; [vm_compute; reflexivity|discriminate].
Qed.
Print Assumptions C15_get_absent_refuted.

(** Without [spread] the claim is false: keys that agree on 252 path bits make [set] panic. *)
Theorem C15_close_keys_refuted : exists s k v, valid_call (k, v) /\
  smt_run toy smt_default [(kA, 10%N)] = Some s /\ separates toy (hashed s) /\ set toy s k v = None.
Proof.
  eexists _, (Q 1 2 3 (4 + 2 ^ 63)), 1%N. split; [vm_compute; repeat split|].
  split; [vm_compute; reflexivity|]. split; [apply sepb_ok; vm_compute; reflexivity|vm_compute; reflexivity].
Qed.
Print Assumptions C15_close_keys_refuted.

Example C15_case : exists s, Forall valid_call ex_calls /\ smt_run toy smt_default ex_calls = Some s /\
  separates toy (hashed s) /\ qvalid kA /\ contents ex_calls kA = 11%N /\ get s kA = Some 11%N /\
  get s (Q 1 2 3 (4 + 2 ^ 50)) = Some 0%N /\ get s kC = Some (2 ^ 255)%N /\ get s kD = Some 7%N.
Proof.
  eexists. split; [repeat constructor|]. split; [vm_compute; reflexivity|].
  split; [apply sepb_ok; vm_compute; reflexivity|]. split; [vm_compute; repeat split|].
  repeat split; vm_compute; reflexivity.
Qed.

Lemma spread_ex : spread (kB :: map fst ex_other).
Proof.
  unfold spread. cbn [map fst ex_other]. intros k k' H H' E.
  cbn [In] in H, H'. repeat destruct H as [<-|H]; try contradiction; repeat destruct H' as [<-|H']; try contradiction;
    try reflexivity; vm_compute in E; discriminate E.
Qed.
Example C15_total_case : exists s, Forall valid_call ((kB, 3%N) :: ex_other) /\ smt_run toy smt_default ex_other = Some s /\
  separates toy (hashed s) /\ spread (kB :: map fst ex_other) /\ exists s', set toy s kB 3 = Some s'.
Proof.
  eexists. split; [repeat constructor|]. split; [vm_compute; reflexivity|].
  split; [apply sepb_ok; vm_compute; reflexivity|]. split; [exact spread_ex|]. eexists. vm_compute. reflexivity.
Qed.

(** ** C16: the root *)

Theorem C16_root_from_contents : forall pos calls calls' s s', Forall valid_call calls -> Forall valid_call calls' ->
  smt_run pos smt_default calls = Some s -> smt_run pos smt_default calls' = Some s' ->
  separates pos (hashed s) -> separates pos (hashed s') ->
  (forall k, contents calls k = contents calls' k) -> root s = root s'.
Proof.
  intros pos calls calls' s s' Hv Hv' Hr Hr' HD HD' Hc.
  destruct (run_inv pos (hashed s) calls s HD Hv Hr ltac:(intros x Hx; exact Hx)) as (t & It & Pt & Ht).
  destruct (run_inv pos (hashed s') calls' s' HD' Hv' Hr' ltac:(intros x Hx; exact Hx)) as (t' & It' & Pt' & Ht').
  rewrite (inv_root _ _ _ _ It), (inv_root _ _ _ _ It'). f_equal.
  apply (tree_unique t t' []); try apply It; try apply It'.
  - intros k v. rewrite (Ht k v), (Ht' k v), Hc. tauto.
  - intros x h. apply (plain_hashes t []) in Pt. apply (plain_hashes t' []) in Pt'. rewrite Pt, Pt'. tauto.
Qed.
Print Assumptions C16_root_from_contents.

(** The root binds the contents. *)
Theorem C16_root_binds_contents : forall pos calls calls' s s', Forall valid_call calls -> Forall valid_call calls' ->
  smt_run pos smt_default calls = Some s -> smt_run pos smt_default calls' = Some s' ->
  separates pos (hashed s ++ hashed s') -> root s = root s' ->
  forall k, contents calls k = contents calls' k.
Proof.
  intros pos calls calls' s s' Hv Hv' Hr Hr' HD Hroot k.
  assert (HD1 : separates pos (hashed s)) by (apply (separates_incl pos _ _ HD); intros x Hx; apply in_app_iff; auto).
  assert (HD2 : separates pos (hashed s')) by (apply (separates_incl pos _ _ HD); intros x Hx; apply in_app_iff; auto).
  destruct (run_inv pos (hashed s ++ hashed s') calls s HD Hv Hr ltac:(intros x Hx; apply in_app_iff; auto)) as (t & It & Pt & Ht).
  destruct (run_inv pos (hashed s ++ hashed s') calls' s' HD Hv' Hr' ltac:(intros x Hx; apply in_app_iff; auto)) as (t' & It' & Pt' & Ht').
  assert (E : t = t').
  { apply (thash_inj pos t t' (hashed s ++ hashed s') (hashed s) (hashed s') [] HD).
    - intros x Hx; apply in_app_iff; auto.
    - intros x Hx; apply in_app_iff; auto.
    - apply It.
    - apply It'.
    - apply It.
    - apply It'.
    - exact Pt.
    - exact Pt'.
    - cbn [length]. rewrite <- (inv_root _ _ _ _ It), <- (inv_root _ _ _ _ It'). exact Hroot. }
  subst t'.
  destruct (N.eq_dec (contents calls k) 0) as [Z|Z].
  - destruct (N.eq_dec (contents calls' k) 0) as [Z'|Z']; [congruence|].
    assert (A : In (k, contents calls' k) (leaves t)) by (apply Ht'; auto). apply Ht in A. tauto.
  - assert (A : In (k, contents calls k) (leaves t)) by (apply Ht; auto). apply Ht' in A. symmetry. tauto.
Qed.
Print Assumptions C16_root_binds_contents.

Example C16_case : exists s s', Forall valid_call ex_calls /\ Forall valid_call ex_other /\
  smt_run toy smt_default ex_calls = Some s /\ smt_run toy smt_default ex_other = Some s' /\
  separates toy (hashed s ++ hashed s') /\ root s = root s' /\ root s <> zero /\
  forall k, contents ex_calls k = contents ex_other k.
Proof.
  do 2 eexists. split; [repeat constructor|]. split; [repeat constructor|].
  split; [vm_compute; reflexivity|]. split; [vm_compute; reflexivity|].
  split; [apply sepb_ok; vm_compute; reflexivity|]. split; [vm_compute; reflexivity|].
  split; [vm_compute; discriminate|].
  intros k. unfold contents. cbn [fold_left ex_calls ex_other fst snd]. unfold upd.
  destruct (quad_eqb k kA) eqn:A, (quad_eqb k kB) eqn:B, (quad_eqb k kC) eqn:C, (quad_eqb k kD) eqn:D; try reflexivity;
    repeat match goal with H : quad_eqb k _ = true |- _ => apply quad_eqb_eq in H end;
    match goal with H : k = _, H' : k = _ |- _ => rewrite H in H'; vm_compute in H'; discriminate H' end.
Qed.

(** ** C17: serialization *)

Theorem C17_serialize_and_prune : forall pos calls s keys, (forall n, qvalid (pos n)) ->
  Forall valid_call calls -> smt_run pos smt_default calls = Some s -> separates pos (hashed s) ->
  exists v, serialize_and_prune s keys = Some v /\
    ((N.of_nat (length v) < 2 ^ 64)%N -> hash_serialize pos 257 v = Some (root s)) /\
    (forall k, In k keys -> qvalid k -> ser_lookup v 2 (split k) 0 k = Some (contents calls k)).
Proof.
  intros pos calls s keys Hp Hv Hrun HD.
  destruct (run_inv pos (hashed s) calls s HD Hv Hrun ltac:(intros x Hx; exact Hx)) as (t & It & Pt & Ht).
  assert (Hh : hvalid t).
  { intros p x Hx. apply (plain_hashes t p) in Pt. rewrite Pt in Hx. destruct Hx. }
  destruct (serialize_and_prune_spec pos Hp (hashed s) s t keys It Hh) as (v & S1 & S2 & S3).
  exists v. split; [exact S1|]. split; [intros L; apply S2; [exact L|lia]|].
  intros k Hin Hk. destruct (S3 k Pt Hin Hk) as (x & X1 & X2). rewrite X1. f_equal.
  destruct X2 as [[X2 X3]|[X2 ->]].
  - apply Ht in X2. symmetry. apply X2.
  - destruct (N.eq_dec (contents calls k) 0) as [Z|Z]; [auto|exfalso]. apply (X2 (contents calls k)). apply Ht. auto.
Qed.
Print Assumptions C17_serialize_and_prune.

(** [serialize] keeps every key of the contents. *)
Theorem C17_serialize : forall pos calls s, (forall n, qvalid (pos n)) ->
  Forall valid_call calls -> smt_run pos smt_default calls = Some s -> separates pos (hashed s) ->
  exists v, serialize s = Some v /\
    ((N.of_nat (length v) < 2 ^ 64)%N -> hash_serialize pos 257 v = Some (root s)) /\
    (forall k, qvalid k -> contents calls k <> 0%N -> ser_lookup v 2 (split k) 0 k = Some (contents calls k)).
Proof.
  intros pos calls s Hp Hv Hrun HD. unfold serialize.
  destruct (C17_serialize_and_prune pos calls s (map fst (kv_store s)) Hp Hv Hrun HD) as (v & S1 & S2 & S3).
  exists v. split; [exact S1|]. split; [exact S2|]. intros k Hk Hc. apply S3; [|exact Hk].
  destruct (run_inv pos (hashed s) calls s HD Hv Hrun ltac:(intros x Hx; exact Hx)) as (t & It & Pt & Ht).
  apply kv_get_in. rewrite (proj2 (inv_kv _ _ _ _ It k (contents calls k))); [discriminate|]. apply Ht. auto.
Qed.
Print Assumptions C17_serialize.

(** Trees with hash nodes. *)
Theorem C17_tree_with_hash_nodes : forall pos hs calls sh s keys, (forall n, qvalid (pos n)) ->
  Forall valid_call calls -> hash_positions_ok hs ->
  hash_run pos smt_default hs = Some sh -> smt_run pos sh calls = Some s -> separates pos (hashed s) ->
  (forall p h, In (p, h) hs -> length p <= 256 /\ h <> zero /\ qvalid h /\ forall n, In n (hashed s) -> pos n <> h) ->
  exists v, serialize_and_prune s keys = Some v /\
    ((N.of_nat (length v) < 2 ^ 64)%N -> hash_serialize pos 257 v = Some (root s)).
Proof.
  intros pos hs calls sh s keys Hp Hv Hok Hrh Hrun HD Hhs.
  destruct (hash_run_inv pos (hashed s) hs sh HD Hok) as (th & Ih & _ & Hh); auto.
  { intros p h Hin. destruct (Hhs p h Hin) as (A & B & _ & C). auto. }
  { apply (run_grows pos calls). exact Hrun. }
  destruct (run_inv_from pos (hashed s) calls sh th s Hv Ih Hrun ltac:(intros x Hx; exact Hx)) as (t & It & Ht).
  assert (Hval : hvalid t).
  { assert (G : forall t p q x, In x (hashes p t) -> exists y, In y (hashes q t) /\ snd y = snd x).
    { clear. induction t as [|k v|l IHl r IHr|big h]; intros p q x Hx; cbn [hashes] in *; try contradiction.
      - apply in_app_iff in Hx. destruct Hx as [Hx|Hx].
        + destruct (IHl _ (q ++ [false]) _ Hx) as (y & A & B). exists y. rewrite in_app_iff. auto.
        + destruct (IHr _ (q ++ [true]) _ Hx) as (y & A & B). exists y. rewrite in_app_iff. auto.
      - destruct Hx as [<-|[]]. exists (q, (big, h)). cbn. auto. }
    intros p x Hx. destruct (G t p [] x Hx) as (y & Hy & Ey). rewrite <- Ey. apply Ht, Hh in Hy.
    destruct Hy as (p' & h' & -> & Hin). cbn [snd]. apply (Hhs p' h' Hin). }
  destruct (serialize_and_prune_spec pos Hp (hashed s) s t keys It Hval) as (v & S1 & S2 & _).
  exists v. split; [exact S1|]. intros L. apply S2; [exact L|lia].
Qed.
Print Assumptions C17_tree_with_hash_nodes.

Example C17_case : exists s v, smt_run toy smt_default ex_calls = Some s /\ separates toy (hashed s) /\
  serialize_and_prune s [kB; kD] = Some v /\ length v = 33 /\ hash_serialize toy 257 v = Some (root s) /\
  ser_lookup v 2 (split kD) 0 kD = Some 7%N /\ ser_lookup v 2 (split kB) 0 kB = Some 0%N /\
  ser_lookup v 2 (split kC) 0 kC = None.
Proof.
  do 2 eexists. split; [vm_compute; reflexivity|]. split; [apply sepb_ok; vm_compute; reflexivity|].
  split; [vm_compute; reflexivity|]. split; [vm_compute; reflexivity|]. split; [vm_compute; reflexivity|].
  split; [vm_compute; reflexivity|]. split; [vm_compute; reflexivity|vm_compute; reflexivity].
Qed.

(** ** C18: bytecode padding and hash *)

Theorem C18_pad_length : forall code, length (poseidon_pad_byte_vec code) mod 56 = 0 /\
  length code < length (poseidon_pad_byte_vec code) <= length code + 56 /\
  firstn (length code) (poseidon_pad_byte_vec code) = code.
Proof.
  intros code. rewrite pad_length. split; [rewrite Nat.mul_comm; apply Nat.mod_mul; discriminate|].
  split.
  - pose proof (Nat.div_mod (length code) 56 ltac:(discriminate)). pose proof (Nat.mod_upper_bound (length code) 56 ltac:(discriminate)). lia.
  - rewrite pad_eq. destruct (padn (length code)); rewrite firstn_app, Nat.sub_diag, firstn_all; cbn [firstn]; rewrite ?firstn_O, app_nil_r; reflexivity.
Qed.
Print Assumptions C18_pad_length.

Theorem C18_pad_injective : forall a b, poseidon_pad_byte_vec a = poseidon_pad_byte_vec b -> a = b.
Proof. exact pad_inj. Qed.
Print Assumptions C18_pad_injective.

Theorem C18_hash_injective : forall pos a b, is_bytes a -> is_bytes b ->
  separates pos (code_states pos a ++ code_states pos b) ->
  hash_contract_bytecode pos a = hash_contract_bytecode pos b -> a = b.
Proof. exact code_hash_inj. Qed.
Print Assumptions C18_hash_injective.

(** Every element absorbed is below 2^56, so [from_canonical_u64] gets a canonical value. *)
Theorem C18_elements_canonical : forall pos code n, is_bytes code -> In n (code_states pos code) ->
  forall i, (i < 4)%nat -> (elt (n0 n) i < 2 ^ 56)%N /\ (elt (n1 n) i < 2 ^ 56)%N.
Proof.
  intros pos code n Hb Hn i Hi. unfold code_states in Hn.
  pose proof (chunks_spec _ (length (poseidon_pad_byte_vec code)) _ (pad_length code) ltac:(rewrite pad_length; pose proof (Nat.le_0_l (length code / 56)); lia) (pad_bytes code Hb)) as (_ & _ & F).
  revert Hn. generalize zero. induction F as [|b bs [Lb Bb] F IH]; intros c Hn; cbn [absorbed In] in Hn; [contradiction|].
  destruct Hn as [<-|Hn]; [|exact (IH _ Hn)].
  assert (G : forall j, j < 8 -> (block_elt b j < 2 ^ 56)%N).
  { intros j Hj. unfold block_elt. pose proof (le_bytes_lt (firstn 7 (skipn (7 * j) b)) (bytes_firstn _ _ (bytes_skipn _ _ Bb))) as L.
    rewrite firstn_length, skipn_length in L. replace (Nat.min 7 (length b - 7 * j)) with 7 in L by lia. exact L. }
  destruct i as [|[|[|[|i]]]]; try lia; split; cbn [absorb n0 n1 block_lo block_hi elt e0 e1 e2 e3]; apply G; lia.
Qed.
Print Assumptions C18_elements_canonical.

Example C18_case : is_bytes (repeat 255%N 55) /\ length (poseidon_pad_byte_vec (repeat 255%N 55)) = 56 /\
  length (poseidon_pad_byte_vec (repeat 255%N 56)) = 112 /\
  separates toy (code_states toy (repeat 255%N 55) ++ code_states toy (repeat 255%N 55 ++ [1%N])) /\
  hash_contract_bytecode toy (repeat 255%N 55) <> hash_contract_bytecode toy (repeat 255%N 55 ++ [1%N]).
Proof.
  split; [repeat constructor|]. split; [vm_compute; reflexivity|]. split; [vm_compute; reflexivity|].
  split; [apply sepb_ok; vm_compute; reflexivity|]. vm_compute. discriminate.
Qed.

(** ** C46: a partial tree stands for the full tree *)

(** A tree built from hash nodes and [set] calls whose root is the root of the full tree
    gives, call by call, the roots of the full tree and only values of the full tree. *)
Theorem C46_partial_tree_faithful : forall pos hs calls0 calls1 calls sh s0 s1 s0' s1',
  Forall valid_call calls0 -> Forall valid_call calls1 -> Forall valid_call calls ->
  hash_positions_ok hs ->
  hash_run pos smt_default hs = Some sh -> smt_run pos sh calls0 = Some s0 ->
  smt_run pos smt_default calls1 = Some s1 ->
  root s0 = root s1 ->
  smt_run pos s0 calls = Some s0' -> smt_run pos s1 calls = Some s1' ->
  separates pos (hashed s0' ++ hashed s1') ->
  (forall p h, In (p, h) hs -> length p <= 256 /\ h <> zero /\ forall n, In n (hashed s0') -> pos n <> h) ->
  root s0' = root s1' /\
  (forall k v, qvalid k -> get s0' k = Some v -> contents (calls1 ++ calls) k = v).
Proof. exact partial_faithful. Qed.
Print Assumptions C46_partial_tree_faithful.

(** The full tree of [ex_other]; the partial one has a hash in place of [kC]'s subtree. *)
Definition ex_hash : quad := Eval vm_compute in
  match smt_run toy smt_default [(kC, (2 ^ 255)%N); (kA, 1%N)] with
  | Some s => match get_node (db s) (root s) with Some n => n0 n | None => zero end
  | None => zero
  end.
Example C46_case : exists sh s0 s1 s0' s1',
  Forall valid_call [(kD, 7%N); (kA, 11%N)] /\ hash_positions_ok [([false], ex_hash)] /\
  hash_run toy smt_default [([false], ex_hash)] = Some sh /\
  smt_run toy sh [(kD, 7%N); (kA, 11%N)] = Some s0 /\ smt_run toy smt_default ex_other = Some s1 /\
  root s0 = root s1 /\
  smt_run toy s0 [(kB, 9%N); (kD, 0%N)] = Some s0' /\ smt_run toy s1 [(kB, 9%N); (kD, 0%N)] = Some s1' /\
  separates toy (hashed s0' ++ hashed s1') /\
  (forall p h, In (p, h) [([false], ex_hash)] -> length p <= 256 /\ h <> zero /\ forall n, In n (hashed s0') -> toy n <> h) /\
  root s0' = root s1' /\ root s0' <> root s0 /\ get s0' kB = Some 9%N /\ get s0' kC = None.
Proof.
  do 5 eexists. split; [repeat constructor|]. split; [split; [intros ? ? []|exact Logic.I]|].
  split; [vm_compute; reflexivity|]. split; [vm_compute; reflexivity|]. split; [vm_compute; reflexivity|].
  split; [vm_compute; reflexivity|]. split; [vm_compute; reflexivity|]. split; [vm_compute; reflexivity|].
  split; [apply sepb_ok; vm_compute; reflexivity|]. split.
  { intros p h [E|[]]. inversion E; subst. split; [cbn; lia|]. split; [vm_compute; discriminate|].
    intros n Hn. assert (G : forallb (fun m => negb (quad_eqb (toy m) ex_hash)) (hashed
      match smt_run toy match smt_run toy match hash_run toy smt_default [([false], ex_hash)] with Some s => s | None => smt_default end
        [(kD, 7%N); (kA, 11%N)] with Some s => s | None => smt_default end [(kB, 9%N); (kD, 0%N)] with Some s => s | None => smt_default end) = true)
      by (vm_compute; reflexivity).
    rewrite forallb_forall in G. apply quad_eqb_neq, negb_true_iff, G. vm_compute. vm_compute in Hn. exact Hn. }
  split; [vm_compute; reflexivity|]. split; [vm_compute; discriminate|].
  split; [vm_compute; reflexivity|vm_compute; reflexivity].
Qed.

(** [set_hash] below an existing hash node is accepted and forgets that node: the root is the one
    of the tree without it. *)
Theorem C46_nested_hash_refuted : exists s s' s'' h h' p, h <> zero /\
  set_hash toy smt_default p h = Some s /\ set_hash toy s (p ++ [false]) h' = Some s' /\
  set_hash toy smt_default (p ++ [false]) h' = Some s'' /\ root s' = root s''.
Proof.
  eexists _, _, _, (Q 5 6 7 8), (Q 9 10 11 12), [true]. split; [discriminate|].
  split; [vm_compute; reflexivity|]. split; [vm_compute; reflexivity|]. split; [vm_compute; reflexivity|vm_compute; reflexivity].
Qed.
Print Assumptions C46_nested_hash_refuted.

(** ** C47: packed bits *)

Theorem C47_push_pop : forall b x, bits_wf b -> (count b < 256)%nat ->
  bits_list (push_bit b x) = bits_list b ++ [x] /\ bits_wf (push_bit b x) /\ pop_next_bit (push_bit b x) = Some (x, b).
Proof.
  intros b x Hb Hc. rewrite (wf_pack b Hb). rewrite <- bits_list_length in Hc. rewrite push_pack by exact Hc.
  rewrite !bits_list_pack, pop_pack. split; [reflexivity|]. split; [|reflexivity].
  apply pack_wf. rewrite app_length. cbn [length]. lia.
Qed.
Print Assumptions C47_push_pop.

Theorem C47_pop : forall b x b', bits_wf b -> pop_next_bit b = Some (x, b') ->
  bits_list b = bits_list b' ++ [x] /\ bits_wf b'.
Proof.
  intros b x b' Hb. rewrite (wf_pack b Hb). destruct Hb as [_ Hc]. rewrite <- bits_list_length in Hc.
  destruct (bits_list b) as [|y l _] using rev_ind; [discriminate|]. rewrite pop_pack. intros H. inversion H; subst.
  rewrite !bits_list_pack. split; [reflexivity|]. apply pack_wf. rewrite app_length in Hc. lia.
Qed.
Print Assumptions C47_pop.

Theorem C47_get_bit : forall b i, bits_wf b -> get_bit b i = nth_error (bits_list b) i.
Proof.
  intros b i Hb. rewrite (wf_pack b Hb). destruct Hb as [_ Hc]. rewrite <- bits_list_length in Hc.
  rewrite bits_list_pack. destruct (le_lt_dec (length (bits_list b)) i) as [L|L].
  - rewrite (proj2 (nth_error_None _ _) L). unfold get_bit, pack. cbn [count packed].
    destruct (i <? length (bits_list b)) eqn:E; [apply Nat.ltb_lt in E; lia|reflexivity].
  - rewrite get_pack by assumption. symmetry. apply nth_error_nth'. exact L.
Qed.
Print Assumptions C47_get_bit.

Theorem C47_add : forall a b, bits_wf a -> bits_wf b ->
  match add a b with
  | Some c => bits_list c = bits_list a ++ bits_list b /\ bits_wf c
  | None => (256 < count a + count b)%nat
  end.
Proof.
  intros a b Ha Hb. destruct (le_lt_dec (count a + count b) 256) as [L|L].
  - rewrite (wf_pack a Ha), (wf_pack b Hb). rewrite <- (bits_list_length a), <- (bits_list_length b) in L.
    rewrite add_pack by exact L. rewrite !bits_list_pack. split; [reflexivity|]. apply pack_wf. rewrite app_length. exact L.
  - unfold add. destruct (count a + count b <=? 256)%nat eqn:E; [apply Nat.leb_le in E; lia|exact L].
Qed.
Print Assumptions C47_add.

Theorem C47_common_prefix : forall a b, bits_wf a -> bits_wf b ->
  match common_prefix a b with
  | Some (p, None) =>
      (bits_list p = bits_list a /\ exists r, bits_list b = bits_list p ++ r) \/
      (bits_list p = bits_list b /\ exists r, bits_list a = bits_list p ++ r)
  | Some (p, Some (x, y)) => x <> y /\ exists ra rb,
      bits_list a = bits_list p ++ x :: ra /\ bits_list b = bits_list p ++ y :: rb
  | None => False
  end.
Proof.
  intros a b Ha Hb. rewrite (wf_pack a Ha), (wf_pack b Hb).
  destruct (common_prefix_pack (bits_list a) (bits_list b)) as [(p & -> & H)|(p & x & y & ra & rb & -> & Hne & H1 & H2)].
  - rewrite !bits_list_pack. exact H.
  - rewrite !bits_list_pack. split; [exact Hne|]. exists ra, rb. auto.
Qed.
Print Assumptions C47_common_prefix.

(** [push_bit] on 256 bits drops the first bit without complaint. *)
Theorem C47_push_overflow_refuted : exists b x, bits_wf b /\ bits_list (push_bit b x) <> bits_list b ++ [x].
Proof.
  exists (from_u256 (2 ^ 255)), true. split; [split; [reflexivity|cbn; lia]|]. vm_compute. discriminate.
Qed.
Print Assumptions C47_push_overflow_refuted.

Example C47_case : exists a b p, bits_wf a /\ bits_wf b /\ bits_list a = [true; false; true; true] /\
  bits_list b = [true; false; false; true; false] /\ common_prefix a b = Some (p, Some (true, false)) /\ bits_list p = [true; false].
Proof.
  exists (Bits 4 11), (Bits 5 18). eexists. split; [split; [reflexivity|cbn; lia]|]. split; [split; [reflexivity|cbn; lia]|].
  split; [reflexivity|]. split; [reflexivity|]. split; [vm_compute; reflexivity|vm_compute; reflexivity].
Qed.

(** ** C48: account entries have distinct keys *)

Theorem C48_entry_keys_distinct : forall pos e e', entry_valid e -> entry_valid e' ->
  separates pos (entry_states pos e ++ entry_states pos e') -> entry_key pos e = entry_key pos e' -> e = e'.
Proof. exact entry_key_inj. Qed.
Print Assumptions C48_entry_keys_distinct.

Definition ex_addr : list N := repeat 0%N 19 ++ [9%N].
Example C48_case : entry_valid (Storage ex_addr 5) /\ entry_valid (Storage ex_addr (2 ^ 32 * 5)) /\ entry_valid (Balance ex_addr) /\
  separates toy (entry_states toy (Storage ex_addr 5) ++ entry_states toy (Storage ex_addr (2 ^ 32 * 5))) /\
  entry_key toy (Storage ex_addr 5) <> entry_key toy (Storage ex_addr (2 ^ 32 * 5)).
Proof.
  split; [vm_compute; repeat constructor|]. split; [vm_compute; repeat constructor|]. split; [vm_compute; repeat constructor|].
  split; [apply sepb_ok; vm_compute; reflexivity|]. vm_compute. discriminate.
Qed.
