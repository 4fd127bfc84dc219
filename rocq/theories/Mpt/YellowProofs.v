(** The model's root hash is the Yellow Paper's. *)

From Coq Require Import List Arith NArith ZArith Bool Lia ZifyN ZifyNat ZifyBool.
From Verif.Mpt Require Import TrieModel TrieSpec TrieFacts TrieOpsProofs TrieHistory NibblesModel HexPrefixProofs HashModel PruneSpec RlpProofs PartialProofs YellowSpec.
Import ListNotations.
Local Open Scope nat_scope.

(** ** RLP *)
Lemma drop_zeros_app a b : drop_zeros (a ++ b) = match drop_zeros a with [] => drop_zeros b | d => d ++ b end.
Proof.
  induction a as [|x a IH]; cbn; auto. destruct x; auto.
Qed.

Lemma be_bytes_min l : forall x, (x < 256 ^ N.of_nat l)%N -> drop_zeros (be_bytes l x) = be_min l x.
Proof.
  induction l as [|l IH]; intros x H; [reflexivity|].
  rewrite Nat2N.inj_succ, N.pow_succ_r' in H. cbn [be_bytes be_min]. rewrite drop_zeros_app, IH by (apply N.div_lt_upper_bound; lia).
  destruct (N.eqb_spec x 0) as [->|Nx].
  - destruct l; reflexivity.
  - destruct (be_min l (x / 256)) as [|y r] eqn:E.
    + assert (Z : (x / 256 = 0)%N).
      { destruct l as [|l].
        - apply N.div_small. lia.
        - cbn [be_min] in E. destruct (N.eqb_spec (x / 256) 0) as [|Ne]; auto. destruct (be_min l (x / 256 / 256)); discriminate. }
      assert (x mod 256 <> 0)%N by (pose proof (N.div_mod' x 256); lia).
      cbn. destruct (x mod 256)%N; [congruence|reflexivity].
    + reflexivity.
Qed.

Lemma len_bytes_BE n : (N.of_nat n < 2 ^ 64)%N -> len_bytes n = BE n.
Proof. intros H. unfold len_bytes, BE. apply be_bytes_min. exact H. Qed.

Lemma leb_ltb_55 n : (n <=? 55) = (n <? 56).
Proof. destruct (Nat.leb_spec n 55), (Nat.ltb_spec n 56); auto; lia. Qed.

Lemma rlp_bytes_Rb b : (N.of_nat (length b) < 2 ^ 64)%N -> rlp_bytes b = R_b b.
Proof.
  intros H. destruct b as [|x [|y b]]; auto. unfold rlp_bytes, R_b. now rewrite leb_ltb_55, len_bytes_BE.
Qed.
Lemma rlp_list_Rl b : (N.of_nat (length b) < 2 ^ 64)%N -> rlp_list b = R_l b.
Proof. intros H. unfold rlp_list, R_l. now rewrite leb_ltb_55, len_bytes_BE. Qed.

Lemma pack_pack l : pack l = pack_pairs l.
Proof.
  induction l as [|a|a b l IH] using list_ind2; auto. cbn [pack pack_pairs]. rewrite IH. f_equal. lia.
Qed.
Lemma hp_HP t l : hp_spec t l = HP l t.
Proof.
  unfold hp_spec, HP. destruct (Nat.even (length l)) eqn:E.
  - cbn [pack]. rewrite pack_pack. destruct t; reflexivity.
  - destruct l as [|a l]; [discriminate|]. cbn [pack]. rewrite pack_pack. f_equal. destruct t; lia.
Qed.

(** ** Longest common prefixes *)
Lemma lcp_prefix_l a : forall b, exists c, a = lcp a b ++ c.
Proof.
  induction a as [|x a IH]; intros [|y b]; cbn; try (now eexists).
  destruct (x =? y); [|now eexists]. destruct (IH b) as (c & Ec). exists c. cbn. now rewrite <- Ec.
Qed.
Lemma lcp_prefix_r a : forall b, exists c, b = lcp a b ++ c.
Proof.
  induction a as [|x a IH]; intros [|y b]; cbn; try (now eexists).
  destruct (Nat.eqb_spec x y) as [->|]; [|now eexists]. destruct (IH b) as (c & Ec). exists c. cbn. now rewrite <- Ec.
Qed.
Lemma lcp_glb p a b : lcp (p ++ a) (p ++ b) = p ++ lcp a b.
Proof. induction p as [|x p IH]; cbn; auto. now rewrite Nat.eqb_refl, IH. Qed.

Lemma lcps_prefix J k v : In (k, v) J -> is_prefix (lcps J) k.
Proof.
  induction J as [|[k0 v0] J IH]; [intros []|]. destruct J as [|e J].
  - intros [[= <- <-]|[]]. exists []. now rewrite app_nil_r.
  - intros H. change (lcps ((k0, v0) :: e :: J)) with (lcp k0 (lcps (e :: J))). destruct H as [[= <- <-]|H].
    + apply lcp_prefix_l.
    + destruct (IH H) as (c & E). destruct (lcp_prefix_r k0 (lcps (e :: J))) as (d & Ed).
      exists (d ++ c). rewrite app_assoc, <- Ed. exact E.
Qed.

Lemma lcps_lower J p : J <> [] -> (forall k v, In (k, v) J -> is_prefix p k) -> is_prefix p (lcps J).
Proof.
  induction J as [|[k0 v0] J IH]; [congruence|]. intros _ H. destruct J as [|e J].
  - apply (H k0 v0). now left.
  - change (lcps ((k0, v0) :: e :: J)) with (lcp k0 (lcps (e :: J))).
    destruct (H k0 v0) as (c & ->); [now left|]. destruct IH as (d & ->); [discriminate|intros k v Hk; apply (H k v); now right|].
    rewrite lcp_glb. now exists (lcp c d).
Qed.

Lemma lcps_exact J p i j a b v w : i <> j -> (forall k v, In (k, v) J -> is_prefix p k) ->
  In (p ++ i :: a, v) J -> In (p ++ j :: b, w) J -> lcps J = p.
Proof.
  intros Nij H Hi Hj. destruct (lcps_lower J p) as (c & E); auto; [intros ->; destruct Hi|]. rewrite E.
  apply lcps_prefix in Hi as (x & Hi). apply lcps_prefix in Hj as (y & Hj). rewrite E, <- app_assoc in Hi, Hj.
  apply app_inv_head in Hi, Hj. destruct c as [|z c]; [now rewrite app_nil_r|]. cbn in *. congruence.
Qed.

(** ** Selecting pairs *)
Lemma in_select i J k v : In (k, v) (select i J) <-> In (i :: k, v) J.
Proof.
  unfold select. rewrite in_flat_map. split.
  - intros ([k0 v0] & H & S). cbn in S. destruct k0 as [|x k0]; [destruct S|].
    destruct (Nat.eqb_spec x i) as [->|]; [|destruct S]. destruct S as [[= <- <-]|[]]. exact H.
  - intros H. exists (i :: k, v). split; auto. cbn. rewrite Nat.eqb_refl. now left.
Qed.
Lemma nodup_select i J : NoDup (map fst J) -> NoDup (map fst (select i J)).
Proof.
  induction J as [|[k v] J IH]; intros N; cbn; [constructor|]. inversion N as [|? ? N1 N2]; subst. cbn in N1. rewrite map_app.
  destruct k as [|x k]; [now apply IH|]. destruct (Nat.eqb_spec x i) as [->|]; cbn; [|now apply IH].
  constructor; [|now apply IH]. intros H. apply in_map_iff in H as ([k' v'] & E & H). cbn in E. subst k'.
  apply in_select in H. apply N1. now apply (in_map fst) in H.
Qed.
Lemma in_drop p J : (forall k v, In (k, v) J -> is_prefix p k) -> forall k v,
  In (k, v) (drop (length p) J) <-> In (p ++ k, v) J.
Proof.
  intros H k v. unfold drop. rewrite in_map_iff. split.
  - intros ([k0 v0] & [= <- <-] & I). destruct (H _ _ I) as (c & ->). now rewrite skipn_app_exact.
  - intros I. exists (p ++ k, v). cbn. now rewrite skipn_app_exact.
Qed.
Lemma nodup_drop p J : (forall k v, In (k, v) J -> is_prefix p k) -> NoDup (map fst J) -> NoDup (map fst (drop (length p) J)).
Proof.
  intros H. induction J as [|[k v] J IH]; intros N; cbn; [constructor|]. inversion N as [|? ? N1 N2]; subst. cbn in N1.
  assert (HJ : forall k v, In (k, v) J -> is_prefix p k) by (intros k' v' I; apply (H k' v'); now right).
  constructor; [|now apply IH]. intros I. apply in_map_iff in I as ([k' v'] & E & I). cbn in E. subst k'.
  apply in_drop in I; auto. destruct (H k v) as (c & ->); [now left|]. rewrite skipn_app_exact in I.
  apply N1. now apply (in_map fst) in I.
Qed.

Fixpoint height (n : node) : nat :=
  match n with
  | Branch ch _ => S (list_max (map height ch))
  | Ext _ c => S (height c)
  | _ => 1
  end.

Lemma flat_map_seq {A B} (f : A -> list B) (g : nat -> list B) l : forall b,
  (forall i c, nth_error l i = Some c -> g (b + i) = f c) -> flat_map f l = flat_map g (seq b (length l)).
Proof.
  induction l as [|x l IH]; intros b H; cbn; auto. rewrite <- (H 0 x) by reflexivity. rewrite Nat.add_0_r. f_equal.
  apply IH. intros i c E. replace (S b + i) with (b + S i) by lia. now apply H.
Qed.

Section Keccak.
Variable keccak : list N -> list N.
Hypothesis keccak_length : forall b, length (keccak b) = 32.

Definition yn (f : nat) (J : pairs) : list N :=
  match J with
  | [] => R_b []
  | _ => let c := yp_c keccak f J in if length c <? 32 then c else R_b (keccak c)
  end.

Lemma yp_c_S f J : yp_c keccak (S f) J =
  match J with
  | [(k, v)] => R_l (R_b (HP k true) ++ R_b v)
  | _ =>
      match lcps J with
      | [] => R_l (flat_map (fun i => yn f (select i J)) (seq 0 16) ++ R_b (value_here J))
      | p => R_l (R_b (HP p false) ++ yn f (drop (length p) J))
      end
  end.
Proof. reflexivity. Qed.

Definition lists (J : pairs) (n : node) : Prop :=
  NoDup (map fst J) /\ forall k v, In (k, v) J <-> look n k = Some (Val v).

Lemma yn_ok c f J : wf_node c -> hash_free c -> canon c -> lists J c ->
  (c <> Empty -> yp_c keccak f J = node_rlp keccak c) -> yn f J = append_to_stream (encode keccak c).
Proof.
  intros W HF C [ND L] E. rewrite encode_rlp.
  assert (D : c = Empty \/ c <> Empty) by (destruct c; auto; right; discriminate). destruct D as [->|NE].
  - destruct J as [|[k v] J]; [reflexivity|]. exfalso. destruct (L k v) as [L1 _]. discriminate L1. now left.
  - destruct (canon_nonempty c C NE) as (k & x & Lk).
    destruct x as [v|h]; [|now apply HF in Lk]. apply L in Lk. destruct J as [|e J]; [destruct Lk|].
    unfold yn. rewrite (E NE).
    assert (R : hash_bytes_if_large_enough keccak (node_rlp keccak c) = encode keccak c).
    { rewrite encode_rlp. destruct c; auto. now apply hash_free_not_hash in HF. }
    rewrite <- encode_rlp, <- R. unfold hash_bytes_if_large_enough.
    destruct (Nat.ltb_spec (length (node_rlp keccak c)) 32), (Nat.leb_spec 32 (length (node_rlp keccak c))); try lia; auto.
    cbn [append_to_stream]. rewrite rlp_bytes_Rb; auto. rewrite keccak_length. reflexivity.
Qed.

Lemma yp_node n : forall f J, wf_node n -> hash_free n -> canon n -> lists J n -> n <> Empty -> height n <= f ->
  yp_c keccak f J = node_rlp keccak n.
Proof.
  induction n as [|h|ch v IH|ns c IH|ns v] using node_ind'; intros f J W HF C [ND L] NE Hf; cbn [height] in Hf.
  - congruence.
  - now apply hash_free_not_hash in HF.
  - destruct f as [|f]; [lia|]. rewrite yp_c_S. pose proof C as C0. apply canon_branch_inv in C as (-> & Lc & Cc & _).
    destruct (canon_branch_two ch C0) as (i & j & ki & kj & vi & vj & Nij & Li & Lj).
    destruct vi as [vi|h]; [|now apply HF in Li]. destruct vj as [vj|h]; [|now apply HF in Lj].
    apply L in Li. apply L in Lj.
    assert (EL : lcps J = []) by (apply (lcps_exact J [] i j ki kj vi vj); auto; intros; now eexists).
    assert (EV : value_here J = []).
    { unfold value_here. destruct (find _ J) as [[k w]|] eqn:Ef; auto. apply find_some in Ef as [I P]. destruct k; [|discriminate].
      apply L in I. discriminate I. }
    assert (EM : flat_map (fun i => yn f (select i J)) (seq 0 16) = flat_map (fun c => append_to_stream (encode keccak c)) ch).
    { symmetry. rewrite <- Lc. apply flat_map_seq. intros m c Hc. cbn.
      pose proof W as W0. apply wf_branch_inv in W0 as (_ & Wc & _). rewrite Forall_forall in Wc.
      pose proof (nth_error_In _ _ Hc) as Ic.
      assert (LJ : lists (select m J) c).
      { split; [now apply nodup_select|]. intros k v. rewrite in_select, L, look_branch, Hc. reflexivity. }
      apply yn_ok; auto; [eapply hash_free_child; eauto|eauto|]. intros Nc. apply (IH m c Hc); auto; [eapply hash_free_child; eauto|eauto|].
      assert (height c <= list_max (map height ch)); [|lia].
      pose proof (list_max_le (map height ch) (list_max (map height ch))) as [LM _]. specialize (LM (Nat.le_refl _)).
      rewrite Forall_forall in LM. apply LM. now apply in_map. }
    rewrite EM, EV, EL. cbn [node_rlp]. rewrite <- rlp_list_Rl, <- (rlp_bytes_Rb []) by (try reflexivity; exact (branch_payload keccak keccak_length ch [] W)).
    destruct J as [|[k w] [|e J]]; auto. destruct Li as [[= -> ->]|[]], Lj as [[= Ex]|[]]. congruence.
  - destruct f as [|f]; [lia|]. rewrite yp_c_S. pose proof C as C0. apply canon_ext_inv in C as (Nn & Nk & B & Cc).
    pose proof W as W0. apply wf_ext_inv in W0 as (Vk & Wc).
    destruct c as [|h|ch v|? ?|? ?]; try easy; [apply hash_free_ext in HF; now apply hash_free_not_hash in HF|].
    pose proof Cc as Cb. apply canon_branch_inv in Cc as (-> & _ & _ & _).
    destruct (canon_branch_two ch Cb) as (i & j & ki & kj & vi & vj & Nij & Li & Lj).
    pose proof (hash_free_ext _ _ HF) as HFc.
    destruct vi as [vi|h]; [|now apply HFc in Li]. destruct vj as [vj|h]; [|now apply HFc in Lj].
    rewrite <- (look_ext_app ns) in Li, Lj. apply L in Li. apply L in Lj.
    assert (HP' : forall k v, In (k, v) J -> is_prefix ns k).
    { intros k v I. apply L, look_ext_some in I as (k' & -> & _). now exists k'. }
    assert (EL : lcps J = ns) by (apply (lcps_exact J ns i j ki kj vi vj); auto).
    assert (LJ : lists (drop (length ns) J) (Branch ch [])).
    { split; [now apply nodup_drop|]. intros k v. rewrite in_drop, L, look_ext_app by auto. reflexivity. }
    rewrite EL. destruct ns as [|n0 ns']; [congruence|]. set (ns := n0 :: ns') in *.
    cbv zeta; rewrite (yn_ok (Branch ch []) f _ Wc HFc Cb LJ) by (intros _; apply IH; auto; [discriminate|cbn [height] in *; lia]).
    cbn [node_rlp]. rewrite hp_HP. rewrite <- (rlp_bytes_Rb (HP ns false)) by (rewrite <- hp_HP; apply hp_item; auto).
    rewrite <- rlp_list_Rl by (rewrite <- hp_HP; exact (ext_payload keccak keccak_length ns (Branch ch []) W)).
    destruct J as [|[k w] [|e J]]; auto. destruct Li as [[= -> ->]|[]], Lj as [[= Ex]|[]].
    apply app_inv_head in Ex. congruence.
  - destruct f as [|f]; [lia|]. rewrite yp_c_S. apply wf_leaf_inv in W as W0. destruct W0 as (Vk & Vv).
    assert (I : In (ns, v) J) by (apply L; cbn; now rewrite nibbles_eqb_refl).
    assert (A : forall k w, In (k, w) J -> k = ns /\ w = v).
    { intros k w Hk. apply L, look_leaf_some in Hk as [-> [= ->]]. auto. }
    assert (EJ : J = [(ns, v)]).
    { destruct J as [|[k w] J]; [destruct I|]. destruct (A k w) as [-> ->]; [now left|]. f_equal.
      destruct J as [|[k w] J]; auto. destruct (A k w) as [-> ->]; [right; now left|]. cbn in ND. inversion ND as [|? ? N1 _]. destruct N1. now left. }
    rewrite EJ. cbn [node_rlp]. rewrite hp_HP.
    rewrite <- (rlp_bytes_Rb (HP ns true)) by (rewrite <- hp_HP; apply hp_item; auto). rewrite <- (rlp_bytes_Rb v) by (apply (val_item keccak); auto).
    symmetry. apply rlp_list_Rl. rewrite <- hp_HP. exact (leaf_payload keccak keccak_length ns v W).
Qed.

Lemma yp_root n J f : wf_node n -> hash_free n -> canon n -> lists J n -> height n <= f ->
  hash_trie keccak n = yp_trie keccak f J.
Proof.
  intros W HF C LJ Hf. assert (D : n = Empty \/ n <> Empty) by (destruct n; auto; right; discriminate). destruct D as [->|NE].
  - destruct J as [|[k v] J]; [reflexivity|]. exfalso. destruct LJ as [_ L]. destruct (L k v) as [L1 _]. discriminate L1. now left.
  - rewrite root_rlp by (intros h ->; now apply hash_free_not_hash in HF).
    rewrite <- (yp_node n f J) by auto. destruct J as [|e J]; [|reflexivity].
    destruct (canon_nonempty n C NE) as (k & x & Lk). destruct x as [v|h]; [|now apply HF in Lk]. apply LJ in Lk. destruct Lk.
Qed.
End Keccak.
