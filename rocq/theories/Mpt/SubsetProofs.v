(** Proofs about trie subsets. *)

From Coq Require Import List Arith NArith Bool Lia.
From Verif.Mpt Require Import TrieModel TrieSpec TrieFacts TrieOpsProofs HashModel PruneSpec PruneProofs SubsetModel.
Import ListNotations.
Local Open Scope nat_scope.

Section TrackedInd.
  Variable P : tracked -> Prop.
  Hypothesis HE : forall u b, P (TEmpty u b).
  Hypothesis HH : forall u b, P (THash u b).
  Hypothesis HB : forall ch u b, (forall i c, nth_error ch i = Some c -> P c) -> P (TBranch ch u b).
  Hypothesis HX : forall c u b, P c -> P (TExt c u b).
  Hypothesis HL : forall u b, P (TLeaf u b).
  Lemma tracked_ind' : forall t, P t.
  Proof.
    fix self 1. intros [u b|u b|ch u b|c u b|u b].
    - apply HE.
    - apply HH.
    - apply HB. revert ch. fix go 1. intros [|x t] [|i] c H; cbn in H; try discriminate.
      + injection H as <-. apply self.
      + exact (go t i c H).
    - apply HX, self.
    - apply HL.
  Qed.
End TrackedInd.

(** [tr t n]: [t] tracks [n] (with any flags). *)
Inductive tr : tracked -> node -> Prop :=
| tr_empty b : tr (TEmpty Empty b) Empty
| tr_hash h b : tr (THash (Hash h) b) (Hash h)
| tr_branch tch ch v b : Forall2 tr tch ch -> tr (TBranch tch (Branch ch v) b) (Branch ch v)
| tr_ext tc ns c b : tr tc c -> tr (TExt tc (Ext ns c) b) (Ext ns c)
| tr_leaf ns v b : tr (TLeaf (Leaf ns v) b) (Leaf ns v).

Lemma tr_empty_inv u b n : tr (TEmpty u b) n -> u = Empty /\ n = Empty.
Proof. inversion 1; auto. Qed.
Lemma tr_hash_inv u b n : tr (THash u b) n -> exists h, u = Hash h /\ n = Hash h.
Proof. inversion 1; eauto. Qed.
Lemma tr_branch_inv tch u b n : tr (TBranch tch u b) n -> exists ch v, u = Branch ch v /\ n = Branch ch v /\ Forall2 tr tch ch.
Proof. inversion 1; eauto. Qed.
Lemma tr_ext_inv tc u b n : tr (TExt tc u b) n -> exists ns c, u = Ext ns c /\ n = Ext ns c /\ tr tc c.
Proof. inversion 1; eauto. Qed.
Lemma tr_leaf_inv u b n : tr (TLeaf u b) n -> exists ns v, u = Leaf ns v /\ n = Leaf ns v.
Proof. inversion 1; eauto. Qed.

Lemma track_tr n : tr (track n) n.
Proof.
  induction n as [|h|ch v IH|ns c IH|ns v] using node_ind'; cbn; constructor; auto.
  induction ch as [|x ch IHc]; cbn; constructor.
  - now apply (IH 0).
  - apply IHc. intros i c Hc. exact (IH (S i) c Hc).
Qed.

Definition upd_nth {A} (l : list A) i c := firstn i l ++ c :: skipn (S i) l.

Lemma mark_branch tch u b i k :
  mark (TBranch tch u b) (i :: k) =
  match nth_error tch i with
  | Some c => match mark c k with
              | SOk c' => SOk (TBranch (upd_nth tch i c') u true)
              | SErr => SErr
              | SPanic => SPanic
              end
  | None => SPanic
  end.
Proof.
  cbn [mark].
  assert (H : forall l, (fix at_child (ch : list tracked) (i : nat) {struct ch} : sub_res (list tracked) :=
     match ch with
     | [] => SPanic
     | c :: r => match i with
        | 0 => sbind (mark c k) (fun c' => SOk (c' :: r))
        | S i' => sbind (at_child r i') (fun r' => SOk (c :: r'))
        end
     end) l i = match nth_error l i with
        | Some c => match mark c k with SOk c' => SOk (firstn i l ++ c' :: skipn (S i) l) | SErr => SErr | SPanic => SPanic end
        | None => SPanic end).
  { induction i as [|i IH]; intros [|c l]; cbn [nth_error firstn skipn app]; try reflexivity.
    - rewrite IH. destruct (nth_error l i) as [t|]; [|reflexivity]. cbn [skipn]. destruct (mark t k); reflexivity. }
  rewrite H. destruct (nth_error tch i) as [t|]; [|reflexivity]. destruct (mark t k); reflexivity.
Qed.

Lemma nth_upd {A} (l : list A) : forall i c j x, nth_error l i = Some x ->
  nth_error (upd_nth l i c) j = if Nat.eqb j i then Some c else nth_error l j.
Proof.
  unfold upd_nth. induction l as [|y l IH]; intros i c j x E; [now destruct i|].
  destruct i as [|i]; cbn in *.
  - destruct j; reflexivity.
  - destruct j; cbn; auto. eapply IH; eauto.
Qed.

Lemma Forall2_upd {A B} (R : A -> B -> Prop) l : forall m i c, Forall2 R l m -> i < length l ->
  (forall y, nth_error m i = Some y -> R c y) -> Forall2 R (upd_nth l i c) m.
Proof.
  unfold upd_nth. induction l as [|x l IH]; intros m i c F L H; [cbn in L; lia|]. inversion F; subst. destruct i; cbn.
  - constructor; auto.
  - constructor; auto. apply IH; auto. cbn in L. lia.
Qed.

Lemma nth_error_length {A} (l : list A) i x : nth_error l i = Some x -> i < length l.
Proof. intros H. apply nth_error_Some. congruence. Qed.

Lemma Forall2_len {A B} (R : A -> B -> Prop) l m : Forall2 R l m -> length l = length m.
Proof. induction 1; cbn; auto. Qed.

Lemma mark_tr t : forall n k t', tr t n -> mark t k = SOk t' -> tr t' n.
Proof.
  induction t as [u b|u b|tch u b IH|tc u b IH|u b] using tracked_ind'; intros n k t' H E.
  - apply tr_empty_inv in H as [-> ->]. injection E as <-. constructor.
  - apply tr_hash_inv in H as (h & -> & ->). cbn in E. destruct k; [|discriminate]. injection E as <-. constructor.
  - apply tr_branch_inv in H as (ch & v & -> & -> & F). destruct k as [|i k].
    + injection E as <-. now constructor.
    + rewrite mark_branch in E. destruct (nth_error tch i) as [c|] eqn:Ec; [|discriminate].
      destruct (mark c k) as [c'| |] eqn:Em; try discriminate. injection E as <-. constructor.
      apply Forall2_upd; auto; [now apply nth_error_length in Ec|].
      intros y Ey. destruct (Forall2_nth _ _ _ _ _ F Ec) as (y' & Ey' & Ry). assert (y' = y) as -> by congruence. eauto.
  - apply tr_ext_inv in H as (ns & c & -> & -> & H). cbn [mark nibbles_expected] in E.
    destruct k as [|x k]; [injection E as <-; now constructor|].
    destruct (identical_up_to_smallest (x :: k) ns); [|injection E as <-; now constructor].
    destruct (_ <? _); [discriminate|]. destruct (mark tc _) eqn:Em; try discriminate. injection E as <-.
    constructor. eauto.
  - apply tr_leaf_inv in H as (ns & v & -> & ->). injection E as <-. constructor.
Qed.

Lemma mark_all_tr ks : forall t n t', tr t n -> mark_all t ks = SOk t' -> tr t' n.
Proof.
  induction ks as [|k ks IH]; intros t n t' H E; cbn in E; [congruence|].
  destruct (mark t k) eqn:Em; try discriminate. eapply IH; [|exact E]. eapply mark_tr; eauto.
Qed.

Section Keccak.
Variable keccak : list N -> list N.
Local Notation prunes := (prunes keccak).
Local Notation encode := (encode keccak).
Local Notation extract := (extract keccak).

Lemma hashed_away_prunes n b x : hashed_away keccak n b = Some x -> prunes x n.
Proof.
  unfold hashed_away. destruct b; [discriminate|]. destruct (encode n) eqn:E; [discriminate|].
  intros [= <-]. now constructor.
Qed.

Lemma extract_prunes t : forall n, tr t n -> prunes (extract t) n.
Proof.
  induction t as [u b|u b|tch u b IH|tc u b IH|u b] using tracked_ind'; intros n H; cbn [SubsetModel.extract].
  - apply tr_empty_inv in H as [-> ->]. destruct (hashed_away _ _ _) eqn:E; [eapply hashed_away_prunes; eauto|constructor].
  - apply tr_hash_inv in H as (h & -> & ->). destruct (hashed_away _ _ _) eqn:E; [eapply hashed_away_prunes; eauto|now constructor].
  - apply tr_branch_inv in H as (ch & v & -> & -> & F). destruct (hashed_away _ _ _) eqn:E; [eapply hashed_away_prunes; eauto|].
    cbn [branch_value]. constructor. clear E. induction F; cbn; constructor.
    + now apply (IH 0).
    + apply IHF. intros i c Hc. exact (IH (S i) c Hc).
  - apply tr_ext_inv in H as (ns & c & -> & -> & H). destruct (hashed_away _ _ _) eqn:E; [eapply hashed_away_prunes; eauto|].
    constructor. auto.
  - apply tr_leaf_inv in H as (ns & v & -> & ->). destruct (hashed_away _ _ _) eqn:E; [eapply hashed_away_prunes; eauto|constructor].
Qed.

(** ** The marked path *)
Inductive marked : tracked -> nibbles -> Prop :=
| m_empty u k : marked (TEmpty u true) k
| m_hash u : marked (THash u true) []
| m_leaf u k : marked (TLeaf u true) k
| m_branch_nil ch u : marked (TBranch ch u true) []
| m_branch ch u i c k : nth_error ch i = Some c -> marked c k -> marked (TBranch ch u true) (i :: k)
| m_ext_nil c u b : marked (TExt c u b) []
| m_ext_in c ns n k : marked c k -> marked (TExt c (Ext ns n) true) (ns ++ k)
| m_ext_out c ns n k : diverge ns k -> marked (TExt c (Ext ns n) true) k.

Lemma identical_sym a : forall b, identical_up_to_smallest a b = identical_up_to_smallest b a.
Proof. induction a as [|x a IH]; intros [|y b]; cbn; auto. rewrite IH. f_equal. apply Nat.eqb_sym. Qed.

Lemma identical_long ns k : identical_up_to_smallest k ns = true -> length ns <= length k -> exists r, k = ns ++ r.
Proof.
  intros H L. rewrite identical_sym in H. destruct (identical_cases _ _ H) as [(r & ->)|(r & E)]; [eauto|].
  rewrite E, app_length in L. assert (r = []) by (destruct r; auto; cbn in L; lia). subst r. rewrite app_nil_r in E. subst.
  exists []. now rewrite app_nil_r.
Qed.

Lemma mark_marked t : forall n k t', tr t n -> mark t k = SOk t' -> marked t' k.
Proof.
  induction t as [u b|u b|tch u b IH|tc u b IH|u b] using tracked_ind'; intros n k t' H E.
  - injection E as <-. constructor.
  - cbn in E. destruct k; [|discriminate]. injection E as <-. constructor.
  - apply tr_branch_inv in H as (ch & v & -> & -> & F). destruct k as [|i k].
    + injection E as <-. constructor.
    + rewrite mark_branch in E. destruct (nth_error tch i) as [c|] eqn:Ec; [|discriminate].
      destruct (mark c k) as [c'| |] eqn:Em; try discriminate. injection E as <-.
      destruct (Forall2_nth _ _ _ _ _ F Ec) as (y & Ey & Ry).
      apply m_branch with c'; [|eauto].  rewrite (nth_upd _ _ _ _ _ Ec). now rewrite Nat.eqb_refl.
  - apply tr_ext_inv in H as (ns & c & -> & -> & H). cbn [mark nibbles_expected] in E.
    destruct k as [|x k]; [injection E as <-; constructor|].
    destruct (identical_up_to_smallest (x :: k) ns) eqn:EI.
    + destruct (Nat.ltb_spec (length (x :: k)) (length ns)) as [|L]; [discriminate|].
      destruct (identical_long _ _ EI L) as (r & Er). rewrite Er in *. rewrite skipn_app_exact in E.
      destruct (mark tc r) eqn:Em; try discriminate. injection E as <-. apply m_ext_in. eauto.
    + injection E as <-. apply m_ext_out. apply identical_diverge. now rewrite identical_sym.
  - injection E as <-. constructor.
Qed.

Lemma diverge_not_app ns r : ~ diverge ns (ns ++ r).
Proof. intros H. rewrite <- (app_nil_r ns) in H at 1. now apply diverge_app_l in H. Qed.

Lemma mark_keeps t : forall n k t' k0, tr t n -> mark t k = SOk t' -> marked t k0 -> marked t' k0.
Proof.
  induction t as [u b|u b|tch u b IH|tc u b IH|u b] using tracked_ind'; intros n k t' k0 H E M.
  - injection E as <-. constructor.
  - cbn in E. destruct k; [|discriminate]. injection E as <-. inversion M; subst; constructor.
  - apply tr_branch_inv in H as (ch & v & -> & -> & F). destruct k as [|i k].
    + injection E as <-. inversion M; subst; econstructor; eauto.
    + rewrite mark_branch in E. destruct (nth_error tch i) as [c|] eqn:Ec; [|discriminate].
      destruct (mark c k) as [c'| |] eqn:Em; try discriminate. injection E as <-. 
      destruct (Forall2_nth _ _ _ _ _ F Ec) as (y & Ey & Ry).
      inversion M as [| | |?|? ? j d k1 Ed Md| | |]; subst; [constructor|].
      destruct (Nat.eqb_spec j i) as [->|Hne].
      * apply m_branch with c'; [|assert (d = c) as -> by congruence; eauto].
        rewrite (nth_upd _ _ _ _ _ Ec). now rewrite Nat.eqb_refl.
      * apply m_branch with d; auto. rewrite (nth_upd _ _ _ _ _ Ec). apply Nat.eqb_neq in Hne. now rewrite Hne.
  - apply tr_ext_inv in H as (ns & c & -> & -> & H). cbn [mark nibbles_expected] in E.
    destruct k as [|x k]; [injection E as <-; auto|].
    destruct (identical_up_to_smallest (x :: k) ns) eqn:EI.
    + destruct (_ <? _); [discriminate|]. destruct (mark tc _) eqn:Em; try discriminate. injection E as <-.
      inversion M; subst; [constructor|apply m_ext_in; eauto|now apply m_ext_out].
    + injection E as <-. inversion M; subst; [constructor|now apply m_ext_in|now apply m_ext_out].
  - injection E as <-. constructor.
Qed.

Lemma mark_all_marked ks : forall t n t', tr t n -> mark_all t ks = SOk t' ->
  (forall k, In k ks -> marked t' k) /\ (forall k, marked t k -> marked t' k).
Proof.
  induction ks as [|k ks IH]; intros t n t' H E; cbn in E.
  - injection E as <-. now split.
  - destruct (mark t k) eqn:Em; try discriminate. pose proof (mark_tr _ _ _ _ H Em) as H'.
    destruct (IH _ _ _ H' E) as [I1 I2]. split.
    + intros k' [<-|I]; auto. apply I2. exact (mark_marked _ _ _ _ H Em).
    + intros k' M. apply I2. exact (mark_keeps _ _ _ _ _ H Em M).
Qed.

(** Every extension of [n] has at least one nibble. *)
Definition exts_nonempty (n : node) : Prop := forall p ns c, sub_at n p (Ext ns c) -> ns <> [].

Lemma exts_nonempty_child ch v i c : exts_nonempty (Branch ch v) -> nth_error ch i = Some c -> exts_nonempty c.
Proof. intros H E p ns d S. apply (H (i :: p) ns d). econstructor; eauto. Qed.
Lemma exts_nonempty_ext ns c : exts_nonempty (Ext ns c) -> exts_nonempty c.
Proof. intros H p ms d S. apply (H (ns ++ p) ms d). now constructor. Qed.

Lemma nth_error_map' {A B} (f : A -> B) l i : nth_error (map f l) i = option_map f (nth_error l i).
Proof. apply nth_error_map. Qed.

Lemma marked_get t : forall n k, tr t n -> marked t k -> exts_nonempty n -> trie_get n k <> Panic ->
  trie_get (extract t) k = trie_get n k.
Proof.
  induction t as [u b|u b|tch u b IH|tc u b IH|u b] using tracked_ind'; intros n k H M X G; cbn [SubsetModel.extract].
  - apply tr_empty_inv in H as [-> ->]. inversion M; subst. reflexivity.
  - apply tr_hash_inv in H as (h & -> & ->). inversion M; subst. reflexivity.
  - apply tr_branch_inv in H as (ch & v & -> & -> & F). inversion M as [| | | |? ? i c k' Ec Mc| | |]; subst.
    + reflexivity.
    + cbn [hashed_away branch_value]. rewrite !trie_get_branch; rewrite trie_get_branch in G. destruct (Forall2_nth _ _ _ _ _ F Ec) as (y & Ey & Ry).
      rewrite Ey in *. rewrite nth_error_map, Ec. cbn [option_map]. apply (IH i c Ec y k'); eauto using exts_nonempty_child.
  - apply tr_ext_inv in H as (ns & c & -> & -> & H). inversion M as [| | | | |? ? ?|? ? ? k' Mk|? ? ? ? D]; subst.
    + destruct G. cbn. assert (ns <> []) by (eapply (X []); constructor). now destruct ns.
    + cbn [hashed_away ext_nibbles trie_get] in *. rewrite skipn_app_exact, firstn_app_exact, identical_refl in *.
      destruct (_ <? _); auto. apply IH; auto. now apply exts_nonempty_ext in X.
    + cbn [hashed_away ext_nibbles trie_get] in *. destruct (Nat.ltb_spec (length k) (length ns)); auto.
      destruct (identical_up_to_smallest (firstn (length ns) k) ns) eqn:E; auto. exfalso.
      destruct (identical_long ns (firstn (length ns) k) E) as (r & Er); [rewrite firstn_length; lia|].
      rewrite <- (firstn_skipn (length ns) k), Er, <- app_assoc in D. now apply diverge_not_app in D.
  - apply tr_leaf_inv in H as (ns & v & -> & ->). inversion M; subst. reflexivity.
Qed.

Lemma sub_hash_inv h p n : sub_at (Hash h) p n -> p = [] /\ n = Hash h.
Proof. inversion 1; auto. Qed.

Lemma marked_hash t : forall n k p h, tr t n -> marked t k -> exts_nonempty n -> trie_get n k <> Panic ->
  is_prefix p k -> sub_at (extract t) p (Hash h) -> sub_at n p (Hash h).
Proof.
  induction t as [u b|u b|tch u b IH|tc u b IH|u b] using tracked_ind'; intros n k p h H M X G HP S; cbn [SubsetModel.extract] in S.
  - apply tr_empty_inv in H as [-> ->]. inversion M; subst. exact S.
  - apply tr_hash_inv in H as (h' & -> & ->). inversion M; subst. exact S.
  - apply tr_branch_inv in H as (ch & v & -> & -> & F). inversion M as [| | | |? ? i c k' Ec Mc| | |]; subst; cbn [hashed_away branch_value] in S.
    + destruct HP as (r & E). symmetry in E. apply app_eq_nil in E as [-> ->]. inversion S.
    + rewrite trie_get_branch in G. destruct (Forall2_nth _ _ _ _ _ F Ec) as (y & Ey & Ry). rewrite Ey in G.
      inversion S as [|? ? j d q m Ed Sd|]; subst. destruct HP as (r & [= <- ->]).
      rewrite nth_error_map, Ec in Ed. injection Ed as <-. econstructor; eauto.
      eapply IH; eauto using exts_nonempty_child. now exists r.
  - apply tr_ext_inv in H as (ns & c & -> & -> & H).
    assert (NN : ns <> []) by (eapply (X []); constructor). inversion M as [| | | | |? ? ?|? ? ? k' Mk|? ? ? ? D]; subst.
    + destruct G. cbn. now destruct ns.
    + cbn [hashed_away ext_nibbles trie_get] in *. inversion S as [| |? ? q m Sq]; subst.
      destruct HP as (r & E). rewrite <- app_assoc in E. apply app_inv_head in E. subst. constructor.
      rewrite skipn_app_exact, firstn_app_exact, identical_refl in G.
      destruct (Nat.ltb_spec (length (ns ++ q ++ r)) (length ns)) as [L|L]; [rewrite app_length in L; lia|].
      eapply IH; eauto; [now apply exts_nonempty_ext in X|now exists r].
    + cbn [hashed_away ext_nibbles] in S. inversion S as [| |? ? q m Sq]; subst.
      destruct HP as (r & E). rewrite <- app_assoc in E. subst k. now apply diverge_not_app in D.
  - apply tr_leaf_inv in H as (ns & v & -> & ->). inversion M; subst. exact S.
Qed.

(** ** Nothing else is kept *)
Definition flag (t : tracked) : bool :=
  match t with TEmpty _ b | THash _ b | TBranch _ _ b | TExt _ _ b | TLeaf _ b => b end.

Inductive touched_at : tracked -> nibbles -> Prop :=
| ta_here t : flag t = true -> touched_at t []
| ta_branch ch u b i c p : nth_error ch i = Some c -> touched_at c p -> touched_at (TBranch ch u b) (i :: p)
| ta_ext c u b p : touched_at c p -> touched_at (TExt c u b) (ext_nibbles u ++ p).

Lemma is_prefix_nil k : is_prefix [] k.
Proof. now exists k. Qed.
Lemma is_prefix_app n p k : is_prefix p k -> is_prefix (n ++ p) (n ++ k).
Proof. intros (r & ->). exists r. now rewrite app_assoc. Qed.

Lemma mark_touched t : forall n k t' p, tr t n -> mark t k = SOk t' -> touched_at t' p -> touched_at t p \/ is_prefix p k.
Proof.
  induction t as [u b|u b|tch u b IH|tc u b IH|u b] using tracked_ind'; intros n k t' p H E M.
  - injection E as <-. inversion M; subst. right. apply is_prefix_nil.
  - cbn in E. destruct k; [|discriminate]. injection E as <-. inversion M; subst. right. apply is_prefix_nil.
  - apply tr_branch_inv in H as (ch & v & -> & -> & F). destruct k as [|i k].
    + injection E as <-. inversion M; subst; [right; apply is_prefix_nil|]. left. econstructor; eauto.
    + rewrite mark_branch in E. destruct (nth_error tch i) as [c|] eqn:Ec; [|discriminate].
      destruct (mark c k) as [c'| |] eqn:Em; try discriminate. injection E as <-. 
      destruct (Forall2_nth _ _ _ _ _ F Ec) as (y & Ey & Ry).
      inversion M as [|? ? ? j d q Ed Md|]; subst; [right; apply is_prefix_nil|].
      rewrite (nth_upd _ _ _ _ _ Ec) in Ed. destruct (Nat.eqb_spec j i) as [->|Hne].
      * injection Ed as <-. destruct (IH i c Ec _ _ _ _ Ry Em Md) as [?|?]; [left; econstructor; eauto|right].
        now apply (is_prefix_app [i]).
      * left. econstructor; eauto.
  - apply tr_ext_inv in H as (ns & c & -> & -> & H). cbn [mark nibbles_expected] in E.
    destruct k as [|x k]; [injection E as <-; auto|].
    destruct (identical_up_to_smallest (x :: k) ns) eqn:EI.
    + destruct (Nat.ltb_spec (length (x :: k)) (length ns)) as [|L]; [discriminate|].
      destruct (identical_long _ _ EI L) as (r & Er). rewrite Er in *. rewrite skipn_app_exact in E.
      destruct (mark tc r) eqn:Em; try discriminate. injection E as <-.
      inversion M; subst; [right; apply is_prefix_nil|].
      destruct (IH _ _ _ _ H Em H4) as [?|?]; [left; now constructor|right; now apply is_prefix_app].
    + injection E as <-. inversion M; subst; [right; apply is_prefix_nil|]. left. now constructor.
  - injection E as <-. inversion M; subst. right. apply is_prefix_nil.
Qed.

Lemma mark_all_touched ks : forall t n t' p, tr t n -> mark_all t ks = SOk t' -> touched_at t' p ->
  touched_at t p \/ exists k, In k ks /\ is_prefix p k.
Proof.
  induction ks as [|k ks IH]; intros t n t' p H E M; cbn in E.
  - injection E as <-. now left.
  - destruct (mark t k) eqn:Em; try discriminate. pose proof (mark_tr _ _ _ _ H Em) as H'.
    destruct (IH _ _ _ _ H' E M) as [T|(k' & I & Pk)].
    + destruct (mark_touched _ _ _ _ _ H Em T); [now left|]. right. exists k. cbn. auto.
    + right. exists k'. cbn. auto.
Qed.

Lemma track_untouched n : forall p, ~ touched_at (track n) p.
Proof.
  induction n as [|h|ch v IH|ns c IH|ns v] using node_ind'; intros p M; cbn in M; inversion M; subst; cbn in *; try discriminate.
  - rewrite nth_error_map in H3. destruct (nth_error ch i) eqn:E; [|discriminate]. injection H3 as <-. eapply IH; eauto.
  - eapply IH; eauto.
Qed.

Lemma extract_kept t : forall n p c h, tr t n -> sub_at (extract t) p c -> encode c = Hashed h -> (forall h', c <> Hash h') ->
  touched_at t p.
Proof.
  assert (HA : forall u b x p c, hashed_away keccak u b = Some x -> sub_at x p c -> exists h, c = Hash h).
  { intros u b x p c E S. unfold hashed_away in E. destruct b; [discriminate|]. destruct (encode u); [discriminate|].
    injection E as <-. apply sub_hash_inv in S as [_ ->]. eauto. }
  induction t as [u b|u b|tch u b IH|tc u b IH|u b] using tracked_ind'; intros n p c h H S E NH; pose proof H as H0; cbn [SubsetModel.extract] in S.
  - apply tr_empty_inv in H as [-> ->]. cbn in S. destruct b; cbn in S; inversion S; subst; discriminate.
  - apply tr_hash_inv in H as (h' & -> & ->). destruct b; cbn in S; inversion S; subst; destruct (NH _ eq_refl).
  - apply tr_branch_inv in H as (ch & v & -> & -> & F).
    destruct (hashed_away keccak (Branch ch v) b) eqn:EH; [destruct (HA _ _ _ _ _ EH S) as (? & ->); now destruct (NH x)|].
    inversion S as [|? ? i d q m Ed Sd|]; subst.
    + constructor. cbn. destruct b; auto. exfalso. unfold hashed_away in EH.
      assert (Q : prunes (Branch (map extract tch) (branch_value (Branch ch v))) (Branch ch v)).
      { pose proof (extract_prunes _ _ H0) as Q. cbn [SubsetModel.extract] in Q. unfold hashed_away in Q.
        destruct (encode (Branch ch v)); [exact Q|discriminate]. }
      rewrite (prunes_encode _ _ _ Q) in E. rewrite E in EH. discriminate.
    + rewrite nth_error_map in Ed. destruct (nth_error tch i) as [tc|] eqn:Et; [|discriminate]. injection Ed as <-.
      destruct (Forall2_nth _ _ _ _ _ F Et) as (y & Ey & Ry). econstructor; eauto.
  - apply tr_ext_inv in H as (ns & d & -> & -> & H).
    destruct (hashed_away keccak (Ext ns d) b) eqn:EH; [destruct (HA _ _ _ _ _ EH S) as (? & ->); now destruct (NH x)|].
    inversion S as [| |? ? q m Sd]; subst.
    + constructor. cbn. destruct b; auto. exfalso. unfold hashed_away in EH.
      assert (Q : prunes (Ext (ext_nibbles (Ext ns d)) (extract tc)) (Ext ns d)).
      { pose proof (extract_prunes _ _ H0) as Q. cbn [SubsetModel.extract] in Q. unfold hashed_away in Q.
        destruct (encode (Ext ns d)); [exact Q|discriminate]. }
      rewrite (prunes_encode _ _ _ Q) in E. rewrite E in EH. discriminate.
    + apply ta_ext. eauto.
  - apply tr_leaf_inv in H as (ns & v & -> & ->).
    destruct (hashed_away keccak (Leaf ns v) b) eqn:EH; [destruct (HA _ _ _ _ _ EH S) as (? & ->); now destruct (NH x)|].
    inversion S; subst. constructor. cbn. destruct b; auto. unfold hashed_away in EH. rewrite E in EH. discriminate.
Qed.

(** ** Failures of marking *)
Lemma mark_err t : forall n k, tr t n -> mark t k = SErr -> exists p x r h, k = p ++ x :: r /\ sub_at n p (Hash h).
Proof.
  induction t as [u b|u b|tch u b IH|tc u b IH|u b] using tracked_ind'; intros n k H E; try discriminate E.
  - apply tr_hash_inv in H as (h & -> & ->). cbn in E. destruct k as [|x r]; [discriminate|].
    exists [], x, r, h. split; auto. constructor.
  - apply tr_branch_inv in H as (ch & v & -> & -> & F). destruct k as [|i k]; [discriminate|].
    rewrite mark_branch in E. destruct (nth_error tch i) as [c|] eqn:Ec; [|discriminate].
    destruct (Forall2_nth _ _ _ _ _ F Ec) as (y & Ey & Ry).
    destruct (mark c k) eqn:Em; try discriminate. destruct (IH i c Ec _ _ Ry Em) as (p & x & r & h & -> & S).
    exists (i :: p), x, r, h. split; auto. econstructor; eauto.
  - apply tr_ext_inv in H as (ns & c & -> & -> & H). cbn [mark nibbles_expected] in E.
    destruct k as [|x k]; [discriminate|].
    destruct (identical_up_to_smallest (x :: k) ns) eqn:EI; [|discriminate].
    destruct (Nat.ltb_spec (length (x :: k)) (length ns)) as [|L]; [discriminate|].
    destruct (identical_long _ _ EI L) as (r & Er). rewrite Er in *. rewrite skipn_app_exact in E.
    destruct (mark tc r) eqn:Em; try discriminate. destruct (IH _ _ H Em) as (p & y & q & h & -> & S).
    exists (ns ++ p), y, q, h. split; [now rewrite app_assoc|now constructor].
Qed.

(** Branch arrays have 16 entries (in Rust, by type). *)
Definition branches16 (n : node) : Prop := forall p ch v, sub_at n p (Branch ch v) -> length ch = 16.
Lemma branches16_child ch v i c : branches16 (Branch ch v) -> nth_error ch i = Some c -> branches16 c.
Proof. intros H E p d w S. apply (H (i :: p) d w). econstructor; eauto. Qed.
Lemma branches16_ext ns c : branches16 (Ext ns c) -> branches16 c.
Proof. intros H p d w S. apply (H (ns ++ p) d w). now constructor. Qed.

Lemma mark_panic t : forall n k, tr t n -> branches16 n -> Forall (fun x => x < 16) k -> mark t k = SPanic ->
  exists p q r ns c, k = p ++ q /\ q <> [] /\ r <> [] /\ ns = q ++ r /\ sub_at n p (Ext ns c).
Proof.
  induction t as [u b|u b|tch u b IH|tc u b IH|u b] using tracked_ind'; intros n k H W V E; try discriminate E.
  - apply tr_hash_inv in H as (h & -> & ->). cbn in E. destruct k as [|x r]; discriminate.
  - apply tr_branch_inv in H as (ch & v & -> & -> & F). destruct k as [|i k]; [discriminate|].
    rewrite mark_branch in E. inversion V; subst. pose proof (W [] ch v (sub_here _)) as WL.
    destruct (nth_error tch i) as [c|] eqn:Ec.
    + destruct (Forall2_nth _ _ _ _ _ F Ec) as (y & Ey & Ry). pose proof (branches16_child _ _ _ _ W Ey) as Wy.
      destruct (mark c k) eqn:Em; try discriminate. destruct (IH i c Ec _ _ Ry Wy H2 Em) as (p & q & r & ns & d & -> & Q1 & Q2 & Q3 & S).
      exists (i :: p), q, r, ns, d. repeat split; auto. econstructor; eauto.
    + apply nth_error_None in Ec. apply Forall2_len in F. lia.
  - apply tr_ext_inv in H as (ns & c & -> & -> & H). apply branches16_ext in W. cbn [mark nibbles_expected] in E.
    destruct k as [|x k]; [discriminate|].
    destruct (identical_up_to_smallest (x :: k) ns) eqn:EI; [|discriminate].
    destruct (Nat.ltb_spec (length (x :: k)) (length ns)) as [L|L].
    + destruct (identical_cases _ _ EI) as [(r & Er)|(r & Er)].
      * exists [], (x :: k), r, ns, c. repeat split; auto; try discriminate; [|constructor].
        intros ->. rewrite app_nil_r in Er. subst. lia.
      * apply (f_equal (@length nat)) in Er. rewrite app_length in Er. lia.
    + destruct (identical_long _ _ EI L) as (r & Er). rewrite Er in *. rewrite skipn_app_exact in E.
      apply Forall_app in V as [_ V].
      destruct (mark tc r) eqn:Em; try discriminate. destruct (IH _ _ H W V Em) as (p & q & r' & ms & d & -> & Q1 & Q2 & Q3 & S).
      exists (ns ++ p), q, r', ms, d. repeat split; auto; [now rewrite app_assoc|now constructor].
Qed.

(** ** Resetting *)
Lemma reset_track t : forall n, tr t n -> reset_info (reset_state t) = track n.
Proof.
  induction t as [u b|u b|tch u b IH|tc u b IH|u b] using tracked_ind'; intros n H; cbn [reset_state reset_info].
  - now apply tr_empty_inv in H as [-> ->].
  - now apply tr_hash_inv in H as (h & -> & ->).
  - apply tr_branch_inv in H as (ch & v & -> & -> & F). cbn. f_equal. induction F; cbn; auto. f_equal.
    + now apply (IH 0).
    + apply IHF. intros i c Hc. exact (IH (S i) c Hc).
  - apply tr_ext_inv in H as (ns & c & -> & -> & H). cbn. f_equal. auto.
  - now apply tr_leaf_inv in H as (ns & v & -> & ->).
Qed.

(** Same up to the flag of the root, which only matters for branches and extensions. *)
Definition same_but_root (a b : tracked) : Prop :=
  a = b \/ (exists ch u x y, a = TBranch ch u x /\ b = TBranch ch u y) \/ (exists c u x y, a = TExt c u x /\ b = TExt c u y).

Lemma reset_root t n : tr t n -> same_but_root (reset_state t) (track n).
Proof.
  intros H. pose proof (reset_track t n H) as R. destruct t; cbn in *.
  - now left.
  - now left.
  - right. left. rewrite <- R. eauto 10.
  - right. right. rewrite <- R. eauto 10.
  - now left.
Qed.

Lemma mark_same_nonempty a b x k : same_but_root a b -> mark a (x :: k) = mark b (x :: k).
Proof.
  intros [->|[(ch & u & p & q & -> & ->)|(c & u & p & q & -> & ->)]]; auto.
Qed.

Lemma mark_all_same ks : forall a b, same_but_root a b -> (exists k, In k ks /\ k <> []) -> mark_all a ks = mark_all b ks.
Proof.
  induction ks as [|k ks IH]; intros a b S (k0 & I & N); [destruct I|]. cbn.
  destruct k as [|x k].
  - destruct I as [<-|I]; [congruence|].
    destruct S as [->|[(ch & u & p & q & -> & ->)|(c & u & p & q & -> & ->)]]; auto. cbn.
    apply IH; eauto. right. right. eauto 10.
  - now rewrite (mark_same_nonempty a b x k S).
Qed.

Fixpoint each_subset (n : node) (kss : list (list nibbles)) : sub_res (list node) :=
  match kss with
  | [] => SOk []
  | ks :: r => sbind (create_trie_subset keccak n ks) (fun s => sbind (each_subset n r) (fun l => SOk (s :: l)))
  end.

Lemma subsets_loop_each kss : forall t n, tr t n -> same_but_root t (track n) ->
  Forall (fun ks => exists k, In k ks /\ k <> []) kss ->
  subsets_loop keccak t kss = each_subset n kss.
Proof.
  induction kss as [|ks kss IH]; intros t n H S F; cbn; auto. inversion F; subst.
  unfold create_trie_subset. rewrite (mark_all_same ks t (track n) S H2).
  destruct (mark_all (track n) ks) as [t'| |] eqn:E; cbn; auto.
  assert (H' : tr t' n) by (eapply mark_all_tr; [apply track_tr|eauto]).
  rewrite (IH (reset_state t') n); auto; [|now apply reset_root].
  destruct (reset_root t' n H') as [->|[(ch & u & p & q & E1 & E2)|(c & u & p & q & E1 & E2)]].
  - apply track_tr.
  - rewrite E1. pose proof (track_tr n) as T. rewrite E2 in T. apply tr_branch_inv in T as (c' & v' & -> & -> & F'). now constructor.
  - rewrite E1. pose proof (track_tr n) as T. rewrite E2 in T. apply tr_ext_inv in T as (c' & v' & -> & -> & F'). now constructor.
Qed.

End Keccak.
