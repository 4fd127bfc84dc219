(** Building a tree with hash nodes from the list of its hash nodes and leaves. *)

From Coq Require Import List Arith NArith Lia Bool.
From Verif.Smt Require Import SmtModel SmtSpec KeyProofs SmtProofs SmtSetProofs SmtHistory SmtPartialProofs.
Import ListNotations.
Local Open Scope nat_scope.

(** ** Positions in a tree *)

Lemma prefix_split : forall (A : Type) (a b c d : list A), a ++ b = c ++ d -> (exists r, c = a ++ r) \/ (exists r, a = c ++ r).
Proof.
  induction a as [|x a IH]; intros b c d Heq; [left; exists c; reflexivity|].
  destruct c as [|y c]; [right; exists (x :: a); reflexivity|]. cbn in Heq. inversion Heq; subst.
  destruct (IH _ _ _ H1) as [[r ->]|[r ->]]; [left|right]; exists r; reflexivity.
Qed.

Lemma hashes_apart : forall t p x h x' h', In (x, h) (hashes p t) -> In (x', h') (hashes p t) -> is_prefix_of x x' = true -> (x, h) = (x', h').
Proof.
  induction t as [|k v|l IHl r IHr|big h0]; intros p x h x' h' H1 H2 Hp; cbn [hashes] in H1, H2; try contradiction.
  - apply in_app_iff in H1, H2. destruct H1 as [H1|H1], H2 as [H2|H2]; [eauto| | |eauto]; exfalso;
      apply is_prefix_of_iff in Hp as [q ->]; apply hashes_prefix in H1 as [r1 ->]; apply hashes_prefix in H2 as [r2 E2];
      rewrite <- !app_assoc in E2; apply app_inv_head in E2; discriminate.
  - destruct H1 as [H1|[]], H2 as [H2|[]]. congruence.
Qed.

Lemma hash_leaf_apart : forall t p x h k v, placed p t -> In (x, h) (hashes p t) -> In (k, v) (leaves t) -> is_prefix_of x (split k) = false.
Proof.
  induction t as [|k0 v0|l IHl r IHr|big h0]; intros p x h k v P H1 H2; cbn [hashes leaves] in H1, H2; try contradiction.
  destruct P as (_ & Pl & Pr). apply in_app_iff in H1, H2.
  destruct H1 as [H1|H1], H2 as [H2|H2]; [eauto| | |eauto];
    (destruct (is_prefix_of x (split k)) eqn:Hp; [exfalso|reflexivity]); apply is_prefix_of_iff in Hp as [q E2];
    apply hashes_prefix in H1 as [r1 ->].
  - destruct (leaves_prefix _ _ _ _ Pr H2) as ([q' Q'] & _). rewrite Q', <- !app_assoc in E2. apply app_inv_head in E2. discriminate.
  - destruct (leaves_prefix _ _ _ _ Pl H2) as ([q' Q'] & _). rewrite Q', <- !app_assoc in E2. apply app_inv_head in E2. discriminate.
Qed.

Lemma leaf_position : forall t p k v, placed p t -> In (k, v) (leaves t) ->
  exists q r, sub_at t q = L k v /\ split k = (p ++ q) ++ r /\ length (p ++ q) <= 252.
Proof.
  induction t as [|k0 v0|l IHl r IHr|big h0]; intros p k v P H1; cbn [leaves] in H1; try contradiction.
  - destruct H1 as [H1|[]]. inversion H1; subst. destruct P as ([q Q] & Hl & _). exists [], q. rewrite app_nil_r. cbn. auto.
  - destruct P as (_ & Pl & Pr). apply in_app_iff in H1 as [H1|H1].
    + destruct (IHl _ _ _ Pl H1) as (q & r0 & A & B & C). exists (false :: q), r0. rewrite <- app_assoc in C. rewrite <- (app_assoc p) in B. split; [exact A|split; [exact B|exact C]].
    + destruct (IHr _ _ _ Pr H1) as (q & r0 & A & B & C). exists (true :: q), r0. rewrite <- app_assoc in C. rewrite <- (app_assoc p) in B. split; [exact A|split; [exact B|exact C]].
Qed.

Lemma sub_leaves : forall q t p k v, placed p t -> In (k, v) (leaves (sub_at t q)) -> In (k, v) (leaves t) /\ exists r, split k = (p ++ q) ++ r.
Proof.
  induction q as [|b q IH]; intros t p k v P Hin.
  - cbn [sub_at] in Hin. split; [exact Hin|]. rewrite app_nil_r. exact (proj1 (leaves_prefix _ _ _ _ P Hin)).
  - cbn [sub_at] in Hin. destruct t as [|k0 v0|l r|big h]; try contradiction. destruct P as (_ & Pl & Pr).
    replace (p ++ b :: q) with ((p ++ [b]) ++ q) by (rewrite <- app_assoc; reflexivity). cbn [leaves]. rewrite in_app_iff.
    destruct b; [destruct (IH _ _ _ _ Pr Hin)|destruct (IH _ _ _ _ Pl Hin)]; auto.
Qed.

Lemma sub_hashes : forall q t p x h, In (x, h) (hashes (p ++ q) (sub_at t q)) -> In (x, h) (hashes p t).
Proof.
  induction q as [|b q IH]; intros t p x h Hin.
  - rewrite app_nil_r in Hin. exact Hin.
  - cbn [sub_at] in Hin. destruct t as [|k0 v0|l r|big h0]; try contradiction.
    replace (p ++ b :: q) with ((p ++ [b]) ++ q) in Hin by (rewrite <- app_assoc; reflexivity). cbn [hashes]. rewrite in_app_iff.
    destruct b; [right|left]; eapply IH; exact Hin.
Qed.

Lemma leaves_under : forall q t p k v r, placed p t -> In (k, v) (leaves t) -> split k = (p ++ q) ++ r -> sub_at t q <> E ->
  In (k, v) (leaves (sub_at t q)).
Proof.
  induction q as [|b q IH]; intros t p k v r P Hin Hs Hne; [exact Hin|]. cbn [sub_at] in *.
  destruct t as [|k0 v0|l r0|big h]; try congruence. destruct P as (_ & Pl & Pr). cbn [leaves] in Hin. apply in_app_iff in Hin.
  replace (p ++ b :: q) with ((p ++ [b]) ++ q) in Hs by (rewrite <- app_assoc; reflexivity).
  destruct b; (eapply IH; [|destruct Hin as [Hin|Hin]; [|]| |]); try eassumption; exfalso.
  - destruct (leaves_prefix _ _ _ _ Pl Hin) as ([q' Q'] & _). rewrite Q', <- !app_assoc in Hs. apply app_inv_head in Hs. discriminate.
  - destruct (leaves_prefix _ _ _ _ Pr Hin) as ([q' Q'] & _). rewrite Q', <- !app_assoc in Hs. apply app_inv_head in Hs. discriminate.
Qed.

Lemma hashes_under : forall q t p h r, In ((p ++ q) ++ r, h) (hashes p t) -> sub_at t q <> E -> In ((p ++ q) ++ r, h) (hashes (p ++ q) (sub_at t q)).
Proof.
  induction q as [|b q IH]; intros t p h r Hin Hne; [rewrite app_nil_r in *; exact Hin|]. cbn [sub_at] in *.
  destruct t as [|k0 v0|l r0|big h0]; try congruence. cbn [hashes] in Hin. apply in_app_iff in Hin.
  replace (p ++ b :: q) with ((p ++ [b]) ++ q) in * by (rewrite <- app_assoc; reflexivity).
  destruct b; (apply IH; [destruct Hin as [Hin|Hin]; [|]|]); try assumption; exfalso;
    apply hashes_prefix in Hin as [q' Q']; rewrite <- !app_assoc in Q'; apply app_inv_head in Q'; discriminate.
Qed.

Lemma sub_plug : forall c u, sub_at (plug c u) (cbits c) = u.
Proof.
  induction c as [|[b s] c IH]; intros u; [reflexivity|]. rewrite cbits_cons, sub_at_app. cbn [plug]. rewrite IH. destruct b; reflexivity.
Qed.

Lemma sub_plug_inner : forall c u q b r, cbits c = q ++ b :: r -> exists l r', sub_at (plug c u) q = I l r'.
Proof.
  induction c as [|[b0 s] c IH]; intros u q b r Hc; [destruct q; discriminate|]. rewrite cbits_cons in Hc. cbn [plug].
  destruct (exists_last (l := b :: r)) as (r' & y & E); [discriminate|]. rewrite E, app_assoc in Hc. apply app_inj_tail in Hc as [Hc <-].
  destruct r' as [|b' r'].
  - rewrite app_nil_r in Hc. subst q. rewrite sub_plug. destruct b0; eexists _, _; reflexivity.
  - eapply IH. exact Hc.
Qed.

Section Poseidon.
Variable pos : node -> quad.
Notation thash := (thash pos).
Notation stored := (stored pos).
Notation path_of := (path_of pos).
Notation db_ok := (db_ok pos).
Notation inv := (inv pos).
Notation nodes d := (map snd d).

(** ** The contents of a tree with hash nodes *)

Lemma run_holds : forall D calls s0 t0 m s, Forall valid_call calls -> inv D s0 t0 -> holds t0 m ->
  smt_run pos s0 calls = Some s -> incl (nodes (db s)) D ->
  exists t, inv D s t /\ (forall x, In x (hashes [] t) <-> In x (hashes [] t0)) /\ holds t (fold_left (fun m c => upd m (fst c) (snd c)) calls m).
Proof.
  intros D calls. induction calls as [|c calls IH] using rev_ind; intros s0 t0 m s Hv I0 Hm Hrun Hi.
  - inversion Hrun; subst. exists t0. split; [exact I0|]. split; [tauto|exact Hm].
  - rewrite smt_run_snoc in Hrun. destruct (smt_run pos s0 calls) as [s1|] eqn:H1; [|discriminate].
    apply Forall_app in Hv. destruct Hv as [Hv Hc]. inversion Hc as [|x y Hc' _]; subst.
    apply valid_call_q in Hc'. destruct Hc' as [Hk Hval].
    destruct (IH s0 t0 m s1 Hv I0 Hm H1) as (t & It & Ht & Hh).
    { intros x Hx. apply Hi, (set_grows pos _ _ _ _ Hrun), Hx. }
    destruct (set_spec pos D s1 t (fst c) (snd c) s It Hk Hval Hrun Hi) as (t' & It' & Hla & Ha & _).
    exists t'. split; [exact It'|]. split; [intros x; rewrite Ha; apply Ht|].
    rewrite fold_left_app. cbn [fold_left].
    intros k v. unfold upd. rewrite (Hla k v), (Hh k v).
    destruct (quad_eqb k (fst c)) eqn:Q; [apply quad_eqb_eq in Q|apply quad_eqb_neq in Q].
    + split; [intros [(A & B & C)|[A B]]; [split; congruence|congruence]|].
      intros [A B]. left. split; [exact Q|]. split; [congruence|congruence].
    + split; [intros [(A & B & C)|[A B]]; [congruence|exact B]|]. intros A. right. split; assumption.
Qed.

Lemma holds_empty t : leaves t = [] -> holds t (fun _ => 0%N).
Proof. intros E k v. rewrite E. split; [intros []|]. intros [A B]. congruence. Qed.

(** Two builds with the same hash nodes and the same contents give the same tree. *)
Lemma build_tree : forall hs calls sh s, Forall valid_call calls -> hash_positions_ok hs ->
  hash_run pos smt_default hs = Some sh -> smt_run pos sh calls = Some s -> separates pos (hashed s) ->
  (forall p h, In (p, h) hs -> length p <= 256 /\ h <> zero /\ forall n, In n (hashed s) -> pos n <> h) ->
  exists t, inv (hashed s) s t /\ (forall x, In x (hashes [] t) <-> exists p h, x = (p, (true, h)) /\ In (p, h) hs) /\ holds t (contents calls).
Proof.
  intros hs calls sh s Hv Hok Hrh Hrun HD Hhs.
  destruct (hash_run_inv pos (hashed s) hs sh HD Hok Hhs Hrh) as (th & Ih & Lh & Hh).
  { apply (run_grows pos calls). exact Hrun. }
  destruct (run_holds (hashed s) calls sh th (fun _ => 0%N) s Hv Ih (holds_empty _ Lh) Hrun ltac:(intros x Hx; exact Hx)) as (t & It & Ht & Hc).
  exists t. split; [exact It|]. split; [|exact Hc]. intros x. rewrite Ht. apply Hh.
Qed.

Lemma build_is : forall hs calls sh s T, Forall valid_call calls -> hash_positions_ok hs ->
  hash_run pos smt_default hs = Some sh -> smt_run pos sh calls = Some s -> separates pos (hashed s) ->
  (forall p h, In (p, h) hs -> length p <= 256 /\ h <> zero /\ forall n, In n (hashed s) -> pos n <> h) ->
  placed [] T -> canon T -> (forall x, In x (hashes [] T) <-> exists p h, x = (p, (true, h)) /\ In (p, h) hs) -> holds T (contents calls) ->
  inv (hashed s) s T.
Proof.
  intros hs calls sh s T Hv Hok Hrh Hrun HD Hhs HP HC HH HL.
  destruct (build_tree hs calls sh s Hv Hok Hrh Hrun HD Hhs) as (t & It & Ht & Hc).
  replace T with t; [exact It|]. apply (tree_unique t T []); auto.
  - apply (inv_placed _ _ _ _ It).
  - apply (inv_canon _ _ _ _ It).
  - intros k v. rewrite (Hc k v), (HL k v). tauto.
  - intros x h. rewrite Ht, HH. tauto.
Qed.

(** ** Building never fails *)

Lemma descend_off_hashes : forall t D d n keys path b, db_ok D d -> stored D (nodes d) n t ->
  (forall x, In x (hashes b t) -> is_prefix_of (fst x) (b ++ keys) = false) ->
  placed b t -> length b + length keys = 256 -> descend d (thash n t) keys path <> None.
Proof.
  induction t as [|k v|l IHl r IHr|big h]; intros D d n keys path b Hd Hst Hno Hp Hk; rewrite descend_eq.
  - discriminate.
  - rewrite (is_zero_thash _ _ D d) by assumption. cbn [isE].
    destruct (get_stored_leaf _ D d k v _ Hd Hst) as [G1 G2]. rewrite G1.
    change (is_one_siblings (lnode pos k n v)) with true. cbv iota.
    change (n1 (lnode pos k n v)) with (vhash pos v). rewrite G2. discriminate.
  - rewrite (is_zero_thash _ _ D d) by assumption. cbn [isE].
    rewrite (get_stored_inode _ D d l r _ Hd Hst).
    change (is_one_siblings (inode pos n l r)) with false. cbv iota.
    destruct Hst as (_ & Hl & Hr). destruct Hp as (B & Q1 & Q2).
    destruct keys as [|x keys]; [cbn [length] in Hk; lia|]. cbn [length] in Hk.
    destruct x; cbn [slot inode node0 n0 n1].
    + apply (IHr D d (S n) keys _ (b ++ [true])); auto; [|rewrite app_length; cbn [length]; lia].
      intros y Hy. rewrite <- app_assoc. apply Hno. cbn [hashes]. apply in_app_iff. auto.
    + apply (IHl D d (S n) keys _ (b ++ [false])); auto; [|rewrite app_length; cbn [length]; lia].
      intros y Hy. rewrite <- app_assoc. apply Hno. cbn [hashes]. apply in_app_iff. auto.
  - exfalso. specialize (Hno (b, (big, h)) ltac:(left; reflexivity)). cbn [fst] in Hno.
    assert (A : is_prefix_of b (b ++ keys) = true) by (apply is_prefix_of_iff; eexists; reflexivity). congruence.
Qed.

Lemma set_builds : forall D s t k v T, inv D s t -> placed [] T -> qvalid k -> (v <> 0)%N ->
  In (k, v) (leaves T) -> (forall w, ~ In (k, w) (leaves t)) ->
  (forall x, In x (leaves t) -> In x (leaves T)) -> (forall x, In x (hashes [] t) -> In x (hashes [] T)) ->
  set pos s k v <> None.
Proof.
  intros D s t k v T [Hd Hst Hroot Hpl Hcan Hkv] HPT Hk Hv HinT Hnot HL HH.
  unfold set. rewrite Hroot.
  assert (Hno : forall x, In x (hashes [] t) -> is_prefix_of (fst x) (split k) = false).
  { intros [x h] Hx. cbn [fst]. eapply hash_leaf_apart; [exact HPT| |exact HinT]. apply HH. exact Hx. }
  pose proof (descend_off_hashes t D (db s) 0 (split k) [] [] Hd Hst Hno Hpl ltac:(rewrite split_length; reflexivity)) as Hdt.
  destruct (descend (db s) (thash 0 t) (split k) []) as [[p f]|] eqn:Hdesc; [|congruence]. clear Hdt.
  change ([] : list (bool * node)) with (path_of [] t) in Hdesc. change 0 with (length ([] : ctx)) in Hdesc.
  destruct (descend_spec pos t D (db s) [] (split k) p f Hd Hst Hdesc)
    as (c & u & pre & rest & Hsk & Hcb & Hpg & -> & Hend & ->). clear Hdesc.
  cbn [cbits map rev app] in Hcb. cbn [plug] in Hpg. subst pre t.
  destruct (leaf_position T [] k v HPT HinT) as (q & r & Q1 & Q2 & Q3). cbn [app] in Q2, Q3.
  assert (Hle : length c <= length q).
  { destruct (le_lt_dec (length c) (length q)) as [A|A]; [exact A|exfalso].
    assert (Hc : exists b r0, cbits c = q ++ b :: r0).
    { rewrite Hsk in Q2. destruct (prefix_split _ _ _ _ _ Q2) as [[r0 E0]|[r0 E0]].
      - exfalso. apply (f_equal (@length bool)) in E0. rewrite app_length, cbits_length in E0. lia.
      - destruct r0 as [|b r0]; [exfalso|eauto]. rewrite app_nil_r in E0. apply (f_equal (@length bool)) in E0. rewrite cbits_length in E0. lia. }
    destruct Hc as (b & r0 & Hc). destruct (sub_plug_inner c u q b r0 Hc) as (l1 & l2 & HI).
    assert (CI : canon (I l1 l2)).
    { rewrite <- HI. clear -Hcan. revert q Hcan. generalize (plug c u). intros t q. revert t.
      induction q as [|b q IH]; intros t Hc; [exact Hc|]. cbn [sub_at]. destruct t; try exact Logic.I. destruct Hc as (_ & A & B). destruct b; auto. }
    assert (X : leaves (I l1 l2) <> [] \/ hashes q (I l1 l2) <> []).
    { destruct (leaves (I l1 l2)) eqn:E1; [|left; discriminate]. destruct (hashes q (I l1 l2)) eqn:E2; [|right; discriminate].
      pose proof (canon_nonempty _ _ CI E1 E2). discriminate. }
    destruct X as [X|X].
    - destruct (leaves (I l1 l2)) as [|[k1 v1] ls] eqn:E1; [congruence|].
      assert (In1 : In (k1, v1) (leaves (sub_at (plug c u) q))) by (rewrite HI, E1; left; reflexivity).
      destruct (sub_leaves q _ [] k1 v1 Hpl In1) as (In2 & r1 & S1). cbn [app] in S1.
      assert (In3 : In (k1, v1) (leaves (sub_at T q))) by (eapply leaves_under; [exact HPT|apply HL, In2|exact S1|rewrite Q1; discriminate]).
      rewrite Q1 in In3. destruct In3 as [E3|[]]. inversion E3; subst. exact (Hnot _ In2).
    - destruct (hashes q (I l1 l2)) as [|[x h] hs] eqn:E1; [congruence|].
      assert (In1 : In (x, h) (hashes q (sub_at (plug c u) q))) by (rewrite HI, E1; left; reflexivity).
      destruct (hashes_prefix _ _ _ _ In1) as [r1 ->].
      pose proof (sub_hashes q (plug c u) [] _ _ In1) as In2.
      assert (In3 : In (q ++ r1, h) (hashes q (sub_at T q))) by (apply (hashes_under q T [] h r1); [apply HH; exact In2|rewrite Q1; discriminate]).
      rewrite Q1 in In3. destruct In3. }
  replace (v =? 0)%N with false by (symmetry; apply N.eqb_neq; exact Hv).
  destruct Hend as [-> | HLf].
  - cbn [found_of]. rewrite path_of_length. rewrite remove_key_bits_rem by lia. cbn [store]. destruct (put _ _ _ _). discriminate.
  - destruct u as [|k' v'| |]; try discriminate. cbn [found_of].
    pose proof (proj1 (placed_plug c (L k' v')) Hpl) as [Hpl1 Hpl2].
    destruct Hpl1 as ([q' Hq'] & Hle' & Hkv' & Hvv').
    rewrite path_of_bits.
    assert (J : join (cbits c) (rem k' (length c)) = Some k').
    { rewrite <- (cbits_length c). apply (join_rem_prefix k' _ q' Hkv' Hq'). exact Hle'. }
    rewrite J. clear J.
    assert (Int : In (k', v') (leaves (plug c (L k' v')))) by (apply leaves_plug; left; left; reflexivity).
    destruct (quad_eqb k k') eqn:Q; [apply quad_eqb_eq in Q; subst k'; exfalso; exact (Hnot _ Int)|].
    apply quad_eqb_neq in Q.
    assert (Hst' : split_leaf pos (db s) (path_of c (L k' v')) k k' (vhash pos v') v <> None).
    { apply (split_leaf_total pos c (db s) k v k' v' rest q' Hk Hkv' Q Hsk Hq').
      intros F. destruct (leaf_position T [] k' v' HPT (HL _ Int)) as (q2 & r2 & A1 & A2 & A3). cbn [app] in A2, A3.
      rewrite Q2, A2, !firstn_app in F.
      rewrite !(firstn_all2 (n := 252)) in F by lia.
      assert (G : exists r0, q2 = q ++ r0 \/ q = q2 ++ r0).
      { destruct (prefix_split _ _ _ _ _ F) as [[r0 E0]|[r0 E0]]; exists r0; auto. }
      destruct G as [r0 [->| ->]].
      - rewrite sub_at_app, Q1 in A1. destruct r0; cbn in A1; [congruence|discriminate].
      - rewrite sub_at_app, A1 in Q1. destruct r0; cbn in Q1; [congruence|discriminate]. }
    destruct (split_leaf pos (db s) (path_of c (L k' v')) k k' (vhash pos v') v) as [[d' h]|]; [discriminate|congruence].
Qed.

Lemma descend_hash_total : forall key t D d n path b, db_ok D d -> stored D (nodes d) n t -> leaves t = [] ->
  (forall x, In x (hashes b t) -> is_prefix_of (fst x) (b ++ key) = false) ->
  exists p, descend_hash d (thash n t) key path = Some (p, thash (n + length key) (sub_at t key)).
Proof.
  induction key as [|x key IH]; intros t D d n path b Hd Hst Hl Hno; cbn [descend_hash].
  - exists path. cbn [sub_at length]. rewrite Nat.add_0_r. reflexivity.
  - destruct t as [|k v|l r|big h]; [| discriminate | |].
    + cbn [SmtProofs.thash]. rewrite (get_zero pos D d Hd). change (is_one_siblings (Nd zero zero zero)) with false. cbv iota.
      replace (slot (Nd zero zero zero) x) with (thash (S n) E) by (destruct x; reflexivity).
      destruct (IH E D d (S n) ((x, Nd zero zero zero) :: path) (b ++ [x]) Hd Logic.I eq_refl ltac:(intros ? [])) as [p ->].
      exists p. f_equal. f_equal. cbn [sub_at length]. destruct key; reflexivity.
    + rewrite (get_stored_inode pos D d l r _ Hd Hst). change (is_one_siblings (inode pos n l r)) with false. cbv iota.
      destruct Hst as (_ & Sl & Sr). cbn [leaves] in Hl. apply app_eq_nil in Hl as [Ll Lr].
      set (u := if x then r else l).
      replace (slot (inode pos n l r) x) with (thash (S n) u) by (unfold u; destruct x; reflexivity).
      destruct (IH u D d (S n) ((x, inode pos n l r) :: path) (b ++ [x])) as [p Hp].
      * exact Hd.
      * unfold u; destruct x; assumption.
      * unfold u; destruct x; assumption.
      * intros y Hy. rewrite <- app_assoc. apply Hno. cbn [hashes]. apply in_app_iff. unfold u in Hy. destruct x; auto.
      * exists p. rewrite Hp. f_equal. f_equal. cbn [length sub_at]. unfold u. replace (n + S (length key)) with (S n + length key) by lia. reflexivity.
    + exfalso. specialize (Hno (b, (big, h)) ltac:(left; reflexivity)). cbn [fst] in Hno.
      assert (A : is_prefix_of b (b ++ x :: key) = true) by (apply is_prefix_of_iff; eexists; reflexivity). congruence.
Qed.

Lemma set_hash_builds : forall D s t key h, inv D s t -> leaves t = [] ->
  (forall x, In x (hashes [] t) -> is_prefix_of (fst x) key = false /\ is_prefix_of key (fst x) = false) ->
  set_hash pos s key h <> None.
Proof.
  intros D s t key h [Hd Hst Hroot Hpl Hcan Hkv] Hl Hno. unfold set_hash. rewrite Hroot.
  destruct (descend_hash_total key t D (db s) 0 [] [] Hd Hst Hl) as [p Hp]; [intros x Hx; apply Hno, Hx|]. rewrite Hp.
  assert (E0 : sub_at t key = E).
  { assert (C : canon (sub_at t key)).
    { clear -Hcan. revert t Hcan. induction key as [|b q IH]; intros t Hc; [exact Hc|]. cbn [sub_at]. destruct t; try exact Logic.I. destruct Hc as (_ & A & B). destruct b; auto. }
    apply (canon_nonempty _ key C).
    - destruct (leaves (sub_at t key)) as [|[k v] ls] eqn:E1; [reflexivity|].
      assert (In1 : In (k, v) (leaves (sub_at t key))) by (rewrite E1; left; reflexivity).
      apply (sub_leaves key t []) in In1 as [In1 _]; [|exact Hpl]. rewrite Hl in In1. destruct In1.
    - destruct (hashes key (sub_at t key)) as [|[x y] ls] eqn:E1; [reflexivity|].
      assert (In1 : In (x, y) (hashes key (sub_at t key))) by (rewrite E1; left; reflexivity).
      destruct (hashes_prefix _ _ _ _ In1) as [r ->]. apply (sub_hashes key t []) in In1.
      apply Hno in In1 as [_ In1]. cbn [fst] in In1.
      assert (A : is_prefix_of key (key ++ r) = true) by (apply is_prefix_of_iff; eexists; reflexivity). congruence. }
  rewrite E0. cbn [SmtProofs.thash]. change (is_zero zero) with true. cbv iota. destruct (put _ _ _ _). discriminate.
Qed.

End Poseidon.
