(** The stack-based iterator yields exactly the stored entries, in order. *)

From Coq Require Import List Arith NArith Bool Lia Sorting.Sorted.
From Verif.Mpt Require Import TrieModel TrieSpec TrieFacts TrieOpsProofs.
Import ListNotations.

Definition pfx (p : nibbles) (e : nibbles * val_or_hash) : nibbles * val_or_hash := (p ++ fst e, snd e).

Definition value_ents (v : bytes) : list (nibbles * val_or_hash) :=
  match v with [] => [] | _ => [([], Val v)] end.

Fixpoint ents (n : node) : list (nibbles * val_or_hash) :=
  match n with
  | Empty => []
  | Hash h => [([], VHash h)]
  | Leaf ns v => [(ns, Val v)]
  | Ext ns c => map (pfx ns) (ents c)
  | Branch ch v =>
      (fix go (l : list node) (i : nat) : list (nibbles * val_or_hash) :=
         match l with
         | [] => []
         | c :: t => map (pfx [i]) (ents c) ++ go t (S i)
         end) ch 0 ++ value_ents v
  end.

Fixpoint ents_from (l : list node) (i : nat) : list (nibbles * val_or_hash) :=
  match l with
  | [] => []
  | c :: t => map (pfx [i]) (ents c) ++ ents_from t (S i)
  end.

Lemma ents_branch ch v : ents (Branch ch v) = ents_from ch 0 ++ value_ents v.
Proof.
  reflexivity.
Qed.

(** ** Entries and exact lookup *)
Lemma in_ents_from l : forall i e, In e (ents_from l i) <->
  exists j c k x, nth_error l j = Some c /\ In (k, x) (ents c) /\ e = ((i + j) :: k, x).
Proof.
  induction l as [|c l IH]; intros i e; cbn [ents_from].
  - split; [intros []|]. intros (j & c & k & x & H & _). destruct j; discriminate.
  - rewrite in_app_iff, in_map_iff, IH. split.
    + intros [([k x] & <- & Hin)|(j & c' & k & x & Hj & Hin & ->)].
      * exists 0, c, k, x. rewrite Nat.add_0_r. auto.
      * exists (S j), c', k, x. rewrite <- plus_n_Sm. auto.
    + intros ([|j] & c' & k & x & Hj & Hin & ->); cbn in Hj.
      * injection Hj as <-. left. exists (k, x). rewrite Nat.add_0_r. auto.
      * right. exists j, c', k, x. rewrite <- plus_n_Sm. auto.
Qed.

Lemma in_ents_look n : forall k x, In (k, x) (ents n) <-> look n k = Some x.
Proof.
  induction n as [ | h | ch w IH | ns c IH | ns w ] using node_ind'; intros k x.
  - cbn. split; [easy|discriminate].
  - cbn. split; [intros [[= <- <-]|[]]; auto|]. destruct k; [|discriminate]. intros [= <-]. auto.
  - rewrite ents_branch, in_app_iff, in_ents_from. split.
    + intros [(j & c & k' & x' & Hj & Hin & [= -> ->])|Hin].
      * rewrite look_branch, Hj. now apply (IH _ _ Hj).
      * destruct w as [|b w]; [easy|]. destruct Hin as [[= <- <-]|[]]. reflexivity.
    + destruct k as [|i k].
      * cbn. destruct w as [|b w]; [discriminate|]. intros [= <-]. right. left. auto.
      * rewrite look_branch. destruct (nth_error ch i) as [c|] eqn:E; [|discriminate].
        intros H. left. exists i, c, k, x. repeat split; auto. now apply (IH _ _ E).
  - cbn [ents look]. rewrite in_map_iff. split.
    + intros ([k' x'] & [= <- <-] & Hin). cbn. rewrite strip_app. now apply IH.
    + destruct (strip ns k) as [r|] eqn:S; [|discriminate]. apply strip_some in S as ->.
      intros H. exists (r, x). split; auto. now apply IH.
  - cbn [ents look]. destruct (nibbles_eqb ns k) eqn:E.
    + apply nibbles_eqb_eq in E as ->. split; [intros [[= <-]|[]]; auto|intros [= <-]; left; auto].
    + apply nibbles_eqb_neq in E. split; [intros [[= H _]|[]]; congruence|discriminate].
Qed.

Lemma look_stored n : forall k x, look n k = Some x <-> stored n k x.
Proof.
  intros k x. split.
  - revert k x. induction n as [ | h | ch w IH | ns c IH | ns w ] using node_ind'; intros k x H.
    + discriminate.
    + cbn in H. destruct k; [|discriminate]. injection H as <-. constructor. constructor.
    + destruct k as [|i k].
      * cbn in H. destruct w; [discriminate|]. injection H as <-.
        eapply stored_branch; [constructor|discriminate].
      * rewrite look_branch in H. destruct (nth_error ch i) as [c|] eqn:E; [|discriminate].
        destruct (IH _ _ E _ _ H) as [p ns v S|p ch' v S Hv|p h S].
        -- change (i :: p ++ ns) with ((i :: p) ++ ns). constructor. eapply sub_branch; eauto.
        -- eapply stored_branch; [eapply sub_branch; eauto|auto].
        -- constructor. eapply sub_branch; eauto.
    + apply look_ext_some in H as (k' & -> & H).
      destruct (IH _ _ H) as [p ns' v S|p ch' v S Hv|p h S].
      * rewrite app_assoc. constructor. now constructor.
      * eapply stored_branch; [econstructor; eauto|auto].
      * constructor. now constructor.
    + apply look_leaf_some in H as [-> ->].
      change ns with ([] ++ ns) at 2. constructor. constructor.
  - assert (Q : forall t p m, sub_at t p m -> forall k, look t (p ++ k) = look m k).
    { induction 1; intros k'; auto.
      - cbn [app]. now rewrite look_branch, H.
      - now rewrite <- app_assoc, look_ext_app. }
    intros [p ns v S|p ch' v S Hv|p h S].
    + rewrite (Q _ _ _ S). cbn. now rewrite nibbles_eqb_refl.
    + rewrite <- (app_nil_r p), (Q _ _ _ S). cbn. now destruct v.
    + rewrite <- (app_nil_r p), (Q _ _ _ S). auto.
Qed.

(** ** Order *)
Lemma key_lt_app p a b : key_lt a b -> key_lt (p ++ a) (p ++ b).
Proof. intros H. induction p; cbn; auto. now constructor. Qed.

Lemma sorted_map_app (p : nibbles) l : StronglySorted key_lt (map fst l) ->
  StronglySorted key_lt (map fst (map (pfx p) l)).
Proof.
  intros H. rewrite map_map. cbn. rewrite <- (map_map fst (app p)).
  induction H as [|a l' HS IH HF]; cbn; constructor; auto.
  rewrite Forall_map. eapply Forall_impl; [|exact HF]. intros b. apply key_lt_app.
Qed.

Lemma sorted_app {A} (R : A -> A -> Prop) l1 l2 :
  StronglySorted R l1 -> StronglySorted R l2 -> (forall a b, In a l1 -> In b l2 -> R a b) ->
  StronglySorted R (l1 ++ l2).
Proof.
  intros H1 H2 H. induction H1 as [|a l HS IH HF]; cbn; auto. constructor.
  - apply IH. intros x y Hx Hy. apply H; auto. now right.
  - apply Forall_app. split; auto. apply Forall_forall. intros y Hy. apply H; auto. now left.
Qed.

Lemma ents_sorted n : canon n -> StronglySorted key_lt (map fst (ents n)).
Proof.
  induction 1 as [| h | ns v Hn | ns c Hne Hn Hb Hc IH | ch Hl Hc IH Htwo].
  - constructor.
  - repeat constructor.
  - repeat constructor.
  - now apply sorted_map_app.
  - rewrite ents_branch. cbn [value_ents]. rewrite app_nil_r. clear - IH.
    generalize 0. induction ch as [|c ch IHl]; intros i; cbn [ents_from]; [constructor|].
    rewrite map_app. apply sorted_app.
    + apply sorted_map_app. now apply (IH 0 c).
    + apply IHl. intros j cj Hj. now apply (IH (S j) cj).
    + intros a b Ha Hb. apply in_map_iff in Ha as ([ka xa] & <- & Ha).
      apply in_map_iff in Ha as ([k1 x1] & [= <- <-] & _).
      apply in_map_iff in Hb as ([kb xb] & <- & Hb).
      apply in_ents_from in Hb as (j & c' & k & x & _ & _ & [= -> ->]).
      cbn. constructor. lia.
Qed.

(** ** The stack machine *)
Definition mkit (k : nibbles) (st : list iter_entry) : iter :=
  {| curr_key_after_last_branch := k; trie_stack := st |}.

Definition add_item (o : option (nibbles * val_or_hash)) (l : list (nibbles * val_or_hash)) :=
  match o with Some x => x :: l | None => l end.

(** Continue draining after an [advance]. *)
Definition after (f : nat) (r : res (iter * option (nibbles * val_or_hash))) : drained :=
  match r with
  | Ok (it, item) => match drain f it with Done l => Done (add_item item l) | x => x end
  | _ => DrainPanic
  end.

Lemma after_mono_aux f : forall it l, drain f it = Done l -> forall d, drain (f + d) it = Done l.
Proof.
  induction f as [|f IH]; intros it l H d; [discriminate|].
  cbn [Nat.add drain] in *. destruct (iter_turn it) as [[[it' item]|]|e|]; auto.
  destruct (drain f it') as [l'| |] eqn:E; try discriminate.
  now rewrite (IH _ _ E d).
Qed.

Lemma drain_mono f f' it l : drain f it = Done l -> f <= f' -> drain f' it = Done l.
Proof. intros H L. replace f' with (f + (f' - f)) by lia. now apply after_mono_aux. Qed.

Lemma merge_nibble_ok a n : length a < 64 -> merge_nibble a n = Ok (a ++ [n]).
Proof. intros H. unfold merge_nibble. apply Nat.ltb_lt in H. now rewrite H. Qed.

(** [p] is the path handed to [advance], [kb] the running key to come back to. *)
Definition child_path (kb p : nibbles) : Prop := (exists j, p = kb ++ [j]) \/ (p = [] /\ kb = []).

Lemma child_path_back kb p : child_path kb p ->
  (match p with [] => [] | _ => truncate_back 1 p end) = kb.
Proof.
  intros [[j ->]|[-> ->]]; auto.
  destruct (kb ++ [j]) eqn:E; [now destruct kb|]. rewrite <- E.
  unfold truncate_back. rewrite app_length, Nat.add_sub. apply firstn_app_exact.
Qed.

Lemma child_path_back_ext kb p ns : child_path kb p ->
  truncate_back (length ns) (match p ++ ns with [] => [] | _ => truncate_back 1 (p ++ ns) end) = kb.
Proof.
  intros H. assert (E : (match p ++ ns with [] => [] | _ => truncate_back 1 (p ++ ns) end)
                        = truncate_back 1 (p ++ ns)) by (destruct (p ++ ns); auto).
  rewrite E. unfold truncate_back. rewrite firstn_length, app_length.
  rewrite firstn_firstn.
  destruct H as [[j ->]|[-> ->]].
  - rewrite app_length. cbn [length].
    replace (Nat.min _ _) with (length kb) by lia. rewrite <- app_assoc. apply firstn_app_exact.
  - cbn [length]. now replace (Nat.min _ _) with 0 by lia.
Qed.

Lemma map_pfx_app a b l : map (pfx a) (map (pfx b) l) = map (pfx (a ++ b)) l.
Proof. rewrite map_map. apply map_ext. intros [k x]. unfold pfx. cbn. now rewrite app_assoc. Qed.

Lemma map_pfx_nil l : map (pfx []) l = l.
Proof. induction l as [|[k x] l IH]; cbn; auto. now rewrite IH. Qed.

Lemma skipn_nth {A} (l : list A) i c : nth_error l i = Some c -> skipn i l = c :: skipn (S i) l.
Proof.
  revert l. induction i as [|i IH]; intros [|x l] H; cbn in *; try discriminate.
  - now injection H as ->.
  - now apply IH.
Qed.

Lemma ents_from_skip l : forall i j, nth_error l j <> None ->
  exists c, nth_error l j = Some c /\
  ents_from (skipn j l) (i + j) = map (pfx [i + j]) (ents c) ++ ents_from (skipn (S j) l) (i + S j).
Proof.
  intros i j H. destruct (nth_error l j) as [c|] eqn:E; [|congruence].
  exists c. split; auto. rewrite (skipn_nth _ _ _ E). cbn [ents_from]. now rewrite plus_n_Sm.
Qed.

Lemma truncate_back_last (p : nibbles) : p <> [] -> exists j, p = truncate_back 1 p ++ [j].
Proof.
  intros H. destruct (exists_last H) as (q & j & ->). exists j. f_equal.
  unfold truncate_back. rewrite app_length, Nat.add_sub. symmetry. apply firstn_app_exact.
Qed.

Definition advance_spec (n : node) : Prop :=
  forall p kb st rest f,
    child_path kb p ->
    (forall k x, look n k = Some x -> length p + length k <= 64) ->
    drain f (mkit kb st) = Done rest ->
    exists f', after f' (advance n (mkit kb st) p) = Done (map (pfx p) (ents n) ++ rest).

Lemma drain_branch ch v q st :
  length ch = 16 -> length q < 64 ->
  (forall i c, nth_error ch i = Some c -> advance_spec c) ->
  (forall i c k x, nth_error ch i = Some c -> look c k = Some x -> length q + 1 + length k <= 64) ->
  forall f rest,
  drain f (mkit (match q with [] => [] | _ => truncate_back 1 q end) st) = Done rest ->
  forall d i, i = 16 - d -> 1 <= i -> d <= 15 ->
  exists f', drain f' (mkit q (IBranch ch v i :: st)) =
    Done (map (pfx q) (ents_from (skipn i ch) i) ++ map (pfx q) (value_ents v) ++ rest).
Proof.
  intros HL HQ IH HB f rest HD.
  induction d as [|d IHd]; intros i Hi H1 Hd.
  - replace i with 16 by lia. clear Hi H1. rewrite skipn_all2 by lia.
    exists (S f). cbn [drain]. unfold iter_turn. cbn [mkit trie_stack curr_key_after_last_branch].
    change ((1 <=? 16) && (16 <=? 15)) with false. change (16 =? 16) with true. cbn iota.
    unfold mkit in HD. rewrite HD.
    destruct v as [|b v]; cbn [value_ents map ents_from app]; auto.
    unfold pfx. cbn [fst snd]. now rewrite app_nil_r.
  - destruct (IHd (S i)) as (f1 & E1); try lia.
    destruct (nth_error_lt ch i) as [c Hc]; [lia|].
    pose proof (ents_from_skip ch 0 i) as ES. cbn [Nat.add] in ES.
    destruct ES as (c' & Hc' & ES); [congruence|].
    assert (c' = c) by congruence. subst c'. rewrite ES.
    edestruct (IH i c Hc (q ++ [i]) q (IBranch ch v (S i) :: st)) as (f2 & E2); [| |exact E1|].
    + left. eauto.
    + intros k x Hx. rewrite app_length. cbn. apply (HB i c k x Hc Hx).
    + exists (S f2). cbn [drain]. unfold iter_turn at 1. cbn [mkit trie_stack curr_key_after_last_branch].
      replace ((1 <=? i) && (i <=? 15)) with true.
      2:{ symmetry. apply andb_true_iff. split; apply Nat.leb_le; lia. }
      rewrite merge_nibble_ok by auto. cbn [bind]. rewrite Hc.
      fold (mkit q (IBranch ch v (S i) :: st)).
      unfold after in E2. destruct (advance c (mkit q (IBranch ch v (S i) :: st)) (q ++ [i])) as [[it item]| |]; try discriminate.
      cbn [bind]. destruct (drain f2 it) as [l| |]; try discriminate.
      injection E2 as E2. unfold add_item in E2. f_equal.
      destruct item as [x|]; rewrite E2; rewrite map_app, map_pfx_app; now rewrite <- !app_assoc.
Qed.

Lemma advance_canon n : canon n -> advance_spec n.
Proof.
  assert (BR : forall ch p kb' st rest f,
    length ch = 16 -> (forall i c, nth_error ch i = Some c -> canon c) ->
    (forall i c, nth_error ch i = Some c -> advance_spec c) ->
    canon (Branch ch []) ->
    (forall k x, look (Branch ch []) k = Some x -> length p + length k <= 64) ->
    drain f (mkit (match p with [] => [] | _ => truncate_back 1 p end) st) = Done rest ->
    exists f', after f' (advance (Branch ch []) (mkit kb' st) p) =
               Done (map (pfx p) (ents (Branch ch [])) ++ rest)).
  { intros ch p kb' st rest f HL HC IH C HB HD.
    assert (HQ : length p < 64).
    { destruct (canon_branch_two _ C) as (i & j & ki & kj & vi & vj & Hij & Hi & Hj).
      apply HB in Hi. cbn in Hi. lia. }
    assert (HB' : forall i c k x, nth_error ch i = Some c -> look c k = Some x -> length p + 1 + length k <= 64).
    { intros i c k x Hc Hx. specialize (HB (i :: k) x). rewrite look_branch, Hc in HB.
      specialize (HB Hx). cbn in HB. lia. }
    destruct (drain_branch ch [] p st HL HQ IH HB' f rest HD 15 1) as (f1 & E1); try lia.
    cbn [advance]. rewrite merge_nibble_ok by auto. cbn [bind mkit trie_stack].
    destruct ch as [|c0 ch]; [discriminate|].
    fold (mkit p (IBranch (c0 :: ch) [] 1 :: st)).
    edestruct (IH 0 c0 eq_refl (p ++ [0]) p (IBranch (c0 :: ch) [] 1 :: st)) as (f2 & E2); [| |exact E1|].
    - left. eauto.
    - intros k x Hx. rewrite app_length. cbn. apply (HB' 0 c0 k x); auto.
    - exists f2. rewrite E2. f_equal. rewrite ents_branch. cbn [ents_from value_ents skipn].
      rewrite app_nil_r, map_app, map_pfx_app. cbn [map app]. now rewrite <- app_assoc. }
  intros C. induction C as [| h | ns v Hn | ns c Hne Hn Hb Hc IH | ch Hl Hc IH Htwo];
    intros p kb st rest f CP HB HD.
  - exists f. cbn. now rewrite HD.
  - exists f. cbn. rewrite HD. cbn. unfold pfx. cbn. now rewrite app_nil_r.
  - exists f. cbn. rewrite merge_ok.
    + cbn. now rewrite HD.
    + apply (HB ns (Val v)). cbn. now rewrite nibbles_eqb_refl.
  - assert (HM : length p + length ns <= 64).
    { destruct (canon_nonempty c Hc) as (q & y & Hq); [destruct c; easy|].
      specialize (HB (ns ++ q) y). rewrite look_ext_app, app_length in HB. specialize (HB Hq). lia. }
    destruct c as [|h|ch v| |]; try easy.
    + exists f. cbn. rewrite merge_ok by auto. cbn. rewrite HD. cbn. unfold pfx. cbn. now rewrite !app_nil_r.
    + destruct (canon_branch_inv _ _ Hc) as (-> & HL & HC & _).
      cbn [advance is_hash]. rewrite merge_ok by auto. cbn [bind].
      assert (HD' : drain (S f) (mkit (match p ++ ns with [] => [] | _ => truncate_back 1 (p ++ ns) end)
                       (IExt (length ns) :: st)) = Done rest).
      { cbn [drain]. unfold iter_turn. cbn [mkit trie_stack curr_key_after_last_branch].
        rewrite child_path_back_ext with (kb := kb) by auto. unfold mkit in HD. now rewrite HD. }
      set (kb' := match p ++ ns with [] => [] | _ => truncate_back 1 (p ++ ns) end) in *.
      destruct (IH (p ++ ns) kb' (IExt (length ns) :: st) rest (S f)) as (f' & E'); auto.
      * destruct (p ++ ns) eqn:E in kb'; [apply app_eq_nil in E as [_ ->]; easy|].
        left. subst kb'. rewrite <- E. apply truncate_back_last. now rewrite E.
      * intros k x Hx. rewrite app_length. specialize (HB (ns ++ k) x).
        rewrite look_ext_app, app_length in HB. specialize (HB Hx). lia.
      * exists f'. cbn [ents]. rewrite map_pfx_app. exact E'.
  - destruct (BR ch p kb st rest f Hl Hc IH) as (f' & E'); auto.
    + now constructor.
    + now rewrite child_path_back with (kb := kb).
    + eauto.
Qed.

Lemma items_ok t : canon t -> bounded t ->
  exists f, forall f', f <= f' -> drain f' (trie_items t) = Done (ents t).
Proof.
  intros C B.
  destruct (advance_canon t C [] [] [] [] 1) as (f & E); [right; auto|intros k x Hx; now apply B in Hx|reflexivity|].
  exists (S f). intros f' L. apply drain_mono with (f := S f); auto.
  cbn [drain]. unfold iter_turn. cbn [trie_items trie_stack curr_key_after_last_branch].
  change {| curr_key_after_last_branch := []; trie_stack := [] |} with (mkit [] []).
  unfold after in E. destruct (advance t (mkit [] []) []) as [[it item]| |]; try discriminate.
  cbn [bind]. destruct (drain f it) as [l| |]; try discriminate.
  injection E as E. rewrite map_pfx_nil, app_nil_r in E. unfold add_item in E. now rewrite E.
Qed.

Lemma has_item_spec t k : has_item_by_key (ents t) k = true <-> exists x, stored t k x.
Proof.
  unfold has_item_by_key. rewrite existsb_exists. split.
  - intros ([k' x] & Hin & E). apply nibbles_eqb_eq in E. cbn in E. subst k'.
    exists x. now apply look_stored, in_ents_look.
  - intros (x & Hx). exists (k, x). split.
    + now apply in_ents_look, look_stored.
    + cbn. apply nibbles_eqb_refl.
Qed.
