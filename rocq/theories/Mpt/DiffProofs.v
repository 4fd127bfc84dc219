(** Proofs about the trie diff tool. *)

From Coq Require Import List Arith NArith Bool Lia.
From Verif.Mpt Require Import TrieModel TrieSpec TrieFacts TrieOpsProofs TrieHistory HashModel PruneSpec PruneProofs
  PartialProofs RlpProofs PartialProps QueryModel QuerySpec DiffModel.
Import ListNotations.
Local Open Scope nat_scope.

Section Keccak.
Variable keccak : list N -> list N.
Notation find_rec := (find_rec keccak).
Notation hash := (hash_trie keccak).
Notation new_diff_point := (new_diff_point keccak).

Definition diff_kids (curr_key : nibbles) (curr_path : list segment) :=
  fix children (i : nat) (la lb : list node) (most : detection) (acc : list diff_point)
     : res (detection * list diff_point) :=
     match la, lb with
     | x :: la', y :: lb' =>
         bind (merge_nibble curr_key i) (fun k =>
         bind (find_rec x y k (curr_path ++ [SBranch i])) (fun r =>
         children (S i) la' lb' (pick_most_significant_state most (fst r)) (acc ++ snd r)))
     | _, _ => Ok (most, acc)
     end.

Definition differ (a b : node) : bool := negb (type_eqb (type_of a) (type_of b) && nibbles_eqb (key_piece a) (key_piece b)).

Lemma find_eq a b k p : find_rec a b k p =
  if bytes_eqb (hash a) (hash b) then Ok (NoDiffDetected, [])
  else if differ a b then bind (new_diff_point a b k p) (fun d => Ok (NodeTypesDiffer, [d]))
  else match a, b with
    | Empty, Empty => Ok (NoDiffDetected, [])
    | Hash ha, Hash hb =>
        if bytes_eqb ha hb then Ok (NoDiffDetected, [])
        else bind (new_diff_point a b k (p ++ [segment_of a []])) (fun d => Ok (HashDiffDetected, [d]))
    | Branch ca _, Branch cb _ =>
        bind (diff_kids k p 0 ca cb NoDiffDetected [])
          (fun r =>
             match fst r with
             | NoDiffDetected => Ok r
             | _ => if bytes_eqb (hash a) (hash b) then Ok (NoDiffDetected, snd r)
                    else bind (new_diff_point a b k p) (fun d => Ok (HashDiffDetected, snd r ++ [d]))
             end)
    | Ext na xa, Ext _ xb => bind (merge_nibbles k na) (fun k' => find_rec xa xb k' (p ++ [SExt na]))
    | Leaf _ _, Leaf _ _ =>
        if bytes_eqb (hash a) (hash b) then Ok (NoDiffDetected, [])
        else bind (new_diff_point a b k p) (fun d => Ok (HashDiffDetected, [d]))
    | _, _ => Panic
    end.
Proof. destruct a; reflexivity. Qed.

Lemma pick_nodiff d : pick_most_significant_state NoDiffDetected d = NoDiffDetected.
Proof. now destruct d. Qed.

Lemma bytes_eqb_eq a b : bytes_eqb a b = true <-> a = b.
Proof. unfold bytes_eqb. destruct (list_eq_dec N.eq_dec a b); split; congruence. Qed.
Lemma bytes_eqb_neq a b : bytes_eqb a b = false <-> a <> b.
Proof. unfold bytes_eqb. destruct (list_eq_dec N.eq_dec a b); split; congruence. Qed.

Lemma differ_false a b : differ a b = false -> type_of a = type_of b /\ key_piece a = key_piece b.
Proof.
  unfold differ. rewrite negb_false_iff, andb_true_iff, nibbles_eqb_eq. intros [H ->]. split; auto. now destruct (type_of a), (type_of b).
Qed.

(** ** Reported points are real *)
Definition describes_info (i : node_info) (p : nibbles) (n : node) : Prop :=
  info_key i = p ++ key_piece n /\ info_value i = value_of n /\ info_type i = type_of n /\ info_hash i = hash n.

(** The point lies at [d] below [a] and [b], whose own path is [p]. *)
Definition real_point (a b : node) (k : nibbles) (d : diff_point) : Prop :=
  exists r na nb, dp_key d = k ++ r /\ sub_at a r na /\ sub_at b r nb /\ hash na <> hash nb /\
    describes_info (dp_a d) (dp_key d) na /\ describes_info (dp_b d) (dp_key d) nb.

Lemma new_point_real a b k p d : new_diff_point a b k p = Ok d -> hash a <> hash b -> real_point a b k d.
Proof.
  unfold DiffModel.new_diff_point, merge_nibbles. destruct (_ <=? 64); [|discriminate]. cbn [bind].
  destruct (_ <=? 64); [|discriminate]. intros [= <-] H. exists [], a, b. cbn. rewrite app_nil_r. repeat split; auto; constructor.
Qed.

Lemma kids_acc k p la : forall i lb most acc det pts, diff_kids k p i la lb most acc = Ok (det, pts) ->
  forall d, In d pts -> In d acc \/
    exists m x y det' pts', nth_error la m = Some x /\ nth_error lb m = Some y /\
      find_rec x y (k ++ [i + m]) (p ++ [SBranch (i + m)]) = Ok (det', pts') /\ In d pts'.
Proof.
  induction la as [|x la IH]; intros i lb most acc det pts E d Hd; [injection E as <- <-; auto|].
  destruct lb as [|y lb]; [injection E as <- <-; auto|]. cbn [diff_kids] in E. unfold merge_nibble in E at 1.
  destruct (length k <? 64) eqn:Lk; [|discriminate]. cbn [bind] in E.
  destruct (find_rec x y (k ++ [i]) (p ++ [SBranch i])) as [[det' pts']|e|] eqn:Ef; try discriminate. cbn [bind fst snd] in E.
  destruct (IH _ _ _ _ _ _ E d Hd) as [Ha|(m & x' & y' & dt & ps & Ex & Ey & Em & Hm)].
  - apply in_app_or in Ha as [Ha|Ha]; auto. right. exists 0, x, y, det', pts'. rewrite Nat.add_0_r. auto.
  - right. exists (S m), x', y', dt, ps. rewrite Nat.add_succ_r. auto.
Qed.

Lemma find_real a : forall b k p det pts, find_rec a b k p = Ok (det, pts) -> forall d, In d pts -> real_point a b k d.
Proof.
  induction a as [|h|ch v IH|ns c IH|ns v] using node_ind'; intros b k p det pts E d Hd; rewrite find_eq in E;
    destruct (bytes_eqb (hash _) (hash b)) eqn:He; try (injection E as <- <-; easy); apply bytes_eqb_neq in He;
    destruct (differ _ b) eqn:Hdf;
    try (destruct (new_diff_point _ b k p) as [x| |] eqn:En; try discriminate; cbn [bind] in E; injection E as <- <-; destruct Hd as [<-|[]];
      eapply new_point_real; eauto; fail);
    apply differ_false in Hdf as [HT HK]; destruct b as [|h'|ch' v'|ns' c'|ns' v']; try discriminate HT.
  - now injection E as <- <-.
  - destruct (bytes_eqb h h'); [injection E as <- <-; easy|].
    destruct (new_diff_point _ _ k _) as [x| |] eqn:En; try discriminate. cbn [bind] in E. injection E as <- <-. destruct Hd as [<-|[]].
    eapply new_point_real; eauto.
  - destruct (diff_kids k p 0 ch ch' NoDiffDetected []) as [[dt ps]|e|] eqn:Ek; try discriminate. cbn [bind fst snd] in E.
    assert (Hps : In d ps -> real_point (Branch ch v) (Branch ch' v') k d).
    { intros Hin. destruct (kids_acc k p ch 0 ch' _ _ _ _ Ek d Hin) as [[]|(m & x & y & dt' & ps' & Ex & Ey & Ef & Hin')].
      destruct (IH m x Ex y _ _ _ _ Ef d Hin') as (r & na & nb & Er & Sa & Sb & Hn & Da & Db).
      exists (m :: r), na, nb. repeat split; auto.
      - rewrite Er, <- app_assoc. reflexivity.
      - econstructor; eauto.
      - econstructor; eauto.
      - apply Da.
      - apply Da.
      - apply Da.
      - apply Da.
      - apply Db.
      - apply Db.
      - apply Db.
      - apply Db. }
    destruct dt.
    + destruct (new_diff_point _ _ k p) as [x| |] eqn:En; try discriminate. cbn [bind] in E. injection E as <- <-.
      apply in_app_or in Hd as [Hd|[<-|[]]]; auto. eapply new_point_real; eauto.
    + destruct (new_diff_point _ _ k p) as [x| |] eqn:En; try discriminate. cbn [bind] in E. injection E as <- <-.
      apply in_app_or in Hd as [Hd|[<-|[]]]; auto. eapply new_point_real; eauto.
    + injection E as <- <-. auto.
  - cbn in HK. subst ns'. unfold merge_nibbles in E at 1. destruct (_ <=? 64); [|discriminate]. cbn [bind] in E.
    destruct (IH c' _ _ _ _ E d Hd) as (r & na & nb & Er & Sa & Sb & Hn & Da & Db).
    exists (ns ++ r), na, nb. split; [now rewrite Er, app_assoc|]. split; [now constructor|]. split; [now constructor|]. auto.
  - destruct (new_diff_point _ _ k p) as [x| |] eqn:En; try discriminate. cbn [bind] in E. injection E as <- <-. destruct Hd as [<-|[]].
    eapply new_point_real; eauto.
Qed.

(** ** Every difference is covered *)
Hypothesis keccak_length : forall b, length (keccak b) = 32.

Definition fits (p : nibbles) (n : node) : Prop := forall k x, look n k = Some x -> length p + length k <= 64.

Lemma new_point_ok a b k p : canon a -> canon b -> length k <= 64 -> fits k a -> fits k b ->
  exists d, new_diff_point a b k p = Ok d /\ dp_key d = k.
Proof.
  intros Ca Cb Lk Fa Fb.
  assert (G : forall n, canon n -> fits k n -> length k + length (key_piece n) <= 64).
  { intros n C F. destruct n as [|h|ch v|ns c|ns v]; cbn [key_piece length]; try lia.
    - destruct (canon_nonempty _ C ltac:(discriminate)) as (q & x & E). pose proof (F _ _ E) as L. apply look_ext_some in E as (q' & -> & _).
      rewrite app_length in L. lia.
    - apply (F ns (Val v)). cbn. now rewrite nibbles_eqb_refl. }
  unfold DiffModel.new_diff_point. rewrite !merge_ok by (apply G; auto). cbn [bind]. eexists. split; reflexivity.
Qed.

Lemma fits_branch k ch v i c : fits k (Branch ch v) -> nth_error ch i = Some c -> fits (k ++ [i]) c.
Proof. intros F E q x L. specialize (F (i :: q) x). rewrite look_branch, E in F. specialize (F L). rewrite app_length. cbn in *. lia. Qed.
Lemma fits_ext k ns c : fits k (Ext ns c) -> fits (k ++ ns) c.
Proof. intros F q x L. specialize (F (ns ++ q) x). rewrite look_ext_app, app_length in F. specialize (F L). rewrite app_length. lia. Qed.

Lemma strings_child ch v i c : nth_error ch i = Some c -> incl (rlp_strings keccak c) (rlp_strings keccak (Branch ch v)).
Proof. intros E x Hx. cbn [rlp_strings]. right. apply in_flat_map. exists c. split; auto. eapply nth_error_In; eauto. Qed.
Lemma strings_ext ns c : incl (rlp_strings keccak c) (rlp_strings keccak (Ext ns c)).
Proof. intros x Hx. cbn [rlp_strings]. now right. Qed.

Definition covers (a b : node) (k : nibbles) (pts : list diff_point) : Prop :=
  forall q, look a q <> look b q -> exists d r, In d pts /\ dp_key d = k ++ r /\ is_prefix r q.

Lemma kids_cover k p la : length k < 64 -> forall i lb acc,
  (forall m x y, nth_error la m = Some x -> nth_error lb m = Some y ->
     exists det pts, find_rec x y (k ++ [i + m]) (p ++ [SBranch (i + m)]) = Ok (det, pts) /\ covers x y (k ++ [i + m]) pts) ->
  exists pts, diff_kids k p i la lb NoDiffDetected acc = Ok (NoDiffDetected, pts) /\ incl acc pts /\
    forall m x y, nth_error la m = Some x -> nth_error lb m = Some y -> covers x y (k ++ [i + m]) pts.
Proof.
  intros Lk. induction la as [|x la IH]; intros i lb acc H.
  - exists acc. repeat split; auto; [intros z; auto|]. intros [|m]; discriminate.
  - destruct lb as [|y lb]; [exists acc; repeat split; auto; [intros z; auto|]; intros [|m]; discriminate|].
    cbn [diff_kids]. unfold merge_nibble at 1. apply Nat.ltb_lt in Lk as Lb. rewrite Lb. cbn [bind].
    destruct (H 0 x y eq_refl eq_refl) as (det & pts & Ef & Cv). rewrite Nat.add_0_r in *. rewrite Ef. cbn [bind fst snd]. rewrite pick_nodiff.
    destruct (IH (S i) lb (acc ++ pts)) as (pts' & Ek & I & Cv').
    { intros m x' y' Ex Ey. destruct (H (S m) x' y' Ex Ey) as (dt & ps & Em & Cm). rewrite Nat.add_succ_r in *. exists dt, ps. auto. }
    exists pts'. split; [exact Ek|]. split; [intros z Hz; apply I, in_or_app; auto|].
    intros [|m] x' y' Ex Ey.
    + injection Ex as <-. injection Ey as <-. rewrite Nat.add_0_r. intros q Hq. destruct (Cv q Hq) as (d & r & Hd & Hr). exists d, r.
      split; auto. apply I, in_or_app. auto.
    + rewrite Nat.add_succ_r. apply (Cv' m x' y' Ex Ey).
Qed.

Lemma find_cover a : forall b k p, canon a -> canon b -> no_hash a -> no_hash b -> wf_node a -> wf_node b ->
  no_collision keccak a b -> length k <= 64 -> fits k a -> fits k b ->
  exists det pts, find_rec a b k p = Ok (det, pts) /\ covers a b k pts.
Proof.
  induction a as [|h|ch v IH|ns c IH|ns v] using node_ind'; intros b k p Ca Cb Na Nb Wa Wb NC Lk Fa Fb;
    rewrite find_eq; destruct (bytes_eqb (hash _) (hash b)) eqn:He;
    try (apply bytes_eqb_eq in He; do 2 eexists; split; [reflexivity|]; intros q Hq; exfalso; apply Hq; f_equal;
         eapply C44_equal_roots_equal_tries; eauto; fail);
    destruct (differ _ b) eqn:Hdf;
    try (match goal with |- context [new_diff_point ?a0 b k p] => destruct (new_point_ok a0 b k p Ca Cb Lk Fa Fb) as (d & -> & Ed) end; do 2 eexists; split; [reflexivity|];
         intros q _; exists d, []; split; [now left|]; split; [now rewrite app_nil_r|now exists q]);
    apply differ_false in Hdf as [HT HK]; destruct b as [|h'|ch' v'|ns' c'|ns' v']; try discriminate HT.
  - exfalso. apply bytes_eqb_neq in He. now apply He.
  - inversion Na.
  - destruct (canon_branch_inv _ _ Ca) as (-> & La & Cca & (m & _ & cm & _ & _ & Em & _ & Nm & _)).
    destruct (canon_branch_inv _ _ Cb) as (-> & Lb & Ccb & _).
    assert (L64 : length k < 64).
    { destruct (canon_nonempty _ (Cca _ _ Em) Nm) as (q & x & Eq). specialize (Fa (m :: q) x). rewrite look_branch, Em in Fa. specialize (Fa Eq). cbn in Fa. lia. }
    destruct (kids_cover k p ch L64 0 ch' []) as (pts & Ek & _ & Cv).
    { intros i x y Ex Ey. cbn [Nat.add]. apply (IH i x Ex); eauto.
      - inversion Na as [| | |? ? FN]; subst. rewrite Forall_forall in FN. apply FN. eapply nth_error_In; eauto.
      - inversion Nb as [| | |? ? FN]; subst. rewrite Forall_forall in FN. apply FN. eapply nth_error_In; eauto.
      - apply wf_branch_inv in Wa as (_ & FW & _). rewrite Forall_forall in FW. apply FW. eapply nth_error_In; eauto.
      - apply wf_branch_inv in Wb as (_ & FW & _). rewrite Forall_forall in FW. apply FW. eapply nth_error_In; eauto.
      - eapply no_collision_sub; [exact NC|eapply strings_child; eauto|eapply strings_child; eauto].
      - rewrite app_length. cbn. lia.
      - exact (fits_branch _ _ _ _ _ Fa Ex).
      - exact (fits_branch _ _ _ _ _ Fb Ey). }
    rewrite Ek. cbn [bind fst snd]. do 2 eexists. split; [reflexivity|].
    intros [|i q] Hq; [now destruct Hq|]. rewrite !look_branch in Hq.
    destruct (nth_error ch i) as [x|] eqn:Ex; destruct (nth_error ch' i) as [y|] eqn:Ey.
    + destruct (Cv i x y Ex Ey q Hq) as (d & r & Hd & Ed & (z & ->)). exists d, (i :: r). split; auto. split; [rewrite Ed, <- app_assoc; reflexivity|].
      now exists z.
    + apply nth_error_None in Ey. assert (i < length ch) by (apply nth_error_Some; congruence). lia.
    + apply nth_error_None in Ex. assert (i < length ch') by (apply nth_error_Some; congruence). lia.
    + easy.
  - cbn in HK. subst ns'. destruct (canon_ext_inv _ _ Ca) as (_ & _ & _ & Cca). destruct (canon_ext_inv _ _ Cb) as (_ & _ & _ & Ccb).
    assert (L64 : length k + length ns <= 64).
    { destruct (canon_nonempty _ Ca ltac:(discriminate)) as (q & x & E). pose proof (Fa _ _ E) as L. apply look_ext_some in E as (q' & -> & _).
      rewrite app_length in L. lia. }
    rewrite merge_ok by auto. cbn [bind].
    destruct (IH c' (k ++ ns) (p ++ [SExt ns])) as (det & pts & E & Cv); auto.
    + now inversion Na.
    + now inversion Nb.
    + now apply wf_ext_inv in Wa as [_ ?].
    + now apply wf_ext_inv in Wb as [_ ?].
    + eapply no_collision_sub; [exact NC|apply strings_ext|apply strings_ext].
    + rewrite app_length. lia.
    + now apply fits_ext.
    + now apply fits_ext.
    + exists det, pts. split; auto. intros q Hq. cbn [look] in Hq. destruct (strip ns q) as [q'|] eqn:Es; [|easy]. apply strip_some in Es as ->.
      destruct (Cv q' Hq) as (d & r & Hd & Ed & (z & ->)). exists d, (ns ++ r). split; auto. split; [now rewrite Ed, app_assoc|].
      exists z. now rewrite app_assoc.
  - destruct (new_point_ok (Leaf ns v) (Leaf ns' v') k p Ca Cb Lk Fa Fb) as (d & -> & Ed). cbn [bind]. do 2 eexists. split; [reflexivity|].
    intros q _. exists d, []. split; [now left|]. split; [now rewrite app_nil_r|now exists q].
Qed.
End Keccak.
