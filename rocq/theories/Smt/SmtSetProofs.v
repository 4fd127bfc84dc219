(** [Smt::set] on abstract trees. *)

From Coq Require Import List Arith NArith ZArith Lia Bool ZifyN ZifyNat ZifyBool.
From Verif.Smt Require Import SmtModel SmtSpec KeyProofs SmtProofs.
Import ListNotations.
Local Open Scope nat_scope.

Section Poseidon.
Variable pos : node -> quad.
Notation thash := (thash pos).
Notation stored := (stored pos).
Notation sctx := (sctx pos).
Notation path_of := (path_of pos).
Notation node_of := (node_of pos).
Notation db_ok := (db_ok pos).
Notation log_ok := (log_ok pos).
Notation vhash := (vhash pos).
Notation lnode := (lnode pos).
Notation nodes d := (map snd d).

Lemma plug_app : forall c1 c2 t, plug (c1 ++ c2) t = plug c2 (plug c1 t).
Proof. induction c1 as [|[b s] c1 IH]; intros c2 t; cbn [app plug]; [reflexivity|]. apply IH. Qed.

Lemma cleaves_app : forall c1 c2, cleaves (c1 ++ c2) = cleaves c1 ++ cleaves c2.
Proof. induction c1 as [|[b s] c1 IH]; intros c2; cbn [app cleaves]; [reflexivity|]. rewrite IH, app_assoc. reflexivity. Qed.

Lemma cbits_app : forall c1 c2, cbits (c1 ++ c2) = cbits c2 ++ cbits c1.
Proof. intros. unfold cbits. rewrite map_app, rev_app_distr. reflexivity. Qed.

Lemma sctx_app : forall D ns c1 c2, sctx D ns (c1 ++ c2) -> sctx D ns c2.
Proof. induction c1 as [|[b s] c1 IH]; intros c2 Hc; cbn [app] in *; [exact Hc|]. destruct Hc. auto. Qed.

Lemma pctx_app : forall c1 c2, pctx (c1 ++ c2) -> pctx c2.
Proof. induction c1 as [|[b s] c1 IH]; intros c2 Hc; cbn [app] in *; [exact Hc|]. destruct Hc as (_ & _ & Hc). auto. Qed.

Definition empties (c : ctx) : Prop := Forall (fun e => snd e = E) c.

Lemma empties_leaves : forall c, empties c -> cleaves c = [].
Proof. induction 1 as [|[b s] c Hs _ IH]; [reflexivity|]. cbn [snd] in Hs. subst. exact IH. Qed.

Lemma empties_hashes : forall c1 c2, empties c1 -> chashes (c1 ++ c2) = chashes c2.
Proof. induction 1 as [|[b s] c Hs _ IH]; [reflexivity|]. cbn [snd] in Hs. subst. exact IH. Qed.

Lemma plug1_notE : forall b s t, isE (plug1 b s t) = false.
Proof. intros [|] s t; reflexivity. Qed.

Lemma plug1_notsmall : forall b s t, small (plug1 b s t) = false.
Proof. intros [|] s t; reflexivity. Qed.

Lemma unique_sibling_node_of : forall D d n b s t, db_ok D d -> stored D (nodes d) (S n) s -> stored D (nodes d) (S n) t ->
  isE t = false -> get_unique_sibling (node_of n b s t) = if isE s then Some (if b then 1 else 0) else None.
Proof.
  intros D d n b s t Hd Hs Ht He. unfold get_unique_sibling.
  destruct b; cbn [node_of inode node0 n0 n1 n2 SmtProofs.node_of SmtProofs.inode];
    rewrite (is_zero_thash pos s D d), (is_zero_thash pos t D d) by assumption; rewrite He;
    change (is_zero zero) with true; destruct (isE s); reflexivity.
Qed.

Lemma climb_spec : forall c D d t, db_ok D d -> stored D (nodes d) 0 (plug c t) -> isE t = false ->
  exists c1 c2, c = c1 ++ c2 /\ empties c1 /\ climb (path_of c t) = path_of c2 (plug c1 t) /\
    match c2 with [] => True | (_, s) :: _ => s <> E end.
Proof.
  induction c as [|[b s] c IH]; intros D d t Hd Hst He.
  - exists [], []. repeat split. constructor.
  - cbn [SmtProofs.path_of climb]. cbn [plug] in Hst.
    pose proof (stored_plug pos D _ c _ Hst) as [Hp _].
    assert (Hts : stored D (nodes d) (S (length c)) t /\ stored D (nodes d) (S (length c)) s).
    { destruct b; cbn [plug1 SmtProofs.stored] in Hp; tauto. }
    rewrite (unique_sibling_node_of D d) by tauto.
    destruct (isE s) eqn:Es.
    + destruct s; try discriminate.
      destruct (IH D d (plug1 b E t) Hd Hst (plug1_notE _ _ _)) as (c1 & c2 & -> & E1 & C1 & N1).
      exists ((b, E) :: c1), c2. repeat split; auto. constructor; [reflexivity|exact E1].
    + exists [], ((b, s) :: c). repeat split; auto; [constructor|].
      intros ->. discriminate.
Qed.

Lemma plain_plug : forall c t, plain (plug c t) -> plain t.
Proof.
  induction c as [|[b s] c IH]; intros t Ht; cbn [plug] in *; [exact Ht|]. apply IH in Ht. destruct b; apply Ht.
Qed.

Lemma plain_plug_swap : forall c t t', plain (plug c t) -> plain t' -> plain (plug c t').
Proof.
  induction c as [|[b s] c IH]; intros t t' Ht Ht'; cbn [plug] in *; [exact Ht'|].
  apply (IH (plug1 b s t)); [exact Ht|]. apply plain_plug in Ht. destruct b; destruct Ht; split; assumption.
Qed.

(** What an operation on the tree must deliver. *)
Definition delivers (D : list node) (d d' : database) (h : quad) (t' : tree) : Prop :=
  h = thash 0 t' /\ log_ok d' /\ incl (nodes d) (nodes d') /\ stored D (nodes d') 0 t' /\ placed [] t' /\ canon t'.

Lemma remove_leaf_spec : forall c D d k v d' h, db_ok D d -> stored D (nodes d) 0 (plug c (L k v)) ->
  placed [] (plug c (L k v)) -> canon (plug c (L k v)) ->
  remove_leaf pos d (path_of c (L k v)) = Some (d', h) ->
  exists t', delivers D d d' h t' /\ (forall x, In x (leaves t') <-> In x (cleaves c)) /\
    (forall x, In x (hashes [] t') <-> In x (chashes c)).
Proof.
  intros c D d k v d' h Hd Hst Hpl Hcan Hrm. pose proof Hd as (Hd1 & Hd2 & Hd3).
  pose proof (stored_plug pos D _ c _ Hst) as [Hst1 Hst2].
  apply placed_plug in Hpl. destruct Hpl as [Hpl1 Hpl2].
  destruct c as [|[b s] c].
  - cbn in Hrm. inversion Hrm; subst. exists E. unfold delivers. cbn. repeat split; auto. intros x Hx; exact Hx.
  - cbn [SmtProofs.path_of remove_leaf] in Hrm.
    assert (Hm : set_slot (node_of (length c) b s (L k v)) b zero = node_of (length c) b s E) by (destruct b; reflexivity).
    rewrite Hm in Hrm. clear Hm.
    destruct Hst2 as [Hs Hst2]. cbn [length] in Hs, Hst1. destruct Hpl2 as (Hlen & Hps & Hpl2).
    assert (Hu : get_unique_sibling (node_of (length c) b s E) = if isE s then None else Some (if b then 0 else 1)).
    { unfold get_unique_sibling. pose proof (is_zero_thash pos s D d (S (length c)) Hd Hs) as Z.
      destruct b; cbn [inode node0 n0 n1 n2 SmtProofs.node_of SmtProofs.inode SmtProofs.thash]; rewrite Z;
        change (is_zero zero) with true; destruct (isE s); reflexivity. }
    rewrite Hu in Hrm. destruct (isE s) eqn:Es; [discriminate|].
    assert (Hk : match (if b then 0 else 1) with 0 => n0 (node_of (length c) b s E) | 1 => n1 (node_of (length c) b s E)
                 | _ => n2 (node_of (length c) b s E) end = thash (S (length c)) s) by (destruct b; reflexivity).
    rewrite Hk in Hrm. clear Hk Hu.
    pose proof (canon_plug _ _ Hcan) as [_ Hcc]. cbn [canctx] in Hcc. destruct Hcc as [Hcs Hcc].
    destruct s as [|k2 v2|sl sr|sbig sh].
    + discriminate.
    + (* the sibling is a leaf: it moves up *)
      destruct (get_stored_leaf pos D d k2 v2 _ Hd Hs) as [G1 G2]. rewrite G1 in Hrm.
      change (is_one_siblings (lnode k2 (S (length c)) v2)) with true in Hrm. cbv iota in Hrm.
      change (n1 (lnode k2 (S (length c)) v2)) with (vhash v2) in Hrm. rewrite G2 in Hrm.
      change (n0 (lnode k2 (S (length c)) v2)) with (rem k2 (S (length c))) in Hrm.
      replace (match (if b then 0 else 1) <? 2 with true => true | false => false end) with true in Hrm by (destruct b; reflexivity).
      replace ((if b then 0 else 1) <? 2) with true in Hrm by (destruct b; reflexivity).
      replace (negb ((if b then 0 else 1) =? 0)) with (negb b) in Hrm by (destruct b; reflexivity).
      rewrite path_of_bits in Hrm.
      destruct Hps as ([q Hq] & Hle & Hqv & Hvv). rewrite app_length, cbits_length in Hle. cbn [length] in Hle.
      assert (J : join (cbits c ++ [negb b]) (rem k2 (S (length c))) = Some k2).
      { replace (S (length c)) with (length (cbits c ++ [negb b])) by (rewrite app_length, cbits_length; cbn; lia).
        apply (join_rem_prefix k2 _ q Hqv Hq). rewrite app_length, cbits_length. cbn. lia. }
      rewrite J in Hrm. clear J.
      cbn [plug] in Hst. destruct (climb_spec c D d (plug1 b (L k2 v2) (L k v)) Hd Hst (plug1_notE _ _ _))
        as (c1 & c2 & -> & Hem & Hcl & Hhd).
      rewrite Hcl, path_of_length in Hrm. rewrite app_length in Hle.
      rewrite remove_key_bits_rem in Hrm by lia.
      cbn [store] in Hrm. inversion Hrm as [Hput]. clear Hrm.
      set (d1 := set_node d (pos (leaf_node (rem k2 (length c2)) (vhash v2))) (leaf_node (rem k2 (length c2)) (vhash v2))) in *.
      assert (Hi : incl (nodes d) (nodes d1)) by (intros x Hx; right; exact Hx).
      change (pos (leaf_node (rem k2 (length c2)) (vhash v2))) with (thash (length c2) (L k2 v2)) in Hput.
      apply (put_spec pos c2 D) in Hput.
      * destruct Hput as (P1 & P2 & P3 & P4). exists (plug c2 (L k2 v2)).
        split; [|split].
        -- unfold delivers. repeat split; auto.
           ++ intros x Hx. apply P3, Hi, Hx.
           ++ apply placed_plug. split; [|apply (pctx_app c1 c2), Hpl2].
              rewrite cbits_app in Hq. cbn [placed]. rewrite cbits_length. repeat split; auto; try lia; try apply Hqv; try apply Hvv.
              rewrite <- !app_assoc in Hq. eexists. exact Hq.
           ++ cbn [plug] in Hcan. rewrite plug_app in Hcan.
              apply (canon_plug_fits c2 _ _ Hcan); [exact Logic.I|].
              destruct c2 as [|[b2 s2] c2']; [exact Logic.I|]. cbn [fits]. unfold okI.
              repeat split; intros [A B]; subst; try discriminate; congruence.
        -- intros x. rewrite leaves_plug. cbn [leaves cleaves]. rewrite cleaves_app, (empties_leaves c1 Hem), in_app_iff. cbn. tauto.
        -- intros x. rewrite hashes_plug. cbn [hashes chashes app]. rewrite (empties_hashes c1 c2 Hem). cbn. tauto.
      * constructor; [reflexivity|exact Hd1].
      * apply (sctx_mono pos _ _ (nodes d)); [exact Hi|]. apply (sctx_app _ _ c1), Hst2.
      * split; [left; reflexivity|]. apply Hi. exact (proj2 Hs).
    + (* the sibling is an internal node: it stays *)
      rewrite (get_stored_inode pos D d sl sr _ Hd Hs) in Hrm.
      change (is_one_siblings (inode pos (S (length c)) sl sr)) with false in Hrm. cbv iota in Hrm.
      inversion Hrm as [Hreb]. clear Hrm.
      apply (rebuild_spec pos c D) in Hreb; [|exact Hd1|split; assumption|exact Logic.I].
      destruct Hreb as (P1 & P2 & P3 & P4). exists (plug ((b, I sl sr) :: c) E).
      split; [|split].
      * unfold delivers. repeat split; auto.
        -- apply placed_plug. split; [exact Logic.I|]. cbn [pctx]. auto.
        -- apply (canon_plug_fits _ (L k v) _ Hcan); [exact Logic.I|]. cbn [fits]. unfold okI.
           repeat split; intros [A B]; subst; discriminate.
      * intros x. rewrite leaves_plug. cbn [leaves]. cbn. tauto.
      * intros x. rewrite hashes_plug. cbn [hashes]. cbn. tauto.
    + cbn [SmtProofs.thash] in Hrm. destruct Hs as [_ Hs]. rewrite (get_none pos d D sh Hd1 Hd3 Hs) in Hrm. discriminate.
Qed.

Lemma remove_leaf_total : forall c D d k v, db_ok D d -> stored D (nodes d) 0 (plug c (L k v)) ->
  placed [] (plug c (L k v)) -> canon (plug c (L k v)) -> plain (plug c (L k v)) ->
  remove_leaf pos d (path_of c (L k v)) <> None.
Proof.
  intros c D d k v Hd Hst Hpl Hcan Hplain. pose proof Hd as (Hd1 & Hd2 & Hd3).
  pose proof (stored_plug pos D _ c _ Hst) as [Hst1 Hst2].
  apply placed_plug in Hpl. destruct Hpl as [Hpl1 Hpl2].
  destruct c as [|[b s] c]; [discriminate|].
  cbn [SmtProofs.path_of remove_leaf].
  assert (Hm : set_slot (node_of (length c) b s (L k v)) b zero = node_of (length c) b s E) by (destruct b; reflexivity).
  rewrite Hm. clear Hm.
  destruct Hst2 as [Hs Hst2]. cbn [length] in Hs, Hst1. destruct Hpl2 as (Hlen & Hps & Hpl2).
  assert (Hns : plain s).
  { cbn [plug] in Hplain. apply plain_plug in Hplain. destruct b; apply Hplain. }
  assert (Hns' : isE s = false).
  { pose proof (fits_plug _ _ Hcan) as F. cbn [fits] in F. unfold okI in F.
    destruct s; try reflexivity. exfalso. apply (proj1 (proj2 F)). auto. }
  assert (Hu : get_unique_sibling (node_of (length c) b s E) = Some (if b then 0 else 1)).
  { unfold get_unique_sibling. pose proof (is_zero_thash pos s D d (S (length c)) Hd Hs) as Z.
    destruct b; cbn [inode node0 n0 n1 n2 SmtProofs.node_of SmtProofs.inode SmtProofs.thash]; rewrite Z;
      change (is_zero zero) with true; rewrite Hns'; reflexivity. }
  rewrite Hu.
  assert (Hk : match (if b then 0 else 1) with 0 => n0 (node_of (length c) b s E) | 1 => n1 (node_of (length c) b s E)
               | _ => n2 (node_of (length c) b s E) end = thash (S (length c)) s) by (destruct b; reflexivity).
  rewrite Hk. clear Hk Hu.
  destruct s as [|k2 v2|sl sr|sbig sh].
  - discriminate.
  - destruct (get_stored_leaf pos D d k2 v2 _ Hd Hs) as [G1 G2]. rewrite G1.
    change (is_one_siblings (lnode k2 (S (length c)) v2)) with true. cbv iota.
    change (n1 (lnode k2 (S (length c)) v2)) with (vhash v2). rewrite G2.
    change (n0 (lnode k2 (S (length c)) v2)) with (rem k2 (S (length c))).
    replace ((if b then 0 else 1) <? 2) with true by (destruct b; reflexivity).
    replace (negb ((if b then 0 else 1) =? 0)) with (negb b) by (destruct b; reflexivity).
    rewrite path_of_bits.
    destruct Hps as ([q Hq] & Hle & Hqv & Hvv). rewrite app_length, cbits_length in Hle. cbn [length] in Hle.
    assert (J : join (cbits c ++ [negb b]) (rem k2 (S (length c))) = Some k2).
    { replace (S (length c)) with (length (cbits c ++ [negb b])) by (rewrite app_length, cbits_length; cbn; lia).
      apply (join_rem_prefix k2 _ q Hqv Hq). rewrite app_length, cbits_length. cbn. lia. }
    rewrite J. clear J.
    cbn [plug] in Hst. destruct (climb_spec c D d (plug1 b (L k2 v2) (L k v)) Hd Hst (plug1_notE _ _ _))
      as (c1 & c2 & -> & Hem & Hcl & Hhd).
    rewrite Hcl, path_of_length. rewrite app_length in Hle.
    rewrite remove_key_bits_rem by lia. cbn [store]. discriminate.
  - rewrite (get_stored_inode pos D d sl sr _ Hd Hs).
    change (is_one_siblings (inode pos (S (length c)) sl sr)) with false. discriminate.
  - destruct Hns.
Qed.

(** ** A leaf with another key is in the way *)

Lemma first_diff_spec : forall a b m, first_diff a b = Some m ->
  exists x u r r', a = x ++ u :: r /\ b = x ++ negb u :: r' /\ length x = m.
Proof.
  induction a as [|u a IH]; intros [|w b] m Hm; cbn [first_diff] in Hm; try discriminate.
  destruct (Bool.eqb u w) eqn:Eq.
  - apply Bool.eqb_prop in Eq. subst w. destruct (first_diff a b) as [m'|] eqn:F; [|discriminate].
    cbn in Hm. inversion Hm; subst. destruct (IH b m' F) as (x & y & r & r' & -> & -> & Hl).
    exists (u :: x), y, r, r'. cbn. rewrite Hl. auto.
  - inversion Hm; subst. exists [], u, a, b. destruct u, w; try discriminate; auto.
Qed.

Lemma first_diff_none : forall a b, length a = length b -> first_diff a b = None -> a = b.
Proof.
  induction a as [|u a IH]; intros [|w b] Hl Hm; cbn [first_diff length] in *; try discriminate; auto.
  destruct (Bool.eqb u w) eqn:Eq; [|discriminate]. apply Bool.eqb_prop in Eq. subst w.
  destruct (first_diff a b) eqn:F; [discriminate|]. f_equal. apply IH; [lia|exact F].
Qed.

Definition echain (bits : list bool) : ctx := map (fun b => (b, E)) bits.

Lemma wrap_spec : forall bits D d n t d' h, log_ok d -> stored D (nodes d) (n + length bits) t ->
  wrap_single pos d bits (thash (n + length bits) t) = (d', h) ->
  h = thash n (plug (echain bits) t) /\ log_ok d' /\ incl (nodes d) (nodes d') /\
  stored D (nodes d') n (plug (echain bits) t).
Proof.
  induction bits as [|b bits IH]; intros D d n t d' h Hd Ht Hw; cbn [wrap_single echain map plug length] in *.
  - rewrite Nat.add_0_r in *. inversion Hw; subst. repeat split; auto. intros x Hx; exact Hx.
  - cbn [store] in Hw. replace (n + S (length bits)) with (S (n + length bits)) in * by lia.
    assert (Hn : set_slot (node0 zero zero) b (thash (S (n + length bits)) t) = node_of (n + length bits) b E t)
      by (destruct b; reflexivity).
    rewrite Hn in Hw. clear Hn. rewrite <- thash_plug1 in Hw.
    set (d1 := set_node d (thash (n + length bits) (plug1 b E t)) (node_of (n + length bits) b E t)) in *.
    assert (Hi : incl (nodes d) (nodes d1)) by (intros x Hx; right; exact Hx).
    apply (IH D) in Hw.
    + destruct Hw as (W1 & W2 & W3 & W4). repeat split; auto. intros x Hx. apply W3, Hi, Hx.
    + constructor; [cbn [fst snd]; rewrite thash_plug1; reflexivity|exact Hd].
    + apply (stored_mono pos _ _ _ _ _ Hi) in Ht. destruct b; cbn [plug1 SmtProofs.stored];
        (split; [left; reflexivity|split; [exact Logic.I||exact Ht|exact Logic.I||exact Ht]]).
Qed.

Lemma echain_empties : forall bits, empties (echain bits).
Proof. induction bits; constructor; auto. Qed.

Lemma cbits_echain : forall bits, cbits (echain bits) = rev bits.
Proof. intros. unfold cbits, echain. rewrite map_map. cbn. rewrite map_id. reflexivity. Qed.

Lemma pctx_echain : forall bits c, pctx c -> length bits + length c <= 256 -> pctx (echain bits ++ c).
Proof.
  induction bits as [|b bits IH]; intros c Hc Hl; cbn [echain map app pctx length] in *; [exact Hc|].
  split; [rewrite app_length; unfold echain; rewrite map_length; lia|]. split; [exact Logic.I|].
  apply IH; [exact Hc|lia].
Qed.

Lemma canon_echain : forall bits t, canon t -> isE t = false -> small t = false -> canon (plug (echain bits) t).
Proof.
  induction bits as [|b bits IH]; intros t Ht H1 H2; cbn [echain map plug]; [exact Ht|].
  apply IH; [|apply plug1_notE|apply plug1_notsmall]. apply canon_plug1.
  split; [apply (fits_inner [(b, E)] t H1 H2)|]. split; [exact Logic.I|exact Ht].
Qed.

Lemma skipn_prefix : forall (A : Type) (p q : list A), skipn (length p) (p ++ q) = q.
Proof. intros. rewrite skipn_app, skipn_all, Nat.sub_diag. reflexivity. Qed.

Lemma split_leaf_spec : forall c D d k v k' v' q d' h, db_ok D d -> stored D (nodes d) 0 (plug c (L k' v')) ->
  placed [] (plug c (L k' v')) -> canon (plug c (L k' v')) -> qvalid k -> vvalid v -> split k = cbits c ++ q ->
  split_leaf pos d (path_of c (L k' v')) k k' (vhash v') v = Some (d', h) ->
  exists t', delivers D d d' h t' /\
    (forall x, In x (leaves t') <-> x = (k, v) \/ x = (k', v') \/ In x (cleaves c)) /\
    (forall x, In x (hashes [] t') <-> In x (chashes c)) /\
    (plain (plug c (L k' v')) -> plain t').
Proof.
  intros c D d k v k' v' q d' h Hd Hst Hpl Hcan Hk Hv Hsk Hsp. pose proof Hd as (Hd1 & Hd2 & Hd3).
  pose proof (stored_plug pos D _ c _ Hst) as [Hst1 Hst2].
  apply placed_plug in Hpl. destruct Hpl as [Hpl1 Hpl2].
  destruct Hpl1 as ([q' Hq'] & Hle & Hkv' & Hvv').
  unfold split_leaf in Hsp. rewrite path_of_length in Hsp.
  rewrite Hsk, Hq' in Hsp. rewrite <- (cbits_length c) in Hsp. rewrite !skipn_prefix in Hsp.
  destruct (first_diff q q') as [m|] eqn:F; [|discriminate].
  destruct (first_diff_spec q q' m F) as (x & u & r & r' & -> & -> & Hm).
  destruct (remove_key_bits k' (S (length (cbits c) + m))) as [old_key|] eqn:R1; [|discriminate].
  destruct (remove_key_bits k (S (length (cbits c) + m))) as [new_key|] eqn:R2; [|discriminate].
  apply remove_key_bits_some in R1, R2. destruct R1 as [R0 ->]. destruct R2 as [_ ->].
  assert (N1 : nth (length (cbits c) + m) (cbits c ++ x ++ u :: r) false = u).
  { rewrite app_nth2 by lia. replace (length (cbits c) + m - length (cbits c)) with m by lia.
    rewrite app_nth2 by lia. rewrite Hm, Nat.sub_diag. reflexivity. }
  assert (N2 : nth (length (cbits c) + m) (cbits c ++ x ++ negb u :: r') false = negb u).
  { rewrite app_nth2 by lia. replace (length (cbits c) + m - length (cbits c)) with m by lia.
    rewrite app_nth2 by lia. rewrite Hm, Nat.sub_diag. reflexivity. }
  rewrite N1, N2 in Hsp.
  assert (Hf : firstn m (x ++ u :: r) = x) by (rewrite <- Hm, firstn_app, firstn_all, Nat.sub_diag; cbn; apply app_nil_r).
  rewrite Hf in Hsp. clear Hf N1 N2. cbn [store] in Hsp.
  rewrite cbits_length in *. set (n := length c + m) in *.
  change (leaf_node (rem k' (S n)) (vhash v')) with (lnode k' (S n) v') in Hsp.
  change (pos (value_node v)) with (vhash v) in Hsp.
  change (leaf_node (rem k (S n)) (vhash v)) with (lnode k (S n) v) in Hsp.
  set (d1 := set_node d (pos (lnode k' (S n) v')) (lnode k' (S n) v')) in *.
  set (d2 := set_node d1 (vhash v) (value_node v)) in *.
  set (d3 := set_node d2 (pos (lnode k (S n) v)) (lnode k (S n) v)) in *.
  assert (Hn : set_slot (set_slot (node0 zero zero) u (pos (lnode k (S n) v))) (negb u) (pos (lnode k' (S n) v'))
               = node_of n u (L k' v') (L k v)) by (destruct u; reflexivity).
  rewrite Hn in Hsp. clear Hn. set (t2 := plug1 u (L k' v') (L k v)).
  set (d4 := set_node d3 (pos (node_of n u (L k' v') (L k v))) (node_of n u (L k' v') (L k v))) in *.
  rewrite <- thash_plug1 in Hsp. fold t2 in Hsp.
  assert (Hi : incl (nodes d) (nodes d4)) by (intros y Hy; right; right; right; right; exact Hy).
  assert (Hl4 : log_ok d4) by (repeat (constructor; [reflexivity|]); exact Hd1).
  assert (Hs2 : stored D (nodes d4) n t2).
  { assert (A : stored D (nodes d4) (S n) (L k v)).
    { split; [right; left; reflexivity|right; right; left; reflexivity]. }
    assert (B : stored D (nodes d4) (S n) (L k' v')).
    { split; [right; right; right; left; reflexivity|]. apply Hi, (proj2 Hst1). }
    unfold t2. destruct u; (split; [left; reflexivity|split; assumption]). }
  destruct (wrap_single pos d4 (rev x) (thash n t2)) as [d5 r2] eqn:W.
  replace n with (length c + length (rev x)) in W, Hs2 by (rewrite rev_length; unfold n; lia).
  apply (wrap_spec (rev x) D) in W; [|exact Hl4|exact Hs2].
  destruct W as (-> & W2 & W3 & W4).
  inversion Hsp as [Hput]. clear Hsp.
  apply (put_spec pos c D) in Hput; [|exact W2| |exact W4].
  2: { apply (sctx_mono pos _ _ (nodes d)); [|exact Hst2]. intros y Hy. apply W3, Hi, Hy. }
  destruct Hput as (P1 & P2 & P3 & P4).
  exists (plug c (plug (echain (rev x)) t2)). split; [|split; [|split]].
  - unfold delivers. repeat split; auto.
    + intros y Hy. apply P3, W3, Hi, Hy.
    + rewrite <- plug_app. apply placed_plug. rewrite cbits_app, cbits_echain, rev_involutive.
      split; [|apply pctx_echain; [exact Hpl2|rewrite rev_length; lia]].
      assert (A : placed ((cbits c ++ x) ++ [u]) (L k v)).
      { cbn [placed]. rewrite !app_length, cbits_length. cbn [length]. repeat split; auto; try lia; try apply Hk; try apply Hv.
        exists r. rewrite Hsk, <- !app_assoc. reflexivity. }
      assert (B : placed ((cbits c ++ x) ++ [negb u]) (L k' v')).
      { cbn [placed]. rewrite !app_length, cbits_length. cbn [length]. repeat split; auto; try lia; try apply Hkv'; try apply Hvv'.
        exists r'. rewrite Hq', <- !app_assoc. reflexivity. }
      unfold t2. destruct u; cbn [plug1 placed negb] in *; rewrite app_length, cbits_length;
        (split; [lia|split; assumption]).
    + apply (canon_plug_fits c _ _ Hcan).
      * apply canon_echain; [|apply plug1_notE|apply plug1_notsmall]. unfold t2. apply canon_plug1.
        split; [|split; exact Logic.I]. unfold okI. repeat split; intros [A B]; discriminate.
      * apply fits_inner.
        -- destruct (rev x) as [|y y']; cbn [echain map plug]; [apply plug1_notE|].
           assert (G : forall l t, isE t = false -> isE (plug (echain l) t) = false).
           { induction l as [|z l IH]; intros t Ht; cbn [echain map plug]; [exact Ht|]. apply IH, plug1_notE. }
           apply G, plug1_notE.
        -- assert (G : forall l t, small t = false -> small (plug (echain l) t) = false).
           { induction l as [|z l IH]; intros t Ht; cbn [echain map plug]; [exact Ht|]. apply IH, plug1_notsmall. }
           apply G, plug1_notsmall.
  - intros y. rewrite <- plug_app, leaves_plug, cleaves_app, (empties_leaves _ (echain_empties _)). cbn [app].
    unfold t2. destruct u; cbn [plug1 leaves app In]; intuition congruence.
  - intros y. rewrite <- plug_app, hashes_plug, (empties_hashes _ _ (echain_empties _)).
    unfold t2. destruct u; cbn [plug1 hashes app In]; tauto.
  - intros Hpn.
    apply (plain_plug_swap c (L k' v') _ Hpn).
    assert (G2 : forall l t, plain t -> plain (plug (echain l) t)).
    { clear. induction l as [|z l IH]; intros t Ht; cbn [echain map plug]; [exact Ht|]. apply IH. destruct z; split; cbn; auto. }
    apply G2. unfold t2. destruct u; split; exact Logic.I.
Qed.

Lemma split_leaf_total : forall c d k v k' v' q q', qvalid k -> qvalid k' -> k <> k' -> split k = cbits c ++ q ->
  split k' = cbits c ++ q' -> firstn 252 (split k) <> firstn 252 (split k') ->
  split_leaf pos d (path_of c (L k' v')) k k' (vhash v') v <> None.
Proof.
  intros c d k v k' v' q q' Hk Hk' Hne Hq Hq' Hd.
  unfold split_leaf. rewrite path_of_length, Hq, Hq'. rewrite <- (cbits_length c), !skipn_prefix.
  destruct (first_diff q q') as [m|] eqn:F.
  - destruct (first_diff_spec q q' m F) as (x & u & r & r' & -> & -> & Hm).
    destruct (le_lt_dec (S (length (cbits c) + m)) 252) as [Hle|Hle].
    + rewrite !remove_key_bits_rem by exact Hle. cbn [store].
      destruct (wrap_single _ _ _ _). discriminate.
    + exfalso. apply Hd. rewrite Hq, Hq'.
      assert (G : forall y y' : list bool, firstn 252 (cbits c ++ x ++ y) = firstn 252 (cbits c ++ x ++ y')).
      { intros y y'. rewrite !app_assoc, !firstn_app.
        replace (252 - length (cbits c ++ x)) with 0 by (rewrite app_length; lia). reflexivity. }
      apply G.
  - exfalso. apply first_diff_none in F; [|].
    + subst q'. apply Hd. rewrite Hq, Hq'. reflexivity.
    + pose proof (split_length k) as A. pose proof (split_length k') as B. rewrite Hq in A. rewrite Hq' in B.
      rewrite app_length in A, B. lia.
Qed.

End Poseidon.
