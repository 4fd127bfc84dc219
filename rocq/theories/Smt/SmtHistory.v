(** Histories of [set]: the invariant, the contents and the root. *)

From Coq Require Import List Arith NArith ZArith Lia Bool ZifyN ZifyNat ZifyBool.
From Verif.Smt Require Import SmtModel SmtSpec KeyProofs SmtProofs SmtSetProofs.
Import ListNotations.
Local Open Scope nat_scope.

(** ** [kv_store] *)

Lemma kv_get_remove : forall kv k x, kv_get (kv_remove kv k) x = if quad_eqb x k then None else kv_get kv x.
Proof.
  induction kv as [|[k' v] kv IH]; intros k x; cbn [kv_remove filter kv_get].
  - destruct (quad_eqb x k); reflexivity.
  - cbn [fst]. destruct (quad_eqb k' k) eqn:E1; cbn [negb].
    + fold (kv_remove kv k). rewrite IH. destruct (quad_eqb x k) eqn:E2; [reflexivity|].
      replace (quad_eqb k' x) with false; [reflexivity|].
      symmetry. apply quad_eqb_neq. apply quad_eqb_eq in E1. apply quad_eqb_neq in E2. congruence.
    + cbn [kv_get]. fold (kv_remove kv k). rewrite IH. destruct (quad_eqb k' x) eqn:E3; [|reflexivity].
      apply quad_eqb_eq in E3. subst x. rewrite E1. reflexivity.
Qed.

Lemma kv_get_insert : forall kv k v x, kv_get (kv_insert kv k v) x = if quad_eqb x k then Some v else kv_get kv x.
Proof.
  intros kv k v x. unfold kv_insert. cbn [kv_get]. rewrite kv_get_remove.
  destruct (quad_eqb k x) eqn:E1, (quad_eqb x k) eqn:E2; try reflexivity.
  - apply quad_eqb_eq in E1. apply quad_eqb_neq in E2. congruence.
  - apply quad_eqb_neq in E1. apply quad_eqb_eq in E2. congruence.
Qed.

Lemma kv_get_in : forall kv k, kv_get kv k <> None <-> In k (map fst kv).
Proof.
  induction kv as [|[k' v] kv IH]; intros k; cbn [kv_get map fst In]; [tauto|].
  destruct (quad_eqb k' k) eqn:Eq.
  - apply quad_eqb_eq in Eq. split; [auto|discriminate].
  - apply quad_eqb_neq in Eq. rewrite IH. tauto.
Qed.

Lemma plain_hashes : forall t p, plain t <-> hashes p t = [].
Proof.
  induction t as [|k v|l IHl r IHr|big h]; intros p; cbn [plain hashes]; try (split; auto; discriminate || contradiction).
  rewrite (IHl (p ++ [false])), (IHr (p ++ [true])). split; [intros [-> ->]; reflexivity|apply app_eq_nil].
Qed.

Lemma in_nil_iff : forall (A : Type) (l l' : list A), (forall x, In x l <-> In x l') -> l' = [] -> l = [].
Proof. intros A [|a l] l' Hl ->; [reflexivity|]. exfalso. apply (Hl a). left. reflexivity. Qed.

Section Poseidon.
Variable pos : node -> quad.
Notation thash := (thash pos).
Notation stored := (stored pos).
Notation path_of := (path_of pos).
Notation db_ok := (db_ok pos).
Notation nodes d := (map snd d).

(** The state [s] holds the tree [t]. *)
Record inv (D : list node) (s : smt) (t : tree) : Prop := {
  inv_db : db_ok D (db s);
  inv_stored : stored D (nodes (db s)) 0 t;
  inv_root : root s = thash 0 t;
  inv_placed : placed [] t;
  inv_canon : canon t;
  inv_kv : forall k v, kv_get (kv_store s) k = Some v <-> In (k, v) (leaves t) }.

(** The tree after [set k v], by its leaves. *)
Definition leaves_after (t t' : tree) (k : quad) (v : N) : Prop :=
  forall x w, In (x, w) (leaves t') <-> (x = k /\ w = v /\ v <> 0%N) \/ (x <> k /\ In (x, w) (leaves t)).

Lemma kv_after : forall kv (t t' : tree) k v,
  (forall x w, kv_get kv x = Some w <-> In (x, w) (leaves t)) -> leaves_after t t' k v ->
  forall x w, kv_get (if (v =? 0)%N then kv_remove kv k else kv_insert kv k v) x = Some w <-> In (x, w) (leaves t').
Proof.
  intros kv t t' k v Hkv Hl x w. rewrite (Hl x w). destruct (v =? 0)%N eqn:Z.
  - apply N.eqb_eq in Z. rewrite kv_get_remove. destruct (quad_eqb x k) eqn:Q.
    + apply quad_eqb_eq in Q. split; [discriminate|]. intros [(A & B & C)|[A B]]; congruence.
    + apply quad_eqb_neq in Q. rewrite Hkv. split; [auto|]. intros [(A & B & C)|[A B]]; [congruence|exact B].
  - apply N.eqb_neq in Z. rewrite kv_get_insert. destruct (quad_eqb x k) eqn:Q.
    + apply quad_eqb_eq in Q. split; [intros A; inversion A; subst; auto|].
      intros [(A & B & C)|[A B]]; congruence.
    + apply quad_eqb_neq in Q. rewrite Hkv. split; [auto|]. intros [(A & B & C)|[A B]]; [congruence|exact B].
Qed.

(** Off the path of [k], no leaf of [k]. *)
Lemma not_under_ctx : forall c k q x w, pctx c -> split k = cbits c ++ q -> In (x, w) (cleaves c) -> x <> k.
Proof. intros c k q x w Hc Hk Hin ->. exact (ctx_leaves_off_path c k w q Hc Hk Hin). Qed.

Lemma set_spec : forall D s t k v s', inv D s t -> qvalid k -> (v < 2 ^ 256)%N -> set pos s k v = Some s' ->
  incl (nodes (db s')) D ->
  exists t', inv D s' t' /\ leaves_after t t' k v /\ (forall x, In x (hashes [] t') <-> In x (hashes [] t)) /\
    incl (nodes (db s)) (nodes (db s')).
Proof.
  intros D s t k v s' [Hd Hst Hroot Hpl Hcan Hkv] Hk Hv Hset Hincl.
  unfold set in Hset. rewrite Hroot in Hset.
  destruct (descend (db s) (thash 0 t) (split k) []) as [[p f]|] eqn:Hdesc; [|discriminate].
  change ([] : list (bool * node)) with (path_of [] t) in Hdesc. change 0 with (length ([] : ctx)) in Hdesc.
  destruct (descend_spec pos t D (db s) [] (split k) p f Hd Hst Hdesc)
    as (c & u & pre & rest & Hsk & Hcb & Hpg & -> & Hend & ->). clear Hdesc.
  cbn [cbits map rev app] in Hcb. cbn [plug] in Hpg. subst pre t.
  pose proof (stored_plug pos D _ c _ Hst) as [Hst1 Hst2].
  pose proof (proj1 (placed_plug c u) Hpl) as [Hpl1 Hpl2].
  pose proof Hd as (Hd1 & Hd2 & Hd3).
  (* the generic end: a new tree with the right leaves *)
  assert (Fin : forall d' h t', delivers pos D (db s) d' h t' ->
      Some s' = Some {| db := d'; kv_store := if (v =? 0)%N then kv_remove (kv_store s) k else kv_insert (kv_store s) k v; root := h |} ->
      leaves_after (plug c u) t' k v -> (forall x, In x (hashes [] t') <-> In x (hashes [] (plug c u))) ->
      exists t'0, inv D s' t'0 /\ leaves_after (plug c u) t'0 k v /\
        (forall x, In x (hashes [] t'0) <-> In x (hashes [] (plug c u))) /\ incl (nodes (db s)) (nodes (db s'))).
  { intros d' h t' (D1 & D2 & D3 & D4 & D5 & D6) Hs' Hla Hha. inversion Hs'; subst s'. cbn [db] in Hincl.
    exists t'. split; [|split; [exact Hla|split; [exact Hha|exact D3]]].
    constructor; cbn [db root kv_store];
      [split; [exact D2|split; [exact Hd2|exact Hincl]]|exact D4|exact D1|exact D5|exact D6|].
    exact (kv_after (kv_store s) (plug c u) t' k v Hkv Hla). }
  assert (Off : forall x w, In (x, w) (cleaves c) -> x <> k).
  { intros x w Hin. exact (not_under_ctx c k rest x w Hpl2 Hsk Hin). }
  assert (Hvz : (v =? 0)%N = false -> vvalid v).
  { intros Z. apply N.eqb_neq in Z. split; assumption. }
  (* rehash of the unchanged path *)
  assert (Same : (v =? 0)%N = true -> (forall w, ~ In (k, w) (leaves u)) -> forall d' h,
      rehash pos (db s) (path_of c u) (thash 0 (plug c u)) = (d', h) ->
      delivers pos D (db s) d' h (plug c u) /\ leaves_after (plug c u) (plug c u) k v).
  { intros Z Hno d' h Hre. apply (rehash_spec pos c D) in Hre; auto. destruct Hre as (R1 & R2 & R3 & R4).
    split; [repeat split; auto|]. apply N.eqb_eq in Z. intros x w. split.
    - intros Hin. right. split; [|exact Hin]. apply leaves_plug in Hin.
      destruct Hin as [Hin|Hin]; [intros ->; exact (Hno w Hin)|exact (Off x w Hin)].
    - intros [(A & B & C)|[A B]]; [congruence|exact B]. }
  destruct Hend as [-> | HL].
  - (* an empty slot *)
    cbn [found_of] in Hset. destruct (v =? 0)%N eqn:Z.
    + destruct (rehash pos (db s) (path_of c E) (thash 0 (plug c E))) as [d' h] eqn:Hre.
      destruct (Same eq_refl (fun w (Hw : In (k, w) (leaves E)) => Hw) d' h eq_refl) as [Hdel Hla].
      apply (Fin d' h (plug c E) Hdel (eq_sym Hset) Hla). tauto.
    + rewrite path_of_length in Hset.
      destruct (remove_key_bits k (length c)) as [nk|] eqn:R; [|discriminate].
      apply remove_key_bits_some in R. destruct R as [Rle ->]. cbn [store] in Hset.
      change (leaf_node (rem k (length c)) (pos (value_node v))) with (lnode pos k (length c) v) in Hset.
      set (d1 := set_node (db s) (pos (value_node v)) (value_node v)) in *.
      set (d2 := set_node d1 (pos (lnode pos k (length c) v)) (lnode pos k (length c) v)) in *.
      change (pos (lnode pos k (length c) v)) with (thash (length c) (L k v)) in Hset.
      destruct (put pos d2 (path_of c E) (thash (length c) (L k v))) as [d' h] eqn:Hput.
      assert (Hi : incl (nodes (db s)) (nodes d2)) by (intros x Hx; right; right; exact Hx).
      apply (put_spec pos c D) in Hput.
      * destruct Hput as (P1 & P2 & P3 & P4). apply (Fin d' h (plug c (L k v))).
        -- repeat split; auto.
           ++ intros x Hx. apply P3, Hi, Hx.
           ++ apply placed_plug. split; [|exact Hpl2]. cbn [placed]. rewrite cbits_length.
              repeat split; auto; try apply Hk; try apply Hvz; auto. exists rest. exact Hsk.
           ++ apply (canon_plug_fits c E _ Hcan); [exact Logic.I|].
              pose proof (fits_plug _ _ Hcan) as F. destruct c as [|[b0 s0] c0]; [exact Logic.I|].
              cbn [fits] in *. unfold okI in *. destruct F as (F1 & F2 & F3).
              repeat split; intros [A B]; subst; try discriminate; tauto.
        -- symmetry. exact Hset.
        -- intros x w. rewrite !leaves_plug. cbn [leaves In]. split.
           ++ intros [[A|[]]|A]; [inversion A; subst; left; repeat split; apply Hvz; reflexivity|].
              right. split; [exact (Off x w A)|right; exact A].
           ++ intros [(A & B & C)|[A [[]|B]]]; [subst; left; left; reflexivity|right; exact B].
        -- intros x. rewrite !hashes_plug. cbn [hashes In]. tauto.
      * constructor; [reflexivity|]. constructor; [reflexivity|exact Hd1].
      * apply (sctx_mono pos _ _ (nodes (db s))); [exact Hi|exact Hst2].
      * split; [left; reflexivity|right; left; reflexivity].
  - (* a leaf *)
    destruct u as [|k' v'| |]; try discriminate. cbn [found_of] in Hset.
    destruct Hpl1 as ([q' Hq'] & Hle & Hkv' & Hvv').
    rewrite path_of_bits in Hset.
    assert (J : join (cbits c) (rem k' (length c)) = Some k').
    { rewrite <- (cbits_length c). apply (join_rem_prefix k' _ q' Hkv' Hq' Hle). }
    rewrite J in Hset. clear J.
    rewrite cbits_length in Hle.
    destruct (quad_eqb k k') eqn:Q.
    + apply quad_eqb_eq in Q. subst k'. destruct (v =? 0)%N eqn:Z.
      * (* removal *)
        destruct (remove_leaf pos (db s) (path_of c (L k v'))) as [[d' h]|] eqn:Hrm; [|discriminate].
        destruct (remove_leaf_spec pos c D (db s) k v' d' h Hd Hst Hpl Hcan Hrm) as (t' & Hdel & Hlv & Hhs).
        apply (Fin d' h t' Hdel (eq_sym Hset)).
        -- intros x w. rewrite Hlv, leaves_plug. cbn [leaves In]. apply N.eqb_eq in Z. split.
           ++ intros A. right. split; [exact (Off x w A)|right; exact A].
           ++ intros [(A & B & C)|[A [[B|[]]|B]]]; [congruence|congruence|exact B].
        -- intros x. rewrite Hhs, hashes_plug. cbn [hashes In]. tauto.
      * (* same key, new value *)
        cbn [store] in Hset.
        change (leaf_node (rem k (length c)) (pos (value_node v))) with (lnode pos k (length c) v) in Hset.
        set (d1 := set_node (db s) (pos (value_node v)) (value_node v)) in *.
        set (d2 := set_node d1 (pos (lnode pos k (length c) v)) (lnode pos k (length c) v)) in *.
        change (pos (lnode pos k (length c) v)) with (thash (length c) (L k v)) in Hset.
        destruct (put pos d2 (path_of c (L k v')) (thash (length c) (L k v))) as [d' h] eqn:Hput.
        assert (Hi : incl (nodes (db s)) (nodes d2)) by (intros x Hx; right; right; exact Hx).
        apply (put_spec pos c D) in Hput.
        -- destruct Hput as (P1 & P2 & P3 & P4). apply (Fin d' h (plug c (L k v))).
           ++ repeat split; auto.
              ** intros x Hx. apply P3, Hi, Hx.
              ** apply placed_plug. split; [|exact Hpl2]. cbn [placed]. rewrite cbits_length.
                 repeat split; auto; try apply Hk; try apply Hvz; auto. exists q'. exact Hq'.
              ** apply (canon_plug_fits c (L k v') _ Hcan); [exact Logic.I|].
                 pose proof (fits_plug _ _ Hcan) as F. destruct c as [|[b0 s0] c0]; [exact Logic.I|].
                 cbn [fits] in *. unfold okI in *. exact F || (cbn [isL] in *; destruct F as (F1 & F2 & F3);
                 repeat split; intros [A B]; subst; try discriminate; tauto).
           ++ symmetry. exact Hset.
           ++ intros x w. rewrite !leaves_plug. cbn [leaves In]. split.
              ** intros [[A|[]]|A]; [inversion A; subst; left; repeat split; apply Hvz; reflexivity|].
                 right. split; [exact (Off x w A)|right; exact A].
              ** intros [(A & B & C)|[A [[B|[]]|B]]]; [subst; left; left; reflexivity|congruence|right; exact B].
           ++ intros x. rewrite !hashes_plug. cbn [hashes In]. tauto.
        -- constructor; [reflexivity|]. constructor; [reflexivity|exact Hd1].
        -- apply (sctx_mono pos _ _ (nodes (db s))); [exact Hi|exact Hst2].
        -- split; [left; reflexivity|right; left; reflexivity].
    + apply quad_eqb_neq in Q. destruct (v =? 0)%N eqn:Z.
      * destruct (rehash pos (db s) (path_of c (L k' v')) (thash 0 (plug c (L k' v')))) as [d' h] eqn:Hre.
        destruct (Same eq_refl) with (d' := d') (h := h) as [Hdel Hla]; [|reflexivity|].
        { intros w [Hw|[]]. congruence. }
        apply (Fin d' h _ Hdel (eq_sym Hset) Hla). tauto.
      * destruct (split_leaf pos (db s) (path_of c (L k' v')) k k' (vhash pos v') v) as [[d' h]|] eqn:Hsp; [|discriminate].
        destruct (split_leaf_spec pos c D (db s) k v k' v' rest d' h Hd Hst Hpl Hcan Hk (Hvz eq_refl) Hsk Hsp)
          as (t' & Hdel & Hlv & Hhs & _).
        apply (Fin d' h t' Hdel (eq_sym Hset)).
        -- intros x w. rewrite Hlv, leaves_plug. cbn [leaves In]. split.
           ++ intros [A|[A|A]].
              ** inversion A; subst. left. repeat split. apply Hvz. reflexivity.
              ** inversion A; subst. right. split; [congruence|auto].
              ** right. split; [exact (Off x w A)|auto].
           ++ intros [(A & B & C)|[A [[B|[]]|B]]]; [subst; auto|auto|auto].
        -- intros x. rewrite Hhs, hashes_plug. cbn [hashes In]. tauto.
Qed.

Lemma set_total : forall D s t k v ks, inv D s t -> plain t -> qvalid k -> (v < 2 ^ 256)%N ->
  (forall x w, In (x, w) (leaves t) -> In x ks) -> In k ks -> spread ks -> set pos s k v <> None.
Proof.
  intros D s t k v ks [Hd Hst Hroot Hpl Hcan Hkv] Hplain Hk Hv Hks Hin Hspread.
  unfold set. rewrite Hroot.
  pose proof (descend_total pos t D (db s) 0 (split k) [] [] Hd Hst Hplain Hpl ltac:(rewrite split_length; reflexivity)) as Hdt.
  destruct (descend (db s) (thash 0 t) (split k) []) as [[p f]|] eqn:Hdesc; [|congruence]. clear Hdt.
  change ([] : list (bool * node)) with (path_of [] t) in Hdesc. change 0 with (length ([] : ctx)) in Hdesc.
  destruct (descend_spec pos t D (db s) [] (split k) p f Hd Hst Hdesc)
    as (c & u & pre & rest & Hsk & Hcb & Hpg & -> & Hend & ->). clear Hdesc.
  cbn [cbits map rev app] in Hcb. cbn [plug] in Hpg. subst pre t.
  pose proof (stored_plug pos D _ c _ Hst) as [Hst1 Hst2].
  pose proof (proj1 (placed_plug c u) Hpl) as [Hpl1 Hpl2].
  destruct Hend as [-> | HL].
  - cbn [found_of]. destruct (v =? 0)%N.
    + destruct (rehash _ _ _ _). discriminate.
    + rewrite path_of_length.
      assert (Hle : length c <= 252).
      { (* the sibling of an empty slot on the path holds two leaves sharing the path *)
        destruct (le_lt_dec (length c) 252) as [A|A]; [exact A|exfalso].
        assert (G : forall c0, canon (plug c0 E) -> pctx c0 -> plain (plug c0 E) -> 252 < length c0 ->
                  exists k1 k2 v1 v2 p0, k1 <> k2 /\ In (k1, v1) (cleaves c0) /\ In (k2, v2) (cleaves c0) /\
                    252 <= length p0 /\ (exists q1, split k1 = p0 ++ q1) /\ (exists q2, split k2 = p0 ++ q2)).
        { clear. intros [|[b s] c0] Hcan Hp Hpl Hlen; [cbn in Hlen; lia|].
          assert (Two : forall t p, canon t -> placed p t -> plain t -> isE t = false -> small t = false ->
            exists k1 k2 v1 v2, k1 <> k2 /\ In (k1, v1) (leaves t) /\ In (k2, v2) (leaves t)).
          { assert (One : forall t p, canon t -> placed p t -> plain t -> isE t = false -> exists k1 v1, In (k1, v1) (leaves t)).
            { induction t as [|k1 v1|l IHl r IHr|big h]; intros p H1 H2 H3 H4; try discriminate; try destruct H3.
              - exists k1, v1. left. reflexivity.
              - destruct H1 as ((O1 & O2 & O3) & C1 & C2). destruct H2 as (_ & P1 & P2).
                destruct (isE l) eqn:El.
                + destruct l; try discriminate. destruct (isE r) eqn:Er; [destruct r; try discriminate; tauto|].
                  destruct (IHr _ C2 P2 H0 eq_refl) as (k1 & v1 & Hi). exists k1, v1. cbn [leaves]. apply in_app_iff. auto.
                + destruct (IHl _ C1 P1 H eq_refl) as (k1 & v1 & Hi). exists k1, v1. cbn [leaves]. apply in_app_iff. auto. }
            induction t as [|k1 v1|l IHl r IHr|big h]; intros p H1 H2 H3 H4 H5; try discriminate; try destruct H3.
            destruct H1 as ((O1 & O2 & O3) & C1 & C2). destruct H2 as (_ & P1 & P2).
            destruct (isE l) eqn:El; [|destruct (isE r) eqn:Er].
            - destruct l; try discriminate.
              assert (isE r = false) by (destruct r; auto; tauto). assert (small r = false) by (destruct (small r) eqn:Sr; auto; exfalso; apply O2; auto).
              destruct (IHr _ C2 P2 H0 H1 H2) as (k1 & k2 & v1 & v2 & A & B & C).
              exists k1, k2, v1, v2. cbn [leaves]. rewrite !in_app_iff. auto.
            - destruct r; try discriminate.
              assert (small l = false) by (destruct (small l) eqn:Sl; auto; exfalso; apply O3; auto).
              destruct (IHl _ C1 P1 H eq_refl H1) as (k1 & k2 & v1 & v2 & A & B & C).
              exists k1, k2, v1, v2. cbn [leaves]. rewrite !in_app_iff. auto.
            - destruct (One l _ C1 P1 H El) as (k1 & v1 & I1). destruct (One r _ C2 P2 H0 Er) as (k2 & v2 & I2).
              exists k1, k2, v1, v2. cbn [leaves]. rewrite !in_app_iff. split; [|auto].
              intros ->. destruct (leaves_prefix _ _ _ _ P1 I1) as ([q1 Q1] & _).
              destruct (leaves_prefix _ _ _ _ P2 I2) as ([q2 Q2] & _). rewrite Q1, <- !app_assoc in Q2.
              apply app_inv_head in Q2. discriminate. }
          pose proof (fits_plug _ _ Hcan) as F. cbn [fits] in F. destruct F as (F1 & F2 & F3).
          destruct Hp as (Hl & Hps & Hpc). cbn [plug] in Hpl. apply plain_plug in Hpl.
          pose proof (canon_plug _ _ Hcan) as [_ [Hcs _]].
          destruct (Two s _ Hcs Hps) as (k1 & k2 & v1 & v2 & A & B & C).
          - destruct b; apply Hpl.
          - destruct s; auto; tauto.
          - destruct (small s) eqn:Ss; auto; exfalso; apply F3; auto.
          - exists k1, k2, v1, v2, (cbits c0 ++ [negb b]).
            destruct (leaves_prefix _ _ _ _ Hps B) as (Q1 & _). destruct (leaves_prefix _ _ _ _ Hps C) as (Q2 & _).
            cbn [cleaves]. rewrite !in_app_iff, app_length, cbits_length. cbn [length] in *.
            repeat split; auto; lia. }
        destruct (G c Hcan Hpl2 Hplain A) as (k1 & k2 & v1 & v2 & p0 & Hne & I1 & I2 & Hp0 & [q1 Q1] & [q2 Q2]).
        apply Hne. apply Hspread.
        - apply (Hks k1 v1). apply leaves_plug. auto.
        - apply (Hks k2 v2). apply leaves_plug. auto.
        - rewrite Q1, Q2, !firstn_app. replace (252 - length p0) with 0 by lia. reflexivity. }
      rewrite remove_key_bits_rem by exact Hle. cbn [store]. destruct (put _ _ _ _). discriminate.
  - destruct u as [|k' v'| |]; try discriminate. cbn [found_of].
    destruct Hpl1 as ([q' Hq'] & Hle & Hkv' & Hvv').
    rewrite path_of_bits.
    assert (J : join (cbits c) (rem k' (length c)) = Some k').
    { rewrite <- (cbits_length c). apply (join_rem_prefix k' _ q' Hkv' Hq' Hle). }
    rewrite J. clear J.
    destruct (v =? 0)%N; destruct (quad_eqb k k') eqn:Q.
    + apply quad_eqb_eq in Q. subst k'.
      pose proof (remove_leaf_total pos c D (db s) k v' Hd Hst Hpl Hcan Hplain) as Hrt.
      destruct (remove_leaf pos (db s) (path_of c (L k v'))) as [[d' h]|]; [discriminate|congruence].
    + destruct (rehash _ _ _ _). discriminate.
    + cbn [store]. destruct (put _ _ _ _). discriminate.
    + apply quad_eqb_neq in Q.
      assert (Hst' : split_leaf pos (db s) (path_of c (L k' v')) k k' (vhash pos v') v <> None).
      { apply (split_leaf_total pos c (db s) k v k' v' rest q' Hk Hkv' Q Hsk Hq').
        intros F. apply Q. apply Hspread; auto. apply (Hks k' v'). apply leaves_plug. left. left. reflexivity. }
      destruct (split_leaf pos (db s) (path_of c (L k' v')) k k' (vhash pos v') v) as [[d' h]|]; [discriminate|congruence].
Qed.

(** ** [get] *)

Lemma get_spec : forall D s t k, inv D s t -> qvalid k ->
  (forall v, kv_get (kv_store s) k = Some v -> plain t -> get s k = Some v) /\
  (forall v, get s k = Some v -> v = kv_default (kv_store s) k) /\
  (kv_get (kv_store s) k = None -> plain t -> get s k = Some 0%N \/ get s k = None).
Proof.
  intros D s t k [Hd Hst Hroot Hpl Hcan Hkv] Hk.
  assert (G : match descend (db s) (thash 0 t) (split k) [] with
              | None => ~ plain t
              | Some (p, f) => exists c u rest, split k = cbits c ++ rest /\ plug c u = t /\ p = path_of c u /\
                                 end_tree u /\ f = found_of pos c u
              end).
  { destruct (descend (db s) (thash 0 t) (split k) []) as [[p f]|] eqn:Hdesc.
    - change ([] : list (bool * node)) with (path_of [] t) in Hdesc. change 0 with (length ([] : ctx)) in Hdesc.
      destruct (descend_spec pos t D (db s) [] (split k) p f Hd Hst Hdesc)
        as (c & u & pre & rest & Hsk & Hcb & Hpg & Hp & Hend & Hf).
      cbn in Hcb, Hpg. subst pre. exists c, u, rest. auto.
    - intros Hplain.
      exact (descend_total pos t D (db s) 0 (split k) [] [] Hd Hst Hplain Hpl ltac:(rewrite split_length; reflexivity) Hdesc). }
  unfold get. rewrite Hroot.
  destruct (descend (db s) (thash 0 t) (split k) []) as [[p f]|] eqn:Hdesc.
  2: { split; [|split]; intros; try discriminate; contradiction. }
  destruct G as (c & u & rest & Hsk & <- & -> & Hend & ->).
  pose proof (proj1 (placed_plug c u) Hpl) as [Hpl1 Hpl2].
  assert (Off : forall w, ~ In (k, w) (cleaves c)).
  { intros w Hin. exact (ctx_leaves_off_path c k w rest Hpl2 Hsk Hin). }
  destruct Hend as [-> | HL].
  - cbn [found_of]. split; [|split]; intros; try discriminate; auto.
    exfalso. apply Hkv, leaves_plug in H. destruct H as [[]|H]. exact (Off v H).
  - destruct u as [|k' v'| |]; try discriminate. cbn [found_of].
    destruct Hpl1 as ([q' Hq'] & Hle & Hkv' & Hvv').
    rewrite path_of_bits.
    assert (J : join (cbits c) (rem k' (length c)) = Some k').
    { rewrite <- (cbits_length c). apply (join_rem_prefix k' _ q' Hkv' Hq' Hle). }
    rewrite J. clear J.
    change (n0 (value_node v')) with (fst (f2limbs v')). change (n1 (value_node v')) with (snd (f2limbs v')).
    rewrite limbs_roundtrip by apply Hvv'.
    destruct (quad_eqb k' k) eqn:Q.
    + apply quad_eqb_eq in Q. subst k'.
      assert (Hg : kv_get (kv_store s) k = Some v').
      { apply Hkv, leaves_plug. left. left. reflexivity. }
      unfold kv_default. rewrite Hg, N.eqb_refl. split; [|split]; intros; congruence.
    + apply quad_eqb_neq in Q.
      assert (Hg : kv_get (kv_store s) k = None).
      { destruct (kv_get (kv_store s) k) as [w|] eqn:Hw; [exfalso|reflexivity].
        apply Hkv, leaves_plug in Hw. destruct Hw as [[Hw|[]]|Hw]; [congruence|exact (Off w Hw)]. }
      unfold kv_default. rewrite Hg. cbn. split; [|split]; intros; try congruence. auto.
Qed.

(** ** Histories *)

Lemma smt_run_snoc : forall calls s c, smt_run pos s (calls ++ [c]) =
  match smt_run pos s calls with Some s' => set pos s' (fst c) (snd c) | None => None end.
Proof. intros. unfold smt_run. rewrite fold_left_app. reflexivity. Qed.

Lemma contents_snoc : forall calls c, contents (calls ++ [c]) = upd (contents calls) (fst c) (snd c).
Proof. intros. unfold contents. rewrite fold_left_app. reflexivity. Qed.

Lemma set_grows : forall s k v s', set pos s k v = Some s' -> incl (nodes (db s)) (nodes (db s')).
Proof.
  assert (Rb : forall up d n d' h, rebuild pos d n up = (d', h) -> incl (nodes d) (nodes d')).
  { induction up as [|[b m] up IH]; intros d n d' h Hr; cbn [rebuild store] in Hr.
    - inversion Hr; subst. intros x Hx. right. exact Hx.
    - apply IH in Hr. intros x Hx. apply Hr. right. exact Hx. }
  assert (Pt : forall p d x d' h, put pos d p x = (d', h) -> incl (nodes d) (nodes d')).
  { intros [|[b m] up] d x d' h Hp; cbn [put] in Hp; [inversion Hp; subst; intros y Hy; exact Hy|eapply Rb; exact Hp]. }
  assert (Rh : forall p d x d' h, rehash pos d p x = (d', h) -> incl (nodes d) (nodes d')).
  { intros [|[b m] up] d x d' h Hp; cbn [rehash] in Hp; [inversion Hp; subst; intros y Hy; exact Hy|eapply Rb; exact Hp]. }
  assert (Wr : forall bits d x d' h, wrap_single pos d bits x = (d', h) -> incl (nodes d) (nodes d')).
  { induction bits as [|b bits IH]; intros d x d' h Hw; cbn [wrap_single store] in Hw.
    - inversion Hw; subst. intros y Hy; exact Hy.
    - apply IH in Hw. intros y Hy. apply Hw. right. exact Hy. }
  intros s k v s' Hset. unfold set in Hset.
  destruct (descend (db s) (root s) (split k) []) as [[p [[[fk fv] fn]|]]|]; [| |discriminate].
  - destruct (join (path_bits p) fk) as [found|]; [|discriminate].
    destruct (v =? 0)%N; destruct (quad_eqb k found).
    + destruct (remove_leaf pos (db s) p) as [[d' h]|] eqn:Hr; [|discriminate]. inversion Hset; subst. cbn [db].
      unfold remove_leaf in Hr. destruct p as [|[b m] up]; [inversion Hr; subst; intros y Hy; exact Hy|].
      destruct (get_unique_sibling (set_slot m b zero)) as [u|]; [|discriminate].
      destruct (get_node (db s) _) as [sib|] eqn:G; [|discriminate].
      destruct (is_one_siblings sib).
      * destruct (get_node (db s) (n1 sib)); [|discriminate]. destruct (u <? 2); [|discriminate].
        destruct (join _ (n0 sib)) as [ik|]; [|discriminate].
        destruct (remove_key_bits ik (length (climb up))) as [ok|]; [|discriminate].
        cbn [store] in Hr. inversion Hr as [Hp]. apply Pt in Hp. intros y Hy. apply Hp. right. exact Hy.
      * inversion Hr as [Hp]. apply Rb in Hp. exact Hp.
    + destruct (rehash pos (db s) p (root s)) as [d' h] eqn:Hr. inversion Hset; subst. eapply Rh; exact Hr.
    + cbn [store] in Hset. match type of Hset with context [put pos ?d p ?x] => destruct (put pos d p x) as [d' h] eqn:Hp end.
      inversion Hset; subst. cbn [db]. apply Pt in Hp. intros y Hy. apply Hp. right. right. exact Hy.
    + destruct (split_leaf pos (db s) p k found fv v) as [[d' h]|] eqn:Hs; [|discriminate]. inversion Hset; subst. cbn [db].
      unfold split_leaf in Hs.
      destruct (first_diff (skipn (length p) (split k)) (skipn (length p) (split found))) as [m|]; [|discriminate].
      destruct (remove_key_bits found (S (length p + m))) as [ok|]; [|discriminate].
      destruct (remove_key_bits k (S (length p + m))) as [nk|]; [|discriminate].
      cbn [store] in Hs.
      match type of Hs with context [wrap_single pos ?d ?l ?x] => destruct (wrap_single pos d l x) as [d5 r2] eqn:Hw end.
      inversion Hs as [Hp]. apply Pt in Hp. apply Wr in Hw. intros y Hy. apply Hp, Hw. do 4 right. exact Hy.
  - destruct (v =? 0)%N.
    + destruct (rehash pos (db s) p (root s)) as [d' h] eqn:Hr. inversion Hset; subst. eapply Rh; exact Hr.
    + destruct (remove_key_bits k (length p)) as [nk|]; [|discriminate].
      cbn [store] in Hset. match type of Hset with context [put pos ?d p ?x] => destruct (put pos d p x) as [d' h] eqn:Hp end.
      inversion Hset; subst. cbn [db]. apply Pt in Hp. intros y Hy. apply Hp. right. right. exact Hy.
Qed.

Lemma valid_call_q : forall c, valid_call c -> qvalid (fst c) /\ (snd c < 2 ^ 256)%N.
Proof. intros c (A & B & C & D & F). repeat split; assumption. Qed.

Lemma inv_default : forall D, separates pos D -> inv D smt_default E.
Proof.
  intros D HD. constructor; cbn; auto.
  - split; [constructor|]. split; [exact HD|]. intros x [].
  - intros k v. split; [discriminate|intros []].
Qed.

(** The leaves are the non-zero contents. *)
Definition holds (t : tree) (m : quad -> N) : Prop := forall k v, In (k, v) (leaves t) <-> v <> 0%N /\ m k = v.

Lemma run_inv : forall D calls s, separates pos D -> Forall valid_call calls ->
  smt_run pos smt_default calls = Some s -> incl (nodes (db s)) D ->
  exists t, inv D s t /\ plain t /\ holds t (contents calls).
Proof.
  intros D calls. induction calls as [|c calls IH] using rev_ind; intros s HD Hv Hrun Hi.
  - cbn in Hrun. inversion Hrun; subst. exists E. split; [apply inv_default, HD|]. split; [exact Logic.I|].
    intros k v. split; [intros []|]. intros [A B]. cbn in B. congruence.
  - rewrite smt_run_snoc in Hrun. destruct (smt_run pos smt_default calls) as [s0|] eqn:H0; [|discriminate].
    apply Forall_app in Hv. destruct Hv as [Hv Hc]. inversion Hc as [|x y Hc' _]; subst.
    apply valid_call_q in Hc'. destruct Hc' as [Hk Hval].
    assert (Hi0 : incl (nodes (db s0)) D).
    { intros x Hx. apply Hi. apply (set_grows _ _ _ _ Hrun). exact Hx. }
    destruct (IH s0 HD Hv eq_refl Hi0) as (t & It & Pt & Ht).
    destruct (set_spec D s0 t (fst c) (snd c) s It Hk Hval Hrun Hi) as (t' & It' & Hla & Hha & _).
    exists t'. split; [exact It'|]. split.
    + apply (plain_hashes t' []). apply (in_nil_iff _ _ _ Hha). apply plain_hashes. exact Pt.
    + intros k v. rewrite contents_snoc. unfold upd. rewrite (Hla k v), (Ht k v).
      destruct (quad_eqb k (fst c)) eqn:Q; [apply quad_eqb_eq in Q|apply quad_eqb_neq in Q].
      * split; [intros [(A & B & C)|[A B]]; [split; congruence|congruence]|].
        intros [A B]. left. split; [exact Q|]. split; [congruence|congruence].
      * split; [intros [(A & B & C)|[A B]]; [congruence|exact B]|]. intros A. right. split; assumption.
Qed.

(** ** Canonical trees are determined by their leaves and hash nodes *)

Lemma hashes_prefix : forall t p x h, In (x, h) (hashes p t) -> exists q, x = p ++ q.
Proof.
  induction t as [|k v|l IHl r IHr|big h']; intros p x h Hin; cbn [hashes] in Hin; try contradiction.
  - apply in_app_iff in Hin. destruct Hin as [Hin|Hin]; [apply IHl in Hin|apply IHr in Hin];
      destruct Hin as [q ->]; rewrite <- app_assoc; eexists; reflexivity.
  - destruct Hin as [Hin|[]]. inversion Hin; subst. exists []. rewrite app_nil_r. reflexivity.
Qed.

(** A non-empty canonical tree holds something. *)
Lemma canon_nonempty : forall t p, canon t -> leaves t = [] -> hashes p t = [] -> t = E.
Proof.
  induction t as [|k v|l IHl r IHr|big h]; intros p Hc Hl Hh; cbn [leaves hashes] in *; try discriminate; auto.
  apply app_eq_nil in Hl, Hh. destruct Hl as [L1 L2], Hh as [H1 H2]. destruct Hc as ((O & _) & C1 & C2).
  exfalso. apply O. split; [exact (IHl _ C1 L1 H1)|exact (IHr _ C2 L2 H2)].
Qed.

Lemma canon_single : forall t p k v, canon t -> placed p t -> hashes p t = [] ->
  (forall x, In x (leaves t) <-> x = (k, v)) -> t = L k v.
Proof.
  induction t as [|k' v'|l IHl r IHr|big h]; intros p k v Hc Hp Hh Hl; cbn [leaves hashes] in *; try discriminate.
  - exfalso. apply (Hl (k, v)). reflexivity.
  - assert (A : (k', v') = (k, v)) by (apply Hl; left; reflexivity). inversion A. reflexivity.
  - apply app_eq_nil in Hh. destruct Hh as [H1 H2]. destruct Hc as ((O1 & O2 & O3) & C1 & C2).
    destruct Hp as (_ & P1 & P2).
    assert (Hin : In (k, v) (leaves l) \/ In (k, v) (leaves r)) by (apply in_app_iff, Hl; reflexivity).
    assert (Hx : ~ (In (k, v) (leaves l) /\ In (k, v) (leaves r))).
    { intros [A B]. destruct (leaves_prefix _ _ _ _ P1 A) as ([q Q] & _). destruct (leaves_prefix _ _ _ _ P2 B) as ([q' Q'] & _).
      rewrite Q, <- !app_assoc in Q'. apply app_inv_head in Q'. discriminate. }
    assert (El : forall t' : tree, (forall x, In x (leaves t') -> x = (k, v)) -> ~ In (k, v) (leaves t') -> leaves t' = []).
    { intros t' A B. destruct (leaves t') as [|x xs] eqn:E0; [reflexivity|]. exfalso. apply B.
      rewrite <- (A x) by (left; reflexivity). left. reflexivity. }
    assert (Al : forall x, In x (leaves l) -> x = (k, v)) by (intros x A; apply Hl, in_app_iff; auto).
    assert (Ar : forall x, In x (leaves r) -> x = (k, v)) by (intros x A; apply Hl, in_app_iff; auto).
    exfalso. destruct Hin as [Hin|Hin].
    + assert (r = E) by (apply (canon_nonempty r (p ++ [true]) C2); [apply El; tauto|exact H2]). subst r.
      assert (l = L k v) by (apply (IHl (p ++ [false]) k v C1 P1 H1); intros x; split; [apply Al|intros ->; exact Hin]).
      subst l. apply O3. auto.
    + assert (l = E) by (apply (canon_nonempty l (p ++ [false]) C1); [apply El; tauto|exact H1]). subst l.
      assert (r = L k v) by (apply (IHr (p ++ [true]) k v C2 P2 H2); intros x; split; [apply Ar|intros ->; exact Hin]).
      subst r. apply O2. auto.
Qed.

Lemma hash_here : forall t p h, In (p, h) (hashes p t) -> exists big h', h = (big, h') /\ t = H big h'.
Proof.
  intros [|k v|l r|big' h'] p h Hin; cbn [hashes] in Hin; try contradiction.
  - exfalso. apply in_app_iff in Hin. destruct Hin as [Hin|Hin]; apply hashes_prefix in Hin; destruct Hin as [q Hq];
      apply (f_equal (@length bool)) in Hq; rewrite !app_length in Hq; cbn in Hq; lia.
  - destruct Hin as [Hin|[]]. inversion Hin. eauto.
Qed.

Lemma leaves_side : forall l r p k v, placed p (I l r) ->
  (In (k, v) (leaves l) <-> In (k, v) (leaves (I l r)) /\ exists q, split k = (p ++ [false]) ++ q) /\
  (In (k, v) (leaves r) <-> In (k, v) (leaves (I l r)) /\ exists q, split k = (p ++ [true]) ++ q).
Proof.
  intros l r p k v (_ & P1 & P2). cbn [leaves]. rewrite in_app_iff. split.
  - split.
    + intros A. split; [auto|]. exact (proj1 (leaves_prefix _ _ _ _ P1 A)).
    + intros [[A|A] [q Q]]; [exact A|]. exfalso.
      destruct (leaves_prefix _ _ _ _ P2 A) as ([q' Q'] & _). rewrite Q, <- !app_assoc in Q'. apply app_inv_head in Q'. discriminate.
  - split.
    + intros A. split; [auto|]. exact (proj1 (leaves_prefix _ _ _ _ P2 A)).
    + intros [[A|A] [q Q]]; [|exact A]. exfalso.
      destruct (leaves_prefix _ _ _ _ P1 A) as ([q' Q'] & _). rewrite Q, <- !app_assoc in Q'. apply app_inv_head in Q'. discriminate.
Qed.

Lemma hashes_side : forall l r p x h,
  (In (x, h) (hashes (p ++ [false]) l) <-> In (x, h) (hashes p (I l r)) /\ exists q, x = (p ++ [false]) ++ q) /\
  (In (x, h) (hashes (p ++ [true]) r) <-> In (x, h) (hashes p (I l r)) /\ exists q, x = (p ++ [true]) ++ q).
Proof.
  intros l r p x h. cbn [hashes]. rewrite in_app_iff. split.
  - split.
    + intros A. split; [auto|]. exact (hashes_prefix _ _ _ _ A).
    + intros [[A|A] [q Q]]; [exact A|]. exfalso.
      destruct (hashes_prefix _ _ _ _ A) as [q' Q']. rewrite Q, <- !app_assoc in Q'. apply app_inv_head in Q'. discriminate.
  - split.
    + intros A. split; [auto|]. exact (hashes_prefix _ _ _ _ A).
    + intros [[A|A] [q Q]]; [|exact A]. exfalso.
      destruct (hashes_prefix _ _ _ _ A) as [q' Q']. rewrite Q, <- !app_assoc in Q'. apply app_inv_head in Q'. discriminate.
Qed.

Lemma tree_unique : forall t t' p, placed p t -> placed p t' -> canon t -> canon t' ->
  (forall k v, In (k, v) (leaves t) <-> In (k, v) (leaves t')) ->
  (forall x h, In (x, h) (hashes p t) <-> In (x, h) (hashes p t')) -> t = t'.
Proof.
  induction t as [|k v|l IHl r IHr|big h]; intros t' p P P' C C' Hl Hh.
  - symmetry. apply (canon_nonempty t' p C').
    + apply (in_nil_iff _ _ (leaves E)); [|reflexivity]. intros [x w]. symmetry. apply Hl.
    + apply (in_nil_iff _ _ (hashes p E)); [|reflexivity]. intros [x w]. symmetry. apply Hh.
  - symmetry. apply (canon_single t' p k v C' P').
    + apply (in_nil_iff _ _ (hashes p (L k v))); [|reflexivity]. intros [x w]. symmetry. apply Hh.
    + intros [x w]. rewrite <- Hl. cbn [leaves In]. intuition congruence.
  - destruct t' as [|k' v'|l' r'|big' h'].
    + apply (canon_nonempty (I l r) p C).
      * apply (in_nil_iff _ _ (leaves E)); [|reflexivity]. intros [x w]. apply Hl.
      * apply (in_nil_iff _ _ (hashes p E)); [|reflexivity]. intros [x w]. apply Hh.
    + apply (canon_single (I l r) p k' v' C P).
      * apply (in_nil_iff _ _ (hashes p (L k' v'))); [|reflexivity]. intros [x w]. apply Hh.
      * intros [x w]. rewrite Hl. cbn [leaves In]. intuition congruence.
    + pose proof P as (_ & P1 & P2). pose proof P' as (_ & P1' & P2').
      destruct C as (_ & C1 & C2), C' as (_ & C1' & C2').
      f_equal.
      * apply (IHl l' (p ++ [false])); auto.
        -- intros k v. rewrite (proj1 (leaves_side l r p k v P)), (proj1 (leaves_side l' r' p k v P')), Hl. tauto.
        -- intros x h. rewrite (proj1 (hashes_side l r p x h)), (proj1 (hashes_side l' r' p x h)), Hh. tauto.
      * apply (IHr r' (p ++ [true])); auto.
        -- intros k v. rewrite (proj2 (leaves_side l r p k v P)), (proj2 (leaves_side l' r' p k v P')), Hl. tauto.
        -- intros x h. rewrite (proj2 (hashes_side l r p x h)), (proj2 (hashes_side l' r' p x h)), Hh. tauto.
    + destruct (hash_here (I l r) p (big', h')) as (b0 & h0 & E1 & E2); [apply Hh; left; reflexivity|]. discriminate.
  - destruct (hash_here t' p (big, h)) as (b0 & h0 & E1 & E2); [apply Hh; left; reflexivity|]. congruence.
Qed.

(** Hashes bind trees. *)
Lemma value_node_inj : forall v v', (v < 2 ^ 256)%N -> (v' < 2 ^ 256)%N -> value_node v = value_node v' -> v = v'.
Proof.
  intros v v' Hv Hv' Heq. unfold value_node, node0 in Heq. injection Heq as E1 E2.
  rewrite <- (limbs_roundtrip v Hv), <- (limbs_roundtrip v' Hv'). unfold f2limbs. cbn [fst snd]. congruence.
Qed.

Lemma thash_inj : forall t t' D ns ns' p, separates pos D -> incl ns D -> incl ns' D ->
  stored D ns (length p) t -> stored D ns' (length p) t' -> placed p t -> placed p t' -> plain t -> plain t' ->
  thash (length p) t = thash (length p) t' -> t = t'.
Proof.
  induction t as [|k v|l IHl r IHr|big h]; intros t' D ns ns' p HD Hn Hn' S1 S2 P1 P2 N1 N2 Heq.
  - symmetry. apply (thash_zero pos t' D ns' (length p) HD Hn' S2). symmetry. exact Heq.
  - destruct t' as [|k' v'|l' r'|big' h'].
    + exfalso. apply (proj2 HD (lnode pos k (length p) v)); [apply Hn, (proj1 S1)|exact Heq].
    + cbn [SmtProofs.thash] in Heq. apply (proj1 HD) in Heq; [|apply Hn, (proj1 S1)|apply Hn', (proj1 S2)].
      unfold lnode, leaf_node in Heq. injection Heq as E1 E2 E3 E4 Ev.
      destruct P1 as ([q Q] & L1 & V1 & W1), P2 as ([q' Q'] & L2 & V2 & W2).
      assert (Ek : k = k').
      { apply (rem_inj k k' (length p)); auto.
        - rewrite Q, Q', !firstn_app, !firstn_all, Nat.sub_diag. reflexivity.
        - apply quad_ext. intros [|[|[|[|j]]]] Hj; try lia; assumption. }
      subst k'. f_equal. apply (proj1 HD) in Ev; [|apply Hn, (proj2 S1)|apply Hn', (proj2 S2)].
      apply value_node_inj; [apply W1|apply W2|exact Ev].
    + exfalso. cbn [SmtProofs.thash] in Heq. apply (proj1 HD) in Heq; [discriminate|apply Hn, (proj1 S1)|apply Hn', (proj1 S2)].
    + exfalso. apply (proj2 S2 (lnode pos k (length p) v)); [apply Hn, (proj1 S1)|exact Heq].
  - destruct t' as [|k' v'|l' r'|big' h'].
    + exfalso. apply (proj2 HD (inode pos (length p) l r)); [apply Hn, (proj1 S1)|exact Heq].
    + exfalso. cbn [SmtProofs.thash] in Heq. apply (proj1 HD) in Heq; [discriminate|apply Hn, (proj1 S1)|apply Hn', (proj1 S2)].
    + cbn [SmtProofs.thash] in Heq. apply (proj1 HD) in Heq; [|apply Hn, (proj1 S1)|apply Hn', (proj1 S2)].
      unfold node0 in Heq. injection Heq as El Er.
      destruct S1 as (_ & S1l & S1r), S2 as (_ & S2l & S2r), P1 as (_ & P1l & P1r), P2 as (_ & P2l & P2r).
      assert (Hf : S (length p) = length (p ++ [false])) by (rewrite app_length; cbn; lia).
      assert (Ht : S (length p) = length (p ++ [true])) by (rewrite app_length; cbn; lia).
      f_equal.
      * rewrite Hf in S1l, S2l, El. exact (IHl l' D ns ns' _ HD Hn Hn' S1l S2l P1l P2l (proj1 N1) (proj1 N2) El).
      * rewrite Ht in S1r, S2r, Er. exact (IHr r' D ns ns' _ HD Hn Hn' S1r S2r P1r P2r (proj2 N1) (proj2 N2) Er).
    + exfalso. apply (proj2 S2 (inode pos (length p) l r)); [apply Hn, (proj1 S1)|exact Heq].
  - destruct N1.
Qed.

End Poseidon.
