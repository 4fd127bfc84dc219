(** Invariants of the hash cells. *)

From Coq Require Import List Arith NArith Bool Lia.
From Verif.Mpt Require Import TrieModel TrieSpec TrieFacts HashModel SubsetModel SubsetProofs CacheModel.
Import ListNotations.
Local Open Scope nat_scope.

Section CInd.
  Variable P : cnode -> Prop.
  Hypothesis HE : P CEmpty.
  Hypothesis HH : forall h, P (CHash h).
  Hypothesis HB : forall ch v, (forall p, In p ch -> P (snd p)) -> P (CBranch ch v).
  Hypothesis HX : forall ns c m, P m -> P (CExt ns (c, m)).
  Hypothesis HL : forall ns v, P (CLeaf ns v).
  Lemma cnode_ind' : forall n, P n.
  Proof.
    fix self 1. intros [|h|ch v|ns [c m]|ns v].
    - apply HE.
    - apply HH.
    - apply HB. revert ch. fix go 1. intros [|[c m] t] p H; [destruct H|].
      destruct H as [<-|H]; [apply self|exact (go t p H)].
    - apply HX, self.
    - apply HL.
  Qed.
End CInd.

Lemma set_hash_same h c x : set_hash h c x c = x.
Proof. unfold set_hash. now rewrite Nat.eqb_refl. Qed.
Lemma set_hash_other h c x c' : c' <> c -> set_hash h c x c' = h c'.
Proof. unfold set_hash. intros H. apply Nat.eqb_neq in H. now rewrite H. Qed.

Section Keccak.
Variable keccak : list N -> list N.
Local Notation enc n := (encode keccak (erase n)).

(** Every set cell of a pair in [K] holds the hash of the pair's node. *)
Definition good (K : nat * cnode -> Prop) (h : heap) : Prop :=
  forall p x, K p -> h (fst p) = Some x -> enc (snd p) = Hashed x.
Definition functional (K : nat * cnode -> Prop) : Prop :=
  forall p q, K p -> K q -> fst p = fst q -> erase (snd p) = erase (snd q).

(** [h'] differs from [h] only in cells of [l]. *)
Definition only (l : list (nat * cnode)) (h h' : heap) : Prop :=
  forall c, h' c <> h c -> exists p, In p l /\ fst p = c.

Lemma opt_dec (a b : option bytes) : a = b \/ a <> b.
Proof.
  destruct a as [a|], b as [b|]; try (left; reflexivity); try (right; discriminate).
  destruct (list_eq_dec N.eq_dec a b) as [->|]; [now left|right; congruence].
Qed.

Lemma only_refl l h : only l h h.
Proof. intros c H. congruence. Qed.
Lemma only_trans l h1 h2 h3 : only l h1 h2 -> only l h2 h3 -> only l h1 h3.
Proof.
  intros A B c H. destruct (opt_dec (h2 c) (h1 c)) as [D|D]; [apply B; congruence|apply A; auto].
Qed.
Lemma only_incl l l' h h' : incl l l' -> only l h h' -> only l' h h'.
Proof. intros I H c N. destruct (H c N) as (p & ? & ?). eauto. Qed.

Lemma cached_ok K p h h' : good K h -> functional K -> K p -> incl (kids (snd p)) (kids (snd p)) ->
  (encode_node keccak (snd p) h = (enc (snd p), h') /\ good K h' /\ only (kids (snd p)) h h') ->
  exists h'', cached (fst p) h (encode_node keccak (snd p)) = (enc (snd p), h'') /\ good K h'' /\ only (p :: kids (snd p)) h h''.
Proof.
  intros G F Kp _ (E & G' & O). unfold cached. destruct (h (fst p)) as [x|] eqn:Eh.
  - exists h. rewrite (G p x Kp Eh). repeat split; auto using only_refl.
  - rewrite E. destruct (enc (snd p)) as [b|x] eqn:En.
    + exists h'. repeat split; auto. eapply only_incl; [|exact O]. intros q Hq. now right.
    + exists (set_hash h' (fst p) (Some x)). split; auto. split.
      * intros q y Kq Hy. destruct (Nat.eq_dec (fst q) (fst p)) as [Eq|Ne].
        -- rewrite Eq, set_hash_same in Hy. injection Hy as <-. rewrite (F q p Kq Kp Eq). exact En.
        -- rewrite set_hash_other in Hy by auto. eauto.
      * intros c Hc. destruct (Nat.eq_dec c (fst p)) as [->|Ne].
        -- exists p. cbn. auto.
        -- rewrite set_hash_other in Hc by auto. destruct (O c Hc) as (q & ? & ?). exists q. cbn. auto.
Qed.

Lemma encode_node_ok n : forall K h, good K h -> functional K -> (forall p, In p (kids n) -> K p) ->
  exists h', encode_node keccak n h = (enc n, h') /\ good K h' /\ only (kids n) h h'.
Proof.
  induction n as [|x|ch v IH|ns c m IH|ns v] using cnode_ind'; intros K h G F Kn.
  - exists h. cbn. auto using only_refl.
  - exists h. cbn. auto using only_refl.
  - cbn [encode_node].
    assert (L : forall l h, (forall p, In p l -> In p ch) -> (forall p, In p (flat_map (fun p => p :: kids (snd p)) l) -> K p) -> good K h ->
      exists h', (fix go (l : list (nat * cnode)) (h : heap) : list N * heap :=
           match l with
           | [] => ([], h)
           | (c, m) :: r =>
               let (e, h1) := cached c h (encode_node keccak m) in
               let (rest, h2) := go r h1 in
               (append_to_stream e ++ rest, h2)
           end) l h = (flat_map (fun c => append_to_stream (encode keccak c)) (map (fun p => erase (snd p)) l), h')
        /\ good K h' /\ only (flat_map (fun p => p :: kids (snd p)) l) h h').
    { clear h G Kn. induction l as [|[c m] l IHl]; intros h Hl HK G.
      - exists h. cbn. auto using only_refl.
      - cbn [map flat_map snd] in *.
        assert (Km : K (c, m)) by (apply HK; cbn; auto).
        assert (Kk : forall p, In p (kids m) -> K p) by (intros p Hp; apply HK; cbn; right; apply in_or_app; auto).
        destruct (IH (c, m) (Hl _ (or_introl eq_refl)) K h G F Kk) as (h1 & E1 & G1 & O1). cbn [snd] in *.
        destruct (cached_ok K (c, m) h h1 G F Km (fun _ x => x) (conj E1 (conj G1 O1))) as (h2 & E2 & G2 & O2). cbn [fst snd] in *.
        destruct (IHl h2) as (h3 & E3 & G3 & O3); auto.
        { intros p Hp. apply Hl. now right. }
        { intros p Hp. apply HK. cbn. right. apply in_or_app. auto. }
        exists h3. rewrite E2, E3. split; auto. split; auto.
        eapply only_trans; [eapply only_incl; [|exact O2]|eapply only_incl; [|exact O3]].
        + intros p Hp. cbn. destruct Hp as [<-|Hp]; auto. right. apply in_or_app. auto.
        + intros p Hp. cbn. right. apply in_or_app. auto. }
    destruct (L ch h (fun _ x => x) Kn G) as (h' & E & G' & O). rewrite E. exists h'. cbn [erase encode]. auto.
  - cbn [encode_node kids] in *.
    assert (Km : K (c, m)) by (apply Kn; now left).
    destruct (IH K h G F) as (h1 & E1 & G1 & O1); [intros p Hp; apply Kn; now right|].
    destruct (cached_ok K (c, m) h h1 G F Km (fun _ x => x) (conj E1 (conj G1 O1))) as (h2 & E2 & G2 & O2). cbn [fst snd] in *.
    rewrite E2. exists h2. cbn [erase encode]. auto.
  - exists h. cbn. auto using only_refl.
Qed.

Lemma hash_intern_ok K p h : good K h -> functional K -> K p -> (forall q, In q (kids (snd p)) -> K q) ->
  good K (snd (hash_intern keccak p h)) /\ only (p :: kids (snd p)) h (snd (hash_intern keccak p h)).
Proof.
  intros G F Kp Kk. destruct (encode_node_ok (snd p) K h G F Kk) as (h1 & H1).
  destruct (cached_ok K p h h1 G F Kp (fun _ x => x) H1) as (h2 & E & G2 & O2).
  unfold hash_intern. now rewrite E.
Qed.

Lemma kids_trans n p q : In p (kids n) -> In q (kids (snd p)) -> In q (kids n).
Proof.
  revert p q. induction n as [|x|ch v IH|ns c m IH|ns v] using cnode_ind'; intros p q Hp Hq; cbn in *; try easy.
  - apply in_flat_map in Hp as (r & Hr & [<-|Hp]); apply in_flat_map; exists r; split; auto.
    + now right.
    + right. eapply IH; eauto.
  - destruct Hp as [<-|Hp]; auto. right. eauto.
Qed.

Lemma intern_all_ok K n l : forall h, good K h -> functional K -> (forall q, In q (kids n) -> K q) -> incl l (kids n) ->
  good K (intern_all keccak l h) /\ only (kids n) h (intern_all keccak l h).
Proof.
  induction l as [|p l IH]; intros h G F Kk I; cbn; [auto using only_refl|].
  assert (Ip : In p (kids n)) by (apply I; now left).
  destruct (hash_intern_ok K p h G F) as [G1 O1]; auto.
  { intros q Hq. apply Kk. eapply kids_trans; eauto. }
  destruct (IH (snd (hash_intern keccak p h)) G1 F Kk) as [G2 O2]; [intros q Hq; apply I; now right|].
  split; auto. eapply only_trans; [|exact O2]. eapply only_incl; [|exact O1].
  intros q [<-|Hq]; auto. eapply kids_trans; eauto.
Qed.

Lemma trie_hash_snd p h : snd (trie_hash keccak p h) = h \/ snd (trie_hash keccak p h) = snd (encode_node keccak (snd p) h).
Proof. unfold trie_hash. destruct (h (fst p)); auto. destruct (encode_node keccak (snd p) h). auto. Qed.

(** ** The system *)
Definition kid_of (s : state) (p : nat * cnode) : Prop := exists q, In q (handles s) /\ In p (kids (snd q)).

Record base (s : state) : Prop := {
  b_roots : forall q, In q (handles s) -> fst q < next s;
  b_kids : forall p, kid_of s p -> fst p < next s;
  b_fun : functional (kid_of s);
  b_good : good (kid_of s) (cells s);
  b_sep : forall q p, In q (handles s) -> kid_of s p -> fst q <> fst p;
  b_fresh : forall c, next s <= c -> cells s c = None }.

Lemma in_set_handle l i p q old : nth_error l i = Some old -> In q (set_handle l i p) -> q = p \/ In q l.
Proof.
  unfold set_handle. intros E H. apply in_app_or in H as [H|H].
  - right. rewrite <- (firstn_skipn i l). apply in_or_app. auto.
  - destruct H as [<-|H]; auto. right. rewrite <- (firstn_skipn (S i) l). apply in_or_app. auto.
Qed.

Lemma in_set_handle_other l i p q old : nth_error l i = Some old -> In q (set_handle l i p) ->
  q = p \/ exists j, j <> i /\ nth_error l j = Some q.
Proof.
  intros E H. apply In_nth_error in H as (j & Hj). change (set_handle l i p) with (upd_nth l i p) in Hj. rewrite (nth_upd l i p j _ E) in Hj.
  destruct (Nat.eqb_spec j i) as [Eq|Ne]; [left; congruence|right; eauto].
Qed.

(** A handle gets a new node, its cell the contents [x]; heap unchanged elsewhere. *)
Lemma base_update s i c n n' nx x :
  base s -> nth_error (handles s) i = Some (c, n) -> derived s n n' nx ->
  base {| handles := set_handle (handles s) i (c, n'); cells := set_hash (cells s) c x; next := nx |}.
Proof.
  intros [R Kb F G Sp Fr] E (L & Hk & Hf). pose proof (nth_error_In _ _ E) as In0.
  assert (KK : forall p, kid_of {| handles := set_handle (handles s) i (c, n'); cells := set_hash (cells s) c x; next := nx |} p ->
     kid_of s p \/ (In p (kids n') /\ next s <= fst p /\ fst p < nx)).
  { intros p (q & Hq & Hp). cbn in Hq. destruct (in_set_handle _ _ _ _ _ E Hq) as [->|Hq'].
    - cbn in Hp. destruct (Hk p Hp) as [Ho|Hn]; [|auto]. left. exists (c, n). auto.
    - left. exists q. auto. }
  assert (Cn : c < next s) by (apply (R (c, n)); auto).
  constructor; cbn [handles cells next].
  - intros q Hq. destruct (in_set_handle _ _ _ _ _ E Hq) as [->|Hq']; cbn; [lia|]. specialize (R q Hq'). lia.
  - intros p Hp. destruct (KK p Hp) as [H|(_ & _ & H)]; auto. specialize (Kb p H). lia.
  - intros p q Hp Hq Epq. destruct (KK p Hp) as [H1|(H1 & H2 & H3)], (KK q Hq) as [H4|(H4 & H5 & H6)].
    + now apply F.
    + specialize (Kb p H1). lia.
    + specialize (Kb q H4). lia.
    + apply (Hf p q); auto.
  - intros p y Hp Hy. destruct (KK p Hp) as [H1|(H1 & H2 & H3)].
    + rewrite set_hash_other in Hy; [now apply (G p y)|]. intros Eq. apply (Sp (c, n) p In0 H1). auto.
    + rewrite set_hash_other in Hy by lia. rewrite Fr in Hy by lia. discriminate.
  - intros q p Hq Hp. assert (Hq' : exists q', In q' (handles s) /\ fst q' = fst q).
    { destruct (in_set_handle _ _ _ _ _ E Hq) as [->|Hq']; [exists (c, n)|exists q]; auto. }
    destruct Hq' as (q' & Iq & <-). destruct (KK p Hp) as [H1|(H1 & H2 & H3)]; [now apply Sp|]. specialize (R q' Iq). lia.
  - intros c' Hc'. rewrite set_hash_other by lia. apply Fr. lia.
Qed.

(** The heap changes only in kid cells, consistently. *)
Lemma base_heap s h : base s -> good (kid_of s) h -> (forall c, h c <> cells s c -> c < next s) ->
  base {| handles := handles s; cells := h; next := next s |}.
Proof.
  intros [R Kb F G Sp Fr] Gh O. constructor; cbn [handles cells next]; auto.
  intros c Hc. destruct (h c) as [x|] eqn:E; auto. assert (c < next s); [|lia]. apply O. rewrite E, Fr by auto. discriminate.
Qed.

Lemma base_new s n' nx : base s -> derived s CEmpty n' nx ->
  base {| handles := handles s ++ [(nx, n')]; cells := set_hash (cells s) nx None; next := S nx |}.
Proof.
  intros [R Kb F G Sp Fr] (L & Hk & Hf).
  assert (KK : forall p, kid_of {| handles := handles s ++ [(nx, n')]; cells := set_hash (cells s) nx None; next := S nx |} p ->
     kid_of s p \/ (In p (kids n') /\ next s <= fst p /\ fst p < nx)).
  { intros p (q & Hq & Hp). cbn in Hq. apply in_app_or in Hq as [Hq|[<-|[]]].
    - left. exists q. auto.
    - right. cbn in Hp. destruct (Hk p Hp) as [[]|?]. auto. }
  constructor; cbn [handles cells next].
  - intros q Hq. apply in_app_or in Hq as [Hq|[<-|[]]]; cbn; [|lia]. specialize (R q Hq). lia.
  - intros p Hp. destruct (KK p Hp) as [H|(_ & _ & H)]; [specialize (Kb p H)|]; lia.
  - intros p q Hp Hq Epq. destruct (KK p Hp) as [H1|(H1 & H2 & H3)], (KK q Hq) as [H4|(H4 & H5 & H6)].
    + now apply F.
    + specialize (Kb p H1). lia.
    + specialize (Kb q H4). lia.
    + apply (Hf p q); auto.
  - intros p y Hp Hy. destruct (KK p Hp) as [H1|(H1 & H2 & H3)].
    + specialize (Kb p H1). rewrite set_hash_other in Hy by lia. now apply (G p y).
    + rewrite set_hash_other in Hy by lia. rewrite Fr in Hy by lia. discriminate.
  - intros q p Hq Hp. apply in_app_or in Hq as [Hq|[<-|[]]].
    + destruct (KK p Hp) as [H1|(H1 & H2 & H3)]; [now apply Sp|]. specialize (R q Hq). lia.
    + cbn. destruct (KK p Hp) as [H1|(H1 & H2 & H3)]; [specialize (Kb p H1)|]; lia.
  - intros c Hc. rewrite set_hash_other by lia. apply Fr. lia.
Qed.

Lemma set_hash_self h c : forall c', set_hash h c (h c) c' = h c'.
Proof. intros c'. unfold set_hash. destruct (Nat.eqb_spec c' c); congruence. Qed.

Lemma good_ext K h h' : (forall c, h c = h' c) -> good K h -> good K h'.
Proof. intros E G p x Kp H. apply (G p x Kp). now rewrite E. Qed.

(** ** No root is ever interned: root cells stay empty. *)
Definition rootless (s : state) (c : call) : Prop :=
  match c with
  | Subset _ ks => exists k, In k ks /\ k <> []
  | _ => True
  end.

Record invA (s : state) : Prop := {
  a_base : base s;
  a_none : forall q, In q (handles s) -> cells s (fst q) = None }.

Lemma kid_incl s p : In p (handles s) -> forall q, In q (kids (snd p)) -> kid_of s q.
Proof. intros H q Hq. exists p. auto. Qed.

Lemma only_kids_lt s p h : base s -> In p (handles s) -> only (kids (snd p)) (cells s) h ->
  (forall c, h c <> cells s c -> c < next s) /\ (forall q, In q (handles s) -> h (fst q) = cells s (fst q)).
Proof.
  intros [R Kb F G Sp Fr] Ip O. split.
  - intros c Hc. destruct (O c Hc) as (q & Hq & <-). apply Kb. exists p. auto.
  - intros q Hq. destruct (opt_dec (h (fst q)) (cells s (fst q))) as [D|D]; auto. destruct (O _ D) as (r & Hr & Er). exfalso. apply (Sp q r Hq); [exists p; auto|auto].
Qed.

Lemma touched_flag t k n t' x : tr t n -> k = x :: t' -> forall m, mark t k = SOk m -> touched m = true.
Proof.
  intros H -> m E. destruct t as [u b|u b|ch u b|c0 u b|u b].
  - injection E as <-. reflexivity.
  - discriminate.
  - rewrite mark_branch in E. destruct (nth_error ch x); [|discriminate]. destruct (mark _ t'); try discriminate. injection E as <-. reflexivity.
  - apply tr_ext_inv in H as (ns & c & -> & -> & H). cbn [mark nibbles_expected] in E.
    destruct (identical_up_to_smallest _ _); [|injection E as <-; reflexivity].
    destruct (_ <? _); [discriminate|]. destruct (mark c0 _); try discriminate. injection E as <-. reflexivity.
  - injection E as <-. reflexivity.
Qed.

Lemma mark_touched_mono t k m : mark t k = SOk m -> touched t = true -> touched m = true.
Proof.
  destruct t as [u b|u b|ch u b|c0 u b|u b]; intros E T.
  - injection E as <-. reflexivity.
  - cbn in E. destruct k; [|discriminate]. injection E as <-. reflexivity.
  - destruct k as [|i k]; [injection E as <-; reflexivity|]. rewrite mark_branch in E.
    destruct (nth_error ch i); [|discriminate]. destruct (mark _ k); try discriminate. injection E as <-. reflexivity.
  - cbn [mark] in E. destruct k; [injection E as <-; exact T|]. destruct (nibbles_expected u); [|discriminate].
    destruct (identical_up_to_smallest _ _); [|injection E as <-; reflexivity].
    destruct (_ <? _); [discriminate|]. destruct (mark c0 _); try discriminate. injection E as <-. reflexivity.
  - injection E as <-. reflexivity.
Qed.

Lemma mark_all_touched_mono ks : forall t m, mark_all t ks = SOk m -> touched t = true -> touched m = true.
Proof.
  induction ks as [|k ks IH]; intros t m E T; cbn in E; [congruence|].
  destruct (mark t k) eqn:Em; try discriminate. eapply IH; eauto. eapply mark_touched_mono; eauto.
Qed.

Lemma mark_all_flag ks : forall t n m, tr t n -> mark_all t ks = SOk m -> (exists k, In k ks /\ k <> []) -> touched m = true.
Proof.
  induction ks as [|k ks IH]; intros t n m H E (k0 & I & N); [destruct I|]. cbn in E.
  destruct (mark t k) as [a| |] eqn:Em; try discriminate. cbn in E.
  destruct k as [|x k].
  - destruct I as [<-|I]; [congruence|]. eapply IH; [exact (mark_tr _ _ _ _ H Em)|exact E|eauto].
  - eapply mark_all_touched_mono; eauto. eapply touched_flag; eauto.
Qed.

Lemma stepA s c s' : invA s -> rootless s c -> step keccak s c s' -> invA s'.
Proof.
  intros [B Nn] Q St. pose proof B as [R Kb F G Sp Fr].
  assert (UPD : forall i c n n' nx, nth_error (handles s) i = Some (c, n) -> derived s n n' nx ->
     invA {| handles := set_handle (handles s) i (c, n'); cells := set_hash (cells s) c None; next := nx |}).
  { intros i c0 n n' nx E D. constructor; [eapply base_update; eauto|]. cbn. intros q Hq.
    destruct (Nat.eq_dec (fst q) c0) as [->|Ne]; [apply set_hash_same|]. rewrite set_hash_other by auto.
    destruct (in_set_handle _ _ _ _ _ E Hq) as [->|Hq']; [cbn in Ne; congruence|auto]. }
  destruct St.
  - assert (D : derived s CEmpty CEmpty (next s)) by (split; [auto|split; [intros ? []|intros ? ? []]]).
    constructor; [exact (base_new s CEmpty (next s) B D)|]. cbn. intros q Hq. apply in_app_or in Hq as [Hq|[<-|[]]].
    + rewrite set_hash_other; auto. specialize (R q Hq). lia.
    + apply set_hash_same.
  - pose proof (nth_error_In _ _ H) as Ip. constructor.
    + assert (KK : forall q, kid_of {| handles := handles s ++ [p]; cells := cells s; next := next s |} q -> kid_of s q).
      { intros q (r & Hr & Hq). cbn in Hr. apply in_app_or in Hr as [Hr|[<-|[]]]; [exists r|exists p]; auto. }
      constructor; cbn [handles cells next]; auto.
      * intros q Hq. apply in_app_or in Hq as [Hq|[<-|[]]]; auto.
      * intros a b Ha Hb. apply F; auto.
      * intros a x Ha. apply G; auto.
      * intros q r Hq Hr. apply in_app_or in Hq as [Hq|[<-|[]]]; auto.
    + cbn. intros q Hq. apply in_app_or in Hq as [Hq|[<-|[]]]; auto.
  - eapply UPD; eauto.
  - now constructor.
  - eapply UPD; eauto.
  - pose proof (nth_error_In _ _ H) as Ip.
    destruct (UPD i c n n' nx H H2) as [B' N']. constructor; cbn in *.
    + destruct B' as [R' Kb' F' G' Sp' Fr']. cbn in *. constructor; cbn [handles cells next]; auto.
      * intros p x Hp Hx. apply (G' p x Hp). cbn. destruct (Nat.eq_dec (fst p) c) as [Eq|Ne].
        -- rewrite Eq in Hx. specialize (Nn _ Ip). cbn in Nn. congruence.
        -- now rewrite set_hash_other.
      * intros c0 Hc. apply Fr. destruct H2 as (L & _). lia.
    + intros q Hq. destruct (in_set_handle _ _ _ _ _ H Hq) as [->|Hq']; auto. exact (Nn _ Ip).
  - eapply UPD; eauto.
  - pose proof (nth_error_In _ _ H) as Ip. constructor.
    + apply base_heap; auto.
      * intros p x Hp Hx. destruct (Nat.eq_dec (fst p) c) as [Eq|Ne]; [rewrite Eq, set_hash_same in Hx; discriminate|].
        rewrite set_hash_other in Hx by auto. eauto.
      * intros c0 Hc. destruct (Nat.eq_dec c0 c) as [->|Ne]; [exact (R _ Ip)|]. rewrite set_hash_other in Hc by auto. congruence.
    + cbn. intros q Hq. destruct (Nat.eq_dec (fst q) c) as [->|Ne]; [apply set_hash_same|]. rewrite set_hash_other; auto.
  - pose proof (nth_error_In _ _ H) as Ip.
    assert (HH : good (kid_of s) (snd (trie_hash keccak p (cells s))) /\ only (kids (snd p)) (cells s) (snd (trie_hash keccak p (cells s)))).
    { destruct (trie_hash_snd p (cells s)) as [->| ->]; [auto using only_refl|].
      destruct (encode_node_ok (snd p) (kid_of s) (cells s) G F (kid_incl s p Ip)) as (h' & -> & ?). auto. }
    destruct HH as [G' O]. destruct (only_kids_lt s p _ B Ip O) as [L1 L2]. constructor.
    + apply base_heap; auto.
    + cbn. intros q Hq. rewrite L2; auto.
  - pose proof (nth_error_In _ _ H) as Ip.
    assert (T : touched t = true) by (eapply mark_all_flag; [apply track_tr|eauto|exact Q]). rewrite T.
    destruct (intern_all_ok (kid_of s) (snd p) l (cells s) G F (kid_incl s p Ip) H1) as [G' O].
    destruct (only_kids_lt s p _ B Ip O) as [L1 L2].
    pose proof (base_heap s _ B G' L1) as B'.
    constructor.
    + apply (base_new _ n' nx) in B'; auto.
    + cbn. intros q Hq. apply in_app_or in Hq as [Hq|[<-|[]]]; [|apply set_hash_same].
      destruct H3 as (Lx & _). specialize (R q Hq). rewrite set_hash_other by (cbn in Lx; lia). rewrite L2; auto.
Qed.

Lemma invA_hash s i : invA s -> observed_hash keccak s i = true_hash keccak s i.
Proof.
  intros [[R Kb F G Sp Fr] Nn]. unfold observed_hash, true_hash. destruct (nth_error (handles s) i) as [p|] eqn:E; auto. cbn. f_equal.
  pose proof (nth_error_In _ _ E) as Ip. unfold trie_hash. rewrite (Nn p Ip).
  destruct (encode_node_ok (snd p) (kid_of s) (cells s) G F (kid_incl s p Ip)) as (h' & -> & _). reflexivity.
Qed.

Lemma runA l : forall s s', invA s -> run keccak rootless s l s' -> invA s'.
Proof. induction l as [|c l IH]; intros s s' I Rn; inversion Rn; subst; auto. eapply IH; [|eauto]. eapply stepA; eauto. Qed.

Lemma initial_base : base initial.
Proof.
  constructor; cbn; auto.
  - intros q [].
  - intros p (q & [] & _).
  - intros p q (r & [] & _).
  - intros p x _ H. discriminate.
Qed.

Lemma initial_A : invA initial.
Proof. constructor; [apply initial_base|intros ? []]. Qed.

(** ** Mutations only of unshared handles, and no failing extend *)
Definition unshared (s : state) (i : nat) : Prop :=
  forall j p q, nth_error (handles s) i = Some p -> nth_error (handles s) j = Some q -> fst p = fst q -> i = j.

Definition exclusive (s : state) (c : call) : Prop :=
  match c with
  | Insert i _ _ | Delete i _ _ => unshared s i
  | Extend i kvs => unshared s i /\
      forall p, nth_error (handles s) i = Some p -> snd (trie_extend (erase (snd p)) kvs) = Ok tt
  | _ => True
  end.

Definition live (s : state) (p : nat * cnode) : Prop := In p (handles s) \/ kid_of s p.

Record invB (s : state) : Prop := {
  c_base : base s;
  c_good : good (fun p => In p (handles s)) (cells s);
  c_fun : functional (fun p => In p (handles s)) }.

Lemma invB_live s : invB s -> functional (live s) /\ good (live s) (cells s).
Proof.
  intros [[R Kb F G Sp Fr] Gr Fn]. split.
  - intros p q [Hp|Hp] [Hq|Hq] E; auto.
    + destruct (Sp p q Hp Hq E).
    + destruct (Sp q p Hq Hp). auto.
  - intros p x [Hp|Hp] H; eauto.
Qed.

Lemma live_handle s p : In p (handles s) -> forall q, In q (kids (snd p)) -> live s q.
Proof. intros H q Hq. right. exists p. auto. Qed.

Lemma invB_heap s h : invB s -> good (live s) h -> (forall c, h c <> cells s c -> c < next s) ->
  invB {| handles := handles s; cells := h; next := next s |}.
Proof.
  intros [B Gr Fn] Gh O. constructor.
  - apply base_heap; auto. intros p x Hp. apply Gh. now right.
  - intros p x Hp. apply Gh. now left.
  - exact Fn.
Qed.

Lemma only_live_lt s p h l : base s -> In p (handles s) -> incl l (p :: kids (snd p)) -> only l (cells s) h ->
  forall c, h c <> cells s c -> c < next s.
Proof.
  intros [R Kb F G Sp Fr] Ip I O c Hc. destruct (O c Hc) as (q & Hq & <-). destruct (I q Hq) as [<-|H]; auto.
  apply Kb. exists p. auto.
Qed.

Lemma invB_new s n' nx : invB s -> derived s CEmpty n' nx ->
  invB {| handles := handles s ++ [(nx, n')]; cells := set_hash (cells s) nx None; next := S nx |}.
Proof.
  intros [B Gr Fn] D. pose proof B as [R Kb F G Sp Fr]. pose proof D as (L & _). constructor; [now apply base_new| |]; cbn.
  - intros q x Hq Hx. apply in_app_or in Hq as [Hq|[<-|[]]].
    + rewrite set_hash_other in Hx; [eauto|]. specialize (R q Hq). lia.
    + cbn in Hx. rewrite set_hash_same in Hx. discriminate.
  - intros p q Hp Hq E. apply in_app_or in Hp as [Hp|[<-|[]]]; apply in_app_or in Hq as [Hq|[<-|[]]]; auto.
    + cbn in E. specialize (R p Hp). lia.
    + cbn in E. specialize (R q Hq). lia.
Qed.

Lemma stepB s c s' : invB s -> exclusive s c -> step keccak s c s' -> invB s'.
Proof.
  intros I Q St. pose proof I as [B Gr Fn]. pose proof B as [R Kb F G Sp Fr].
  destruct (invB_live s I) as [FL GL].
  assert (UPD : forall i c n n' nx, nth_error (handles s) i = Some (c, n) -> derived s n n' nx -> unshared s i ->
     invB {| handles := set_handle (handles s) i (c, n'); cells := set_hash (cells s) c None; next := nx |}).
  { intros i c0 n n' nx E D U. constructor; [eapply base_update; eauto| |]; cbn.
    - intros q x Hq Hx. destruct (Nat.eq_dec (fst q) c0) as [Eq|Ne]; [rewrite Eq, set_hash_same in Hx; discriminate|].
      rewrite set_hash_other in Hx by auto. destruct (in_set_handle _ _ _ _ _ E Hq) as [->|Hq']; [cbn in Ne; congruence|eauto].
    - intros p q Hp Hq Epq.
      destruct (in_set_handle_other _ _ _ _ _ E Hp) as [->|(j & Nj & Ej)], (in_set_handle_other _ _ _ _ _ E Hq) as [->|(j' & Nj' & Ej')]; auto.
      + destruct (Nj' (eq_sym (U j' _ _ E Ej' Epq))).
      + destruct (Nj (eq_sym (U j _ _ E Ej (eq_sym Epq)))).
      + apply Fn; eauto using nth_error_In. }
  destruct St; cbn in Q.
  - apply (invB_new s CEmpty (next s)); auto. split; [auto|split; [intros ? []|intros ? ? []]].
  - pose proof (nth_error_In _ _ H) as Ip.
    assert (II : forall q, In q (handles s ++ [p]) -> In q (handles s)).
    { intros q Hq. apply in_app_or in Hq as [Hq|[<-|[]]]; auto. }
    assert (KK : forall q, kid_of {| handles := handles s ++ [p]; cells := cells s; next := next s |} q -> kid_of s q).
    { intros q (r & Hr & Hq). exists r. split; [apply II, Hr|exact Hq]. }
    constructor; [constructor| |]; cbn [handles cells next]; auto.
    + intros a b Ha Hb. apply F; auto.
    + intros a x Ha. apply G; auto.
    + intros a x Ha. apply Gr; auto.
    + intros a b Ha Hb. apply Fn; auto.
  - eapply UPD; eauto.
  - exact I.
  - destruct Q as [U _]. eapply UPD; eauto.
  - destruct Q as [_ U]. specialize (U _ H). cbn in U. rewrite H0 in U. discriminate.
  - eapply UPD; eauto.
  - pose proof (nth_error_In _ _ H) as Ip. apply invB_heap; auto.
    + intros p x Hp Hx. destruct (Nat.eq_dec (fst p) c) as [Eq|Ne]; [rewrite Eq, set_hash_same in Hx; discriminate|].
      rewrite set_hash_other in Hx by auto. eauto.
    + intros c0 Hc. destruct (Nat.eq_dec c0 c) as [->|Ne]; [exact (R _ Ip)|]. rewrite set_hash_other in Hc by auto. congruence.
  - pose proof (nth_error_In _ _ H) as Ip.
    assert (HH : good (live s) (snd (trie_hash keccak p (cells s))) /\ only (kids (snd p)) (cells s) (snd (trie_hash keccak p (cells s)))).
    { destruct (trie_hash_snd p (cells s)) as [->| ->]; [auto using only_refl|].
      destruct (encode_node_ok (snd p) (live s) (cells s) GL FL (live_handle s p Ip)) as (h' & -> & ?). auto. }
    destruct HH as [G' O]. apply invB_heap; auto. eapply only_live_lt; eauto. intros q Hq. now right.
  - pose proof (nth_error_In _ _ H) as Ip.
    set (h0 := if touched t then cells s else snd (hash_intern keccak p (cells s))).
    assert (H0' : good (live s) h0 /\ only (p :: kids (snd p)) (cells s) h0).
    { unfold h0. destruct (touched t); [auto using only_refl|]. apply hash_intern_ok; [exact GL|exact FL|now left|exact (live_handle s p Ip)]. }
    destruct H0' as [G0 O0].
    destruct (intern_all_ok (live s) (snd p) l h0 G0 FL (live_handle s p Ip) H1) as [G' O].
    assert (O' : only (p :: kids (snd p)) (cells s) (intern_all keccak l h0)).
    { eapply only_trans; [exact O0|]. eapply only_incl; [|exact O]. intros q Hq. now right. }
    assert (I' : invB {| handles := handles s; cells := intern_all keccak l h0; next := next s |}).
    { apply invB_heap; auto. eapply only_live_lt; eauto. intros q Hq; exact Hq. }
    apply (invB_new _ n' nx) in I'; auto.
Qed.

Lemma invB_hash s i : invB s -> observed_hash keccak s i = true_hash keccak s i.
Proof.
  intros I. destruct (invB_live s I) as [FL GL].
  unfold observed_hash, true_hash. destruct (nth_error (handles s) i) as [p|] eqn:E; auto. cbn. f_equal.
  pose proof (nth_error_In _ _ E) as Ip. unfold trie_hash, hash_trie. destruct (cells s (fst p)) as [x|] eqn:Ec.
  - rewrite (GL p x (or_introl Ip) Ec). reflexivity.
  - destruct (encode_node_ok (snd p) (live s) (cells s) GL FL (live_handle s p Ip)) as (h' & -> & _). reflexivity.
Qed.

Lemma runB l : forall s s', invB s -> run keccak exclusive s l s' -> invB s'.
Proof. induction l as [|c l IH]; intros s s' I Rn; inversion Rn; subst; auto. eapply IH; [|eauto]. eapply stepB; eauto. Qed.

Lemma initial_B : invB initial.
Proof. constructor; [apply initial_base| |]; intros ? ? []. Qed.

End Keccak.
