(** Partial sparse Merkle trees: [set_hash], and faithfulness to the full tree. *)

From Coq Require Import List Arith NArith ZArith Lia Bool ZifyN ZifyNat ZifyBool.
From Verif.Smt Require Import SmtModel SmtSpec KeyProofs SmtProofs SmtSetProofs SmtHistory.
Import ListNotations.
Local Open Scope nat_scope.

Lemma is_prefix_of_iff : forall a b, is_prefix_of a b = true <-> exists q, b = a ++ q.
Proof.
  induction a as [|x a IH]; intros b; cbn [is_prefix_of].
  - split; [intros _; exists b; reflexivity|reflexivity].
  - destruct b as [|y b].
    + split; [discriminate|]. intros [q Q]. discriminate.
    + rewrite andb_true_iff, IH. split.
      * intros [A [q ->]]. apply Bool.eqb_prop in A. subst. exists q. reflexivity.
      * intros [q Q]. inversion Q; subst. split; [apply eqb_reflx|]. exists q. reflexivity.
Qed.

Section Poseidon.
Variable pos : node -> quad.
Notation thash := (thash pos).
Notation stored := (stored pos).
Notation sctx := (sctx pos).
Notation path_of := (path_of pos).
Notation node_of := (node_of pos).
Notation db_ok := (db_ok pos).
Notation inv := (inv pos).
Notation nodes d := (map snd d).

(** ** [set_hash] *)

(** Paths that agree with a context outside the slots on the path. *)
Fixpoint psim (p : list (bool * node)) (c : ctx) : Prop :=
  match p, c with
  | [], [] => True
  | (b, m) :: p', (b', s) :: c' =>
      b = b' /\ (forall x, set_slot m b x = set_slot (node_of (length c') b s E) b x) /\ psim p' c'
  | _, _ => False
  end.

Lemma set_slot_any : forall n b s t u x, set_slot (node_of n b s t) b x = set_slot (node_of n b s u) b x.
Proof. intros n [|] s t u x; reflexivity. Qed.

Lemma rebuild_sim : forall p c u d n, psim p c -> rebuild pos d n p = rebuild pos d n (path_of c u).
Proof.
  induction p as [|[b m] p IH]; intros [|[b' s] c] u d n Hp; cbn [psim] in Hp; try contradiction; [reflexivity|].
  destruct Hp as (<- & Hm & Hp). cbn [SmtProofs.path_of rebuild store].
  rewrite Hm, (set_slot_any _ _ _ E u). apply IH. exact Hp.
Qed.

Lemma put_sim : forall p c u d h, psim p c -> put pos d p h = put pos d (path_of c u) h.
Proof.
  intros [|[b m] p] [|[b' s] c] u d h Hp; cbn [psim] in Hp; try contradiction; [reflexivity|].
  destruct Hp as (<- & Hm & Hp). cbn [SmtProofs.path_of put].
  rewrite Hm, (set_slot_any _ _ _ E u). apply rebuild_sim. exact Hp.
Qed.

Lemma get_zero : forall D d, db_ok D d -> get_node d zero = None.
Proof. intros D d (H1 & H2 & H3). apply (get_none pos d D); auto. intros n Hn. apply (proj2 H2 n Hn). Qed.

Lemma descend_hash_spec : forall key t D d c path p, db_ok D d -> stored D (nodes d) (length c) t -> psim path c ->
  (forall x, In x (hashes (cbits c) t) -> is_prefix_of (fst x) (cbits c ++ key) = false) ->
  descend_hash d (thash (length c) t) key path = Some (p, zero) ->
  exists c', psim p c' /\ cbits c' = cbits c ++ key /\
    (pctx c -> placed (cbits c) t -> length c + length key <= 256 -> pctx c') /\
    (sctx D (nodes d) c -> sctx D (nodes d) c') /\ (canctx c -> canon t -> canctx c') /\
    (forall x, In x (cleaves c') <-> In x (cleaves c) \/ In x (leaves t)) /\
    (forall x, In x (chashes c') <-> In x (chashes c) \/ In x (hashes (cbits c) t)).
Proof.
  induction key as [|b key IH]; intros t D d c path p Hd Hst Hps Hno Hdesc; cbn [descend_hash] in Hdesc.
  - inversion Hdesc as [[Hp Hz]]. subst p. pose proof Hd as (Hd1 & Hd2 & Hd3).
    apply (thash_zero pos t D (nodes d)) in Hz; auto. subst t.
    exists c. rewrite app_nil_r. cbn [leaves hashes In]. repeat split; auto; tauto.
  - destruct t as [|k v|l r|big h].
    + cbn [SmtProofs.thash] in Hdesc. rewrite (get_zero D d Hd) in Hdesc.
      change (is_one_siblings (Nd zero zero zero)) with false in Hdesc. cbv iota in Hdesc.
      replace (slot (Nd zero zero zero) b) with (thash (length ((b, E) :: c)) E) in Hdesc by (destruct b; reflexivity).
      apply (IH E D d ((b, E) :: c)) in Hdesc; [|exact Hd|exact Logic.I| |intros x []].
      2: { cbn [psim]. split; [reflexivity|]. split; [|exact Hps]. intros x. destruct b; reflexivity. }
      destruct Hdesc as (c' & A1 & A2 & A3 & A4 & A5 & A6 & A7). exists c'.
      split; [exact A1|]. split; [rewrite A2, cbits_cons, <- app_assoc; reflexivity|].
      split; [|split; [|split; [|split]]].
      * intros Hp _ Hl. cbn [length] in *. apply A3; [|exact Logic.I|lia]. cbn [pctx]. repeat split; auto. lia.
      * intros Hs. apply A4. cbn [SmtProofs.sctx]. split; [exact Logic.I|exact Hs].
      * intros Hc _. apply A5; [|exact Logic.I]. split; [exact Logic.I|exact Hc].
      * intros x. rewrite A6. cbn [cleaves leaves app In]. tauto.
      * intros x. rewrite A7. cbn [chashes hashes app In]. tauto.
    + destruct (get_stored_leaf pos D d k v _ Hd Hst) as [G1 _]. rewrite G1 in Hdesc.
      change (is_one_siblings (lnode pos k (length c) v)) with true in Hdesc. discriminate.
    + rewrite (get_stored_inode pos D d l r _ Hd Hst) in Hdesc.
      change (is_one_siblings (inode pos (length c) l r)) with false in Hdesc. cbv iota in Hdesc.
      destruct Hst as (_ & Sl & Sr).
      set (s := if b then l else r). set (u := if b then r else l).
      replace (slot (inode pos (length c) l r) b) with (thash (length ((b, s) :: c)) u) in Hdesc
        by (unfold u; destruct b; reflexivity).
      apply (IH u D d ((b, s) :: c)) in Hdesc; [|exact Hd|unfold u; destruct b; assumption| |].
      2: { cbn [psim]. split; [reflexivity|]. split; [|exact Hps]. intros x. unfold s. destruct b; reflexivity. }
      2: { intros x Hx. rewrite cbits_cons in *. rewrite <- app_assoc. apply Hno. cbn [hashes]. apply in_app_iff.
           unfold u in Hx. destruct b; auto. }
      destruct Hdesc as (c' & A1 & A2 & A3 & A4 & A5 & A6 & A7). exists c'.
      split; [exact A1|]. split; [rewrite A2, cbits_cons, <- app_assoc; reflexivity|].
      split; [|split; [|split; [|split]]].
      * intros Hp (Hlt & Pl & Pr) Hl. cbn [length] in *. rewrite cbits_length in Hlt. apply A3; [| |lia].
        -- cbn [pctx]. repeat split; auto. unfold s. destruct b; assumption.
        -- rewrite cbits_cons. unfold u. destruct b; assumption.
      * intros Hs. apply A4. cbn [SmtProofs.sctx]. split; [unfold s; destruct b; assumption|exact Hs].
      * intros Hc (_ & Cl & Cr). apply A5; [|unfold u; destruct b; assumption].
        split; [unfold s; destruct b; assumption|exact Hc].
      * intros x. rewrite A6. cbn [cleaves leaves]. rewrite !in_app_iff. unfold s, u. destruct b; tauto.
      * intros x. rewrite A7, cbits_cons. cbn [chashes hashes]. rewrite !in_app_iff. unfold s, u. destruct b; cbn [negb]; tauto.
    + exfalso. specialize (Hno (cbits c, (big, h)) ltac:(left; reflexivity)). cbn [fst] in Hno.
      assert (A : is_prefix_of (cbits c) (cbits c ++ b :: key) = true) by (apply is_prefix_of_iff; eexists; reflexivity).
      congruence.
Qed.

Lemma canon_build : forall c u, canctx c -> canon u -> isE u = false -> small u = false -> canon (plug c u).
Proof.
  induction c as [|[b s] c IH]; intros u Hc Hu H1 H2; cbn [plug]; [exact Hu|]. destruct Hc as [Hs Hc].
  apply IH; [exact Hc| |apply plug1_notE|apply plug1_notsmall]. apply canon_plug1.
  split; [apply (fits_inner [(b, s)] u H1 H2)|]. split; assumption.
Qed.

Lemma set_hash_spec : forall D s t key h s', inv D s t -> set_hash pos s key h = Some s' ->
  incl (nodes (db s')) D -> length key <= 256 -> h <> zero -> (forall n, In n D -> pos n <> h) ->
  (forall x, In x (hashes [] t) -> is_prefix_of (fst x) key = false) ->
  exists t', inv D s' t' /\ (forall x, In x (leaves t') <-> In x (leaves t)) /\
    (forall x, In x (hashes [] t') <-> x = (key, (true, h)) \/ In x (hashes [] t)).
Proof.
  intros D s t key h s' [Hd Hst Hroot Hpl Hcan Hkv] Hset Hincl Hlen Hh Hfresh Hno.
  unfold set_hash in Hset. rewrite Hroot in Hset.
  destruct (descend_hash (db s) (thash 0 t) key []) as [[p r]|] eqn:Hdesc; [|discriminate].
  destruct (is_zero r) eqn:Zr; [|discriminate]. apply is_zero_eq in Zr. subst r.
  change 0 with (length ([] : ctx)) in Hdesc.
  destruct (descend_hash_spec key t D (db s) [] [] p Hd Hst Logic.I Hno Hdesc) as (c & A1 & A2 & A3 & A4 & A5 & A6 & A7).
  rewrite (put_sim p c E) in Hset by exact A1. cbn [cbits map rev app] in *.
  destruct (put pos (db s) (path_of c E) h) as [d' h'] eqn:Hput. inversion Hset; subst s'. clear Hset. cbn [db] in Hincl.
  pose proof Hd as (Hd1 & Hd2 & Hd3).
  change h with (thash (length c) (H true h)) in Hput.
  apply (put_spec pos c D) in Hput; [|exact Hd1|apply A4; exact Logic.I|split; assumption].
  destruct Hput as (P1 & P2 & P3 & P4).
  exists (plug c (H true h)).
  assert (Hlv : forall x, In x (leaves (plug c (H true h))) <-> In x (leaves t)).
  { intros x. rewrite leaves_plug, A6. cbn [leaves cleaves In]. tauto. }
  split; [|split; [exact Hlv|]].
  - constructor; cbn [db root kv_store].
    + split; [exact P2|]. split; [exact Hd2|exact Hincl].
    + exact P4.
    + exact P1.
    + apply placed_plug. split; [exact Logic.I|]. apply A3; [exact Logic.I|exact Hpl|cbn; lia].
    + apply canon_build; [apply A5; [exact Logic.I|exact Hcan]|exact Logic.I|reflexivity|reflexivity].
    + intros k v. rewrite Hkv. symmetry. apply Hlv.
  - intros x. rewrite hashes_plug, A2, A7. cbn [hashes chashes In]. split; [intros [[B|[]]|[[]|B]]; auto|].
    intros [->|B]; auto.
Qed.

(** ** Hidden subtrees *)

(** [t] is [T] with some non-empty subtrees replaced by their hashes. *)
Fixpoint hides (d : nat) (t T : tree) : Prop :=
  match t, T with
  | E, E => True
  | L k v, L k' v' => k = k' /\ v = v'
  | I l r, I l' r' => hides (S d) l l' /\ hides (S d) r r'
  | H big h, T => h = thash d T /\ T <> E /\ big = negb (isL T)
  | _, _ => False
  end.

Lemma hides_hash : forall t T d, hides d t T -> thash d t = thash d T.
Proof.
  induction t as [|k v|l IHl r IHr|big h]; intros T d Hh; destruct T as [|k' v'|l' r'|big' h']; cbn [hides] in Hh; try contradiction;
    try reflexivity; try (destruct Hh as [A _]; cbn [SmtProofs.thash] in *; congruence).
  - destruct Hh as [-> ->]. reflexivity.
  - destruct Hh as [A B]. cbn [SmtProofs.thash]. rewrite (IHl _ _ A), (IHr _ _ B). reflexivity.
Qed.

Fixpoint sub_at (T : tree) (p : list bool) {struct p} : tree :=
  match p, T with
  | [], _ => T
  | b :: p', I l r => sub_at (if b then r else l) p'
  | _ :: _, _ => E
  end.

Lemma sub_at_app : forall p q T, sub_at T (p ++ q) = sub_at (sub_at T p) q.
Proof.
  induction p as [|b p IH]; intros q T; [reflexivity|]. cbn [app sub_at].
  destruct T as [|k v|l r|big h]; try (destruct q; reflexivity). apply IH.
Qed.

(** Replace the hash nodes of [t] by the subtrees of [T0] at their positions. *)
Fixpoint fill (T0 : tree) (p : list bool) (t : tree) : tree :=
  match t with
  | H _ _ => sub_at T0 p
  | I l r => I (fill T0 (p ++ [false]) l) (fill T0 (p ++ [true]) r)
  | _ => t
  end.

(** What a hash node entry must say about the subtree it hides. *)
Definition entry_ok (T0 : tree) (x : list bool * (bool * quad)) : Prop :=
  let U := sub_at T0 (fst x) in
  snd (snd x) = thash (length (fst x)) U /\ U <> E /\ fst (snd x) = negb (isL U) /\
  plain U /\ placed (fst x) U /\ canon U.

Lemma hides_fill : forall T0 t T p, T = sub_at T0 p -> hides (length p) t T -> fill T0 p t = T.
Proof.
  induction t as [|k v|l IHl r IHr|big h]; intros T p HT Hh.
  - destruct T; cbn [hides] in Hh; try contradiction. reflexivity.
  - destruct T as [|k' v'| |]; cbn [hides] in Hh; try contradiction. destruct Hh as [-> ->]. reflexivity.
  - destruct T as [| |l' r'|]; cbn [hides] in Hh; try contradiction. destruct Hh as [A B]. cbn [fill].
    rewrite (IHl l' (p ++ [false])), (IHr r' (p ++ [true])); [reflexivity| | | |].
    + rewrite sub_at_app, <- HT. reflexivity.
    + rewrite app_length, Nat.add_1_r. exact B.
    + rewrite sub_at_app, <- HT. reflexivity.
    + rewrite app_length, Nat.add_1_r. exact A.
  - cbn [fill]. symmetry. exact HT.
Qed.

Lemma sub_at_facts : forall T q, plain T -> placed [] T -> canon T ->
  forall p, sub_at T p = q -> q <> E -> plain q /\ placed p q /\ canon q.
Proof.
  intros T q Hpl Hp Hc p.
  assert (G : forall p T p0, plain T -> placed p0 T -> canon T -> sub_at T p <> E ->
            plain (sub_at T p) /\ placed (p0 ++ p) (sub_at T p) /\ canon (sub_at T p)).
  { clear. induction p as [|b p IH]; intros T p0 H1 H2 H3 H4; cbn [sub_at] in *.
    - rewrite app_nil_r. auto.
    - destruct T as [|k v|l r|big h]; try congruence.
      destruct H1 as [N1 N2], H2 as (_ & P1 & P2), H3 as (_ & C1 & C2).
      replace (p0 ++ b :: p) with ((p0 ++ [b]) ++ p) by (rewrite <- app_assoc; reflexivity).
      destruct b; apply IH; auto. }
  intros Hs Hq. subst q. apply (G p T []); auto.
Qed.

Lemma hides_entries : forall T0 t T p, plain T0 -> placed [] T0 -> canon T0 -> T = sub_at T0 p -> hides (length p) t T ->
  forall x, In x (hashes p t) -> entry_ok T0 x.
Proof.
  intros T0. induction t as [|k v|l IHl r IHr|big h]; intros T p Hn Hp Hc HT Hh x Hx; cbn [hashes] in Hx; try contradiction.
  - destruct T as [| |l' r'|]; cbn [hides] in Hh; try contradiction. destruct Hh as [A B].
    apply in_app_iff in Hx. destruct Hx as [Hx|Hx].
    + apply (IHl l' (p ++ [false])); auto; [rewrite sub_at_app, <- HT; reflexivity|rewrite app_length, Nat.add_1_r; exact A].
    + apply (IHr r' (p ++ [true])); auto; [rewrite sub_at_app, <- HT; reflexivity|rewrite app_length, Nat.add_1_r; exact B].
  - destruct Hx as [<-|[]]. unfold entry_ok. cbn [fst snd]. rewrite <- HT.
    assert (G : h = thash (length p) T /\ T <> E /\ big = negb (isL T)) by (destruct T; exact Hh).
    destruct G as (G1 & G2 & G3). repeat split; auto;
      destruct (sub_at_facts T0 T Hn Hp Hc p (eq_sym HT) G2) as (X & Y & Z); assumption.
Qed.

Lemma fill_hides : forall T0 t p, (forall x, In x (hashes p t) -> entry_ok T0 x) -> hides (length p) t (fill T0 p t).
Proof.
  intros T0. induction t as [|k v|l IHl r IHr|big h]; intros p Hx; cbn [fill hides]; auto.
  - split.
    + specialize (IHl (p ++ [false])). rewrite app_length, Nat.add_1_r in IHl. apply IHl. intros x Hin. apply Hx.
      cbn [hashes]. apply in_app_iff. auto.
    + specialize (IHr (p ++ [true])). rewrite app_length, Nat.add_1_r in IHr. apply IHr. intros x Hin. apply Hx.
      cbn [hashes]. apply in_app_iff. auto.
  - destruct (Hx (p, (big, h)) ltac:(left; reflexivity)) as (A & B & C & _). cbn [fst snd] in *.
    destruct (sub_at T0 p); auto.
Qed.

Lemma fill_plain : forall T0 t p, (forall x, In x (hashes p t) -> entry_ok T0 x) -> plain (fill T0 p t).
Proof.
  intros T0. induction t as [|k v|l IHl r IHr|big h]; intros p Hx; cbn [fill plain]; auto.
  - split; [apply IHl|apply IHr]; intros x Hin; apply Hx; cbn [hashes]; apply in_app_iff; auto.
  - apply (Hx (p, (big, h)) ltac:(left; reflexivity)).
Qed.

Lemma fill_placed : forall T0 t p, (forall x, In x (hashes p t) -> entry_ok T0 x) -> placed p t -> placed p (fill T0 p t).
Proof.
  intros T0. induction t as [|k v|l IHl r IHr|big h]; intros p Hx Hp; cbn [fill placed] in *; auto.
  - destruct Hp as (A & B & C). repeat split; [exact A|apply IHl|apply IHr]; auto; intros x Hin; apply Hx; cbn [hashes]; apply in_app_iff; auto.
  - apply (Hx (p, (big, h)) ltac:(left; reflexivity)).
Qed.

Lemma fill_E : forall T0 t p, (forall x, In x (hashes p t) -> entry_ok T0 x) -> fill T0 p t = E -> t = E.
Proof.
  intros T0 [|k v|l r|big h] p Hx Hf; cbn [fill] in Hf; auto; try discriminate.
  exfalso. apply (proj1 (proj2 (Hx (p, (big, h)) ltac:(left; reflexivity)))). exact Hf.
Qed.

Lemma fill_small : forall T0 t p, (forall x, In x (hashes p t) -> entry_ok T0 x) -> small (fill T0 p t) = true -> small t = true.
Proof.
  intros T0 [|k v|l r|big h] p Hx Hf; cbn [fill] in Hf; auto; try discriminate.
  destruct (Hx (p, (big, h)) ltac:(left; reflexivity)) as (_ & _ & C & D & _). cbn [fst snd] in *. subst big. cbn [small].
  destruct (sub_at T0 p); cbn in *; try discriminate; try contradiction. reflexivity.
Qed.

Lemma fill_canon : forall T0 t p, (forall x, In x (hashes p t) -> entry_ok T0 x) -> canon t -> canon (fill T0 p t).
Proof.
  intros T0. induction t as [|k v|l IHl r IHr|big h]; intros p Hx Hc; cbn [fill canon] in *; auto.
  - assert (Xl : forall x, In x (hashes (p ++ [false]) l) -> entry_ok T0 x) by (intros x Hin; apply Hx; cbn [hashes]; apply in_app_iff; auto).
    assert (Xr : forall x, In x (hashes (p ++ [true]) r) -> entry_ok T0 x) by (intros x Hin; apply Hx; cbn [hashes]; apply in_app_iff; auto).
    destruct Hc as ((O1 & O2 & O3) & C1 & C2). split; [|split; [apply IHl|apply IHr]; assumption].
    unfold okI. repeat split; intros [A B].
    + apply O1. split; [exact (fill_E _ _ _ Xl A)|exact (fill_E _ _ _ Xr B)].
    + apply O2. split; [exact (fill_E _ _ _ Xl A)|exact (fill_small _ _ _ Xr B)].
    + apply O3. split; [exact (fill_small _ _ _ Xl A)|exact (fill_E _ _ _ Xr B)].
  - apply (Hx (p, (big, h)) ltac:(left; reflexivity)).
Qed.

Lemma fill_leaves : forall T0 t p x, In x (leaves (fill T0 p t)) <->
  In x (leaves t) \/ exists q e, In (q, e) (hashes p t) /\ In x (leaves (sub_at T0 q)).
Proof.
  intros T0. induction t as [|k v|l IHl r IHr|big h]; intros p x; cbn [fill leaves hashes].
  - split; [intros []|]. intros [[]|(q & e & [] & _)].
  - split; [auto|]. intros [A|(q & e & [] & _)]. exact A.
  - rewrite !in_app_iff, IHl, IHr. split.
    + intros [[A|(q & e & A & B)]|[A|(q & e & A & B)]]; auto; right; exists q, e; rewrite in_app_iff; auto.
    + intros [[A|A]|(q & e & A & B)]; auto. apply in_app_iff in A. destruct A as [A|A]; [left|right]; right; eauto.
  - split.
    + intros A. right. exists p, (big, h). split; [left; reflexivity|exact A].
    + intros [[]|(q & e & [A|[]] & B)]. inversion A; subst. exact B.
Qed.

(** The hash nodes are off the path of a key that [set] accepts. *)
Lemma set_off_hashes : forall D s t k v s', inv D s t -> set pos s k v = Some s' ->
  forall x, In x (hashes [] t) -> ~ exists q, split k = fst x ++ q.
Proof.
  intros D s t k v s' [Hd Hst Hroot Hpl Hcan Hkv] Hset x Hx [q Hq].
  unfold set in Hset. rewrite Hroot in Hset.
  destruct (descend (db s) (thash 0 t) (split k) []) as [[p f]|] eqn:Hdesc; [|discriminate]. clear Hset.
  change ([] : list (bool * node)) with (path_of [] t) in Hdesc. change 0 with (length ([] : ctx)) in Hdesc.
  destruct (descend_spec pos t D (db s) [] (split k) p f Hd Hst Hdesc)
    as (c & u & pre & rest & Hsk & Hcb & Hpg & Hp & Hend & Hf).
  cbn [cbits map rev app] in Hcb. cbn [plug] in Hpg. subst pre t.
  apply hashes_plug in Hx. destruct Hx as [Hx|Hx].
  - destruct Hend as [-> | HL]; [destruct Hx|]. destruct u; try discriminate. destruct Hx.
  - clear - Hx Hq Hsk. revert rest Hsk. induction c as [|[b s0] c IH]; intros rest Hsk; cbn [chashes] in Hx; [exact Hx|].
    apply in_app_iff in Hx. rewrite cbits_cons, <- app_assoc in Hsk. destruct Hx as [Hx|Hx]; [|exact (IH Hx _ Hsk)].
    destruct x as [x e]. cbn [fst] in Hq. apply hashes_prefix in Hx. destruct Hx as [q' ->].
    rewrite Hsk, <- !app_assoc in Hq. apply app_inv_head in Hq. inversion Hq. destruct b; discriminate.
Qed.

(** One [set] on the partial tree and on the full tree. *)
Lemma hides_set : forall D0 D1 s0 s1 t T k v s0' s1', inv D0 s0 t -> inv D1 s1 T -> plain T -> hides 0 t T ->
  qvalid k -> (v < 2 ^ 256)%N -> set pos s0 k v = Some s0' -> set pos s1 k v = Some s1' ->
  incl (nodes (db s0')) D0 -> incl (nodes (db s1')) D1 ->
  exists t' T', inv D0 s0' t' /\ inv D1 s1' T' /\ plain T' /\ hides 0 t' T' /\
    leaves_after T T' k v /\ (forall x, In x (hashes [] t') <-> In x (hashes [] t)).
Proof.
  intros D0 D1 s0 s1 t T k v s0' s1' I0 I1 HpT Hh Hk Hv Set0 Set1 Inc0 Inc1.
  destruct (set_spec pos D0 s0 t k v s0' I0 Hk Hv Set0 Inc0) as (t' & I0' & La0 & Ha0 & _).
  destruct (set_spec pos D1 s1 T k v s1' I1 Hk Hv Set1 Inc1) as (T' & I1' & La1 & Ha1 & _).
  assert (HpT' : plain T').
  { apply (plain_hashes T' []). apply (in_nil_iff _ _ _ Ha1). apply plain_hashes. exact HpT. }
  assert (Ent : forall x, In x (hashes [] t) -> entry_ok T x).
  { apply (hides_entries T t T []); auto; [apply I1|apply I1]. }
  assert (Ent' : forall x, In x (hashes [] t') -> entry_ok T x) by (intros x Hx; apply Ent, Ha0, Hx).
  assert (HF : fill T [] t = T) by (apply (hides_fill T t T []); auto).
  assert (HT' : fill T [] t' = T').
  { apply (tree_unique _ _ []).
    - apply fill_placed; [exact Ent'|apply I0'].
    - apply I1'.
    - apply fill_canon; [exact Ent'|apply I0'].
    - apply I1'.
    - intros x w. rewrite fill_leaves. rewrite (La1 x w), (La0 x w).
      assert (HL : In (x, w) (leaves T) <-> In (x, w) (leaves t) \/ exists q e, In (q, e) (hashes [] t) /\ In (x, w) (leaves (sub_at T q)))
        by (rewrite <- fill_leaves, HF; tauto).
      assert (Hoff : forall q e, In (q, e) (hashes [] t) -> In (x, w) (leaves (sub_at T q)) -> x <> k).
      { intros q e Hq Hin ->. apply (set_off_hashes D0 s0 t k v s0' I0 Set0 (q, e) Hq). cbn [fst].
        destruct (Ent _ Hq) as (_ & _ & _ & _ & Pq & _). cbn [fst] in Pq. exact (proj1 (leaves_prefix _ _ _ _ Pq Hin)). }
      split.
      + intros [[A|[A B]]|(q & e & A & B)].
        * left. exact A.
        * right. split; [exact A|]. apply HL. auto.
        * right. apply Ha0 in A. split; [exact (Hoff q e A B)|]. apply HL. right. eauto.
      + intros [A|[A B]]; [auto|]. apply HL in B. destruct B as [B|(q & e & B & C)]; [auto|].
        right. exists q, e. split; [apply Ha0; exact B|exact C].
    - intros x h0. replace (hashes [] (fill T [] t')) with (@nil (list bool * (bool * quad))).
      + replace (hashes [] T') with (@nil (list bool * (bool * quad))); [tauto|]. symmetry. apply plain_hashes. exact HpT'.
      + symmetry. apply plain_hashes. apply fill_plain. exact Ent'. }
  exists t', T'. repeat split; try assumption; try apply La1; try apply Ha0; try apply I0'; try apply I1'.
  rewrite <- HT'. apply (fill_hides T t' [] Ent').
Qed.

(** ** From equal roots to a hidden tree *)

Fixpoint reflag (t T : tree) : tree :=
  match t, T with
  | H _ h, _ => H (negb (isL T)) h
  | I l r, I l' r' => I (reflag l l') (reflag r r')
  | _, _ => t
  end.

Lemma same_root_hides : forall t T D D0 D1 ns ns1 p, separates pos D -> incl D0 D -> incl D1 D ->
  incl ns D0 -> incl ns1 D1 ->
  stored D0 ns (length p) t -> stored D1 ns1 (length p) T -> placed p t -> placed p T -> plain T ->
  thash (length p) t = thash (length p) T -> hides (length p) (reflag t T) T.
Proof.
  induction t as [|k v|l IHl r IHr|big h]; intros T D D0 D1 ns ns1 p HD I0 I1 N0 N1 S0 S1 P0 P1 HpT Heq.
  - assert (HT : T = E).
    { apply (thash_zero pos T D1 ns1 (length p)); auto.
      split; [intros; apply (proj1 HD); auto|intros n Hn; apply (proj2 HD); auto]. }
    subst T. exact Logic.I.
  - destruct T as [|k' v'|l' r'|big' h']; [| | |destruct HpT].
    + exfalso. apply (proj2 HD (lnode pos k (length p) v)); [apply I0, N0, (proj1 S0)|exact Heq].
    + cbn [SmtProofs.thash] in Heq. apply (proj1 HD) in Heq; [|apply I0, N0, (proj1 S0)|apply I1, N1, (proj1 S1)].
      unfold lnode, leaf_node in Heq. injection Heq as E1 E2 E3 E4 Ev.
      destruct P0 as ([q Q] & L1 & V1 & W1), P1 as ([q' Q'] & L2 & V2 & W2).
      cbn [reflag hides]. split.
      * apply (rem_inj k k' (length p)); auto.
        -- rewrite Q, Q', !firstn_app, !firstn_all, Nat.sub_diag. reflexivity.
        -- apply quad_ext. intros [|[|[|[|j]]]] Hj; try lia; assumption.
      * apply (proj1 HD) in Ev; [|apply I0, N0, (proj2 S0)|apply I1, N1, (proj2 S1)].
        apply value_node_inj; [apply W1|apply W2|exact Ev].
    + exfalso. cbn [SmtProofs.thash] in Heq. apply (proj1 HD) in Heq; [discriminate|apply I0, N0, (proj1 S0)|apply I1, N1, (proj1 S1)].
  - destruct T as [|k' v'|l' r'|big' h']; [| | |destruct HpT].
    + exfalso. apply (proj2 HD (inode pos (length p) l r)); [apply I0, N0, (proj1 S0)|exact Heq].
    + exfalso. cbn [SmtProofs.thash] in Heq. apply (proj1 HD) in Heq; [discriminate|apply I0, N0, (proj1 S0)|apply I1, N1, (proj1 S1)].
    + cbn [SmtProofs.thash] in Heq. apply (proj1 HD) in Heq; [|apply I0, N0, (proj1 S0)|apply I1, N1, (proj1 S1)].
      unfold node0 in Heq. injection Heq as El Er.
      destruct S0 as (_ & S0l & S0r), S1 as (_ & S1l & S1r), P0 as (_ & P0l & P0r), P1 as (_ & P1l & P1r).
      destruct HpT as [Tl Tr].
      assert (Hf : S (length p) = length (p ++ [false])) by (rewrite app_length; cbn; lia).
      assert (Ht : S (length p) = length (p ++ [true])) by (rewrite app_length; cbn; lia).
      cbn [reflag hides]. split.
      * rewrite Hf in S0l, S1l, El |- *. exact (IHl l' D D0 D1 ns ns1 _ HD I0 I1 N0 N1 S0l S1l P0l P1l Tl El).
      * rewrite Ht in S0r, S1r, Er |- *. exact (IHr r' D D0 D1 ns ns1 _ HD I0 I1 N0 N1 S0r S1r P0r P1r Tr Er).
  - cbn [SmtProofs.thash] in Heq.
    assert (HT : T <> E). { intros ->. apply (proj1 S0). exact Heq. }
    destruct T; cbn [reflag hides isL negb]; auto.
Qed.

Lemma reflag_hash : forall t T d, thash d (reflag t T) = thash d t.
Proof.
  induction t as [|k v|l IHl r IHr|big h]; intros T d; destruct T; cbn [reflag SmtProofs.thash]; try reflexivity.
  rewrite IHl, IHr. reflexivity.
Qed.

Lemma reflag_stored : forall t T D ns d, stored D ns d t -> stored D ns d (reflag t T).
Proof.
  induction t as [|k v|l IHl r IHr|big h]; intros T D ns d Hs; destruct T; cbn [reflag SmtProofs.stored] in *; auto.
  unfold inode in *. rewrite !reflag_hash. destruct Hs as (A & B & C). auto.
Qed.

Lemma reflag_placed : forall t T p, placed p t -> placed p (reflag t T).
Proof.
  induction t as [|k v|l IHl r IHr|big h]; intros T p Hs; destruct T; cbn [reflag placed] in *; auto.
  destruct Hs as (A & B & C). auto.
Qed.

Lemma reflag_leaves : forall t T, leaves (reflag t T) = leaves t.
Proof.
  induction t as [|k v|l IHl r IHr|big h]; intros T; destruct T; cbn [reflag leaves]; try reflexivity.
  rewrite IHl, IHr. reflexivity.
Qed.

Lemma hides_canon : forall t T d, hides d t T -> canon T -> canon t.
Proof.
  assert (HE : forall t T d, hides d t T -> t = E -> T = E).
  { intros t T d Hh ->. destruct T; cbn in Hh; try contradiction. reflexivity. }
  assert (HS : forall t T d, hides d t T -> small t = true -> isL T = true).
  { intros [|k v|l r|big h] T d Hh Hs; cbn [small] in Hs; try discriminate.
    - destruct T; cbn in Hh; try contradiction. reflexivity.
    - assert (G : big = negb (isL T)) by (destruct T; apply Hh). subst big. destruct (isL T); [reflexivity|discriminate]. }
  induction t as [|k v|l IHl r IHr|big h]; intros T d Hh Hc; cbn [canon]; auto.
  destruct T as [| |l' r'|]; cbn [hides] in Hh; try contradiction. destruct Hh as [A B].
  destruct Hc as ((O1 & O2 & O3) & C1 & C2). split; [|split; eauto].
  assert (S' : forall t, isL t = true -> small t = true) by (intros []; cbn; congruence).
  unfold okI. repeat split; intros [X Y].
  - apply O1. split; eauto.
  - apply O2. split; [eauto|]. apply S'. eauto.
  - apply O3. split; [|eauto]. apply S'. eauto.
Qed.

Lemma hides_leaves : forall t T d x, hides d t T -> In x (leaves t) -> In x (leaves T).
Proof.
  induction t as [|k v|l IHl r IHr|big h]; intros T d x Hh Hx; cbn [leaves] in Hx; try contradiction.
  - destruct T; cbn [hides] in Hh; try contradiction. destruct Hh as [-> ->]. exact Hx.
  - destruct T as [| |l' r'|]; cbn [hides] in Hh; try contradiction. destruct Hh as [A B]. cbn [leaves].
    apply in_app_iff in Hx. apply in_app_iff. destruct Hx; [left|right]; eauto.
Qed.

(** Where the partial tree has a leaf or nothing on the path of [k], the full tree has the same. *)
Lemma hides_plug : forall c u T d, hides d (plug c u) T -> end_tree u ->
  exists C, T = plug C u /\ cbits C = cbits c.
Proof.
  induction c as [|[b s] c IH] using rev_ind; intros u T d Hh Hu.
  - cbn [plug] in Hh. exists []. split; [|reflexivity]. cbn [plug].
    destruct Hu as [-> | Hu]; [destruct T; cbn in Hh; try contradiction; reflexivity|].
    destruct u; try discriminate. destruct T; cbn in Hh; try contradiction. destruct Hh as [-> ->]. reflexivity.
  - rewrite plug_app in Hh. cbn [plug] in Hh.
    destruct b; cbn [plug1] in Hh.
    + destruct T as [| |l' r'|]; cbn [hides] in Hh; try contradiction. destruct Hh as [A B].
      destruct (IH u r' (S d) B Hu) as (C & -> & HC). exists (C ++ [(true, l')]).
      rewrite plug_app, !cbits_app, HC. split; reflexivity.
    + destruct T as [| |l' r'|]; cbn [hides] in Hh; try contradiction. destruct Hh as [A B].
      destruct (IH u l' (S d) A Hu) as (C & -> & HC). exists (C ++ [(false, r')]).
      rewrite plug_app, !cbits_app, HC. split; reflexivity.
Qed.

Lemma hides_get : forall D0 D1 s0 s1 t T k v, inv D0 s0 t -> inv D1 s1 T -> hides 0 t T -> qvalid k ->
  get s0 k = Some v -> kv_default (kv_store s1) k = v.
Proof.
  intros D0 D1 s0 s1 t T k v I0 I1 Hh Hk Hget.
  destruct I0 as [Hd Hst Hroot Hpl Hcan Hkv].
  unfold get in Hget. rewrite Hroot in Hget.
  destruct (descend (db s0) (thash 0 t) (split k) []) as [[p f]|] eqn:Hdesc; [|discriminate].
  change ([] : list (bool * node)) with (path_of [] t) in Hdesc. change 0 with (length ([] : ctx)) in Hdesc.
  destruct (descend_spec pos t D0 (db s0) [] (split k) p f Hd Hst Hdesc)
    as (c & u & pre & rest & Hsk & Hcb & Hpg & -> & Hend & ->). clear Hdesc.
  cbn [cbits map rev app] in Hcb. cbn [plug] in Hpg. subst pre t.
  destruct (hides_plug c u T 0 Hh Hend) as (C & HT & HC).
  destruct Hend as [-> | HL]; [discriminate|]. destruct u as [|k' v'| |]; try discriminate.
  cbn [found_of] in Hget. rewrite path_of_bits in Hget.
  pose proof (proj1 (placed_plug c _) Hpl) as [Hpl1 Hpl2]. destruct Hpl1 as ([q' Hq'] & Hle & Hkv' & Hvv').
  assert (J : join (cbits c) (rem k' (length c)) = Some k').
  { rewrite <- (cbits_length c). apply (join_rem_prefix k' _ q' Hkv' Hq' Hle). }
  rewrite J in Hget. clear J.
  change (n0 (value_node v')) with (fst (f2limbs v')) in Hget. change (n1 (value_node v')) with (snd (f2limbs v')) in Hget.
  rewrite limbs_roundtrip in Hget by apply Hvv'.
  assert (InT : In (k', v') (leaves T)) by (rewrite HT; apply leaves_plug; left; left; reflexivity).
  unfold kv_default.
  destruct (quad_eqb k' k) eqn:Q.
  - apply quad_eqb_eq in Q. subst k'. destruct (v' =? _)%N; [|discriminate]. inversion Hget; subst.
    apply (inv_kv _ _ _ _ I1) in InT. rewrite InT. reflexivity.
  - apply quad_eqb_neq in Q. destruct (kv_default (kv_store s0) k =? 0)%N; [|discriminate]. inversion Hget; subst v.
    destruct (kv_get (kv_store s1) k) as [w|] eqn:Hw; [|reflexivity]. exfalso.
    apply (inv_kv _ _ _ _ I1) in Hw. rewrite HT in Hw. apply leaves_plug in Hw.
    destruct Hw as [[Hw|[]]|Hw]; [congruence|].
    pose proof (inv_placed _ _ _ _ I1) as PT. rewrite HT in PT. apply placed_plug in PT. destruct PT as [_ PT].
    apply (ctx_leaves_off_path C k w rest PT); [rewrite HC; exact Hsk|exact Hw].
Qed.

(** ** Histories *)

Lemma set_hash_grows : forall s k h s', set_hash pos s k h = Some s' -> incl (nodes (db s)) (nodes (db s')).
Proof.
  assert (Rb : forall up d n d' h, rebuild pos d n up = (d', h) -> incl (nodes d) (nodes d')).
  { induction up as [|[b m] up IH]; intros d n d' h Hr; cbn [rebuild store] in Hr.
    - inversion Hr; subst. intros x Hx. right. exact Hx.
    - apply IH in Hr. intros x Hx. apply Hr. right. exact Hx. }
  intros s k h s' Hs. unfold set_hash in Hs. destruct (descend_hash (db s) (root s) k []) as [[p r]|]; [|discriminate].
  destruct (is_zero r); [|discriminate]. destruct (put pos (db s) p h) as [d' h'] eqn:Hp. inversion Hs; subst. cbn [db].
  destruct p as [|[b m] up]; cbn [put] in Hp; [inversion Hp; subst; intros x Hx; exact Hx|eapply Rb; exact Hp].
Qed.

Lemma run_grows : forall calls s s', smt_run pos s calls = Some s' -> incl (nodes (db s)) (nodes (db s')).
Proof.
  induction calls as [|c calls IH] using rev_ind; intros s s' Hr.
  - inversion Hr; subst. intros x Hx; exact Hx.
  - rewrite smt_run_snoc in Hr. destruct (smt_run pos s calls) as [s1|] eqn:H1; [|discriminate].
    intros x Hx. apply (set_grows pos _ _ _ _ Hr), (IH _ _ H1), Hx.
Qed.

Lemma smt_run_app : forall a b s s1, smt_run pos s a = Some s1 -> smt_run pos s (a ++ b) = smt_run pos s1 b.
Proof. intros a b s s1 Ha. unfold smt_run in *. rewrite fold_left_app. f_equal. exact Ha. Qed.

Lemma hash_run_snoc : forall hs s c, hash_run pos s (hs ++ [c]) =
  match hash_run pos s hs with Some s' => set_hash pos s' (fst c) (snd c) | None => None end.
Proof. intros. unfold hash_run. rewrite fold_left_app. reflexivity. Qed.

Lemma positions_snoc : forall hs p h, hash_positions_ok (hs ++ [(p, h)]) ->
  hash_positions_ok hs /\ forall p' h', In (p', h') hs -> is_prefix_of p' p = false.
Proof.
  induction hs as [|[q e] hs IH]; intros p h Hok; cbn [app hash_positions_ok] in *.
  - split; [exact Logic.I|intros p' h' []].
  - destruct Hok as [A B]. destruct (IH p h B) as [C D]. split.
    + split; [|exact C]. intros p' h' Hin. apply (A p' h'). apply in_app_iff. auto.
    + intros p' h' [Hin|Hin]; [inversion Hin; subst; apply (A p h); apply in_app_iff; right; left; reflexivity|eauto].
Qed.

Lemma hash_run_inv : forall D hs s, separates pos D -> hash_positions_ok hs ->
  (forall p h, In (p, h) hs -> length p <= 256 /\ h <> zero /\ forall n, In n D -> pos n <> h) ->
  hash_run pos smt_default hs = Some s -> incl (nodes (db s)) D ->
  exists t, inv D s t /\ leaves t = [] /\ (forall x, In x (hashes [] t) <-> exists p h, x = (p, (true, h)) /\ In (p, h) hs).
Proof.
  intros D hs. induction hs as [|[p h] hs IH] using rev_ind; intros s HD Hok Hhs Hrun Hi.
  - inversion Hrun; subst. exists E. split; [apply inv_default, HD|]. split; [reflexivity|].
    intros x. split; [intros []|]. intros (p & h & _ & []).
  - rewrite hash_run_snoc in Hrun. destruct (hash_run pos smt_default hs) as [s0|] eqn:H0; [|discriminate].
    cbn [fst snd] in Hrun. destruct (positions_snoc hs p h Hok) as [Hok0 Hnp].
    destruct (IH s0 HD Hok0) as (t & It & Lt & Ht); auto.
    { intros p' h' Hin. apply Hhs. apply in_app_iff. auto. }
    { intros x Hx. apply Hi, (set_hash_grows _ _ _ _ Hrun), Hx. }
    destruct (Hhs p h) as (L1 & L2 & L3); [apply in_app_iff; right; left; reflexivity|].
    destruct (set_hash_spec D s0 t p h s It Hrun Hi L1 L2 L3) as (t' & It' & Lt' & Ht').
    { intros x Hx. apply Ht in Hx. destruct Hx as (p' & h' & -> & Hin). cbn [fst]. exact (Hnp p' h' Hin). }
    exists t'. split; [exact It'|]. split.
    + apply (in_nil_iff _ _ _ Lt'). exact Lt.
    + intros x. rewrite Ht', Ht. split.
      * intros [->|(p' & h' & -> & Hin)]; [exists p, h|exists p', h']; (split; [reflexivity|]); apply in_app_iff; [right; left; reflexivity|auto].
      * intros (p' & h' & -> & Hin). apply in_app_iff in Hin. destruct Hin as [Hin|[Hin|[]]]; [right; eauto|].
        inversion Hin; subst. auto.
Qed.

(** Sets on a partial tree. *)
Lemma run_inv_from : forall D calls s0 t0 s, Forall valid_call calls -> inv D s0 t0 ->
  smt_run pos s0 calls = Some s -> incl (nodes (db s)) D ->
  exists t, inv D s t /\ (forall x, In x (hashes [] t) <-> In x (hashes [] t0)).
Proof.
  intros D calls. induction calls as [|c calls IH] using rev_ind; intros s0 t0 s Hv I0 Hrun Hi.
  - inversion Hrun; subst. exists t0. split; [exact I0|tauto].
  - rewrite smt_run_snoc in Hrun. destruct (smt_run pos s0 calls) as [s1|] eqn:H1; [|discriminate].
    apply Forall_app in Hv. destruct Hv as [Hv Hc]. inversion Hc as [|x y Hc' _]; subst.
    apply valid_call_q in Hc'. destruct Hc' as [Hk Hval].
    destruct (IH s0 t0 s1 Hv I0 H1) as (t & It & Ht).
    { intros x Hx. apply Hi, (set_grows pos _ _ _ _ Hrun), Hx. }
    destruct (set_spec pos D s1 t (fst c) (snd c) s It Hk Hval Hrun Hi) as (t' & It' & _ & Ha & _).
    exists t'. split; [exact It'|]. intros x. rewrite Ha. apply Ht.
Qed.

(** Running the same calls on a partial tree and the tree it hides. *)
Lemma hides_run : forall D0 D1 calls s0 s1 t T s0' s1', Forall valid_call calls -> inv D0 s0 t -> inv D1 s1 T -> plain T ->
  hides 0 t T -> smt_run pos s0 calls = Some s0' -> smt_run pos s1 calls = Some s1' ->
  incl (nodes (db s0')) D0 -> incl (nodes (db s1')) D1 ->
  exists t' T', inv D0 s0' t' /\ inv D1 s1' T' /\ plain T' /\ hides 0 t' T'.
Proof.
  intros D0 D1 calls. induction calls as [|c calls IH] using rev_ind; intros s0 s1 t T s0' s1' Hv I0 I1 HpT Hh R0 R1 Inc0 Inc1.
  - inversion R0; inversion R1; subst. exists t, T. auto.
  - rewrite smt_run_snoc in R0, R1.
    destruct (smt_run pos s0 calls) as [s0m|] eqn:M0; [|discriminate].
    destruct (smt_run pos s1 calls) as [s1m|] eqn:M1; [|discriminate].
    apply Forall_app in Hv. destruct Hv as [Hv Hc]. inversion Hc as [|x y Hc' _]; subst.
    apply valid_call_q in Hc'. destruct Hc' as [Hk Hval].
    destruct (IH s0 s1 t T s0m s1m Hv I0 I1 HpT Hh M0 M1) as (tm & Tm & Im0 & Im1 & Pm & Hm).
    { intros x Hx. apply Inc0, (set_grows pos _ _ _ _ R0), Hx. }
    { intros x Hx. apply Inc1, (set_grows pos _ _ _ _ R1), Hx. }
    destruct (hides_set D0 D1 s0m s1m tm Tm (fst c) (snd c) s0' s1' Im0 Im1 Pm Hm Hk Hval R0 R1 Inc0 Inc1)
      as (t' & T' & A & B & C & F & _).
    exists t', T'. auto.
Qed.

Lemma separates_incl : forall D D', separates pos D -> incl D' D -> separates pos D'.
Proof. intros D D' [A B] Hi. split; auto. Qed.

(** The main statement, on two logs [D0] (partial) and [D1] (full). *)
Lemma partial_faithful : forall hs calls0 calls1 calls sh s0 s1 s0' s1',
  Forall valid_call calls0 -> Forall valid_call calls1 -> Forall valid_call calls ->
  hash_positions_ok hs ->
  hash_run pos smt_default hs = Some sh -> smt_run pos sh calls0 = Some s0 ->
  smt_run pos smt_default calls1 = Some s1 ->
  root s0 = root s1 ->
  smt_run pos s0 calls = Some s0' -> smt_run pos s1 calls = Some s1' ->
  separates pos (hashed s0' ++ hashed s1') ->
  (forall p h, In (p, h) hs -> length p <= 256 /\ h <> zero /\ forall n, In n (hashed s0') -> pos n <> h) ->
  root s0' = root s1' /\
  (forall k v, qvalid k -> get s0' k = Some v -> contents (calls1 ++ calls) k = v).
Proof.
  intros hs calls0 calls1 calls sh s0 s1 s0' s1' V0 V1 V Hok Rh R0 R1 Hroot R0' R1' HD Hhs.
  unfold hashed in *. set (D0 := nodes (db s0')) in *. set (D1 := nodes (db s1')) in *.
  assert (HD0 : separates pos D0) by (apply (separates_incl _ _ HD); intros x Hx; apply in_app_iff; auto).
  assert (HD1 : separates pos D1) by (apply (separates_incl _ _ HD); intros x Hx; apply in_app_iff; auto).
  assert (G0 : incl (nodes (db s0)) D0) by exact (run_grows _ _ _ R0').
  assert (G1 : incl (nodes (db s1)) D1) by exact (run_grows _ _ _ R1').
  assert (Gh : incl (nodes (db sh)) D0) by (intros x Hx; apply G0, (run_grows _ _ _ R0), Hx).
  destruct (hash_run_inv D0 hs sh HD0 Hok Hhs Rh Gh) as (th & Ih & _ & _).
  destruct (run_inv_from D0 calls0 sh th s0 V0 Ih R0 G0) as (t & It & _).
  destruct (run_inv pos D1 calls1 s1 HD1 V1 R1 G1) as (T & IT & PT & HT).
  assert (Hh : hides 0 (reflag t T) T).
  { apply (same_root_hides t T (D0 ++ D1) D0 D1 (nodes (db s0)) (nodes (db s1)) [] HD).
    - intros x Hx. apply in_app_iff. auto.
    - intros x Hx. apply in_app_iff. auto.
    - exact G0.
    - exact G1.
    - apply It.
    - apply IT.
    - apply It.
    - apply IT.
    - exact PT.
    - cbn [length]. rewrite <- (inv_root _ _ _ _ It), <- (inv_root _ _ _ _ IT). exact Hroot. }
  assert (It' : inv D0 s0 (reflag t T)).
  { destruct It as [X1 X2 X3 X4 X5 X6]. constructor.
    - exact X1.
    - apply reflag_stored. exact X2.
    - rewrite reflag_hash. exact X3.
    - apply reflag_placed. exact X4.
    - apply (hides_canon _ T 0 Hh). apply IT.
    - intros k v. rewrite reflag_leaves. apply X6. }
  destruct (hides_run D0 D1 calls s0 s1 (reflag t T) T s0' s1' V It' IT PT Hh R0' R1' ltac:(intros x Hx; exact Hx) ltac:(intros x Hx; exact Hx))
    as (t' & T' & J0 & J1 & PT' & Hh').
  split.
  - rewrite (inv_root _ _ _ _ J0), (inv_root _ _ _ _ J1). apply hides_hash. exact Hh'.
  - intros k v Hk Hget. rewrite <- (hides_get D0 D1 s0' s1' t' T' k v J0 J1 Hh' Hk Hget).
    assert (R : smt_run pos smt_default (calls1 ++ calls) = Some s1').
    { rewrite (smt_run_app calls1 calls _ s1 R1). exact R1'. }
    destruct (run_inv pos D1 (calls1 ++ calls) s1' HD1 ltac:(apply Forall_app; auto) R ltac:(intros x Hx; exact Hx)) as (T2 & I2 & _ & H2).
    unfold kv_default. destruct (kv_get (kv_store s1') k) as [w|] eqn:Hw.
    + apply (inv_kv _ _ _ _ I2), H2 in Hw. tauto.
    + destruct (N.eq_dec (contents (calls1 ++ calls) k) 0) as [Z|Z]; [exact Z|exfalso].
      assert (In (k, contents (calls1 ++ calls) k) (leaves T2)) by (apply H2; auto).
      apply (inv_kv _ _ _ _ I2) in H. congruence.
Qed.

End Poseidon.
