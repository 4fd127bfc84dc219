(** The sparse Merkle tree refines an abstract binary tree. *)

From Coq Require Import List Arith NArith ZArith Lia Bool ZifyN ZifyNat ZifyBool.
From Verif.Smt Require Import SmtModel SmtSpec KeyProofs.
Import ListNotations.
Local Open Scope nat_scope.

(** ** Abstract trees *)

(** [H big h] is a hash node; the flag [big] plays no role in the code, it records
    whether the hidden subtree may be a single leaf ([false]) or not ([true]). *)
Inductive tree := E | L (k : quad) (v : N) | I (l r : tree) | H (big : bool) (h : quad).

Section Poseidon.
Variable pos : node -> quad.

Definition vhash (v : N) : quad := pos (value_node v).
Definition lnode (k : quad) (d : nat) (v : N) : node := leaf_node (rem k d) (vhash v).

(** The hash of a subtree at depth [d]. *)
Fixpoint thash (d : nat) (t : tree) : quad :=
  match t with
  | E => zero
  | L k v => pos (lnode k d v)
  | I l r => pos (node0 (thash (S d) l) (thash (S d) r))
  | H _ h => h
  end.

Definition inode (d : nat) (l r : tree) : node := node0 (thash (S d) l) (thash (S d) r).

(** The nodes of the tree are among [ns]; [D] is the final log. *)
Fixpoint stored (D ns : list node) (d : nat) (t : tree) : Prop :=
  match t with
  | E => True
  | L k v => In (lnode k d v) ns /\ In (value_node v) ns
  | I l r => In (inode d l r) ns /\ stored D ns (S d) l /\ stored D ns (S d) r
  | H _ h => h <> zero /\ forall n, In n D -> pos n <> h
  end.

Definition vvalid (v : N) : Prop := (v <> 0 /\ v < 2 ^ 256)%N.

(** Leaves sit on the path of their key. *)
Fixpoint placed (p : list bool) (t : tree) : Prop :=
  match t with
  | E => True
  | L k v => (exists q, split k = p ++ q) /\ length p <= 252 /\ qvalid k /\ vvalid v
  | I l r => length p < 256 /\ placed (p ++ [false]) l /\ placed (p ++ [true]) r
  | H _ _ => True
  end.

Definition isE (t : tree) : bool := match t with E => true | _ => false end.
Definition isL (t : tree) : bool := match t with L _ _ => true | _ => false end.
(** A subtree that may be a single leaf. *)
Definition small (t : tree) : bool := match t with L _ _ => true | H big _ => negb big | _ => false end.
Definition okI (l r : tree) : Prop :=
  ~ (l = E /\ r = E) /\ ~ (l = E /\ small r = true) /\ ~ (small l = true /\ r = E).
Fixpoint canon (t : tree) : Prop :=
  match t with
  | I l r => okI l r /\ canon l /\ canon r
  | _ => True
  end.

Fixpoint leaves (t : tree) : list (quad * N) :=
  match t with
  | L k v => [(k, v)]
  | I l r => leaves l ++ leaves r
  | _ => []
  end.

(** Positions and values of the hash nodes. *)
Fixpoint hashes (p : list bool) (t : tree) : list (list bool * (bool * quad)) :=
  match t with
  | H big h => [(p, (big, h))]
  | I l r => hashes (p ++ [false]) l ++ hashes (p ++ [true]) r
  | _ => []
  end.

(** ** Contexts, innermost entry first *)

Definition ctx := list (bool * tree).
Definition plug1 (b : bool) (s t : tree) : tree := if b then I s t else I t s.
Fixpoint plug (c : ctx) (t : tree) : tree :=
  match c with
  | [] => t
  | (b, s) :: c' => plug c' (plug1 b s t)
  end.
Definition node_of (d : nat) (b : bool) (s t : tree) : node := if b then inode d s t else inode d t s.
Fixpoint path_of (c : ctx) (t : tree) : list (bool * node) :=
  match c with
  | [] => []
  | (b, s) :: c' => (b, node_of (length c') b s t) :: path_of c' (plug1 b s t)
  end.
Definition cbits (c : ctx) : list bool := rev (map fst c).

Lemma cbits_length : forall c, length (cbits c) = length c.
Proof. intros c. unfold cbits. rewrite rev_length, map_length. reflexivity. Qed.

Lemma cbits_cons : forall b s c, cbits ((b, s) :: c) = cbits c ++ [b].
Proof. reflexivity. Qed.

Lemma path_of_length : forall c t, length (path_of c t) = length c.
Proof. induction c as [|[b s] c IH]; intros t; cbn [path_of length]; [reflexivity|]. rewrite IH. reflexivity. Qed.

Lemma path_of_bits : forall c t, path_bits (path_of c t) = cbits c.
Proof.
  unfold path_bits, cbits. intros c t. f_equal. revert t.
  induction c as [|[b s] c IH]; intros t; cbn [path_of map fst]; [reflexivity|]. rewrite IH. reflexivity.
Qed.

Lemma thash_plug1 : forall d b s t, thash d (plug1 b s t) = pos (node_of d b s t).
Proof. intros d [|] s t; reflexivity. Qed.

(** ** The database *)

Definition log_ok (d : database) : Prop := Forall (fun e => fst e = pos (snd e)) d.
Notation nodes d := (map snd d).

Lemma get_in : forall d D n, log_ok d -> separates pos D -> incl (nodes d) D -> In n (nodes d) ->
  get_node d (pos n) = Some n.
Proof.
  induction d as [|[h m] d IH]; intros D n Hl Hs Hi Hn; [destruct Hn|].
  inversion Hl as [|x y Hh Hl']; subst. cbn [fst snd] in Hh. cbn [get_node].
  destruct (quad_eqb h (pos n)) eqn:Eq.
  - apply quad_eqb_eq in Eq. f_equal. apply (proj1 Hs); [apply Hi; left; reflexivity|apply Hi; exact Hn|congruence].
  - apply quad_eqb_neq in Eq. destruct Hn as [Hn|Hn]; [cbn [snd] in Hn; congruence|].
    apply (IH D); auto. intros x Hx. apply Hi. right. exact Hx.
Qed.

Lemma get_none : forall d D h, log_ok d -> incl (nodes d) D -> (forall n, In n D -> pos n <> h) -> get_node d h = None.
Proof.
  induction d as [|[h' m] d IH]; intros D h Hl Hi Hn; [reflexivity|].
  inversion Hl as [|x y Hh Hl']; subst. cbn [fst snd] in Hh. cbn [get_node].
  replace (quad_eqb h' h) with false.
  - apply (IH D); auto. intros x Hx. apply Hi. right. exact Hx.
  - symmetry. apply quad_eqb_neq. intros ->. apply (Hn m); [apply Hi; left; reflexivity|congruence].
Qed.

Lemma stored_mono : forall t D ns ns' d, incl ns ns' -> stored D ns d t -> stored D ns' d t.
Proof.
  induction t as [|k v|l IHl r IHr|big h]; intros D ns ns' d Hi H; cbn [stored] in *; auto.
  - destruct H. split; apply Hi; assumption.
  - destruct H as (H1 & H2 & H3). repeat split; [apply Hi; exact H1|eauto|eauto].
Qed.

Lemma thash_zero : forall t D ns d, separates pos D -> incl ns D -> stored D ns d t -> (thash d t = zero <-> t = E).
Proof.
  intros t D ns d Hs Hi H. split; [|intros ->; reflexivity].
  destruct t as [|k v|l r|big h]; cbn [thash stored] in *; intros Hz; [reflexivity|exfalso..].
  - apply (proj2 Hs (lnode k d v)); [apply Hi, (proj1 H)|exact Hz].
  - apply (proj2 Hs (inode d l r)); [apply Hi, (proj1 H)|exact Hz].
  - exact (proj1 H Hz).
Qed.

(** The final log [D] separates; [d] is the current database. *)
Definition db_ok (D : list node) (d : database) : Prop := log_ok d /\ separates pos D /\ incl (nodes d) D.

Lemma get_stored_leaf : forall D d k v n, db_ok D d -> stored D (nodes d) n (L k v) ->
  get_node d (thash n (L k v)) = Some (lnode k n v) /\ get_node d (vhash v) = Some (value_node v).
Proof. intros D d k v n (H1 & H2 & H3) [H4 H5]. split; apply (get_in d D); auto. Qed.

Lemma get_stored_inode : forall D d l r n, db_ok D d -> stored D (nodes d) n (I l r) ->
  get_node d (thash n (I l r)) = Some (inode n l r).
Proof. intros D d l r n (H1 & H2 & H3) [H4 H5]. apply (get_in d D); auto. Qed.

Lemma is_zero_thash : forall t D d n, db_ok D d -> stored D (nodes d) n t -> is_zero (thash n t) = isE t.
Proof.
  intros t D d n (H1 & H2 & H3) Hst. destruct (is_zero (thash n t)) eqn:Z.
  - apply is_zero_eq in Z. apply (thash_zero t D (nodes d) n) in Z; auto. subst. reflexivity.
  - apply is_zero_neq in Z. destruct t; try reflexivity. exfalso. apply Z. reflexivity.
Qed.

(** ** Placement and contents of contexts *)

Fixpoint pctx (c : ctx) : Prop :=
  match c with
  | [] => True
  | (b, s) :: c' => length c' < 256 /\ placed (cbits c' ++ [negb b]) s /\ pctx c'
  end.
Fixpoint sctx (D ns : list node) (c : ctx) : Prop :=
  match c with
  | [] => True
  | (b, s) :: c' => stored D ns (length c) s /\ sctx D ns c'
  end.
Fixpoint cleaves (c : ctx) : list (quad * N) :=
  match c with [] => [] | (_, s) :: c' => leaves s ++ cleaves c' end.
Fixpoint chashes (c : ctx) : list (list bool * (bool * quad)) :=
  match c with [] => [] | (b, s) :: c' => hashes (cbits c' ++ [negb b]) s ++ chashes c' end.
Fixpoint canctx (c : ctx) : Prop :=
  match c with [] => True | (_, s) :: c' => canon s /\ canctx c' end.

Lemma placed_plug : forall c t, placed [] (plug c t) <-> placed (cbits c) t /\ pctx c.
Proof.
  induction c as [|[b s] c IH]; intros t; cbn [plug pctx].
  - cbn. tauto.
  - rewrite IH, cbits_cons. destruct b; cbn [plug1 placed negb]; rewrite cbits_length; tauto.
Qed.

Lemma stored_plug : forall D ns c t, stored D ns 0 (plug c t) -> stored D ns (length c) t /\ sctx D ns c.
Proof.
  induction c as [|[b s] c IH]; intros t Hst; cbn [plug sctx] in *; [auto|].
  apply IH in Hst. destruct Hst as [Hst Hc]. destruct b; cbn [plug1 stored length] in *; tauto.
Qed.

Lemma leaves_plug : forall c t x, In x (leaves (plug c t)) <-> In x (leaves t) \/ In x (cleaves c).
Proof.
  induction c as [|[b s] c IH]; intros t x; cbn [plug cleaves]; [cbn; tauto|].
  rewrite IH, in_app_iff. destruct b; cbn [plug1 leaves]; rewrite in_app_iff; tauto.
Qed.

Lemma hashes_plug : forall c t x, In x (hashes [] (plug c t)) <-> In x (hashes (cbits c) t) \/ In x (chashes c).
Proof.
  induction c as [|[b s] c IH]; intros t x; cbn [plug chashes]; [cbn; tauto|].
  rewrite IH, in_app_iff, cbits_cons. destruct b; cbn [plug1 hashes negb]; rewrite in_app_iff; tauto.
Qed.

Lemma canon_plug1 : forall b s t, canon (plug1 b s t) <-> okI s t /\ canon s /\ canon t.
Proof. intros [|] s t; cbn [plug1 canon]; unfold okI; tauto. Qed.

Lemma canon_plug : forall c t, canon (plug c t) -> canon t /\ canctx c.
Proof.
  induction c as [|[b s] c IH]; intros t Hc; cbn [plug canctx] in *; [auto|].
  apply IH in Hc. destruct Hc as [Hc Hc']. apply canon_plug1 in Hc. tauto.
Qed.

(** The head of the context accepts [t]. *)
Definition fits (c : ctx) (t : tree) : Prop := match c with [] => True | (_, s) :: _ => okI s t end.

Lemma fits_inner : forall c t, isE t = false -> small t = false -> fits c t.
Proof.
  intros [|[b s] c] t H1 H2; cbn [fits]; [exact Logic.I|]. unfold okI.
  repeat split; intros [A B]; subst; cbn in *; congruence.
Qed.

Lemma canon_plug_fits : forall c t t', canon (plug c t) -> canon t' -> fits c t' -> canon (plug c t').
Proof.
  destruct c as [|[b s] c]; intros t t' Hp Ht Hf; cbn [plug fits] in *; [exact Ht|].
  assert (G : forall c u u', isE u = false -> small u = false -> canon u -> canon (plug c u') -> canon (plug c u)).
  { clear. induction c as [|[b s] c IH]; intros u u' H1 H2 Hu Hp; cbn [plug] in *; [exact Hu|].
    apply (IH _ (plug1 b s u')); [destruct b; reflexivity..| |exact Hp].
    apply canon_plug1. split; [apply (fits_inner [(b, s)] u H1 H2)|]. split; [|exact Hu].
    apply canon_plug in Hp. destruct Hp as [Hp _]. apply canon_plug1 in Hp. tauto. }
  apply (G c _ (plug1 b s t)); [destruct b; reflexivity..| |exact Hp].
  apply canon_plug1. apply canon_plug in Hp. destruct Hp as [Hp _]. apply canon_plug1 in Hp. tauto.
Qed.

Lemma fits_plug : forall c t, canon (plug c t) -> fits c t.
Proof.
  destruct c as [|[b s] c]; intros t Hp; cbn [plug fits] in *; [exact Logic.I|].
  apply canon_plug in Hp. destruct Hp as [Hp _]. apply canon_plug1 in Hp. tauto.
Qed.

(** Leaves below a position have the position as a prefix of their path. *)
Lemma leaves_prefix : forall t p k v, placed p t -> In (k, v) (leaves t) ->
  (exists q, split k = p ++ q) /\ qvalid k /\ vvalid v.
Proof.
  induction t as [|k' v'|l IHl r IHr|big h]; intros p k v Hp Hin; cbn [leaves placed] in *; try contradiction.
  - destruct Hin as [Hin|[]]. inversion Hin; subst. tauto.
  - apply in_app_iff in Hin. destruct Hp as (_ & Hl & Hr).
    destruct Hin as [Hin|Hin]; [apply (IHl _ _ _ Hl) in Hin|apply (IHr _ _ _ Hr) in Hin];
      destruct Hin as ([q Hq] & Hin); (split; [|exact Hin]); rewrite <- app_assoc in Hq; eexists; exact Hq.
Qed.

Lemma ctx_leaves_off_path : forall c k v q, pctx c -> split k = cbits c ++ q -> ~ In (k, v) (cleaves c).
Proof.
  induction c as [|[b s] c IH]; intros k v q Hp Hk Hin; cbn [pctx cleaves] in *; [exact Hin|].
  apply in_app_iff in Hin. destruct Hp as (_ & Hs & Hc). rewrite cbits_cons, <- app_assoc in Hk.
  destruct Hin as [Hin|Hin].
  - apply (leaves_prefix s _ k v Hs) in Hin. destruct Hin as ([q' Hq'] & _).
    rewrite Hk, <- app_assoc in Hq'. apply app_inv_head in Hq'. inversion Hq'. destruct b; discriminate.
  - exact (IH k v _ Hc Hk Hin).
Qed.

(** At most one value per key. *)
Lemma leaves_fun : forall t p k v v', placed p t -> In (k, v) (leaves t) -> In (k, v') (leaves t) -> v = v'.
Proof.
  induction t as [|k' w|l IHl r IHr|big h]; intros p k v v' Hp H1 H2; cbn [leaves placed] in *; try contradiction.
  - destruct H1 as [H1|[]], H2 as [H2|[]]. congruence.
  - destruct Hp as (_ & Hl & Hr). apply in_app_iff in H1, H2.
    assert (X : forall a a', In (k, a) (leaves l) -> In (k, a') (leaves r) -> False).
    { intros a a' Ha Ha'. apply (leaves_prefix _ _ _ _ Hl) in Ha. apply (leaves_prefix _ _ _ _ Hr) in Ha'.
      destruct Ha as ([q Hq] & _), Ha' as ([q' Hq'] & _). rewrite Hq, <- !app_assoc in Hq'.
      apply app_inv_head in Hq'. discriminate. }
    destruct H1 as [H1|H1], H2 as [H2|H2]; [eauto|exfalso; eauto|exfalso; eauto|eauto].
Qed.

(** ** The descent *)

Definition found_of (c : ctx) (t : tree) : option (quad * quad * node) :=
  match t with
  | L k v => Some (rem k (length c), vhash v, value_node v)
  | _ => None
  end.

Lemma descend_eq : forall d r keys path, descend d r keys path =
  if is_zero r then Some (path, None)
  else match get_node d r with
       | None => None
       | Some sibling =>
           if is_one_siblings sibling then
             match get_node d (n1 sibling) with
             | None => None
             | Some val => Some (path, Some (n0 sibling, n1 sibling, val))
             end
           else
             match keys with
             | [] => None
             | b :: keys' => descend d (slot sibling b) keys' ((b, sibling) :: path)
             end
       end.
Proof. intros d r [|b keys] path; reflexivity. Qed.

Definition end_tree (t : tree) : Prop := t = E \/ isL t = true.

Lemma descend_spec : forall t D d c keys p f, db_ok D d -> stored D (nodes d) (length c) t ->
  descend d (thash (length c) t) keys (path_of c t) = Some (p, f) ->
  exists c' u pre rest, keys = pre ++ rest /\ cbits c' = cbits c ++ pre /\ plug c' u = plug c t /\
    p = path_of c' u /\ end_tree u /\ f = found_of c' u.
Proof.
  induction t as [|k v|l IHl r IHr|big h]; intros D d c keys p f Hd Hst Hdesc; rewrite descend_eq in Hdesc.
  - cbn [thash] in Hdesc. change (is_zero zero) with true in Hdesc. cbv iota in Hdesc. inversion Hdesc; subst.
    exists c, E, [], keys. rewrite app_nil_r. repeat split; auto. left. reflexivity.
  - rewrite (is_zero_thash _ D d) in Hdesc by assumption. cbn [isE] in Hdesc. cbv iota in Hdesc.
    destruct (get_stored_leaf D d k v _ Hd Hst) as [G1 G2]. rewrite G1 in Hdesc.
    change (is_one_siblings (lnode k (length c) v)) with true in Hdesc. cbv iota in Hdesc.
    change (n1 (lnode k (length c) v)) with (vhash v) in Hdesc. rewrite G2 in Hdesc. inversion Hdesc; subst.
    exists c, (L k v), [], keys. rewrite app_nil_r. repeat split; auto. right. reflexivity.
  - rewrite (is_zero_thash _ D d) in Hdesc by assumption. cbn [isE] in Hdesc. cbv iota in Hdesc.
    rewrite (get_stored_inode D d l r _ Hd Hst) in Hdesc.
    change (is_one_siblings (inode (length c) l r)) with false in Hdesc. cbv iota in Hdesc.
    destruct keys as [|b keys]; [discriminate|].
    destruct Hst as (_ & Hl & Hr).
    assert (G : exists s u, plug1 b s u = I l r /\ node_of (length c) b s u = inode (length c) l r /\
        slot (inode (length c) l r) b = thash (S (length c)) u /\ stored D (nodes d) (S (length c)) u /\
        (u = l \/ u = r)).
    { destruct b; [exists l, r|exists r, l]; repeat split; auto. }
    destruct G as (s & u & G1 & G2 & G3 & G4 & G5). rewrite G3 in Hdesc.
    assert (IH : exists c' u' pre rest, keys = pre ++ rest /\ cbits c' = cbits ((b, s) :: c) ++ pre /\
        plug c' u' = plug ((b, s) :: c) u /\ p = path_of c' u' /\ end_tree u' /\ f = found_of c' u').
    { assert (P : (b, inode (length c) l r) :: path_of c (I l r) = path_of ((b, s) :: c) u).
      { cbn [path_of]. rewrite G1, G2. reflexivity. }
      rewrite P in Hdesc.
      destruct G5 as [-> | ->]; [apply (IHl D d ((b, s) :: c))|apply (IHr D d ((b, s) :: c))]; assumption. }
    destruct IH as (c' & u' & pre & rest & I1 & I2 & I3 & I4 & I5 & I6).
    exists c', u', (b :: pre), rest. subst keys. rewrite I2, cbits_cons, <- app_assoc. cbn [plug] in I3. rewrite G1 in I3.
    repeat split; auto.
  - rewrite (is_zero_thash _ D d) in Hdesc by assumption. cbn [isE] in Hdesc. cbv iota in Hdesc.
    cbn [thash] in Hdesc. destruct Hd as (Hd1 & Hd2 & Hd3). destruct Hst as [_ Hst].
    rewrite (get_none d D h Hd1 Hd3 Hst) in Hdesc. discriminate.
Qed.

(** No hash node in the tree. *)
Fixpoint plain (t : tree) : Prop := match t with I l r => plain l /\ plain r | H _ _ => False | _ => True end.

Lemma descend_total : forall t D d n keys path b, db_ok D d -> stored D (nodes d) n t -> plain t ->
  placed b t -> length b + length keys = 256 -> descend d (thash n t) keys path <> None.
Proof.
  induction t as [|k v|l IHl r IHr|big h]; intros D d n keys path b Hd Hst Hpl Hp Hk; rewrite descend_eq.
  - discriminate.
  - rewrite (is_zero_thash _ D d) by assumption. cbn [isE].
    destruct (get_stored_leaf D d k v _ Hd Hst) as [G1 G2]. rewrite G1.
    change (is_one_siblings (lnode k n v)) with true. cbv iota.
    change (n1 (lnode k n v)) with (vhash v). rewrite G2. discriminate.
  - rewrite (is_zero_thash _ D d) by assumption. cbn [isE].
    rewrite (get_stored_inode D d l r _ Hd Hst).
    change (is_one_siblings (inode n l r)) with false. cbv iota.
    destruct Hst as (_ & Hl & Hr). destruct Hpl as [P1 P2]. destruct Hp as (B & Q1 & Q2).
    destruct keys as [|x keys]; [cbn [length] in Hk; lia|]. cbn [length] in Hk.
    destruct x; cbn [slot inode node0 n0 n1].
    + apply (IHr D d (S n) keys _ (b ++ [true])); auto. rewrite app_length. cbn [length]. lia.
    + apply (IHl D d (S n) keys _ (b ++ [false])); auto. rewrite app_length. cbn [length]. lia.
  - destruct Hpl.
Qed.

(** ** Rebuilding *)

Lemma store_ok : forall d n, log_ok d -> log_ok (fst (store pos d n)).
Proof. intros d n Hd. constructor; [reflexivity|exact Hd]. Qed.

Lemma sctx_mono : forall c D ns ns', incl ns ns' -> sctx D ns c -> sctx D ns' c.
Proof.
  induction c as [|[b s] c IH]; intros D ns ns' Hi Hs; cbn [sctx] in *; [exact Hs|].
  destruct Hs. split; [eapply stored_mono; eassumption|eauto].
Qed.

Lemma set_slot_node_of : forall d b s t t', set_slot (node_of d b s t) b (thash (S d) t') = node_of d b s t'.
Proof. intros d [|] s t t'; reflexivity. Qed.

(** [rebuild] on the node above [t'], the rest of the path being that of some old tree. *)
Lemma rebuild_spec : forall c D d b s t u d' h, log_ok d -> sctx D (nodes d) ((b, s) :: c) ->
  stored D (nodes d) (S (length c)) t ->
  rebuild pos d (node_of (length c) b s t) (path_of c u) = (d', h) ->
  h = thash 0 (plug ((b, s) :: c) t) /\ log_ok d' /\ incl (nodes d) (nodes d') /\
  stored D (nodes d') 0 (plug ((b, s) :: c) t).
Proof.
  induction c as [|[b' s'] c IH]; intros D d b s t u d' h Hd Hc Ht Hr; cbn [path_of rebuild store] in Hr.
  - inversion Hr; subst. clear Hr. cbn [plug length] in *. rewrite thash_plug1.
    split; [reflexivity|]. split; [constructor; [reflexivity|exact Hd]|].
    assert (Hi : incl (nodes d) (nodes (set_node d (pos (node_of 0 b s t)) (node_of 0 b s t)))).
    { intros x Hx. right. exact Hx. }
    split; [exact Hi|]. cbn [sctx length] in Hc. destruct Hc as [Hs _].
    apply (stored_mono _ _ _ _ _ Hi) in Hs. apply (stored_mono _ _ _ _ _ Hi) in Ht.
    destruct b; cbn [plug1 stored]; (split; [left; reflexivity|split; assumption]).
  - cbn [length] in *. set (n := node_of (S (length c)) b s t) in *.
    change (pos n) with (pos (node_of (S (length c)) b s t)) in Hr.
    rewrite <- thash_plug1, set_slot_node_of in Hr.
    assert (Hi : incl (nodes d) (nodes (set_node d (thash (S (length c)) (plug1 b s t)) n))).
    { intros x Hx. right. exact Hx. }
    apply IH with (D := D) in Hr.
    + destruct Hr as (R1 & R2 & R3 & R4). cbn [plug] in *. repeat split; auto.
      intros x Hx. apply R3, Hi, Hx.
    + constructor; [cbn [fst snd]; rewrite thash_plug1; reflexivity|exact Hd].
    + destruct Hc as [_ Hc]. eapply sctx_mono; [exact Hi|exact Hc].
    + destruct Hc as [Hs _]. cbn [length] in Hs. apply (stored_mono _ _ _ _ _ Hi) in Hs.
      apply (stored_mono _ _ _ _ _ Hi) in Ht.
      destruct b; cbn [plug1 stored]; (split; [left; reflexivity|split; assumption]).
Qed.

Lemma put_spec : forall c D d t u d' h, log_ok d -> sctx D (nodes d) c -> stored D (nodes d) (length c) t ->
  put pos d (path_of c u) (thash (length c) t) = (d', h) ->
  h = thash 0 (plug c t) /\ log_ok d' /\ incl (nodes d) (nodes d') /\ stored D (nodes d') 0 (plug c t).
Proof.
  intros [|[b s] c] D d t u d' h Hd Hc Ht Hp; cbn [path_of put] in Hp.
  - inversion Hp; subst. cbn [plug]. repeat split; auto. intros x Hx; exact Hx.
  - cbn [length] in *. rewrite set_slot_node_of in Hp. eapply rebuild_spec; eassumption.
Qed.

Lemma rehash_spec : forall c D d t d' h, log_ok d -> sctx D (nodes d) c -> stored D (nodes d) (length c) t ->
  rehash pos d (path_of c t) (thash 0 (plug c t)) = (d', h) ->
  h = thash 0 (plug c t) /\ log_ok d' /\ incl (nodes d) (nodes d') /\ stored D (nodes d') 0 (plug c t).
Proof.
  intros [|[b s] c] D d t d' h Hd Hc Ht Hp; cbn [path_of rehash] in Hp.
  - inversion Hp; subst. cbn [plug]. repeat split; auto. intros x Hx; exact Hx.
  - cbn [length] in *. eapply rebuild_spec; eassumption.
Qed.

End Poseidon.
