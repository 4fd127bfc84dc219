(** Theorems about the type-2 frontend (C58) and [Type2World] (C59). *)

From Coq Require Import List Arith NArith ZArith Bool Lia ZifyN ZifyNat ZifyBool.
From Verif.Smt Require Import SmtModel SmtSpec CodeModel CodeSpec KeyProofs SmtProofs SmtHistory SmtPartialProofs SmtBuildProofs SmtProps.
From Verif.Trace Require Import WireModel Type2Model Type2Maps.
Import ListNotations.
Local Open Scope nat_scope.

(** * C58: what the frontend accepts and returns *)

(** ** Specification *)

(** The root-first serialization of a tree. *)
Inductive preorder : snode -> list instruction -> Prop :=
| pre_hash h : preorder (SHash h) [IHash h]
| pre_leaf r : preorder (SLeafN r) [ISmtLeaf r]
| pre_left n l : preorder n l -> preorder (SLeft n) (IBranch 1 :: l)
| pre_right n l : preorder n l -> preorder (SRight n) (IBranch 2 :: l)
| pre_both n l m l' : preorder n l -> preorder m l' -> preorder (SBoth n m) (IBranch 3 :: l ++ l').

(** The subtree at a path. *)
Inductive at_path : snode -> list bool -> snode -> Prop :=
| at_here n : at_path n [] n
| at_left l p m : at_path l p m -> at_path (SLeft l) (false :: p) m
| at_right r p m : at_path r p m -> at_path (SRight r) (true :: p) m
| at_both_l l r p m : at_path l p m -> at_path (SBoth l r) (false :: p) m
| at_both_r l r p m : at_path r p m -> at_path (SBoth l r) (true :: p) m.

(** The state entry a leaf is about, and its value. *)
Definition field (r : smt_leaf_rec) : entry :=
  match l_node_type r with
  | SBalance => Balance (l_address r)
  | SNonce => Nonce (l_address r)
  | SCode => Code (l_address r)
  | SStorage slot => Storage (l_address r) (from_be slot)
  | SCodeLength => CodeLength (l_address r)
  end.
Definition leaf_value (r : smt_leaf_rec) : N := from_be (l_value r).

(** The sizes of addresses, values and slots. *)
Definition sizes_ok (r : smt_leaf_rec) : Prop :=
  length (l_address r) = 20 /\ length (l_value r) <= 32 /\
  match l_node_type r with SStorage slot => length slot <= 32 | _ => True end.

Definition acceptable (n : snode) : Prop :=
  (forall p h, at_path n p (SHash h) -> length p <= 256) /\
  (forall p r, at_path n p (SLeafN r) -> sizes_ok r) /\
  (forall p r p' r', at_path n p (SLeafN r) -> at_path n p' (SLeafN r') -> field r = field r' -> p = p').

(** What a world holds. *)
Definition entry_field (e : t2_entry) (f : entry) : option N :=
  match f with
  | Balance _ => e_balance e
  | Nonce _ => e_nonce e
  | Code _ => e_code_hash e
  | Storage _ slot => bm_get N.compare (e_storage e) slot
  | CodeLength _ => e_code_length e
  end.
Definition entry_address (f : entry) : list N :=
  match f with Balance a | Nonce a | Code a | Storage a _ | CodeLength a => a end.
Definition accounts_field (m : list (list N * t2_entry)) (f : entry) : option N :=
  match bm_get cmp_addr m (entry_address f) with Some e => entry_field e f | None => None end.
Definition world_field (w : type2_world) (f : entry) : option N := accounts_field (w_accounts w) f.
Definition hidden (w : type2_world) (p : list bool) : option (list N) := bm_get cmp_key (w_hashed_out w) p.

(** ** [fold] *)

Lemma fold1_sound : forall f l n r, fold1 f l = Some (Some (n, r)) -> exists e, l = e ++ r /\ preorder n e.
Proof.
  induction f as [|f IH]; intros l n r H; [discriminate|]. cbn [fold1] in H.
  destruct l as [|[] l]; try discriminate.
  - destruct (N.eqb_spec mask 1) as [->|_]; [|destruct (N.eqb_spec mask 2) as [->|_]; [|destruct (N.eqb_spec mask 3) as [->|_]; [|discriminate]]].
    + destruct (fold1 f l) as [[[n1 r1]|]|] eqn:F1; try discriminate. apply IH in F1 as (e & -> & P).
      assert (n = SLeft n1) by congruence. assert (r = r1) by congruence. subst. eexists (_ :: e). split; [reflexivity|now constructor].
    + destruct (fold1 f l) as [[[n1 r1]|]|] eqn:F1; try discriminate. apply IH in F1 as (e & -> & P).
      assert (n = SRight n1) by congruence. assert (r = r1) by congruence. subst. eexists (_ :: e). split; [reflexivity|now constructor].
    + destruct (fold1 f l) as [[[n1 r1]|]|] eqn:F1; try discriminate. apply IH in F1 as (e & -> & P).
      destruct (fold1 f r1) as [[[n2 r2]|]|] eqn:F2; try discriminate. apply IH in F2 as (e2 & -> & P2).
      assert (n = SBoth n1 n2) by congruence. assert (r = r2) by congruence. subst.
      exists (IBranch 3 :: e ++ e2). split; [cbn; now rewrite <- app_assoc|now constructor].
  - assert (n = SHash raw_hash) by congruence. assert (r = l) by congruence. subst. exists [IHash raw_hash]. split; [reflexivity|constructor].
  - match goal with H : Some (Some (SLeafN ?x, _)) = _ |- _ => assert (n = SLeafN x) by congruence; assert (r = l) by congruence; subst; exists [ISmtLeaf x] end.
    split; [reflexivity|constructor].
Qed.

Lemma fold1_complete : forall n e, preorder n e -> forall f r, length e <= f -> fold1 f (e ++ r) = Some (Some (n, r)).
Proof.
  induction 1; intros f rest L; (destruct f as [|f]; [cbn in L; lia|]); cbn [length] in L; cbn [fold1 app].
  - reflexivity.
  - reflexivity.
  - change (1 =? 1)%N with true. cbv iota. rewrite IHpreorder by lia. reflexivity.
  - change (2 =? 1)%N with false. change (2 =? 2)%N with true. cbv iota. rewrite IHpreorder by lia. reflexivity.
  - change (3 =? 1)%N with false. change (3 =? 2)%N with false. change (3 =? 3)%N with true. cbv iota.
    rewrite app_length in L. rewrite <- app_assoc, IHpreorder1 by lia. rewrite IHpreorder2 by lia. reflexivity.
Qed.

(** The instructions are folded exactly when, without the code instructions,
    they are the serialization of a tree; the codes are collected. *)
Theorem C58_fold : forall l n code, fold l = Some (n, code) <-> preorder n (filter not_code l) /\ code = codes_of l.
Proof.
  intros l n code. unfold fold. split.
  - destruct (fold1 _ _) as [[[n' [|]]|]|] eqn:F; try discriminate. intros H. apply fold1_sound in F as (e & E & P). rewrite app_nil_r in E.
    assert (n = n') by congruence. assert (code = codes_of l) by congruence. subst. auto.
  - intros [P ->]. pose proof (fold1_complete n _ P (S (length (filter not_code l))) [] ltac:(lia)) as F. rewrite app_nil_r in F. now rewrite F.
Qed.
Print Assumptions C58_fold.

(** So a stream folds to at most one tree. *)
Theorem C58_unique : forall l n n', preorder n l -> preorder n' l -> n = n'.
Proof.
  intros l n n' P P'. pose proof (fold1_complete n _ P (length l) [] ltac:(lia)) as F. pose proof (fold1_complete n' _ P' (length l) [] ltac:(lia)) as F'. congruence.
Qed.
Print Assumptions C58_unique.

(** ** [visit] *)

Definition addr_order := lex_order _ N_order.
Definition key_order := lex_order _ bool_order.

Definition entries_ok (m : list (list N * t2_entry)) : Prop :=
  sorted cmp_addr m /\ forall a e, In (a, e) m -> sorted N.compare (e_storage e).
Definition world_ok (w : type2_world) : Prop := entries_ok (w_accounts w) /\ sorted cmp_key (w_hashed_out w).

Lemma entry_dec (a b : entry) : {a = b} + {a <> b}.
Proof. decide equality; try apply N.eq_dec; apply (list_eq_dec N.eq_dec). Defined.

Lemma addr_cmp_eq a b : cmp_addr a b = Eq <-> a = b.
Proof. apply addr_order. Qed.
Lemma addr_refl a : cmp_addr a a = Eq.
Proof. now apply addr_cmp_eq. Qed.

Lemma get_default_ok m a : entries_ok m -> sorted N.compare (e_storage (get_or_default m a)).
Proof.
  intros [S H]. unfold get_or_default. destruct (bm_get cmp_addr m a) eqn:G; [|exact Logic.I].
  apply (bm_get_in _ addr_order) in G; [|exact S]. eauto.
Qed.

Lemma insert_ok m a e : entries_ok m -> sorted N.compare (e_storage e) -> entries_ok (bm_insert cmp_addr m a e).
Proof.
  intros [S H] He. split; [apply bm_insert_sorted; auto using addr_order|]. intros a' e' Hin.
  apply (bm_insert_in _ addr_order) in Hin as [[_ ->]|Hin]; eauto.
Qed.

Lemma field_insert m a e f : accounts_field (bm_insert cmp_addr m a e) f = if list_eq_dec N.eq_dec (entry_address f) a then entry_field e f else accounts_field m f.
Proof.
  unfold accounts_field. rewrite (bm_get_insert _ addr_order). destruct (list_eq_dec N.eq_dec (entry_address f) a) as [->|Hne].
  - now rewrite addr_refl.
  - destruct (cmp_addr (entry_address f) a) eqn:C; auto. apply addr_cmp_eq in C. congruence.
Qed.

Lemma field_default m f : accounts_field m f = entry_field (get_or_default m (entry_address f)) f.
Proof.
  unfold accounts_field, get_or_default. destruct (bm_get cmp_addr m (entry_address f)); auto. destruct f; reflexivity.
Qed.

Lemma contains_insert (m : list (list N * t2_entry)) a e a' : bm_get cmp_addr (bm_insert cmp_addr m a e) a' <> None <-> a' = a \/ bm_get cmp_addr m a' <> None.
Proof.
  rewrite (bm_get_insert _ addr_order). destruct (cmp_addr a' a) eqn:C.
  - apply addr_cmp_eq in C. split; [auto|discriminate].
  - split; [auto|]. intros [->|]; auto. rewrite addr_refl in C. discriminate.
  - split; [auto|]. intros [->|]; auto. rewrite addr_refl in C. discriminate.
Qed.

(** Writing one field of an account. *)
Lemma write_field m a e f v : entries_ok m -> sorted N.compare (e_storage e) -> entry_address f = a ->
  entry_field e f = v -> (forall f', f' <> f -> entry_address f' = a -> entry_field e f' = entry_field (get_or_default m a) f') ->
  entries_ok (bm_insert cmp_addr m a e) /\
  forall f', accounts_field (bm_insert cmp_addr m a e) f' = if entry_dec f' f then v else accounts_field m f'.
Proof.
  intros Hm He Ha Hv Ho. split; [now apply insert_ok|]. intros f'. rewrite field_insert.
  destruct (list_eq_dec N.eq_dec (entry_address f') a) as [Ea|Ea].
  - destruct (entry_dec f' f) as [->|Hne]; [auto|]. rewrite Ho by auto. rewrite field_default, Ea. reflexivity.
  - destruct (entry_dec f' f) as [->|Hne]; [congruence|auto].
Qed.

Lemma N_refl n : N.compare n n = Eq.
Proof. apply N.compare_refl. Qed.

Lemma storage_field e slot v f' a : sorted N.compare (e_storage e) -> f' <> Storage a slot -> entry_address f' = a ->
  entry_field (with_storage e (bm_insert N.compare (e_storage e) slot v)) f' = entry_field e f'.
Proof.
  intros S Hne Ha. destruct f'; cbn [entry_field e_balance e_nonce e_code_hash e_code_length e_storage with_storage]; auto.
  rewrite (bm_get_insert _ N_order). destruct (N.compare slot0 slot) eqn:C; auto. apply N.compare_eq_iff in C. cbn in Ha. congruence.
Qed.

Lemma visit_leaf_some m r m' : entries_ok m -> visit_leaf m r = Some m' ->
  sizes_ok r /\ accounts_field m (field r) = None /\ entries_ok m' /\
  (forall f, accounts_field m' f = if entry_dec f (field r) then Some (leaf_value r) else accounts_field m f) /\
  (forall a, bm_get cmp_addr m' a <> None <-> a = l_address r \/ bm_get cmp_addr m a <> None).
Proof.
  intros Hm. unfold visit_leaf, sizes_ok, field, leaf_value. pose proof (get_default_ok m (l_address r) Hm) as Hs.
  destruct (Nat.eqb_spec (length (l_address r)) 20) as [L1|]; [|discriminate].
  destruct (Nat.leb_spec (length (l_value r)) 32) as [L2|]; [|discriminate]. cbv zeta.
  set (e := get_or_default m (l_address r)) in *. set (v := from_be (l_value r)). set (a := l_address r) in *.
  destruct (l_node_type r) as [| | |slot|].
  - destruct (e_balance e) eqn:E0; cbn [is_none]; [discriminate|]. intros H. assert (m' = bm_insert cmp_addr m a (with_balance e (Some v))) by congruence. subst m'.
    split; [auto|]. split; [rewrite field_default; exact E0|].
    destruct (write_field m a (with_balance e (Some v)) (Balance a) (Some v) Hm Hs eq_refl eq_refl) as [W1 W2].
    { intros f' Hne Ha; destruct f'; cbn in Ha |- *; try reflexivity; exfalso; apply Hne; f_equal; exact Ha. }
    split; [exact W1|]. split; [exact W2|]. intros. apply contains_insert.
  - destruct (e_nonce e) eqn:E0; cbn [is_none]; [discriminate|]. intros H. assert (m' = bm_insert cmp_addr m a (with_nonce e (Some v))) by congruence. subst m'.
    split; [auto|]. split; [rewrite field_default; exact E0|].
    destruct (write_field m a (with_nonce e (Some v)) (Nonce a) (Some v) Hm Hs eq_refl eq_refl) as [W1 W2].
    { intros f' Hne Ha; destruct f'; cbn in Ha |- *; try reflexivity; exfalso; apply Hne; f_equal; exact Ha. }
    split; [exact W1|]. split; [exact W2|]. intros. apply contains_insert.
  - destruct (e_code_hash e) eqn:E0; cbn [is_none]; [discriminate|]. intros H. assert (m' = bm_insert cmp_addr m a (with_code_hash e (Some v))) by congruence. subst m'.
    split; [auto|]. split; [rewrite field_default; exact E0|].
    destruct (write_field m a (with_code_hash e (Some v)) (Code a) (Some v) Hm Hs eq_refl eq_refl) as [W1 W2].
    { intros f' Hne Ha; destruct f'; cbn in Ha |- *; try reflexivity; exfalso; apply Hne; f_equal; exact Ha. }
    split; [exact W1|]. split; [exact W2|]. intros. apply contains_insert.
  - destruct (Nat.leb_spec (length slot) 32) as [L3|]; [|discriminate].
    destruct (bm_get N.compare (e_storage e) (from_be slot)) eqn:E0; cbn [is_none]; [discriminate|]. intros H.
    assert (m' = bm_insert cmp_addr m a (with_storage e (bm_insert N.compare (e_storage e) (from_be slot) v))) by congruence. subst m'.
    split; [auto|]. split; [rewrite field_default; exact E0|].
    destruct (write_field m a (with_storage e (bm_insert N.compare (e_storage e) (from_be slot) v)) (Storage a (from_be slot)) (Some v) Hm) as [W1 W2].
    { cbn. apply bm_insert_sorted; auto using N_order. }
    { reflexivity. }
    { cbn. rewrite (bm_get_insert _ N_order), N_refl. reflexivity. }
    { intros f' Hne Ha. apply (storage_field e _ _ f' a); auto. }
    split; [exact W1|]. split; [exact W2|]. intros. apply contains_insert.
  - destruct (e_code_length e) eqn:E0; cbn [is_none]; [discriminate|]. intros H. assert (m' = bm_insert cmp_addr m a (with_code_length e (Some v))) by congruence. subst m'.
    split; [auto|]. split; [rewrite field_default; exact E0|].
    destruct (write_field m a (with_code_length e (Some v)) (CodeLength a) (Some v) Hm Hs eq_refl eq_refl) as [W1 W2].
    { intros f' Hne Ha; destruct f'; cbn in Ha |- *; try reflexivity; exfalso; apply Hne; f_equal; exact Ha. }
    split; [exact W1|]. split; [exact W2|]. intros. apply contains_insert.
Qed.

Lemma visit_leaf_total m r : sizes_ok r -> accounts_field m (field r) = None -> visit_leaf m r <> None.
Proof.
  intros (L1 & L2 & L3) H. rewrite field_default in H. unfold visit_leaf, field in *.
  replace (length (l_address r) =? 20) with true by lia. replace (length (l_value r) <=? 32) with true by lia. cbv zeta.
  destruct (l_node_type r); cbn [entry_field entry_address] in H; try (rewrite H; discriminate).
  replace (length slot <=? 32) with true by lia. rewrite H. discriminate.
Qed.

(** The items of a tree, in the order of [visit]. *)
Fixpoint items (p : list bool) (n : snode) : list (list bool * (list N + smt_leaf_rec)) :=
  match n with
  | SHash h => [(p, inl h)]
  | SLeafN r => [(p, inr r)]
  | SLeft l => items (p ++ [false]) l
  | SRight r => items (p ++ [true]) r
  | SBoth l r => items (p ++ [false]) l ++ items (p ++ [true]) r
  end.

Definition vstate := (list (list bool * list N) * list (list N * t2_entry))%type.
Definition visit_item (s : vstate) (x : list bool * (list N + smt_leaf_rec)) : option vstate :=
  match snd x with
  | inl h => match smt_key (fst x) with Some k => Some (bm_insert cmp_key (fst s) k h, snd s) | None => None end
  | inr r => match visit_leaf (snd s) r with Some m => Some (fst s, m) | None => None end
  end.
Fixpoint visit_items (s : vstate) (l : list (list bool * (list N + smt_leaf_rec))) : option vstate :=
  match l with
  | [] => Some s
  | x :: l => match visit_item s x with Some s => visit_items s l | None => None end
  end.

Lemma visit_items_app l l' s : visit_items s (l ++ l') = match visit_items s l with Some s' => visit_items s' l' | None => None end.
Proof. revert s. induction l as [|x l IH]; intros s; cbn; auto. destruct (visit_item s x); auto. Qed.

Lemma visit2_items : forall n hs m p, visit2 hs m p n = visit_items (hs, m) (items p n).
Proof.
  induction n as [h|r|l IHl|r IHr|l IHl r IHr]; intros hs m p; cbn [visit2 items visit_items visit_item fst snd].
  - destruct (smt_key p); reflexivity.
  - destruct (visit_leaf m r); reflexivity.
  - apply IHl.
  - apply IHr.
  - rewrite visit_items_app, <- IHl. destruct (visit2 hs m (p ++ [false]) l) as [[hs' m']|]; auto.
Qed.

Lemma items_at : forall n p q x, In (q, x) (items p n) <-> exists r, q = p ++ r /\
  match x with inl h => at_path n r (SHash h) | inr l => at_path n r (SLeafN l) end.
Proof.
  assert (A1 : forall n h, at_path n [] (SHash h) -> n = SHash h) by (inversion 1; auto).
  induction n as [h|r|l IHl|r IHr|l IHl r IHr]; intros p q x; cbn [items In].
  - split.
    + intros [E|[]]. assert (q = p) by congruence. assert (x = inl h) by congruence. subst. exists []. rewrite app_nil_r. split; [auto|constructor].
    + intros (r & -> & H). left. destruct x; inversion H; subst; now rewrite app_nil_r.
  - split.
    + intros [E|[]]. assert (q = p) by congruence. assert (x = inr r) by congruence. subst. exists []. rewrite app_nil_r. split; [auto|constructor].
    + intros (r0 & -> & H). left. destruct x; inversion H; subst; now rewrite app_nil_r.
  - rewrite IHl. split.
    + intros (r & -> & H). exists (false :: r). rewrite <- app_assoc. split; [auto|]. destruct x; now constructor.
    + intros (r & -> & H). destruct x; inversion H; subst; eexists; (split; [|eassumption]); now rewrite <- app_assoc.
  - rewrite IHr. split.
    + intros (r0 & -> & H). exists (true :: r0). rewrite <- app_assoc. split; [auto|]. destruct x; now constructor.
    + intros (r0 & -> & H). destruct x; inversion H; subst; eexists; (split; [|eassumption]); now rewrite <- app_assoc.
  - rewrite in_app_iff, IHl, IHr. split.
    + intros [(r0 & -> & H)|(r0 & -> & H)]; [exists (false :: r0)|exists (true :: r0)]; rewrite <- app_assoc; (split; [auto|]); destruct x; now constructor.
    + intros (r0 & -> & H). destruct x; inversion H; subst; [left|right|left|right]; eexists; (split; [|eassumption]); now rewrite <- app_assoc.
Qed.

Lemma nodup_app (A : Type) (l l' : list A) : NoDup l -> NoDup l' -> (forall x, In x l -> ~ In x l') -> NoDup (l ++ l').
Proof.
  induction l as [|x l IH]; intros N1 N2 D; cbn; [auto|]. inversion N1; subst. constructor.
  - rewrite in_app_iff. intros [H|H]; [auto|]. exact (D x (or_introl eq_refl) H).
  - apply IH; auto. intros y Hy. apply D. now right.
Qed.

Lemma items_nodup : forall n p, NoDup (map fst (items p n)).
Proof.
  induction n as [h|r|l IHl|r IHr|l IHl r IHr]; intros p; cbn [items map]; auto; try (constructor; [intros []|constructor]).
  rewrite map_app. apply nodup_app; auto. intros x H1 H2. apply in_map_iff in H1 as ([q1 y1] & <- & H1). apply in_map_iff in H2 as ([q2 y2] & E & H2).
  cbn in E. subst q2. apply items_at in H1 as (r1 & E1 & _). apply items_at in H2 as (r2 & E2 & _). rewrite E1, <- !app_assoc in E2.
  apply app_inv_head in E2. discriminate.
Qed.

Lemma smt_key_some p k : smt_key p = Some k <-> k = p /\ length p <= 256.
Proof. unfold smt_key. destruct (Nat.leb_spec (length p) 256); split; intros; try discriminate; [split; congruence|destruct H0; congruence|lia]. Qed.

Lemma key_cmp_eq a b : cmp_key a b = Eq <-> a = b.
Proof. apply key_order. Qed.

Definition vfield (s : vstate) (f : entry) : option N := accounts_field (snd s) f.
Definition vhidden (s : vstate) (p : list bool) : option (list N) := bm_get cmp_key (fst s) p.
Definition vok (s : vstate) : Prop := sorted cmp_key (fst s) /\ entries_ok (snd s).

Definition item_fine (s : vstate) (x : list bool * (list N + smt_leaf_rec)) : Prop :=
  match snd x with
  | inl h => length (fst x) <= 256
  | inr r => sizes_ok r /\ vfield s (field r) = None
  end.

Lemma visit_item_some s x s' : vok s -> visit_item s x = Some s' ->
  item_fine s x /\ vok s' /\
  (forall p, vhidden s' p = match snd x with inl h => if list_eq_dec bool_dec p (fst x) then Some h else vhidden s p | inr _ => vhidden s p end) /\
  (forall f, vfield s' f = match snd x with inr r => if entry_dec f (field r) then Some (leaf_value r) else vfield s f | inl _ => vfield s f end) /\
  (forall a, bm_get cmp_addr (snd s') a <> None <-> (exists r, snd x = inr r /\ a = l_address r) \/ bm_get cmp_addr (snd s) a <> None).
Proof.
  intros [O1 O2] H. destruct x as [p [h|r]], s as [hs m]; cbn [visit_item fst snd] in *.
  - destruct (smt_key p) as [k|] eqn:K; [|discriminate]. apply smt_key_some in K as [-> L]. assert (s' = (bm_insert cmp_key hs p h, m)) by congruence. subst s'.
    split; [exact L|]. split; [split; cbn; [apply bm_insert_sorted; auto using key_order|auto]|]. split; [|split].
    + intros q. unfold vhidden. cbn [fst]. rewrite (bm_get_insert _ key_order). destruct (list_eq_dec bool_dec q p) as [->|Hne].
      * now rewrite (proj2 (key_cmp_eq p p) eq_refl).
      * destruct (cmp_key q p) eqn:C; auto. apply key_cmp_eq in C. congruence.
    + reflexivity.
    + intros a. split; [auto|]. intros [(r & E & _)|]; [discriminate|auto].
  - destruct (visit_leaf m r) as [m'|] eqn:V; [|discriminate]. assert (s' = (hs, m')) by congruence. subst s'.
    apply visit_leaf_some in V as (V1 & V2 & V3 & V4 & V5); [|auto].
    split; [split; auto|]. split; [split; auto|]. split; [reflexivity|]. split; [exact V4|]. intros a. rewrite V5. cbn [snd]. split.
    + intros [->|]; eauto.
    + intros [(r' & E & ->)|]; [left; congruence|auto].
Qed.

Lemma visit_item_total s x : item_fine s x -> visit_item s x <> None.
Proof.
  destruct x as [p [h|r]], s as [hs m]; unfold item_fine; cbn [visit_item fst snd].
  - intros L. rewrite (proj2 (smt_key_some p p)) by auto. discriminate.
  - intros [A B]. apply (visit_leaf_total m r A) in B. destruct (visit_leaf m r); [discriminate|congruence].
Qed.

Definition leaf_fields (l : list (list bool * (list N + smt_leaf_rec))) : list entry :=
  flat_map (fun x => match snd x with inr r => [field r] | inl _ => [] end) l.

Lemma in_leaf_fields l f : In f (leaf_fields l) <-> exists p r, In (p, inr r) l /\ f = field r.
Proof.
  unfold leaf_fields. rewrite in_flat_map. split.
  - intros ([p [h|r]] & H1 & H2); cbn in H2; [easy|]. destruct H2 as [<-|[]]. eauto.
  - intros (p & r & H & ->). exists (p, inr r). split; [auto|left; auto].
Qed.

Lemma visit_items_some : forall l s s', vok s -> NoDup (map fst l) -> (forall p, In p (map fst l) -> vhidden s p = None) -> visit_items s l = Some s' ->
  (forall p h, In (p, inl h) l -> length p <= 256) /\ (forall p r, In (p, inr r) l -> sizes_ok r /\ vfield s (field r) = None) /\
  NoDup (leaf_fields l) /\ vok s' /\
  (forall p h, vhidden s' p = Some h <-> In (p, inl h) l \/ vhidden s p = Some h) /\
  (forall f v, vfield s' f = Some v <-> (exists p r, In (p, inr r) l /\ field r = f /\ leaf_value r = v) \/ vfield s f = Some v) /\
  (forall a, bm_get cmp_addr (snd s') a <> None <-> (exists p r, In (p, inr r) l /\ a = l_address r) \/ bm_get cmp_addr (snd s) a <> None).
Proof.
  induction l as [|x l IH]; intros s s' O N D H; cbn [visit_items] in H.
  - assert (s' = s) by congruence. subst s'. cbn [In leaf_fields flat_map]. split; [tauto|]. split; [tauto|]. split; [constructor|]. split; [auto|].
    split; [tauto|]. split; [intros; split; [tauto|]; intros [(? & ? & [] & _)|]; auto|]. intros; split; [tauto|]. intros [(? & ? & [] & _)|]; auto.
  - destruct (visit_item s x) as [s1|] eqn:V; [|discriminate]. apply visit_item_some in V as (V1 & V2 & V3 & V4 & V5); [|auto].
    inversion N as [|? ? N1 N2]; subst. cbn [map] in D.
    apply IH in H as (I1 & I2 & I3 & I4 & I5 & I6 & I7); [|auto|auto|].
    2:{ intros p Hp. rewrite V3. destruct (snd x); [|apply D; now right]. destruct (list_eq_dec bool_dec p (fst x)) as [->|]; [tauto|apply D; now right]. }
    destruct x as [q [h|r]]; unfold item_fine in V1; cbn [fst snd] in *.
    + split; [intros p h' [E|E]; [assert (p = q) by congruence; subst; auto|eauto]|].
      split; [intros p r [E|E]; [discriminate|]; rewrite <- V4; eauto|]. split; [exact I3|]. split; [auto|].
      split; [|split].
      * intros p h'. rewrite I5, V3. cbn [In]. destruct (list_eq_dec bool_dec p q) as [->|Hne].
        -- split; [intros [E|E]; [auto|left; left; congruence]|]. intros [[E|E]|E]; [right; congruence|auto|]. rewrite (D q) in E by now left. discriminate.
        -- split; [intros [E|E]; auto|]. intros [[E|E]|E]; [congruence|auto|auto].
      * intros f v. rewrite I6, V4. cbn [In]. split.
        -- intros [(p & r & E & E1)|E]; eauto 6.
        -- intros [(p & r & [E|E] & E1)|E]; [discriminate|eauto|auto].
      * intros a. rewrite I7, V5. cbn [In]. split.
        -- intros [(p & r & E & E1)|[(r & E & _)|E]]; [eauto 6|discriminate|auto].
        -- intros [(p & r & [E|E] & E1)|E]; [discriminate|eauto|auto].
    + destruct V1 as [V1 V1'].
      assert (Hfr : forall p r', In (p, inr r') l -> field r' <> field r /\ vfield s (field r') = None).
      { intros p r' E. destruct (I2 _ _ E) as [_ E2]. rewrite V4 in E2. destruct (entry_dec (field r') (field r)); [discriminate|auto]. }
      split; [intros p h' [E|E]; [discriminate|eauto]|].
      split; [intros p r' [E|E]; [assert (r' = r) by congruence; subst; auto|]; split; [apply (I2 _ _ E)|apply (Hfr _ _ E)]|].
      split; [cbn [leaf_fields flat_map app snd]; constructor; [|exact I3]; intros E; apply in_leaf_fields in E as (p & r' & E & E'); apply Hfr in E as [E _]; congruence|].
      split; [auto|]. split; [|split].
      * intros p h'. rewrite I5, V3. cbn [In]. split; [intros [E|E]; auto|]. intros [[E|E]|E]; [discriminate|auto|auto].
      * intros f v. rewrite I6, V4. cbn [In]. split.
        -- intros [(p & r' & E & E1)|E]; [eauto 6|]. destruct (entry_dec f (field r)) as [->|]; [|auto]. left. exists q, r. split; [auto|]. split; [auto|congruence].
        -- intros [(p & r' & [E|E] & E1 & E2)|E].
           ++ right. assert (r' = r) by congruence. subst. destruct (entry_dec (field r) (field r)); congruence.
           ++ eauto 6.
           ++ right. destruct (entry_dec f (field r)); [congruence|auto].
      * intros a. rewrite I7, V5. cbn [In]. split.
        -- intros [(p & r' & E & E1)|[(r' & E & E1)|E]]; [eauto 6| |auto]. left. exists q, r. split; [auto|]. congruence.
        -- intros [(p & r' & [E|E] & E1)|E]; [|eauto 6|auto]. right. left. exists r. split; [auto|]. congruence.
Qed.

Lemma visit_items_total : forall l s, vok s -> (forall p h, In (p, inl h) l -> length p <= 256) ->
  (forall p r, In (p, inr r) l -> sizes_ok r /\ vfield s (field r) = None) -> NoDup (leaf_fields l) -> visit_items s l <> None.
Proof.
  induction l as [|x l IH]; intros s O H1 H2 N; cbn [visit_items]; [discriminate|].
  assert (F : item_fine s x). { destruct x as [p [h|r]]; unfold item_fine; cbn; [apply (H1 p h)|apply (H2 p r)]; now left. }
  apply visit_item_total in F. destruct (visit_item s x) as [s1|] eqn:V; [|congruence]. clear F.
  apply visit_item_some in V as (V1 & V2 & V3 & V4 & V5); [|auto].
  apply IH; auto.
  - intros p h Hin. apply (H1 p h). now right.
  - intros p r Hin. destruct (H2 p r) as [A B]; [now right|]. split; [auto|]. rewrite V4. destruct x as [q [h|r']]; cbn [snd]; [auto|].
    destruct (entry_dec (field r) (field r')) as [E|]; [exfalso|auto].
    cbn [leaf_fields flat_map app snd] in N. inversion N as [|? ? N1 N2]; subst. apply N1. apply in_leaf_fields. eauto.
  - destruct x as [q [h|r']]; cbn [leaf_fields flat_map app snd] in N; [exact N|inversion N; auto].
Qed.

Lemma leaf_fields_nodup : forall l, NoDup (map fst l) -> (forall p r p' r', In (p, inr r) l -> In (p', inr r') l -> field r = field r' -> p = p') ->
  NoDup (leaf_fields l).
Proof.
  induction l as [|[q [h|r]] l IH]; intros N H; cbn [leaf_fields flat_map app snd]; [constructor| |].
  - inversion N; subst. apply IH; auto. intros; eapply H; try eassumption; now right.
  - cbn [map fst] in N. inversion N as [|? ? N1 N2]; subst. constructor; [|apply IH; auto; intros; eapply H; try eassumption; now right].
    intros E. apply in_leaf_fields in E as (p & r' & E & E'). assert (p = q) by (eapply H; [right; exact E|left; reflexivity|congruence]). subst p.
    apply N1. apply in_map_iff. exists (q, inr r'). auto.
Qed.

Lemma fields_nodup_inj : forall l p r p' r', NoDup (leaf_fields l) -> In (p, inr r) l -> In (p', inr r') l -> field r = field r' -> p = p'.
Proof.
  induction l as [|[q [h|r0]] l IH]; intros p r p' r' N H1 H2 E; [destruct H1| |]; cbn [leaf_fields flat_map app snd] in N.
  - destruct H1 as [H1|H1]; [discriminate|]. destruct H2 as [H2|H2]; [discriminate|]. eauto.
  - inversion N as [|? ? N1 N2]; subst. destruct H1 as [H1|H1], H2 as [H2|H2]; [congruence| | |eauto]; exfalso; apply N1; apply in_leaf_fields.
    + exists p', r'. split; [auto|]. congruence.
    + exists p, r. split; [auto|]. congruence.
Qed.

(** What [node2world] accepts, and the world it returns: each hash node is kept at its
    path, each leaf is the value of its entry, and there is nothing else. *)
Theorem C58_world : forall n w, node2world n = Some w ->
  acceptable n /\
  (forall p h, hidden w p = Some h <-> at_path n p (SHash h)) /\
  (forall f v, world_field w f = Some v <-> exists p r, at_path n p (SLeafN r) /\ field r = f /\ leaf_value r = v) /\
  (forall a, contains2 w a = true <-> exists p r, at_path n p (SLeafN r) /\ l_address r = a).
Proof.
  intros n w H. unfold node2world in H. destruct (visit2 [] [] [] n) as [[hs m]|] eqn:V; [|discriminate]. rewrite visit2_items in V.
  assert (w = {| w_accounts := m; w_hashed_out := hs |}) by congruence. subst w. clear H.
  apply visit_items_some in V as (I1 & I2 & I3 & _ & I5 & I6 & I7); [|split; [exact Logic.I|split; [exact Logic.I|intros ? ? []]]|apply items_nodup|reflexivity].
  cbn [snd] in *.
  assert (A : forall p h, In (p, inl h) (items [] n) <-> at_path n p (SHash h)).
  { intros p h. rewrite items_at. cbn [app]. split; [intros (r & -> & X); auto|eauto]. }
  assert (B : forall p r, In (p, inr r) (items [] n) <-> at_path n p (SLeafN r)).
  { intros p h. rewrite items_at. cbn [app]. split; [intros (r & -> & X); auto|eauto]. }
  split; [split; [|split]|split; [|split]].
  - intros p h X. apply A in X. eauto.
  - intros p r X. apply B in X. apply (I2 _ _ X).
  - intros p r p' r' X X'. apply B in X. apply B in X'. eapply fields_nodup_inj; eauto.
  - intros p h. rewrite <- A. change (hidden _ p) with (vhidden (hs, m) p). rewrite I5. split; [intros [X|X]; [auto|discriminate]|auto].
  - intros f v. change (world_field _ f) with (vfield (hs, m) f). rewrite I6. split.
    + intros [(p & r & X & Y)|X]; [|discriminate]. apply B in X. eauto.
    + intros (p & r & X & Y). apply B in X. eauto.
  - intros a. unfold contains2. cbn [w_accounts]. specialize (I7 a). destruct (bm_get cmp_addr m a) eqn:G.
    + split; [intros _|auto]. destruct (proj1 I7) as [(p & r & X & Y)|X]; [discriminate| |now cbn in X]. apply B in X. eauto.
    + split; [discriminate|]. intros (p & r & X & Y). apply B in X. exfalso. apply (proj2 I7); eauto.
Qed.
Print Assumptions C58_world.

(** The frontend accepts every serialization of an acceptable tree. *)
Theorem C58_accepts : forall l n, preorder n (filter not_code l) -> acceptable n ->
  exists w, node2world n = Some w /\ frontend2 l = Some (w, codes_of l).
Proof.
  intros l n P (A1 & A2 & A3). unfold frontend2. rewrite (proj2 (C58_fold l n (codes_of l))) by auto.
  assert (V : visit_items ([], []) (items [] n) <> None).
  { apply visit_items_total.
    - split; [exact Logic.I|split; [exact Logic.I|intros ? ? []]].
    - intros p h X. apply items_at in X as (r & -> & X). eauto.
    - intros p r X. apply items_at in X as (q & -> & X). split; [eauto|reflexivity].
    - apply leaf_fields_nodup; [apply items_nodup|]. intros p r p' r' X X'. apply items_at in X as (q & -> & X). apply items_at in X' as (q' & -> & X'). cbn [app]. eauto. }
  rewrite <- visit2_items in V. unfold node2world. destruct (visit2 [] [] [] n) as [[hs m]|]; [|exfalso; now apply V]. eauto.
Qed.
Print Assumptions C58_accepts.
Theorem C58_rejects : forall l w code, frontend2 l = Some (w, code) -> exists n, preorder n (filter not_code l) /\ node2world n = Some w /\ code = codes_of l.
Proof.
  intros l w code. unfold frontend2. destruct (fold l) as [[n c]|] eqn:F; [|discriminate]. apply C58_fold in F as [P ->].
  destruct (node2world n) eqn:W; [|discriminate]. intros H. exists n. split; [auto|]. split; congruence.
Qed.
Print Assumptions C58_rejects.

(** ** The root of the world *)

(** The hash of a witness tree at depth [d]: a hash node stands for itself, a leaf is
    the hash of the rest of its key and of its value. *)
Section Root.
  Variable pos : node -> quad.

  Fixpoint node_hash (d : nat) (n : snode) : quad :=
    match n with
    | SHash h => hash_quad h
    | SLeafN r => pos (leaf_node (rem (entry_key pos (field r)) d) (pos (value_node (leaf_value r))))
    | SLeft l => pos (node0 (node_hash (S d) l) zero)
    | SRight r => pos (node0 zero (node_hash (S d) r))
    | SBoth l r => pos (node0 (node_hash (S d) l) (node_hash (S d) r))
    end.

  (** Every leaf is on the path of its key, within the depth the tree allows, and its
      value is a non-zero word. *)
  Definition leaves_in_place (n : snode) : Prop :=
    forall p r, at_path n p (SLeafN r) ->
      (exists q, split (entry_key pos (field r)) = p ++ q) /\ length p <= 252 /\
      leaf_value r <> 0%N /\ (leaf_value r < 2 ^ 256)%N.

  (** No leaf is alone under a branch. *)
  Definition compact (n : snode) : Prop :=
    forall p r, ~ at_path n p (SLeft (SLeafN r)) /\ ~ at_path n p (SRight (SLeafN r)).

  (** The states [as_smt] goes through, and the assumption that the hashes computed
      so far neither collide nor give zero nor the hash of a hash node. *)
  Definition build_state (w : type2_world) (s : smt) : Prop :=
    (exists h1 h2, hash_calls w = h1 ++ h2 /\ hash_run pos smt_default h1 = Some s) \/
    (exists sh c1 c2, hash_run pos smt_default (hash_calls w) = Some sh /\ set_calls pos w = c1 ++ c2 /\ smt_run pos sh c1 = Some s).
  Definition no_collision (w : type2_world) : Prop :=
    forall s, build_state w s -> separates pos (hashed s) /\
      forall p h, In (p, h) (hash_calls w) -> h <> zero /\ forall n, In n (hashed s) -> pos n <> h.

  (** *** Calls and contents *)

  Lemma in_account_calls a e k v : sorted N.compare (e_storage e) ->
    (In (k, v) (account_calls pos (a, e)) <-> exists f, entry_address f = a /\ entry_field e f = Some v /\ k = entry_key pos f).
  Proof.
    intros S. cbn [account_calls]. rewrite !in_app_iff, in_map_iff.
    assert (O : forall key x, In (k, v) (opt_call key x) <-> x = Some v /\ k = key).
    { intros key [x|]; cbn; [|split; [tauto|intros [? _]; discriminate]]. split; [intros [E|[]]; split; congruence|]. intros [E ->]. left. congruence. }
    rewrite !O. split.
    - intros [[E ->]|[[E ->]|[[E ->]|[[E ->]|([slot x] & E & Hin)]]]].
      + exists (Balance a). auto.
      + exists (Nonce a). auto.
      + exists (Code a). auto.
      + exists (CodeLength a). auto.
      + cbn [fst snd] in E. exists (Storage a slot). assert (x = v) by congruence. subst x. split; [auto|]. split; [|cbn; congruence].
        cbn. now apply (bm_get_in _ N_order).
    - intros ([] & <- & E & ->); cbn in E |- *; auto 7. right. right. right. right. exists (slot, v). split; [auto|]. now apply (bm_get_in _ N_order).
  Qed.

  Lemma in_set_calls w k v : entries_ok (w_accounts w) ->
    (In (k, v) (set_calls pos w) <-> exists f, world_field w f = Some v /\ k = entry_key pos f).
  Proof.
    intros [S1 S2]. unfold set_calls. rewrite in_flat_map. split.
    - intros ([a e] & H1 & H2). apply in_account_calls in H2 as (f & <- & E & ->); [|eauto]. exists f. split; [|auto].
      unfold world_field, accounts_field. rewrite (proj2 (bm_get_in _ addr_order _ _ _ S1) H1). exact E.
    - intros (f & E & ->). unfold world_field, accounts_field in E. destruct (bm_get cmp_addr (w_accounts w) (entry_address f)) as [e|] eqn:G; [|discriminate].
      apply (bm_get_in _ addr_order) in G; [|auto]. exists (entry_address f, e). split; [auto|]. apply in_account_calls; eauto.
  Qed.

  Lemma contents_in calls k : contents calls k <> 0%N -> In (k, contents calls k) calls.
  Proof.
    induction calls as [|c calls IH] using rev_ind; intros H; [exfalso; now apply H|]. rewrite contents_snoc in *. unfold upd in *.
    apply in_app_iff. destruct (quad_eqb k (fst c)) eqn:Q.
    - right. left. apply quad_eqb_eq in Q. subst. now destruct c.
    - left. auto.
  Qed.

  (** When a key is always given the same value. *)
  Lemma contents_of calls k v : In (k, v) calls -> (forall v', In (k, v') calls -> v' = v) -> contents calls k = v.
  Proof.
    induction calls as [|c calls IH] using rev_ind; intros Hin Hu; [destruct Hin|]. rewrite contents_snoc. unfold upd.
    destruct (quad_eqb k (fst c)) eqn:Q.
    - apply quad_eqb_eq in Q. subst. apply Hu. apply in_app_iff. right. left. now destruct c.
    - apply quad_eqb_neq in Q. apply IH.
      + apply in_app_iff in Hin as [Hin|[Hin|[]]]; [auto|]. subst c. cbn in Q. congruence.
      + intros v' H'. apply Hu. apply in_app_iff. auto.
  Qed.
  Lemma contents_out calls k : (forall v, ~ In (k, v) calls) -> contents calls k = 0%N.
  Proof. intros H. destruct (N.eq_dec (contents calls k) 0) as [E|E]; [auto|]. apply contents_in in E. now apply H in E. Qed.

  (** *** The tree of a witness *)

  Fixpoint tree_of (n : snode) : tree :=
    match n with
    | SHash h => H true (hash_quad h)
    | SLeafN r => L (entry_key pos (field r)) (leaf_value r)
    | SLeft l => I (tree_of l) E
    | SRight r => I E (tree_of r)
    | SBoth l r => I (tree_of l) (tree_of r)
    end.

  Lemma tree_of_hash : forall n d, thash pos d (tree_of n) = node_hash d n.
  Proof. induction n as [h|r|l IHl|r IHr|l IHl r IHr]; intros d; cbn [tree_of thash node_hash]; rewrite ?IHl, ?IHr; reflexivity. Qed.

  Lemma tree_leaves : forall n k v, In (k, v) (leaves (tree_of n)) <-> exists p r, at_path n p (SLeafN r) /\ k = entry_key pos (field r) /\ v = leaf_value r.
  Proof.
    induction n as [h|r|l IHl|r IHr|l IHl r IHr]; intros k v; cbn [tree_of leaves app]; rewrite ?app_nil_r, ?in_app_iff.
    - split; [intros []|]. intros (p & r & X & _). inversion X.
    - split.
      + intros [E|[]]. exists [], r. split; [constructor|]. split; congruence.
      + intros (p & r' & X & -> & ->). inversion X; subst. now left.
    - rewrite IHl. split; intros (p & r & X & Y).
      + exists (false :: p), r. split; [now constructor|auto].
      + inversion X; subst. eauto.
    - rewrite IHr. split; intros (p & r0 & X & Y).
      + exists (true :: p), r0. split; [now constructor|auto].
      + inversion X; subst. eauto.
    - rewrite IHl, IHr. split.
      + intros [(p & r0 & X & Y)|(p & r0 & X & Y)]; [exists (false :: p), r0|exists (true :: p), r0]; (split; [now constructor|auto]).
      + intros (p & r0 & X & Y). inversion X; subst; eauto.
  Qed.

  Lemma tree_hashes : forall n p x y, In (x, y) (hashes p (tree_of n)) <-> exists q h, at_path n q (SHash h) /\ x = p ++ q /\ y = (true, hash_quad h).
  Proof.
    induction n as [h|r|l IHl|r IHr|l IHl r IHr]; intros p x y; cbn [tree_of hashes app]; rewrite ?app_nil_r, ?in_app_iff.
    - split.
      + intros [E|[]]. exists [], h. rewrite app_nil_r. split; [constructor|]. split; congruence.
      + intros (q & h' & X & -> & ->). inversion X; subst. rewrite app_nil_r. now left.
    - split; [intros []|]. intros (q & h & X & _). inversion X.
    - rewrite IHl. split; intros (q & h & X & -> & ->).
      + exists (false :: q), h. rewrite <- app_assoc. split; [now constructor|auto].
      + inversion X; subst. eexists _, _. split; [eassumption|]. rewrite <- app_assoc. auto.
    - rewrite IHr. split; intros (q & h & X & -> & ->).
      + exists (true :: q), h. rewrite <- app_assoc. split; [now constructor|auto].
      + inversion X; subst. eexists _, _. split; [eassumption|]. rewrite <- app_assoc. auto.
    - rewrite IHl, IHr. split.
      + intros [(q & h & X & -> & ->)|(q & h & X & -> & ->)]; [exists (false :: q), h|exists (true :: q), h]; rewrite <- app_assoc; (split; [now constructor|auto]).
      + intros (q & h & X & -> & ->). inversion X; subst; [left|right]; (eexists _, _; split; [eassumption|]; rewrite <- app_assoc; auto).
  Qed.

  Lemma path_bound : forall n p, (forall q h, at_path n q (SHash h) -> length (p ++ q) <= 256) ->
    (forall q r, at_path n q (SLeafN r) -> length (p ++ q) <= 252) -> length p <= 256.
  Proof.
    induction n as [h|r|l IHl|r IHr|l IHl r IHr]; intros p Hh Hl.
    - specialize (Hh [] h ltac:(constructor)). now rewrite app_nil_r in Hh.
    - specialize (Hl [] r ltac:(constructor)). rewrite app_nil_r in Hl. lia.
    - assert (length (p ++ [false]) <= 256); [apply IHl; intros q x X; rewrite <- app_assoc; cbn [app]; [eapply Hh|eapply Hl]; now constructor; eauto|rewrite app_length in *; cbn in *; lia].
    - assert (length (p ++ [true]) <= 256); [apply IHr; intros q x X; rewrite <- app_assoc; cbn [app]; [eapply Hh|eapply Hl]; now constructor; eauto|rewrite app_length in *; cbn in *; lia].
    - assert (length (p ++ [true]) <= 256); [apply IHr; intros q x X; rewrite <- app_assoc; cbn [app]; [eapply Hh|eapply Hl]; now constructor; eauto|rewrite app_length in *; cbn in *; lia].
  Qed.

  Hypothesis pos_valid : forall n, qvalid (pos n).
  Lemma key_valid f : qvalid (entry_key pos f).
  Proof. destruct f; apply pos_valid. Qed.

  Lemma tree_placed : forall n p, (forall q h, at_path n q (SHash h) -> length (p ++ q) <= 256) ->
    (forall q r, at_path n q (SLeafN r) -> (exists z, split (entry_key pos (field r)) = (p ++ q) ++ z) /\ length (p ++ q) <= 252 /\
       leaf_value r <> 0%N /\ (leaf_value r < 2 ^ 256)%N) -> placed p (tree_of n).
  Proof.
    induction n as [h|r|l IHl|r IHr|l IHl r IHr]; intros p Hh Hl; cbn [tree_of placed]; auto.
    - destruct (Hl [] r ltac:(constructor)) as ([z Z] & A & B & C). rewrite app_nil_r in *. split; [eauto|]. split; [auto|]. split; [apply key_valid|split; auto].
    - assert (Hh' : forall q h, at_path l q (SHash h) -> length ((p ++ [false]) ++ q) <= 256) by (intros q h X; rewrite <- app_assoc; cbn [app]; eapply Hh; constructor; eauto).
      assert (Hl' : forall q r, at_path l q (SLeafN r) -> (exists z, split (entry_key pos (field r)) = ((p ++ [false]) ++ q) ++ z) /\ length ((p ++ [false]) ++ q) <= 252 /\
       leaf_value r <> 0%N /\ (leaf_value r < 2 ^ 256)%N) by (intros q r X; rewrite <- (app_assoc p); cbn [app]; eapply Hl; constructor; eauto).
      pose proof (path_bound l (p ++ [false]) Hh' ltac:(intros q r X; apply (Hl' q r X))) as Hb. rewrite app_length in Hb. cbn in Hb.
      split; [lia|]. auto.
    - assert (Hh' : forall q h, at_path r q (SHash h) -> length ((p ++ [true]) ++ q) <= 256) by (intros q h X; rewrite <- app_assoc; cbn [app]; eapply Hh; constructor; eauto).
      assert (Hl' : forall q r0, at_path r q (SLeafN r0) -> (exists z, split (entry_key pos (field r0)) = ((p ++ [true]) ++ q) ++ z) /\ length ((p ++ [true]) ++ q) <= 252 /\
       leaf_value r0 <> 0%N /\ (leaf_value r0 < 2 ^ 256)%N) by (intros q r0 X; rewrite <- (app_assoc p); cbn [app]; eapply Hl; constructor; eauto).
      pose proof (path_bound r (p ++ [true]) Hh' ltac:(intros q r0 X; apply (Hl' q r0 X))) as Hb. rewrite app_length in Hb. cbn in Hb.
      split; [lia|]. auto.
    - assert (Hh' : forall q h, at_path r q (SHash h) -> length ((p ++ [true]) ++ q) <= 256) by (intros q h X; rewrite <- app_assoc; cbn [app]; eapply Hh; constructor; eauto).
      assert (Hl' : forall q r0, at_path r q (SLeafN r0) -> (exists z, split (entry_key pos (field r0)) = ((p ++ [true]) ++ q) ++ z) /\ length ((p ++ [true]) ++ q) <= 252 /\
       leaf_value r0 <> 0%N /\ (leaf_value r0 < 2 ^ 256)%N) by (intros q r0 X; rewrite <- (app_assoc p); cbn [app]; eapply Hl; constructor; eauto).
      pose proof (path_bound r (p ++ [true]) Hh' ltac:(intros q r0 X; apply (Hl' q r0 X))) as Hb. rewrite app_length in Hb. cbn in Hb.
      split; [lia|]. split; [|auto]. apply IHl.
      + intros q h X. rewrite <- app_assoc. cbn [app]. eapply Hh. constructor; eauto.
      + intros q r0 X. rewrite <- (app_assoc p). cbn [app]. eapply Hl. constructor; eauto.
  Qed.

  Lemma tree_not_E n : tree_of n <> E.
  Proof. destruct n; discriminate. Qed.

  Lemma tree_canon : forall n, compact n -> canon (tree_of n).
  Proof.
    induction n as [h|r|l IHl|r IHr|l IHl r IHr]; intros C; cbn [tree_of canon]; auto.
    - split; [|split; [|exact Logic.I]].
      + split; [intros [A _]; now apply tree_not_E in A|]. split; [intros [_ A]; discriminate|]. intros [A _].
        destruct l; try discriminate. apply (proj1 (C [] l)). constructor.
      + apply IHl. intros p r. split; intros X; [apply (proj1 (C (false :: p) r))|apply (proj2 (C (false :: p) r))]; now constructor.
    - split; [|split; [exact Logic.I|]].
      + split; [intros [_ A]; now apply tree_not_E in A|]. split; [|intros [A _]; discriminate]. intros [_ A].
        destruct r; try discriminate. apply (proj2 (C [] l)). constructor.
      + apply IHr. intros p r0. split; intros X; [apply (proj1 (C (true :: p) r0))|apply (proj2 (C (true :: p) r0))]; now constructor.
    - split; [|split].
      + split; [intros [A _]; now apply tree_not_E in A|]. split; [intros [A _]; now apply tree_not_E in A|intros [_ A]; now apply tree_not_E in A].
      + apply IHl. intros p r0. split; intros X; [apply (proj1 (C (false :: p) r0))|apply (proj2 (C (false :: p) r0))]; now constructor.
      + apply IHr. intros p r0. split; intros X; [apply (proj1 (C (true :: p) r0))|apply (proj2 (C (true :: p) r0))]; now constructor.
  Qed.

  Lemma node2world_ok n w : node2world n = Some w -> world_ok w.
  Proof.
    intros H. unfold node2world in H. destruct (visit2 [] [] [] n) as [[hs m]|] eqn:V; [|discriminate]. rewrite visit2_items in V.
    apply visit_items_some in V as (_ & _ & _ & [O1 O2] & _); [|split; [exact Logic.I|split; [exact Logic.I|intros ? ? []]]|apply items_nodup|reflexivity].
    assert (w = {| w_accounts := m; w_hashed_out := hs |}) by congruence. subst w. split; auto.
  Qed.

  (** Distinct keys that are not prefixes of each other, in a sorted list. *)
  Lemma positions_ok : forall (l : list (list bool * quad)), NoDup (map fst l) ->
    (forall p h p' h', In (p, h) l -> In (p', h') l -> is_prefix_of p p' = true -> p = p') -> hash_positions_ok l.
  Proof.
    induction l as [|[p h] l IH]; intros N Hp; cbn [hash_positions_ok]; [exact Logic.I|]. inversion N as [|? ? N1 N2]; subst. split.
    - intros p' h' Hin. destruct (is_prefix_of p p') eqn:X; [exfalso|auto]. apply N1. cbn [fst].
      assert (E : p = p') by (eapply Hp; [now left|right; eassumption|auto]). subst p'. apply in_map_iff. exists (p, h'). auto.
    - apply IH; auto. intros; eapply Hp; try (right; eassumption); auto.
  Qed.

  Lemma sorted_nodup (K V : Type) (cmp : K -> K -> comparison) (o : total_order cmp) (m : list (K * V)) : sorted cmp m -> NoDup (map fst m).
  Proof.
    induction m as [|[k v] m IH]; intros S; cbn; [constructor|]. destruct S as [S1 S2]. constructor; [|auto].
    intros X. apply in_map_iff in X as ([k' v'] & E & X). cbn in E. subst k'. apply S1 in X. rewrite (proj2 (proj1 o k k) eq_refl) in X. discriminate.
  Qed.

  Lemma at_stops : forall n p q m m', (forall l, m <> SLeft l) -> (forall l, m <> SRight l) -> (forall l r, m <> SBoth l r) ->
    at_path n p m -> at_path n (p ++ q) m' -> q = [] /\ m = m'.
  Proof.
    induction n as [h|r|l IHl|r IHr|l IHl r IHr]; intros p q m m' M1 M2 M3 X Y; inversion X; subst; cbn [app] in Y;
      try (exfalso; now apply (M1 _ eq_refl)); try (exfalso; now apply (M2 _ eq_refl)); try (exfalso; now apply (M3 _ _ eq_refl)).
    - inversion Y; subst. auto.
    - inversion Y; subst. auto.
    - inversion Y; subst. eapply IHl; eauto.
    - inversion Y; subst. eapply IHr; eauto.
    - inversion Y; subst. eapply IHl; eauto.
    - inversion Y; subst. eapply IHr; eauto.
  Qed.

  Lemma leaf_unique n p r p' r' : leaves_in_place n -> at_path n p (SLeafN r) -> at_path n p' (SLeafN r') ->
    entry_key pos (field r) = entry_key pos (field r') -> r = r'.
  Proof.
    intros LP X Y E. destruct (LP _ _ X) as ([z Z] & _). destruct (LP _ _ Y) as ([z' Z'] & _). rewrite E, Z' in Z.
    destruct (prefix_split _ _ _ _ _ Z) as [[q ->]|[q ->]].
    - apply (at_stops n p' q _ (SLeafN r)) in Y; try discriminate; [|auto]. destruct Y; congruence.
    - apply (at_stops n p q _ (SLeafN r')) in X; try discriminate; [|auto]. destruct X; congruence.
  Qed.

  (** The fields of a world, in the order [as_smt] writes them. *)
  Definition opt_field (f : entry) (x : option N) : list (entry * N) := match x with Some v => [(f, v)] | None => [] end.
  Definition account_fields (a : list N * t2_entry) : list (entry * N) :=
    opt_field (Balance (fst a)) (e_balance (snd a)) ++ opt_field (Nonce (fst a)) (e_nonce (snd a)) ++
    opt_field (Code (fst a)) (e_code_hash (snd a)) ++ opt_field (CodeLength (fst a)) (e_code_length (snd a)) ++
    map (fun sv => (Storage (fst a) (fst sv), snd sv)) (e_storage (snd a)).
  Definition fields (w : type2_world) : list (entry * N) := flat_map account_fields (w_accounts w).
  Definition key_call (fv : entry * N) : call := (entry_key pos (fst fv), snd fv).

  Lemma set_calls_fields w : set_calls pos w = map key_call (fields w).
  Proof.
    unfold set_calls, fields. induction (w_accounts w) as [|[a e] l IH]; [reflexivity|]. cbn [flat_map]. rewrite map_app, IH. f_equal.
    unfold account_calls, account_fields. rewrite !map_app, map_map. cbn [fst snd].
    destruct (e_balance e), (e_nonce e), (e_code_hash e), (e_code_length e); reflexivity.
  Qed.

  Lemma in_account_fields a e f v : sorted N.compare (e_storage e) ->
    (In (f, v) (account_fields (a, e)) <-> entry_address f = a /\ entry_field e f = Some v).
  Proof.
    intros S. unfold account_fields. cbn [fst snd]. rewrite !in_app_iff, in_map_iff.
    assert (O : forall g x, In (f, v) (opt_field g x) <-> x = Some v /\ f = g).
    { intros g [x|]; cbn; [|split; [tauto|intros [? _]; discriminate]]. split; [intros [E|[]]; split; congruence|]. intros [E ->]. left. congruence. }
    rewrite !O. split.
    - intros [[E ->]|[[E ->]|[[E ->]|[[E ->]|([slot x] & E & Hin)]]]]; try (cbn; auto; fail).
      cbn [fst snd] in E. assert (f = Storage a slot) by congruence. assert (x = v) by congruence. subst. split; [reflexivity|]. cbn. now apply (bm_get_in _ N_order).
    - intros [<- E]. destruct f; cbn in E |- *; auto 7. right. right. right. right. exists (slot, v). split; [auto|]. now apply (bm_get_in _ N_order).
  Qed.

  Lemma in_fields w f v : entries_ok (w_accounts w) -> (In (f, v) (fields w) <-> world_field w f = Some v).
  Proof.
    intros [S1 S2]. unfold fields. rewrite in_flat_map. split.
    - intros ([a e] & H1 & H2). apply in_account_fields in H2 as (<- & E); [|eauto].
      unfold world_field, accounts_field. rewrite (proj2 (bm_get_in _ addr_order _ _ _ S1) H1). exact E.
    - intros E. unfold world_field, accounts_field in E. destruct (bm_get cmp_addr (w_accounts w) (entry_address f)) as [e|] eqn:G; [|discriminate].
      apply (bm_get_in _ addr_order) in G; [|auto]. exists (entry_address f, e). split; [auto|]. apply in_account_fields; eauto.
  Qed.

  Lemma account_fields_nodup a e : sorted N.compare (e_storage e) -> NoDup (map fst (account_fields (a, e))).
  Proof.
    intros S. unfold account_fields. cbn [fst snd]. rewrite !map_app, map_map. cbn [fst].
    assert (O : forall g x, NoDup (map fst (opt_field g x))) by (intros g [x|]; cbn; repeat constructor; intros []).
    assert (I : forall f g x, In f (map fst (opt_field g x)) -> f = g) by (intros f g [x|]; cbn; [intros [<-|[]]; auto|intros []]).
    assert (P : NoDup (map (fun x : N * N => Storage a (fst x)) (e_storage e))).
    { apply (sorted_nodup _ _ _ N_order) in S. clear - S. induction (e_storage e) as [|[k v] m IH]; cbn in *; [constructor|]. inversion S; subst.
      constructor; [|auto]. intros X. apply in_map_iff in X as ([k' v'] & E & X). cbn in E. apply H1. apply in_map_iff. exists (k', v'). split; [cbn; congruence|auto]. }
    assert (Q : forall f, In f (map (fun x : N * N => Storage a (fst x)) (e_storage e)) -> exists s, f = Storage a s).
    { intros f X. apply in_map_iff in X as (x & <- & _). eauto. }
    repeat (apply nodup_app; [auto| |]); auto; intros f X Y; apply I in X; subst f; rewrite ?in_app_iff in Y;
      repeat match goal with H : _ \/ _ |- _ => destruct H end; try (apply I in H; discriminate); try (apply I in Y; discriminate);
      try (apply Q in H as [? H]; discriminate); try (apply Q in Y as [? Y]; discriminate).
  Qed.

  Lemma fields_nodup w : entries_ok (w_accounts w) -> NoDup (map fst (fields w)).
  Proof.
    intros [S1 S2]. unfold fields. apply (sorted_nodup _ _ _ addr_order) in S1. revert S1 S2.
    induction (w_accounts w) as [|[a e] l IH]; intros S1 S2; cbn [flat_map]; [constructor|]. rewrite map_app. cbn in S1. inversion S1; subst.
    assert (Se : sorted N.compare (e_storage e)) by (apply (S2 a); now left).
    apply nodup_app.
    - now apply account_fields_nodup.
    - apply IH; auto. intros. eapply S2. right. eassumption.
    - intros f X Y. apply in_map_iff in X as ([f1 v1] & E1 & X). apply in_map_iff in Y as ([f2 v2] & E2 & Y). cbn in E1, E2. subst f1 f2.
      apply in_account_fields in X as [A _]; [|auto]. apply in_flat_map in Y as ([a' e'] & Y1 & Y2).
      apply in_account_fields in Y2 as [A' _]; [|eapply S2; right; eassumption]. subst a'. apply H1. apply in_map_iff. exists (a, e'). split; [cbn; congruence|]. rewrite <- A. auto.
  Qed.

  Section Build.
    Variables (n : snode) (w : type2_world).
    Hypothesis Hw : node2world n = Some w.
    Hypothesis LP : leaves_in_place n.
    Hypothesis CP : compact n.
    Hypothesis NC : no_collision w.

    Lemma in_hash_calls p h : In (p, h) (hash_calls w) <-> exists h0, at_path n p (SHash h0) /\ h = hash_quad h0.
    Proof.
      destruct (C58_world n w Hw) as (_ & W & _). destruct (node2world_ok n w Hw) as [_ S].
      unfold hash_calls. rewrite in_map_iff. split.
      - intros ([p' h0] & E & X). cbn in E. assert (p' = p) by congruence. subst p'. exists h0. split; [|congruence]. apply W. unfold hidden. now apply (bm_get_in _ key_order).
      - intros (h0 & X & ->). exists (p, h0). split; [reflexivity|]. apply (bm_get_in _ key_order); [auto|]. now apply W.
    Qed.
    Lemma hash_calls_short p h : In (p, h) (hash_calls w) -> length p <= 256.
    Proof. intros X. apply in_hash_calls in X as (h0 & X & _). destruct (C58_world n w Hw) as ((A & _) & _). eauto. Qed.
    Lemma hash_calls_ok : hash_positions_ok (hash_calls w).
    Proof.
      apply positions_ok.
      - unfold hash_calls. rewrite map_map. cbn [fst]. apply (sorted_nodup _ _ _ key_order). apply (node2world_ok n w Hw).
      - intros p h p' h' X Y Z. apply in_hash_calls in X as (h0 & X & _). apply in_hash_calls in Y as (h1 & Y & _).
        apply is_prefix_of_iff in Z as [q ->]. apply (at_stops n p q _ (SHash h1)) in X; try discriminate; [|auto]. destruct X as [-> _]. now rewrite app_nil_r.
    Qed.
    Lemma hash_run_total : forall hs r, hash_calls w = hs ++ r -> exists sh, hash_run pos smt_default hs = Some sh.
    Proof.
      induction hs as [|[p h] hs IH] using rev_ind; intros r E; [eexists; reflexivity|]. rewrite <- app_assoc in E. cbn in E.
      destruct (IH _ E) as [s0 R]. rewrite hash_run_snoc, R. cbn [fst snd].
      destruct (NC s0 (or_introl (ex_intro _ hs (ex_intro _ _ (conj E R))))) as [Sep Fr].
      pose proof hash_calls_ok as Ok. rewrite E in Ok.
      assert (Ok1 : hash_positions_ok hs /\ forall p' h', In (p', h') hs -> is_prefix_of p' p = false).
      { apply (positions_snoc hs p h). clear - Ok. revert Ok. generalize hs. clear hs. induction hs as [|[p' h'] hs IH]; cbn [app hash_positions_ok]; [now intros [_ _]|].
        intros [A B]. split; [|auto]. intros q h0 X. apply in_app_iff in X. apply (A q h0). apply in_app_iff. destruct X as [X|[X|[]]]; [auto|]. right. left. auto. }
      destruct Ok1 as [Ok1 Np].
      destruct (hash_run_inv pos (hashed s0) hs s0 Sep Ok1) as (t & It & Lt & Ht); auto.
      { intros p' h' X. assert (X' : In (p', h') (hash_calls w)) by (rewrite E; apply in_app_iff; auto). split; [eapply hash_calls_short; eauto|exact (Fr _ _ X')]. }
      { intros x Hx. exact Hx. }
      destruct (set_hash pos s0 p h) as [s|] eqn:SH; [eauto|exfalso].
      apply (set_hash_builds pos (hashed s0) s0 t p h It Lt); [|exact SH]. intros [x y] X. apply Ht in X as (p' & h' & Q & X). cbn [fst].
      assert (x = p') by congruence. subst p'. split; [eauto|]. destruct (is_prefix_of p x) eqn:Z; [exfalso|reflexivity].
      assert (X' : In (x, h') (hash_calls w)) by (rewrite E; apply in_app_iff; auto).
      assert (Y' : In (p, h) (hash_calls w)) by (rewrite E; apply in_app_iff; right; now left).
      apply in_hash_calls in X' as (h1 & X' & _). apply in_hash_calls in Y' as (h2 & Y' & _).
      apply is_prefix_of_iff in Z as [q ->]. apply (at_stops n p q _ (SHash h1)) in Y'; try discriminate; [|auto]. destruct Y' as [-> _].
      specialize (Np _ _ X). rewrite app_nil_r in Np. assert (P : is_prefix_of p p = true) by (apply is_prefix_of_iff; exists []; now rewrite app_nil_r). congruence.
    Qed.

    Lemma field_leaf f v : In (f, v) (fields w) <-> exists p r, at_path n p (SLeafN r) /\ field r = f /\ leaf_value r = v.
    Proof. rewrite in_fields by apply (node2world_ok n w Hw). apply (C58_world n w Hw). Qed.
    Lemma field_keys f v f' v' : In (f, v) (fields w) -> In (f', v') (fields w) -> entry_key pos f = entry_key pos f' -> (f, v) = (f', v').
    Proof.
      intros X Y E. apply field_leaf in X as (p & r & X & <- & <-). apply field_leaf in Y as (p' & r' & Y & <- & <-).
      now rewrite (leaf_unique n p r p' r' LP X Y E).
    Qed.
    Lemma calls_leaves k v : In (k, v) (set_calls pos w) <-> In (k, v) (leaves (tree_of n)).
    Proof.
      rewrite set_calls_fields, in_map_iff, tree_leaves. split.
      - intros ([f x] & E & X). apply field_leaf in X as (p & r & X & <- & <-). exists p, r. split; [auto|]. unfold key_call in E. cbn in E. split; congruence.
      - intros (p & r & X & -> & ->). exists (field r, leaf_value r). split; [reflexivity|]. apply field_leaf. eauto.
    Qed.
    Lemma tree_ok : placed [] (tree_of n).
    Proof.
      apply tree_placed.
      - intros q h X. destruct (C58_world n w Hw) as ((A & _) & _). cbn. eauto.
      - intros q r X. exact (LP _ _ X).
    Qed.
    Lemma calls_values k v : In (k, v) (set_calls pos w) -> v <> 0%N /\ qvalid k /\ valid_call (k, v).
    Proof.
      intros X. apply calls_leaves in X. apply tree_leaves in X as (p & r & X & -> & ->). destruct (LP _ _ X) as (_ & _ & A & B).
      pose proof (key_valid (field r)) as V. split; [auto|]. split; [auto|]. destruct V as (V1 & V2 & V3 & V4). repeat split; auto.
    Qed.
    Lemma tree_hash_calls : forall x, In x (hashes [] (tree_of n)) <-> exists p h, x = (p, (true, h)) /\ In (p, h) (hash_calls w).
    Proof.
      intros [x y]. rewrite tree_hashes. cbn. split.
      - intros (q & h & X & -> & ->). exists q, (hash_quad h). split; [auto|]. apply in_hash_calls. eauto.
      - intros (q & h & E & X). apply in_hash_calls in X as (h0 & X & ->). exists q, h0. split; [auto|]. split; congruence.
    Qed.

    Lemma set_run_total sh : hash_run pos smt_default (hash_calls w) = Some sh ->
      forall c r, set_calls pos w = c ++ r -> exists s, smt_run pos sh c = Some s.
    Proof.
      intros Rh. induction c as [|[k v] c IH] using rev_ind; intros r E; [eexists; reflexivity|]. rewrite <- app_assoc in E. cbn in E.
      destruct (IH _ E) as [s0 R]. rewrite smt_run_snoc, R. cbn [fst snd].
      assert (BS : build_state w s0) by (right; exists sh, c, ((k, v) :: r); auto).
      destruct (NC s0 BS) as [Sep Fr].
      assert (Hin : forall x, In x c -> In x (set_calls pos w)) by (intros x X; rewrite E; apply in_app_iff; auto).
      assert (Hkv : In (k, v) (set_calls pos w)) by (rewrite E; apply in_app_iff; right; now left).
      destruct (build_tree pos (hash_calls w) c sh s0) as (t & It & Ht & Hc); auto.
      { apply Forall_forall. intros [k' v'] X. apply calls_values. auto. }
      { apply hash_calls_ok. }
      { intros p h X. split; [eapply hash_calls_short; eauto|exact (Fr _ _ X)]. }
      assert (Abs : forall v', ~ In (k, v') c).
      { intros v' X. pose proof (fields_nodup w ltac:(apply (node2world_ok n w Hw))) as ND. rewrite set_calls_fields in E, Hkv.
        assert (X' : In (k, v') (map key_call (fields w))) by (rewrite E; apply in_app_iff; auto).
        destruct (map_eq_app _ _ _ _ E) as (f1 & f2 & F & F1 & F2). destruct f2 as [|[f x] f2]; [discriminate|]. cbn in F2.
        assert (Ek : key_call (f, x) = (k, v)) by congruence. rewrite <- F1 in X. apply in_map_iff in X as ([g y] & Eg & X).
        assert (In (g, y) (fields w)) by (rewrite F; apply in_app_iff; auto). assert (In (f, x) (fields w)) by (rewrite F; apply in_app_iff; right; now left).
        assert (Eq : (g, y) = (f, x)) by (apply field_keys; auto; unfold key_call in *; cbn in *; congruence). rewrite Eq in X.
        rewrite F, map_app in ND. cbn in ND. apply NoDup_remove_2 in ND. apply ND. apply in_app_iff. left. apply in_map_iff. exists (f, x). auto. }
      destruct (set pos s0 k v) as [s|] eqn:S; [eauto|exfalso]. destruct (calls_values _ _ Hkv) as (V1 & V2 & _).
      apply (set_builds pos (hashed s0) s0 t k v (tree_of n) It tree_ok V2 V1); auto.
      - now apply calls_leaves.
      - intros v' X. apply Hc in X as [X1 X2]. rewrite <- X2 in X1. apply contents_in in X1. now apply Abs in X1.
      - intros [k' v'] X. apply Hc in X as [X1 X2]. rewrite <- X2 in X1. apply contents_in in X1. rewrite X2 in X1. apply calls_leaves. auto.
      - intros x X. apply tree_hash_calls. now apply Ht.
    Qed.

    Lemma root_built : exists s, as_smt pos w = Some s /\ root s = node_hash 0 n.
    Proof.
      destruct (hash_run_total (hash_calls w) [] ltac:(now rewrite app_nil_r)) as [sh Rh].
      destruct (set_run_total sh Rh (set_calls pos w) [] ltac:(now rewrite app_nil_r)) as [s Rs].
      exists s. unfold as_smt. rewrite Rh. split; [auto|]. rewrite <- tree_of_hash.
      assert (BS : build_state w s) by (right; exists sh, (set_calls pos w), []; rewrite app_nil_r; auto).
      destruct (NC s BS) as [Sep Fr].
      apply (inv_root pos (hashed s) s (tree_of n)). apply (build_is pos (hash_calls w) (set_calls pos w) sh s); auto.
      - apply Forall_forall. intros [k' v'] X. now apply calls_values.
      - apply hash_calls_ok.
      - intros p h X. split; [eapply hash_calls_short; eauto|exact (Fr _ _ X)].
      - apply tree_ok.
      - now apply tree_canon.
      - apply tree_hash_calls.
      - intros k v. split.
        + intros X. apply calls_leaves in X. destruct (calls_values _ _ X) as (V & _). split; [auto|]. apply contents_of; [auto|].
          intros v' X'. rewrite set_calls_fields in X, X'. apply in_map_iff in X as ([f x] & E & X). apply in_map_iff in X' as ([f' x'] & E' & X').
          assert (Q : (f, x) = (f', x')) by (apply field_keys; auto; unfold key_call in *; cbn in *; congruence). unfold key_call in *; cbn in *. congruence.
        + intros [V E]. apply calls_leaves. rewrite <- E in V. apply contents_in in V. now rewrite E in V.
    Qed.
  End Build.
End Root.

(** The world of a witness whose leaves are in place and whose tree is compact has the
    root of the witness tree, and computing it does not panic. *)
Theorem C58_root : forall pos n w, (forall m, qvalid (pos m)) -> node2world n = Some w ->
  leaves_in_place pos n -> compact n -> no_collision pos w ->
  exists s, as_smt pos w = Some s /\ root s = node_hash pos 0 n.
Proof. intros pos n w Hp. now apply root_built. Qed.
Print Assumptions C58_root.

(** ** C59: the operations of a type-2 world *)

Definition entry_eqb (a b : entry) : bool := if entry_dec a b then true else false.
(** The world with one field rewritten. *)
Definition writes (w w' : type2_world) (f : entry) (v : option N) : Prop :=
  (forall f', world_field w' f' = if entry_eqb f' f then v else world_field w f') /\ w_hashed_out w' = w_hashed_out w.

Lemma entry_eqb_refl f : entry_eqb f f = true.
Proof. unfold entry_eqb. now destruct (entry_dec f f). Qed.
Lemma entry_eqb_neq f g : f <> g -> entry_eqb f g = false.
Proof. intros H. unfold entry_eqb. now destruct (entry_dec f g). Qed.

Lemma account_field w f : world_field w f = entry_field (account w (entry_address f)) f.
Proof. apply field_default. Qed.
Lemma set_account_field w a e f : world_field (set_account w a e) f = if list_eq_dec N.eq_dec (entry_address f) a then entry_field e f else world_field w f.
Proof. apply field_insert. Qed.
Lemma account_sorted w a : world_ok w -> sorted N.compare (e_storage (account w a)).
Proof. intros [H _]. now apply get_default_ok. Qed.
Lemma set_account_ok w a e : world_ok w -> sorted N.compare (e_storage e) -> world_ok (set_account w a e).
Proof. intros [H1 H2] S. split; [now apply insert_ok|exact H2]. Qed.
Lemma contains_set_account w a e a' : contains2 (set_account w a e) a' = true <-> a' = a \/ contains2 w a' = true.
Proof.
  unfold contains2. pose proof (contains_insert (w_accounts w) a e a') as X. cbn [set_account w_accounts].
  destruct (bm_get cmp_addr (bm_insert _ _ _ _) a'), (bm_get cmp_addr (w_accounts w) a').
  - split; [auto|reflexivity].
  - split; [|reflexivity]. intros _. destruct (proj1 X ltac:(discriminate)) as [Y|Y]; [auto|now elim Y].
  - split; [|intros _; exfalso; apply (proj2 X); [right; discriminate|reflexivity]]. auto.
  - split; [discriminate|]. intros [Y|Y]; [|discriminate]. exfalso. apply (proj2 X); auto.
Qed.

Lemma writes_account w a e f v : entry_address f = a -> entry_field e f = v ->
  (forall f', f' <> f -> entry_address f' = a -> entry_field e f' = entry_field (account w a) f') -> writes w (set_account w a e) f v.
Proof.
  intros A V O. split; [|reflexivity]. intros f'. rewrite set_account_field. destruct (entry_dec f' f) as [->|Nf].
  - rewrite entry_eqb_refl. destruct (list_eq_dec N.eq_dec (entry_address f) a); congruence.
  - rewrite (entry_eqb_neq _ _ Nf). destruct (list_eq_dec N.eq_dec (entry_address f') a) as [<-|_]; [|reflexivity].
    rewrite account_field. apply O; auto.
Qed.

Theorem C59_update_balance : forall w a f, writes w (update_balance2 w a f) (Balance a) (Some (f (or_default (world_field w (Balance a))))).
Proof.
  intros w a f. unfold update_balance2. apply writes_account; [reflexivity|now rewrite account_field|].
  intros [] Nf A; cbn in *; try reflexivity. congruence.
Qed.
Print Assumptions C59_update_balance.

Theorem C59_update_nonce : forall w a f, writes w (update_nonce2 w a f) (Nonce a) (Some (f (or_default (world_field w (Nonce a))))).
Proof.
  intros w a f. unfold update_nonce2. apply writes_account; [reflexivity|now rewrite account_field|].
  intros [] Nf A; cbn in *; try reflexivity. congruence.
Qed.
Print Assumptions C59_update_nonce.

Theorem C59_store : forall w a slot v, world_ok w -> writes w (store_int2 w a slot v) (Storage a slot) (Some v).
Proof.
  intros w a slot v W. unfold store_int2. pose proof (account_sorted w a W) as S. apply writes_account; [reflexivity| |].
  - cbn. rewrite (bm_get_insert _ N_order). now rewrite N_refl.
  - intros f' Nf A. now apply (storage_field _ slot v f' a).
Qed.
Print Assumptions C59_store.

(** Code given as bytes sets the length and the hash, or no hash when it is empty. *)
Theorem C59_set_code : forall code_hash w a bytes f,
  world_field (set_code2 code_hash w a (inl bytes)) f =
    if entry_eqb f (CodeLength a) then Some (N.of_nat (length bytes))
    else if entry_eqb f (Code a) then (if (length bytes =? 0)%nat then None else Some (code_hash bytes))
    else world_field w f.
Proof.
  intros ch w a bytes f. unfold set_code2. rewrite set_account_field. destruct (list_eq_dec N.eq_dec (entry_address f) a) as [A|A].
  - rewrite account_field, A. destruct f; cbn in A; subst; cbn [entry_field]; unfold entry_eqb;
      repeat match goal with |- context [entry_dec ?x ?y] => destruct (entry_dec x y); try congruence end; destruct bytes; reflexivity.
  - rewrite !entry_eqb_neq; [reflexivity| |]; intros ->; now elim A.
Qed.
Print Assumptions C59_set_code.

Theorem C59_destroy : forall w a f, world_ok w ->
  world_field (destroy2 w a) f = (if list_eq_dec N.eq_dec (entry_address f) a then None else world_field w f) /\
  contains2 (destroy2 w a) a = false /\ w_hashed_out (destroy2 w a) = w_hashed_out w.
Proof.
  intros w a f [[S1 S2] _]. unfold world_field, accounts_field, contains2. cbn [destroy2 w_accounts w_hashed_out].
  rewrite !(bm_get_remove _ addr_order) by auto. rewrite addr_refl. split; [|auto].
  destruct (list_eq_dec N.eq_dec (entry_address f) a) as [->|A]; [now rewrite addr_refl|].
  destruct (cmp_addr (entry_address f) a) eqn:C; try reflexivity. apply addr_cmp_eq in C. congruence.
Qed.
Print Assumptions C59_destroy.

Lemma modify_field w a g f : world_field (modify2 w a g) f =
  if list_eq_dec N.eq_dec (entry_address f) a then match bm_get cmp_addr (w_accounts w) a with Some e => entry_field (g e) f | None => None end else world_field w f.
Proof.
  unfold modify2. destruct (bm_get cmp_addr (w_accounts w) a) as [e|] eqn:G.
  - apply set_account_field.
  - destruct (list_eq_dec N.eq_dec (entry_address f) a) as [A|A]; [|reflexivity]. unfold world_field, accounts_field. now rewrite A, G.
Qed.

Theorem C59_destroy_storage : forall w a f, world_field (destroy_storage2 w a) f =
  match f with Storage a' _ => if list_eq_dec N.eq_dec a' a then None else world_field w f | _ => world_field w f end.
Proof.
  intros w a f. unfold destroy_storage2. rewrite modify_field. unfold world_field, accounts_field.
  destruct f; cbn [entry_address]; destruct (list_eq_dec N.eq_dec _ a) as [->|]; try reflexivity; destruct (bm_get cmp_addr (w_accounts w) a); reflexivity.
Qed.
Print Assumptions C59_destroy_storage.

Theorem C59_destroy_slot : forall w a slot, world_ok w -> writes w (destroy_slot2 w a slot) (Storage a slot) None.
Proof.
  intros w a slot [[S1 S2] _]. split.
  - intros f. unfold destroy_slot2. rewrite modify_field. destruct (entry_dec f (Storage a slot)) as [->|Nf].
    + rewrite entry_eqb_refl. cbn [entry_address]. destruct (list_eq_dec N.eq_dec a a) as [_|X]; [|now elim X].
      destruct (bm_get cmp_addr (w_accounts w) a) as [e|] eqn:G; [|reflexivity]. apply (bm_get_in _ addr_order) in G; [|auto].
      cbn. rewrite (bm_get_remove _ N_order) by eauto. now rewrite N_refl.
    + rewrite (entry_eqb_neq _ _ Nf). destruct (list_eq_dec N.eq_dec (entry_address f) a) as [A|]; [|reflexivity].
      unfold world_field, accounts_field. rewrite A. destruct (bm_get cmp_addr (w_accounts w) a) as [e|] eqn:G; [|reflexivity].
      destruct f; cbn in *; try reflexivity. subst. apply (bm_get_in _ addr_order) in G; [|auto]. rewrite (bm_get_remove _ N_order) by eauto.
      destruct (N.compare slot0 slot) eqn:C; try reflexivity. apply N.compare_eq in C. congruence.
  - unfold destroy_slot2, modify2. now destruct (bm_get cmp_addr (w_accounts w) a).
Qed.
Print Assumptions C59_destroy_slot.

(** Reading a slot of an existing account gives its value, zero when it has none. *)
Theorem C59_load : forall w a slot, load_int2 w a slot =
  if contains2 w a then Some (or_default (world_field w (Storage a slot))) else None.
Proof.
  intros w a slot. unfold load_int2, contains2, world_field, accounts_field. cbn [entry_address]. now destruct (bm_get cmp_addr (w_accounts w) a).
Qed.
Print Assumptions C59_load.

(** The operations keep the maps sorted, and only [destroy2] removes an account. *)
Theorem C59_ok : forall w a f g slot v ch code, world_ok w ->
  world_ok (update_balance2 w a f) /\ world_ok (update_nonce2 w a g) /\ world_ok (set_code2 ch w a code) /\ world_ok (store_int2 w a slot v) /\
  world_ok (destroy2 w a) /\ world_ok (destroy_storage2 w a) /\ world_ok (destroy_slot2 w a slot).
Proof.
  intros w a f g slot v ch code W. pose proof (account_sorted w a W) as S.
  assert (M : forall h, (forall e, sorted N.compare (e_storage e) -> sorted N.compare (e_storage (h e))) -> world_ok (modify2 w a h)).
  { intros h Hh. unfold modify2. destruct (bm_get cmp_addr (w_accounts w) a) as [e|] eqn:G; [|auto]. apply set_account_ok; [auto|]. apply Hh.
    destruct W as [[W1 W2] _]. apply (bm_get_in _ addr_order) in G; eauto. }
  split; [apply set_account_ok; auto|]. split; [apply set_account_ok; auto|]. split.
  { unfold set_code2. apply set_account_ok; [auto|]. destruct code; exact S. }
  split; [apply set_account_ok; [auto|]; cbn; now apply (bm_insert_sorted _ N_order)|]. split.
  { destruct W as [[W1 W2] W3]. split; [|exact W3]. split; cbn; [now apply (bm_remove_sorted _)|]. intros a' e' X. apply bm_remove_in in X. eauto. }
  split; [apply M; intros; exact Logic.I|]. apply M. intros e Se. cbn. now apply (bm_remove_sorted _).
Qed.
Print Assumptions C59_ok.

(** Code given as a hash leaves the length of the old code. *)
Theorem C59_code_length_stale_refuted : exists ch w a bytes h,
  world_field (set_code2 ch w a (inl bytes)) (CodeLength a) = Some 3%N /\
  world_field (set_code2 ch (set_code2 ch w a (inl bytes)) a (inr h)) (Code a) = Some h /\
  world_field (set_code2 ch (set_code2 ch w a (inl bytes)) a (inr h)) (CodeLength a) = Some 3%N /\ ch bytes <> h.
Proof.
  exists (fun _ => 7%N), {| w_accounts := []; w_hashed_out := [] |}, ex_addr, [1%N; 2%N; 3%N], 8%N.
  split; [vm_compute; reflexivity|]. split; [vm_compute; reflexivity|]. split; [vm_compute; reflexivity|discriminate].
Qed.
Print Assumptions C59_code_length_stale_refuted.

(** *** The root after an operation *)

(** Entries are of the right size and values are words. *)
Definition fields_valid (w : type2_world) : Prop := forall f v, world_field w f = Some v -> entry_valid f /\ (v < 2 ^ 256)%N.
(** The hashes that derive the keys do not collide. *)
Definition keys_separate (pos : node -> quad) (P : entry -> Prop) : Prop :=
  forall f f', P f -> P f' -> separates pos (entry_states pos f ++ entry_states pos f').
Definition has (w : type2_world) (f : entry) : Prop := world_field w f <> None.
(** The hash nodes are not under each other, and not hashes of the nodes of [s]. *)
Definition hidden_ok (pos : node -> quad) (w : type2_world) (s : smt) : Prop :=
  hash_positions_ok (hash_calls w) /\
  forall p h, In (p, h) (hash_calls w) -> length p <= 256 /\ h <> zero /\ forall n, In n (hashed s) -> pos n <> h.

Section After.
  Variable pos : node -> quad.
  Hypothesis pos_valid : forall n, qvalid (pos n).

  Lemma set_calls_valid w : entries_ok (w_accounts w) -> fields_valid w -> Forall valid_call (set_calls pos w).
  Proof.
    intros W V. apply Forall_forall. intros [k v] X. apply in_set_calls in X as (f & E & ->); [|auto]. destruct (V _ _ E) as [_ Hv].
    destruct (key_valid pos pos_valid f) as (A & B & C & D). repeat split; auto.
  Qed.

  (** The calls leave, under the key of a field, the value of the field. *)
  Lemma contents_field w f (P : entry -> Prop) : entries_ok (w_accounts w) -> fields_valid w -> (forall g, has w g -> P g) -> keys_separate pos P -> P f -> entry_valid f ->
    contents (set_calls pos w) (entry_key pos f) = or_default (world_field w f).
  Proof.
    intros W V HP K Pf Ef. destruct (world_field w f) as [v|] eqn:E; cbn [or_default].
    - apply contents_of; [apply in_set_calls; eauto|]. intros v' X. apply in_set_calls in X as (g & Eg & Ek); [|auto].
      assert (f = g); [|congruence]. apply (C48_entry_keys_distinct pos); auto; [apply (V _ _ Eg)|]. apply K; [auto|]. apply HP. unfold has. congruence.
    - apply contents_out. intros v X. apply in_set_calls in X as (g & Eg & Ek); [|auto].
      assert (f = g); [|congruence]. apply (C48_entry_keys_distinct pos); auto; [apply (V _ _ Eg)|]. apply K; [auto|]. apply HP. unfold has. congruence.
  Qed.
  Lemma contents_other w k : entries_ok (w_accounts w) -> (forall f, has w f -> k <> entry_key pos f) -> contents (set_calls pos w) k = 0%N.
  Proof. intros W H. apply contents_out. intros v X. apply in_set_calls in X as (f & E & ->); [|auto]. apply (H f); [|reflexivity]. unfold has. congruence. Qed.

  Lemma key_case (l : list entry) k : (exists f, In f l /\ k = entry_key pos f) \/ (forall f, In f l -> k <> entry_key pos f).
  Proof.
    induction l as [|f l IH]; [right; intros ? []|]. destruct (quad_eqb k (entry_key pos f)) eqn:Q.
    - left. exists f. split; [now left|]. now apply quad_eqb_eq.
    - destruct IH as [(g & G & Eg)|IH]; [left; exists g; split; [now right|auto]|]. right. intros g [<-|G]; [|auto]. now apply quad_eqb_neq.
  Qed.
  Lemma has_field w f : entries_ok (w_accounts w) -> (has w f <-> In f (map fst (fields w))).
  Proof.
    intros W. unfold has. rewrite in_map_iff. split.
    - intros H. destruct (world_field w f) as [v|] eqn:E; [|congruence]. exists (f, v). split; [reflexivity|]. now apply in_fields.
    - intros ([g v] & <- & X). apply in_fields in X; [|auto]. cbn. congruence.
  Qed.

  Lemma built_tree w s : world_ok w -> fields_valid w -> as_smt pos w = Some s -> separates pos (hashed s) -> hidden_ok pos w s ->
    exists t, inv pos (hashed s) s t /\ (forall x, In x (hashes [] t) <-> exists p h, x = (p, (true, h)) /\ In (p, h) (hash_calls w)) /\ holds t (contents (set_calls pos w)).
  Proof.
    intros [W _] V A Sep [H1 H2]. unfold as_smt in A. destruct (hash_run pos smt_default (hash_calls w)) as [sh|] eqn:R; [|discriminate].
    apply (build_tree pos (hash_calls w) (set_calls pos w) sh s); auto. now apply set_calls_valid.
  Qed.
End After.

(** Two worlds with the same hash nodes and the same fields, up to the difference
    between a missing field and a zero one, have the same root. *)
Theorem C59_root : forall pos w w' s s', (forall n, qvalid (pos n)) -> world_ok w -> world_ok w' -> fields_valid w -> fields_valid w' ->
  keys_separate pos (fun f => has w f \/ has w' f) -> w_hashed_out w = w_hashed_out w' ->
  as_smt pos w = Some s -> as_smt pos w' = Some s' -> separates pos (hashed s) -> separates pos (hashed s') -> hidden_ok pos w s -> hidden_ok pos w' s' ->
  (forall f, or_default (world_field w f) = or_default (world_field w' f)) -> root s = root s'.
Proof.
  intros pos w w' s s' Hp W W' V V' K Hh A A' Sep Sep' O O' E.
  destruct (built_tree pos Hp w s W V A Sep O) as (t & It & Ht & Hc). destruct (built_tree pos Hp w' s' W' V' A' Sep' O') as (t' & It' & Ht' & Hc').
  assert (EC : forall k, contents (set_calls pos w) k = contents (set_calls pos w') k).
  { intros k. destruct (key_case pos (map fst (fields w) ++ map fst (fields w')) k) as [(f & X & ->)|X].
    - assert (P : has w f \/ has w' f) by (apply in_app_iff in X as [X|X]; [left|right]; (apply has_field; [apply W || apply W'|auto])).
      assert (Ef : entry_valid f) by (destruct P as [P|P]; unfold has in P; [destruct (world_field w f) as [v|] eqn:Q; [apply (V _ _ Q)|congruence]|destruct (world_field w' f) as [v|] eqn:Q; [apply (V' _ _ Q)|congruence]]).
      rewrite (contents_field pos w f (fun f => has w f \/ has w' f)), (contents_field pos w' f (fun f => has w f \/ has w' f)); auto; apply W || apply W'.
    - rewrite !contents_other; [reflexivity| | | |]; try apply W; try apply W'; intros f Hf; apply X, in_app_iff; [right|left]; apply has_field; auto; apply W || apply W'. }
  rewrite (inv_root _ _ _ _ It), (inv_root _ _ _ _ It'). f_equal. apply (tree_unique t t' []); try apply (inv_placed _ _ _ _ It); try apply (inv_placed _ _ _ _ It');
    try apply (inv_canon _ _ _ _ It); try apply (inv_canon _ _ _ _ It').
  - intros k v. rewrite (Hc k v), (Hc' k v), EC. tauto.
  - intros x h. rewrite Ht, Ht'. unfold hash_calls. rewrite Hh. tauto.
Qed.
Print Assumptions C59_root.

(** Without hash nodes, worlds with the same root have the same fields. *)
Theorem C59_root_binds : forall pos w w' s s', (forall n, qvalid (pos n)) -> world_ok w -> world_ok w' -> fields_valid w -> fields_valid w' ->
  keys_separate pos (fun f => has w f \/ has w' f) -> w_hashed_out w = [] -> w_hashed_out w' = [] ->
  as_smt pos w = Some s -> as_smt pos w' = Some s' -> separates pos (hashed s ++ hashed s') -> root s = root s' ->
  forall f, or_default (world_field w f) = or_default (world_field w' f).
Proof.
  intros pos w w' s s' Hp W W' V V' K H0 H0' A A' Sep R f. unfold as_smt, hash_calls in A, A'. rewrite H0 in A. rewrite H0' in A'. cbn [map hash_run fold_left] in A, A'.
  pose proof (C16_root_binds_contents pos (set_calls pos w) (set_calls pos w') s s' ltac:(apply set_calls_valid; [auto|apply W|auto]) ltac:(apply set_calls_valid; [auto|apply W'|auto]) A A' Sep R) as EC.
  destruct (world_field w f) as [v|] eqn:Q, (world_field w' f) as [v'|] eqn:Q'; cbn [or_default]; try reflexivity.
  - specialize (EC (entry_key pos f)). rewrite (contents_field pos w f (fun f => has w f \/ has w' f)), (contents_field pos w' f (fun f => has w f \/ has w' f)), Q, Q' in EC; auto;
      try apply W; try apply W'; try (left; unfold has; congruence); apply (V _ _ Q).
  - specialize (EC (entry_key pos f)). rewrite (contents_field pos w f (fun f => has w f \/ has w' f)), (contents_field pos w' f (fun f => has w f \/ has w' f)), Q, Q' in EC; auto;
      try apply W; try apply W'; try (left; unfold has; congruence); apply (V _ _ Q).
  - specialize (EC (entry_key pos f)). rewrite (contents_field pos w f (fun f => has w f \/ has w' f)), (contents_field pos w' f (fun f => has w f \/ has w' f)), Q, Q' in EC; auto;
      try apply W; try apply W'; try (right; unfold has; congruence); apply (V' _ _ Q').
Qed.
Print Assumptions C59_root_binds.

(** Rebuilding the tree after one field is rewritten gives the root of setting the
    key of that field in the tree of before. *)
Theorem C59_incremental : forall pos w w' f v s s1 s', (forall n, qvalid (pos n)) -> world_ok w -> world_ok w' -> fields_valid w -> fields_valid w' ->
  entry_valid f -> (or_default v < 2 ^ 256)%N -> writes w w' f v -> keys_separate pos (fun g => has w g \/ g = f) ->
  as_smt pos w = Some s -> set pos s (entry_key pos f) (or_default v) = Some s1 -> as_smt pos w' = Some s' ->
  separates pos (hashed s1) -> separates pos (hashed s') -> hidden_ok pos w s1 -> hidden_ok pos w' s' ->
  root s1 = root s'.
Proof.
  intros pos w w' f v s s1 s' Hp W W' V V' Ef Hv [Wr Hh] K A A1 A' Sep Sep' O O'.
  destruct (built_tree pos Hp w' s' W' V' A' Sep' O') as (t' & It' & Ht' & Hc').
  unfold as_smt in A. destruct (hash_run pos smt_default (hash_calls w)) as [sh|] eqn:R; [|discriminate].
  assert (R1 : smt_run pos sh (set_calls pos w ++ [(entry_key pos f, or_default v)]) = Some s1) by (rewrite smt_run_snoc, A; exact A1).
  destruct O as [O1 O2]. destruct (build_tree pos (hash_calls w) (set_calls pos w ++ [(entry_key pos f, or_default v)]) sh s1) as (t & It & Ht & Hc); auto.
  { apply Forall_app. split; [apply set_calls_valid; [auto|apply W|auto]|]. constructor; [|constructor]. destruct (key_valid pos Hp f) as (X1 & X2 & X3 & X4). repeat split; auto. }
  assert (P' : forall g, has w' g -> has w g \/ g = f).
  { intros g G. unfold has in *. rewrite Wr in G. destruct (entry_dec g f) as [->|N]; [auto|]. rewrite (entry_eqb_neq _ _ N) in G. auto. }
  assert (EC : forall k, contents (set_calls pos w ++ [(entry_key pos f, or_default v)]) k = contents (set_calls pos w') k).
  { intros k. rewrite contents_snoc. unfold upd. cbn [fst snd]. destruct (quad_eqb k (entry_key pos f)) eqn:Q.
    - apply quad_eqb_eq in Q. subst k. rewrite (contents_field pos w' f (fun g => has w g \/ g = f)); auto; [|apply W']. now rewrite Wr, entry_eqb_refl.
    - apply quad_eqb_neq in Q. destruct (key_case pos (map fst (fields w)) k) as [(g & X & ->)|X].
      + apply has_field in X; [|apply W]. assert (Ng : g <> f) by congruence. assert (Eg : entry_valid g) by (unfold has in X; destruct (world_field w g) as [y|] eqn:Y; [apply (V _ _ Y)|congruence]).
        rewrite (contents_field pos w g (fun g => has w g \/ g = f)), (contents_field pos w' g (fun g => has w g \/ g = f)); auto; try apply W; try apply W'.
        now rewrite Wr, (entry_eqb_neq _ _ Ng).
      + rewrite !contents_other; [reflexivity|apply W'| |apply W|].
        * intros g G Ek. apply P' in G as [G| ->]; [|congruence]. apply (X g); [apply has_field; [apply W|auto]|auto].
        * intros g G. apply X. apply has_field; [apply W|auto]. }
  rewrite (inv_root _ _ _ _ It), (inv_root _ _ _ _ It'). f_equal. apply (tree_unique t t' []); try apply (inv_placed _ _ _ _ It); try apply (inv_placed _ _ _ _ It');
    try apply (inv_canon _ _ _ _ It); try apply (inv_canon _ _ _ _ It').
  - intros k x. rewrite (Hc k x), (Hc' k x), EC. tauto.
  - intros x h. rewrite Ht, Ht'. unfold hash_calls. rewrite Hh. tauto.
Qed.
Print Assumptions C59_incremental.

(** ** Concrete cases *)

(** A decision procedure for [no_collision]. *)
Definition prefixes {A : Type} (l : list A) : list (list A) := map (fun k => firstn k l) (seq 0 (S (length l))).
Definition statesb (pos : node -> quad) (w : type2_world) : list (option smt) :=
  map (hash_run pos smt_default) (prefixes (hash_calls w)) ++
  match hash_run pos smt_default (hash_calls w) with
  | Some sh => map (smt_run pos sh) (prefixes (set_calls pos w))
  | None => []
  end.
Definition freshb (pos : node -> quad) (w : type2_world) (s : smt) : bool :=
  forallb (fun c => negb (quad_eqb (snd c) zero) && forallb (fun n => negb (quad_eqb (pos n) (snd c))) (hashed s)) (hash_calls w).
Definition no_collisionb (pos : node -> quad) (w : type2_world) : bool :=
  forallb (fun o => match o with Some s => sepb pos (hashed s) && freshb pos w s | None => true end) (statesb pos w).

Lemma in_prefixes (A : Type) (l a b : list A) : l = a ++ b -> In a (prefixes l).
Proof.
  intros ->. unfold prefixes. apply in_map_iff. exists (length a). split; [rewrite firstn_app, Nat.sub_diag, firstn_all; cbn; now rewrite app_nil_r|].
  apply in_seq. rewrite app_length. lia.
Qed.
Lemma no_collisionb_ok pos w : no_collisionb pos w = true -> no_collision pos w.
Proof.
  intros H s B. unfold no_collisionb in H. rewrite forallb_forall in H.
  assert (X : In (Some s) (statesb pos w)).
  { unfold statesb. apply in_app_iff. destruct B as [(h1 & h2 & E & R)|(sh & c1 & c2 & R & E & S)].
    - left. rewrite <- R. apply in_map. eapply in_prefixes; eauto.
    - right. rewrite R, <- S. apply in_map. eapply in_prefixes; eauto. }
  apply H in X. apply andb_prop in X as [X1 X2]. split; [now apply sepb_ok|]. intros p h Hin. unfold freshb in X2. rewrite forallb_forall in X2.
  apply X2 in Hin. cbn [snd] in Hin. apply andb_prop in Hin as [Y1 Y2]. split.
  - apply quad_eqb_neq. now destruct (quad_eqb h zero).
  - intros n Hn. rewrite forallb_forall in Y2. specialize (Y2 _ Hn). apply quad_eqb_neq. now destruct (quad_eqb (pos n) h).
Qed.

Definition leaf_ex (t : smt_leaf_type) (v : list N) : smt_leaf_rec := {| l_node_type := t; l_address := ex_addr; l_value := v |}.
Definition hash_ex (x : N) : list N := repeat x 32.
Definition l_ex : list instruction :=
  [ICode [1%N; 2%N]; IBranch 3; IBranch 3; ISmtLeaf (leaf_ex SBalance [1%N; 0%N]); IHash (hash_ex 17);
   IBranch 3; IBranch 1; IBranch 3; ICode [3%N]; ISmtLeaf (leaf_ex SNonce [5%N]); ISmtLeaf (leaf_ex SCodeLength [2%N]); IHash (hash_ex 33)].
Definition n_ex : snode :=
  SBoth (SBoth (SLeafN (leaf_ex SBalance [1%N; 0%N])) (SHash (hash_ex 17)))
        (SBoth (SLeft (SBoth (SLeafN (leaf_ex SNonce [5%N])) (SLeafN (leaf_ex SCodeLength [2%N])))) (SHash (hash_ex 33))).

(** Two codes, three leaves and two hash nodes: the world holds the three fields, has the
    root of the witness, and the serialization read is that of the tree. *)
Example C58_case : exists w, preorder n_ex (filter not_code l_ex) /\ acceptable n_ex /\
  frontend2 l_ex = Some (w, [[1%N; 2%N]; [3%N]]) /\ node2world n_ex = Some w /\
  world_field w (Balance ex_addr) = Some 256%N /\ world_field w (Nonce ex_addr) = Some 5%N /\ world_field w (Code ex_addr) = None /\
  hidden w [false; true] = Some (hash_ex 17) /\ leaves_in_place toy n_ex /\ compact n_ex /\ no_collision toy w /\
  option_map root (as_smt toy w) = Some (node_hash toy 0 n_ex).
Proof.
  assert (F : fold l_ex = Some (n_ex, [[1%N; 2%N]; [3%N]])) by (vm_compute; reflexivity).
  assert (NW : exists w, node2world n_ex = Some w) by (eexists; vm_compute; reflexivity). destruct NW as [w W]. exists w.
  split; [now apply C58_fold in F|]. split; [now apply C58_world in W|]. split; [unfold frontend2; now rewrite F, W|]. split; [exact W|].
  assert (Ew : Some w = node2world n_ex) by (symmetry; exact W). vm_compute in Ew.
  assert (Ew' : w = match node2world n_ex with Some w => w | None => w end) by now rewrite W. clear Ew.
  split; [rewrite Ew'; vm_compute; reflexivity|]. split; [rewrite Ew'; vm_compute; reflexivity|]. split; [rewrite Ew'; vm_compute; reflexivity|].
  split; [rewrite Ew'; vm_compute; reflexivity|]. split.
  { intros p r X. unfold n_ex in X.
    repeat match goal with H : at_path _ _ _ |- _ => inversion H; clear H; subst end;
      (split; [match goal with |- exists q, split ?k = ?p ++ q => exists (skipn (length p) (split k)) end; vm_compute; reflexivity|]; split; [cbn; lia|]; split; [vm_compute; discriminate|vm_compute; reflexivity]). }
  split.
  { intros p r. split; intros X; unfold n_ex in X; repeat match goal with H : at_path _ _ _ |- _ => inversion H; clear H; subst end. }
  split; [apply no_collisionb_ok; rewrite Ew'; vm_compute; reflexivity|]. rewrite Ew'. vm_compute. reflexivity.
Qed.

(** A leaf alone under a branch is accepted, but the root of the world is then not the
    root of the witness. *)
Theorem C58_lone_leaf_refuted : exists n w s, node2world n = Some w /\ leaves_in_place toy n /\ no_collision toy w /\
  as_smt toy w = Some s /\ root s <> node_hash toy 0 n.
Proof.
  exists (SLeft (SLeafN (leaf_ex SBalance [7%N]))). eexists _, _. split; [vm_compute; reflexivity|]. split.
  { intros p r X. repeat match goal with H : at_path _ _ _ |- _ => inversion H; clear H; subst end.
    (split; [match goal with |- exists q, split ?k = ?p ++ q => exists (skipn (length p) (split k)) end; vm_compute; reflexivity|]; split; [cbn; lia|]; split; [vm_compute; discriminate|vm_compute; reflexivity]). }
  split; [apply no_collisionb_ok; vm_compute; reflexivity|]. split; [vm_compute; reflexivity|]. vm_compute. discriminate.
Qed.
Print Assumptions C58_lone_leaf_refuted.

(** A world with a hash node: setting a nonce, then the slots of two accounts. *)
Definition w_ex : type2_world := match node2world n_ex with Some w => w | None => {| w_accounts := []; w_hashed_out := [] |} end.
Definition other_addr : list N := repeat 1%N 20.
Example C59_case :
  let w1 := store_int2 (update_nonce2 w_ex ex_addr N.succ) other_addr 3 4 in
  world_field w1 (Nonce ex_addr) = Some 6%N /\ world_field w1 (Balance ex_addr) = Some 256%N /\ load_int2 w1 other_addr 3 = Some 4%N /\
  load_int2 w1 other_addr 5 = Some 0%N /\ load_int2 w_ex other_addr 3 = None /\ contains2 w_ex other_addr = false /\
  option_map root (as_smt toy (destroy2 (store_int2 w_ex other_addr 3 4) other_addr)) = option_map root (as_smt toy w_ex) /\
  (exists s s1, as_smt toy w_ex = Some s /\ set toy s (entry_key toy (Nonce ex_addr)) 6 = Some s1 /\
    option_map root (as_smt toy (update_nonce2 w_ex ex_addr N.succ)) = Some (root s1) /\ root s <> root s1).
Proof.
  repeat (split; [vm_compute; reflexivity|]). eexists _, _. split; [vm_compute; reflexivity|]. split; [vm_compute; reflexivity|]. split; [vm_compute; reflexivity|]. vm_compute. discriminate.
Qed.

Example C59_incremental_case : exists s s1 s', let w' := update_nonce2 w_ex ex_addr N.succ in
  world_ok w_ex /\ world_ok w' /\ fields_valid w_ex /\ fields_valid w' /\ writes w_ex w' (Nonce ex_addr) (Some 6%N) /\
  keys_separate toy (fun g => has w_ex g \/ g = Nonce ex_addr) /\ as_smt toy w_ex = Some s /\
  set toy s (entry_key toy (Nonce ex_addr)) 6 = Some s1 /\ as_smt toy w' = Some s' /\
  separates toy (hashed s1) /\ separates toy (hashed s') /\ hidden_ok toy w_ex s1 /\ hidden_ok toy w' s' /\ hash_calls w_ex <> [].
Proof.
  assert (W : world_ok w_ex) by (apply (node2world_ok n_ex); vm_compute; reflexivity).
  assert (W' : world_ok (update_nonce2 w_ex ex_addr N.succ)) by (apply (C59_ok w_ex ex_addr N.succ N.succ 0 0 (fun _ => 0%N) (inr 0%N) W)).
  assert (FV : forall w, world_ok w -> forallb (fun fv => match fst fv with Balance a | Nonce a | Code a | CodeLength a => (length a =? 20) && forallb (fun b => b <? 256)%N a
      | Storage a s => (length a =? 20) && forallb (fun b => b <? 256)%N a && (s <? 2 ^ 256)%N end && (snd fv <? 2 ^ 256)%N) (fields w) = true -> fields_valid w).
  { intros w Hw B f v E. apply in_fields in E; [|apply Hw]. rewrite forallb_forall in B. apply B in E. cbn [fst snd] in E. apply andb_prop in E as [E1 E2].
    apply N.ltb_lt in E2. split; [|exact E2].
    assert (Q : forall a, (length a =? 20) && forallb (fun b => (b <? 256)%N) a = true -> length a = 20 /\ is_bytes a).
    { intros a X. apply andb_prop in X as [X1 X2]. apply Nat.eqb_eq in X1. split; [exact X1|]. rewrite forallb_forall in X2. apply Forall_forall. intros b Hb. apply N.ltb_lt. auto. }
    destruct f; cbn [entry_valid]; auto. apply andb_prop in E1 as [E1 E3]. apply Q in E1 as [E1 E4]. apply N.ltb_lt in E3. auto. }
  assert (HO : forall w s, forallb (fun c => (length (fst c) <=? 256) && negb (quad_eqb (snd c) zero) && forallb (fun n => negb (quad_eqb (toy n) (snd c))) (hashed s)) (hash_calls w) = true ->
     forall p h, In (p, h) (hash_calls w) -> length p <= 256 /\ h <> zero /\ forall n, In n (hashed s) -> toy n <> h).
  { intros w s B p h X. rewrite forallb_forall in B. apply B in X. cbn [fst snd] in X. apply andb_prop in X as [X1 X3]. apply andb_prop in X1 as [X1 X2].
    apply Nat.leb_le in X1. split; [exact X1|]. split; [apply quad_eqb_neq; now destruct (quad_eqb h zero)|]. intros n Hn. rewrite forallb_forall in X3. specialize (X3 _ Hn).
    apply quad_eqb_neq. now destruct (quad_eqb (toy n) h). }
  assert (PO : hash_positions_ok (hash_calls w_ex)) by (apply (hash_calls_ok n_ex w_ex); vm_compute; reflexivity).
  eexists _, _, _. cbn zeta. split; [exact W|]. split; [exact W'|]. split; [apply FV; [exact W|vm_compute; reflexivity]|]. split; [apply FV; [exact W'|vm_compute; reflexivity]|].
  split; [pose proof (C59_update_nonce w_ex ex_addr N.succ) as X; exact X|]. split.
  { assert (B : forallb (fun f => forallb (fun g => sepb toy (entry_states toy f ++ entry_states toy g)) (map fst (fields w_ex))) (map fst (fields w_ex)) = true) by (vm_compute; reflexivity).
    assert (In' : forall f, has w_ex f \/ f = Nonce ex_addr -> In f (map fst (fields w_ex))).
    { intros f [X|X]; [apply has_field; [apply W|auto]|subst]. vm_compute. auto 9. }
    intros f g Hf Hg. apply sepb_ok. rewrite forallb_forall in B. specialize (B f (In' f Hf)). rewrite forallb_forall in B. apply (B g (In' g Hg)). }
  split; [vm_compute; reflexivity|]. split; [vm_compute; reflexivity|]. split; [vm_compute; reflexivity|].
  split; [apply sepb_ok; vm_compute; reflexivity|]. split; [apply sepb_ok; vm_compute; reflexivity|].
  split; [split; [exact PO|apply HO; vm_compute; reflexivity]|]. split; [split; [exact PO|apply HO; vm_compute; reflexivity]|]. vm_compute. discriminate.
Qed.
