(** Memory of the prover: addresses (C41) and the map (C42). *)
From Coq Require Import ZArith List Bool Lia.
From Coq Require Import ZifyBool ZifyNat.
From Verif Require Import Witness.MemoryModel.
Import ListNotations.
Local Open Scope Z_scope.

(** * Specification *)

(** A triple the kernel may pack: 32-bit context and offset, one of the 39
    segments. *)
Definition valid_triple (c s v : Z) : Prop := 0 <= c < 2^32 /\ 0 <= s < 39 /\ 0 <= v < 2^32.
(** The packed form of the documentation: offset in the lowest 32-bit limb,
    segment in the next, context in the next. *)
Definition pack (c s v : Z) : Z := c * 2^64 + s * 2^32 + v.

(** * C41 *)

Lemma shiftr32 : forall x, Z.shiftr x 32 = x / 2^32.
Proof. intros. apply Z.shiftr_div_pow2. lia. Qed.
Lemma shiftr64 : forall x, Z.shiftr x 64 = x / 2^64.
Proof. intros. apply Z.shiftr_div_pow2. lia. Qed.

Lemma new_bundle_fields : forall x,
  new_bundle x = if 39 <=? (x / 2^32) mod 2^32 then None else Some (mk_maddr ((x / 2^64) mod 2^32) ((x / 2^32) mod 2^32) (x mod 2^32)).
Proof. intros. unfold new_bundle, SEGMENT_SCALING_FACTOR, CONTEXT_SCALING_FACTOR, low_u32, SEGMENT_COUNT. rewrite shiftr32, shiftr64. reflexivity. Qed.

(** C41: packing and unpacking, for every valid triple; distinct triples have
    distinct packed forms; and an address unpacks exactly when its second limb
    is a segment, to its three lowest limbs. *)
Theorem C41_round_trip : forall c s v, valid_triple c s v -> new_bundle (pack c s v) = Some (mk_maddr c s v).
Proof.
  intros c s v (C & S & V). rewrite new_bundle_fields. unfold pack.
  replace ((c * 2^64 + s * 2^32 + v) / 2^64) with c by (apply Z.div_unique with (r := s * 2^32 + v); lia).
  replace ((c * 2^64 + s * 2^32 + v) / 2^32) with (c * 2^32 + s) by (apply Z.div_unique with (r := v); lia).
  replace ((c * 2^32 + s) mod 2^32) with s by (apply Z.mod_unique with (q := c); lia).
  replace ((c * 2^64 + s * 2^32 + v) mod 2^32) with v by (apply Z.mod_unique with (q := c * 2^32 + s); lia).
  rewrite (Z.mod_small c) by lia. destruct (Z.leb_spec 39 s); [lia|reflexivity].
Qed.

Theorem C41_injective : forall c s v c' s' v',
  valid_triple c s v -> valid_triple c' s' v' -> pack c s v = pack c' s' v' -> c = c' /\ s = s' /\ v = v'.
Proof. unfold valid_triple, pack. intros. lia. Qed.

Theorem C41_unpack : forall x a, 0 <= x -> new_bundle x = Some a ->
  valid_triple (a_context a) (a_segment a) (a_virt a) /\ x mod 2^96 = pack (a_context a) (a_segment a) (a_virt a).
Proof.
  intros x a X H. rewrite new_bundle_fields in H. destruct (Z.leb_spec 39 ((x / 2^32) mod 2^32)) as [|S]; [discriminate|].
  assert (a = mk_maddr ((x / 2 ^ 64) mod 2 ^ 32) ((x / 2 ^ 32) mod 2 ^ 32) (x mod 2 ^ 32)) by congruence. subst a. cbn [a_context a_segment a_virt].
  unfold valid_triple, pack.
  pose proof (Z.mod_pos_bound (x / 2^64) (2^32) ltac:(lia)). pose proof (Z.mod_pos_bound (x / 2^32) (2^32) ltac:(lia)).
  pose proof (Z.mod_pos_bound x (2^32) ltac:(lia)). split; [lia|]. clear - X.
  symmetry. apply Z.mod_unique with (q := x / 2^96).
  - left. pose proof (Z.mod_pos_bound (x / 2^64) (2^32) ltac:(lia)). pose proof (Z.mod_pos_bound (x / 2^32) (2^32) ltac:(lia)).
    pose proof (Z.mod_pos_bound x (2^32) ltac:(lia)). lia.
  - replace (x / 2^64) with (x / 2^32 / 2^32) by (rewrite Z.div_div by lia; reflexivity).
    replace (x / 2^96) with (x / 2^32 / 2^32 / 2^32) by (rewrite !Z.div_div by lia; reflexivity).
    pose proof (Z.div_mod x (2^32) ltac:(lia)). pose proof (Z.div_mod (x / 2^32) (2^32) ltac:(lia)).
    pose proof (Z.div_mod (x / 2^32 / 2^32) (2^32) ltac:(lia)). lia.
Qed.

Theorem C41_rejected : forall x, 0 <= x -> (new_bundle x = None <-> 39 <= (x / 2^32) mod 2^32).
Proof. intros x X. rewrite new_bundle_fields. destruct (Z.leb_spec 39 ((x / 2^32) mod 2^32)); split; intros; try discriminate; try reflexivity; lia. Qed.

(** The packed form is not unique among the words: the limbs above the third
    are ignored, so that two addresses denote one cell. *)
Theorem C41_canonical_refuted : exists x y, x <> y /\ 0 <= x < 2^256 /\ 0 <= y < 2^256 /\ new_bundle x <> None /\ new_bundle x = new_bundle y.
Proof. exists 5, (5 + 2^96). vm_compute. repeat split; discriminate. Qed.

Example C41_example : new_bundle (pack 7 38 4294967295) = Some (mk_maddr 7 38 4294967295) /\ new_bundle (pack 7 39 0) = None.
Proof. vm_compute. split; reflexivity. Qed.

(** * C42 *)

(** Addresses the code can hold. *)
Definition valid_addr (a : maddr) : Prop := 0 <= a_context a /\ 0 <= a_segment a < 39 /\ 0 <= a_virt a.
(** Every context has the 39 segments. *)
Definition mem_wf (m : mem_state) : Prop := Forall (fun c => length c = 39%nat) (m_contexts m) /\ (1 <= length (m_contexts m))%nat.

Lemma update_at_length : forall {A} n (x : A) l, (n < length l)%nat -> length (update_at n x l) = length l.
Proof. intros. unfold update_at. rewrite app_length, firstn_length. cbn [length]. rewrite skipn_length. lia. Qed.

Lemma update_at_nth : forall {A} n (x : A) l k, (n < length l)%nat ->
  nth_error (update_at n x l) k = if (k =? n)%nat then Some x else nth_error l k.
Proof.
  intros A n x l k L. unfold update_at. assert (F : length (firstn n l) = n) by (rewrite firstn_length; lia).
  destruct (Nat.eqb_spec k n) as [->|N].
  - rewrite nth_error_app2 by lia. rewrite F, Nat.sub_diag. reflexivity.
  - destruct (Nat.ltb_spec k n).
    + rewrite nth_error_app1 by lia. rewrite <- (firstn_skipn n l) at 2. rewrite nth_error_app1 by lia. reflexivity.
    + rewrite nth_error_app2 by lia. rewrite F. destruct (k - n)%nat as [|j] eqn:J; [lia|]. cbn [nth_error].
      rewrite <- (firstn_skipn (S n) l) at 2. rewrite nth_error_app2 by (rewrite firstn_length; lia). rewrite firstn_length. f_equal. lia.
Qed.

Lemma nth_error_repeat_lt : forall {A} (x : A) n k, (k < n)%nat -> nth_error (repeat x n) k = Some x.
Proof. intros A x n. induction n; intros k L; [lia|]. destruct k; [reflexivity|]. apply IHn. lia. Qed.
Lemma nth_error_repeat_inv : forall {A} (x : A) n k, nth_error (repeat x n) k = if (k <? n)%nat then Some x else None.
Proof.
  intros. destruct (Nat.ltb_spec k n); [apply nth_error_repeat_lt; assumption|]. apply nth_error_None. rewrite repeat_length. assumption.
Qed.

Lemma seg_get_set : forall s v x w, 0 <= v -> 0 <= w -> seg_get (seg_set s v x) w = if w =? v then Some x else seg_get s w.
Proof.
  intros s v x w V W. unfold seg_get, seg_set. set (s' := if (length s <=? Z.to_nat v)%nat then s ++ repeat None (S (Z.to_nat v) - length s) else s).
  assert (L : (Z.to_nat v < length s')%nat).
  { unfold s'. destruct (Nat.leb_spec (length s) (Z.to_nat v)); [rewrite app_length, repeat_length; lia|lia]. }
  rewrite update_at_nth by exact L. destruct (Z.eqb_spec w v) as [->|N]; [rewrite Nat.eqb_refl; reflexivity|].
  destruct (Nat.eqb_spec (Z.to_nat w) (Z.to_nat v)); [lia|]. unfold s'. destruct (Nat.leb_spec (length s) (Z.to_nat v)); [|reflexivity].
  destruct (Nat.ltb_spec (Z.to_nat w) (length s)).
  - rewrite nth_error_app1 by assumption. reflexivity.
  - rewrite nth_error_app2 by assumption. rewrite nth_error_repeat_inv.
    assert (nth_error s (Z.to_nat w) = None) as -> by (apply nth_error_None; assumption). destruct (_ <? _)%nat; reflexivity.
Qed.

Lemma default_length : length context_default = 39%nat.
Proof. reflexivity. Qed.
Lemma default_nth : forall k s, nth_error context_default k = Some s -> s = [].
Proof. intros k s H. apply nth_error_In in H. apply repeat_spec in H. exact H. Qed.

Lemma push_contexts_length : forall l c, (Z.to_nat c < length (push_contexts l c))%nat.
Proof. intros. unfold push_contexts. rewrite app_length, repeat_length. lia. Qed.
Lemma push_contexts_wf : forall l c, Forall (fun x : context_state => length x = 39%nat) l -> Forall (fun x => length x = 39%nat) (push_contexts l c).
Proof. intros. apply Forall_app. split; [assumption|]. apply Forall_forall. intros x I. apply repeat_spec in I. subst. reflexivity. Qed.

Lemma mem_get_push : forall l p c a, 0 <= a_context a ->
  mem_get (mk_mem (push_contexts l c) p) a = mem_get (mk_mem l p) a.
Proof.
  intros l p c a A. unfold mem_get. cbn [m_contexts]. unfold push_contexts. destruct (Nat.ltb_spec (Z.to_nat (a_context a)) (length l)).
  - rewrite nth_error_app1 by assumption. reflexivity.
  - assert (nth_error l (Z.to_nat (a_context a)) = None) as -> by (apply nth_error_None; assumption).
    rewrite nth_error_app2 by assumption. rewrite nth_error_repeat_inv. destruct (_ <? _)%nat; [|reflexivity].
    destruct (_ <=? _); [reflexivity|]. destruct (nth_error context_default _) eqn:E; [|reflexivity].
    apply default_nth in E. subst. unfold seg_get. destruct (Z.to_nat (a_virt a)); reflexivity.
Qed.

Lemma maddr_eqb_spec : forall a b, reflect (a = b) (maddr_eqb a b).
Proof.
  intros [c s v] [c' s' v']. unfold maddr_eqb. cbn [a_context a_segment a_virt].
  destruct (Z.eqb_spec c c'), (Z.eqb_spec s s'), (Z.eqb_spec v v'); cbn [andb]; constructor; congruence.
Qed.

Lemma mem_set_some : forall m a x, mem_wf m -> valid_addr a -> exists m', mem_set m a x = Some m' /\ mem_wf m' /\ m_preinit m' = m_preinit m.
Proof.
  intros m a x (W & N) (C & S & V). unfold mem_set, SEGMENT_COUNT. destruct (Z.leb_spec 39 (a_segment a)); [lia|].
  eexists. split; [reflexivity|]. split; [|reflexivity]. unfold mem_wf. cbn [m_contexts].
  pose proof (push_contexts_length (m_contexts m) (a_context a)) as L. pose proof (push_contexts_wf _ (a_context a) W) as W'.
  set (cs := push_contexts (m_contexts m) (a_context a)) in *. split.
  - apply Forall_forall. intros c I. apply In_nth_error in I. destruct I as (k & E). rewrite update_at_nth in E by exact L.
    destruct (Nat.eqb_spec k (Z.to_nat (a_context a))).
    + assert (length (nth (Z.to_nat (a_context a)) cs []) = 39%nat).
      { rewrite Forall_forall in W'. apply W'. apply nth_In. exact L. }
      assert (c = update_at (Z.to_nat (a_segment a)) (seg_set (nth (Z.to_nat (a_segment a)) (nth (Z.to_nat (a_context a)) cs []) []) (a_virt a) x) (nth (Z.to_nat (a_context a)) cs [])) by congruence. subst c.
      rewrite update_at_length; lia.
    + rewrite Forall_forall in W'. apply W'. eapply nth_error_In. exact E.
  - rewrite update_at_length by exact L. lia.
Qed.

Lemma mem_get_set : forall m a x m' b, mem_wf m -> valid_addr a -> valid_addr b -> mem_set m a x = Some m' ->
  mem_get m' b = if maddr_eqb b a then Some x else mem_get m b.
Proof.
  intros m a x m' b (W & N) (C & S & V) (C' & S' & V') H. unfold mem_set, SEGMENT_COUNT in H. destruct (Z.leb_spec 39 (a_segment a)); [lia|].
  pose proof (push_contexts_length (m_contexts m) (a_context a)) as L. pose proof (push_contexts_wf _ (a_context a) W) as W'.
  assert (mem_get m b = mem_get (mk_mem (push_contexts (m_contexts m) (a_context a)) (m_preinit m)) b) as ->.
  { rewrite mem_get_push by lia. destruct m. reflexivity. }
  set (cs := push_contexts (m_contexts m) (a_context a)) in *.
  assert (G : length (nth (Z.to_nat (a_context a)) cs []) = 39%nat).
  { rewrite Forall_forall in W'. apply W'. apply nth_In. exact L. }
  assert (E : nth_error cs (Z.to_nat (a_context a)) = Some (nth (Z.to_nat (a_context a)) cs [])) by (apply nth_error_nth'; exact L).
  set (c := nth (Z.to_nat (a_context a)) cs []) in *.
  assert (F : nth_error c (Z.to_nat (a_segment a)) = Some (nth (Z.to_nat (a_segment a)) c [])) by (apply nth_error_nth'; lia).
  set (s := nth (Z.to_nat (a_segment a)) c []) in *.
  assert (m' = mk_mem (update_at (Z.to_nat (a_context a)) (update_at (Z.to_nat (a_segment a)) (seg_set s (a_virt a) x) c) cs) (m_preinit m)) by congruence.
  subst m'. unfold mem_get. cbn [m_contexts]. rewrite update_at_nth by exact L. unfold SEGMENT_COUNT. destruct (Z.leb_spec 39 (a_segment b)); [lia|].
  unfold maddr_eqb. destruct (Z.eqb_spec (a_context b) (a_context a)) as [CE|NC].
  - rewrite CE, Nat.eqb_refl, E. rewrite update_at_nth by lia. destruct (Z.eqb_spec (a_segment b) (a_segment a)) as [SE|NS].
    + rewrite SE, Nat.eqb_refl, F. rewrite seg_get_set by lia. destruct (a_virt b =? a_virt a); reflexivity.
    + destruct (Nat.eqb_spec (Z.to_nat (a_segment b)) (Z.to_nat (a_segment a))); [lia|]. reflexivity.
  - destruct (Nat.eqb_spec (Z.to_nat (a_context b)) (Z.to_nat (a_context a))); [lia|]. reflexivity.
Qed.

(** The initial value of a cell: what the preinitialised segments hold. *)
Definition initial (m : mem_state) (a : maddr) : Z :=
  match preinit_get (m_preinit m) (a_segment a) with
  | Some content => match nth_error content (Z.to_nat (a_virt a)) with Some (Some v) => v | _ => 0 end
  | None => 0
  end.

Lemma get_with_init_value : forall m a, valid_addr a ->
  mem_get_with_init m a = Some (match mem_get m a with Some v => v | None => initial m a end).
Proof.
  intros m a (C & S & V). unfold mem_get_with_init, initial. destruct (mem_get m a); [reflexivity|]. unfold SEGMENT_COUNT.
  destruct (Z.leb_spec 39 (a_segment a)); [lia|]. destruct (preinit_get _ _) as [l|]; [|reflexivity].
  destruct (Z.ltb_spec (a_virt a) (Z.of_nat (length l))); [reflexivity|].
  assert (nth_error l (Z.to_nat (a_virt a)) = None) as -> by (apply nth_error_None; lia). reflexivity.
Qed.

(** What the map holds: a total function of the address. *)
Definition contents (m : mem_state) (a : maddr) : Z :=
  match mem_get_with_init m a with Some v => v | None => 0 end.

Lemma contents_set : forall m a x m' b, mem_wf m -> valid_addr a -> valid_addr b -> mem_set m a x = Some m' ->
  contents m' b = if maddr_eqb b a then x else contents m b.
Proof.
  intros m a x m' b W A B H. unfold contents. rewrite !get_with_init_value by assumption. rewrite (mem_get_set m a x m' b W A B H).
  destruct (mem_set_some m a x W A) as (m'' & E & _ & P). assert (m'' = m') by congruence. subst m''.
  unfold initial. rewrite P. destruct (maddr_eqb b a); reflexivity.
Qed.

(** C42, one write: it never panics, the written cell reads back the value,
    every other cell reads as before. *)
Theorem C42_set : forall m a x, mem_wf m -> valid_addr a ->
  exists m', mem_set m a x = Some m' /\ mem_wf m' /\
    (forall b, valid_addr b -> mem_get_with_init m' b = if maddr_eqb b a then Some x else mem_get_with_init m b) /\
    (forall b, valid_addr b -> mem_get m' b = if maddr_eqb b a then Some x else mem_get m b).
Proof.
  intros m a x W A. destruct (mem_set_some m a x W A) as (m' & E & W' & P). exists m'. split; [exact E|]. split; [exact W'|]. split.
  - intros b B. rewrite !get_with_init_value by exact B. rewrite (mem_get_set m a x m' b W A B E). unfold initial. rewrite P.
    destruct (maddr_eqb b a); reflexivity.
  - intros b B. apply mem_get_set; assumption.
Qed.

(** C42, a history: the specification keeps the list of writes, newest first,
    and looks the address up in it. *)
Fixpoint last_write (ops : list mop) (a : maddr) : option Z :=
  match ops with
  | [] => None
  | op :: ops =>
      match last_write ops a with
      | Some v => Some v
      | None => match mo_kind op with
                | MWrite => if maddr_eqb a (mo_address op) then Some (mo_value op) else None
                | MRead => None
                end
      end
  end.

Theorem C42_history : forall ops m, mem_wf m -> Forall (fun op => valid_addr (mo_address op)) ops ->
  exists m', apply_ops m ops = Some m' /\ mem_wf m' /\ m_preinit m' = m_preinit m /\
    forall b, valid_addr b ->
      mem_get m' b = match last_write ops b with Some v => Some v | None => mem_get m b end /\
      mem_get_with_init m' b = match last_write ops b with Some v => Some v | None => mem_get_with_init m b end.
Proof.
  induction ops as [|op ops IH]; intros m W F.
  - exists m. cbn [apply_ops last_write]. auto.
  - inversion F as [|? ? F1 F2]; subst. cbn [apply_ops last_write]. destruct (mo_kind op).
    + destruct (IH m W F2) as (m' & E & W' & P & G). exists m'. do 3 (split; [assumption|]). intros b B. destruct (G b B) as (G1 & G2).
      rewrite G1, G2. destruct (last_write ops b); auto.
    + destruct (mem_set_some m (mo_address op) (mo_value op) W F1) as (m1 & E1 & W1 & P1). rewrite E1.
      destruct (IH m1 W1 F2) as (m' & E & W' & P & G). exists m'. do 2 (split; [assumption|]). split; [congruence|].
      intros b B. destruct (G b B) as (G1 & G2). rewrite G1, G2. destruct (last_write ops b); [auto|].
      rewrite !get_with_init_value by exact B. rewrite (mem_get_set m _ _ m1 b W F1 B E1). unfold initial. rewrite P1.
      destruct (maddr_eqb b (mo_address op)); auto.
Qed.

(** C42, the defaults: in a new memory the kernel's code is in its place and
    every other cell reads 0; after a preinitialised segment is inserted, the
    unset cells of that segment, in every context, read its values. *)
Theorem C42_new : forall code, mem_wf (mem_new code) /\
  forall a, valid_addr a -> mem_get_with_init (mem_new code) a =
    Some (if (a_context a =? 0) && (a_segment a =? 0) then nth (Z.to_nat (a_virt a)) code 0 else 0).
Proof.
  intros code. split.
  - split; [repeat constructor|cbn [mem_new m_contexts length]; lia].
  - intros a A. rewrite get_with_init_value by exact A. unfold initial, mem_new. cbn [m_preinit preinit_get]. f_equal.
    destruct A as (C & S & V). unfold mem_get. cbn [m_contexts]. unfold SEGMENT_COUNT. destruct (Z.eqb_spec (a_context a) 0) as [->|NC].
    + cbn [Z.to_nat nth_error]. destruct (Z.leb_spec 39 (a_segment a)); [lia|]. destruct (Z.eqb_spec (a_segment a) 0) as [->|NS]; cbn [andb Z.to_nat nth_error].
      * unfold update_at, seg_get. cbn [firstn app nth_error]. rewrite nth_error_map.
        destruct (nth_error code (Z.to_nat (a_virt a))) eqn:E; cbn [option_map].
        -- symmetry. apply nth_error_nth. exact E.
        -- symmetry. apply nth_overflow. apply nth_error_None. exact E.
      * rewrite update_at_nth by (rewrite default_length; lia). destruct (Nat.eqb_spec (Z.to_nat (a_segment a)) 0); [lia|].
        destruct (nth_error context_default (Z.to_nat (a_segment a))) eqn:E; [|reflexivity].
        apply default_nth in E. subst. unfold seg_get. destruct (Z.to_nat (a_virt a)); reflexivity.
    + cbn [andb]. destruct (Z.to_nat (a_context a)) eqn:Z0; [lia|]. cbn [nth_error]. destruct n; reflexivity.
Qed.

Lemma preinit_insert_get : forall l s v t, preinit_get (preinit_insert l s v) t = if t =? s then Some v else preinit_get l t.
Proof.
  induction l as [|[u c] l IH]; intros s v t; cbn [preinit_insert preinit_get].
  - rewrite Z.eqb_sym. reflexivity.
  - destruct (Z.eqb_spec u s) as [->|N]; cbn [preinit_get].
    + rewrite (Z.eqb_sym s t). destruct (t =? s); reflexivity.
    + rewrite IH. destruct (Z.eqb_spec u t) as [->|]; [|reflexivity]. destruct (Z.eqb_spec t s); [contradiction|reflexivity].
Qed.

Theorem C42_preinitialized : forall m s values m', mem_wf m -> insert_preinitialized_segment m s values = Some m' ->
  In s PREINIT_INDICES /\ mem_wf m' /\ is_preinitialized_segment m' s = true /\
  forall a, valid_addr a -> mem_get_with_init m' a =
    match mem_get m a with
    | Some v => Some v
    | None => if a_segment a =? s then Some (match nth_error values (Z.to_nat (a_virt a)) with Some (Some v) => v | _ => 0 end) else mem_get_with_init m a
    end.
Proof.
  intros m s values m' W H. unfold insert_preinitialized_segment in H. destruct (existsb (Z.eqb s) PREINIT_INDICES) eqn:E; [|discriminate].
  assert (m' = mk_mem (m_contexts m) (preinit_insert (m_preinit m) s values)) by congruence. subst m'.
  assert (I : In s PREINIT_INDICES) by (apply existsb_exists in E; destruct E as (x & I & X); apply Z.eqb_eq in X; subst; exact I).
  split; [exact I|]. split; [exact W|]. split.
  - unfold is_preinitialized_segment, SEGMENT_COUNT. destruct (Z.leb_spec 39 s); [unfold PREINIT_INDICES in I; cbn [In] in I; lia|].
    cbn [m_preinit]. rewrite preinit_insert_get, Z.eqb_refl. reflexivity.
  - intros a A. rewrite !get_with_init_value by exact A. unfold initial. cbn [m_preinit]. rewrite preinit_insert_get.
    change (mem_get (mk_mem (m_contexts m) (preinit_insert (m_preinit m) s values)) a) with (mem_get m a).
    destruct (mem_get m a); [reflexivity|]. destruct (a_segment a =? s); reflexivity.
Qed.

Lemma all_some_map : forall {A B} (f : A -> option B) (g : A -> B) l, (forall x, In x l -> f x = Some (g x)) -> all_some (map f l) = Some (map g l).
Proof.
  intros A B f g l. induction l as [|x l IH]; intros H; [reflexivity|]. cbn [map all_some]. rewrite H by (left; reflexivity).
  rewrite IH by (intros; apply H; right; assumption). reflexivity.
Qed.

(** C42: the list that the trie loader extends holds, for every cell of the
    first context, what the memory reads there, and nothing is left out. *)
Theorem C42_preinit_memory : forall m s, mem_wf m -> In s PREINIT_INDICES ->
  exists l, get_preinit_memory m s = Some l /\
    forall v, 0 <= v ->
      (v < Z.of_nat (length l) -> nth_error l (Z.to_nat v) = Some (mem_get_with_init m (mk_maddr 0 s v))) /\
      (Z.of_nat (length l) <= v -> mem_get_with_init m (mk_maddr 0 s v) = Some 0).
Proof.
  intros m s (W & N) I. unfold get_preinit_memory.
  assert (existsb (Z.eqb s) PREINIT_INDICES = true) as -> by (apply existsb_exists; exists s; split; [exact I|apply Z.eqb_refl]).
  assert (R : 0 <= s < 39) by (unfold PREINIT_INDICES in I; cbn [In] in I; lia).
  destruct (m_contexts m) as [|c cs] eqn:Ec; [cbn [length] in N; lia|]. cbn [nth_error].
  set (pre := match preinit_get (m_preinit m) s with Some x => x | None => [] end).
  set (len := Nat.max _ _).
  assert (VA : forall i, valid_addr (mk_maddr 0 s (Z.of_nat i))) by (intros; unfold valid_addr; cbn; lia).
  rewrite (all_some_map _ (fun i => contents m (mk_maddr 0 s (Z.of_nat i)))).
  2:{ intros i _. unfold contents. rewrite get_with_init_value by apply VA. reflexivity. }
  eexists. split; [reflexivity|]. rewrite map_map, map_length, seq_length. intros v V. split; intros L.
  - rewrite nth_error_map. assert (nth_error (seq 0 len) (Z.to_nat v) = Some (Z.to_nat v)) as ->.
    { rewrite nth_error_nth' with (d := 0%nat) by (rewrite seq_length; lia). rewrite seq_nth by lia. reflexivity. }
    cbn [option_map]. unfold contents. rewrite Z2Nat.id by lia. rewrite get_with_init_value by (unfold valid_addr; cbn; lia). reflexivity.
  - rewrite get_with_init_value by (unfold valid_addr; cbn; lia). f_equal. unfold mem_get. rewrite Ec. cbn [a_context a_segment a_virt Z.to_nat nth_error].
    unfold SEGMENT_COUNT. destruct (Z.leb_spec 39 s); [lia|].
    assert (H9 : nth_error c (Z.to_nat s) = Some (nth (Z.to_nat s) c [])).
    { apply nth_error_nth'. inversion W; subst. lia. }
    rewrite H9. unfold seg_get. assert (nth_error (nth (Z.to_nat s) c []) (Z.to_nat v) = None) as -> by (apply nth_error_None; lia).
    unfold initial. cbn [a_segment a_virt]. fold pre. unfold pre in len. destruct (preinit_get (m_preinit m) s) as [l|]; [|reflexivity].
    assert (nth_error l (Z.to_nat v) = None) as -> by (apply nth_error_None; lia). reflexivity.
Qed.

(** A history of four operations on three cells, and its reads. *)
Example C42_example :
  let w c s v x := mk_mop 1 (mk_maddr c s v) MWrite x in
  let r c s v x := mk_mop 1 (mk_maddr c s v) MRead x in
  match insert_preinitialized_segment (mem_new [96; 64]) 12 [Some 5; None; Some 7] with
  | None => False
  | Some m =>
      match apply_ops m [w 2 1 4 9; w 0 12 0 11; r 0 1 0 3; w 2 1 4 10] with
      | None => False
      | Some m' =>
          map (mem_get_with_init m') [mk_maddr 2 1 4; mk_maddr 2 1 3; mk_maddr 0 12 0; mk_maddr 0 12 2; mk_maddr 1 12 2; mk_maddr 0 0 1; mk_maddr 5 0 1]
          = map Some [10; 0; 11; 7; 7; 64; 0] /\
          get_preinit_memory m' 12 = Some [Some 11; Some 0; Some 7]
      end
  end.
Proof. vm_compute. split; reflexivity. Qed.

Print Assumptions C41_round_trip.
Print Assumptions C41_injective.
Print Assumptions C41_unpack.
Print Assumptions C41_rejected.
Print Assumptions C41_canonical_refuted.
Print Assumptions C42_set.
Print Assumptions C42_history.
Print Assumptions C42_new.
Print Assumptions C42_preinitialized.
Print Assumptions C42_preinit_memory.
