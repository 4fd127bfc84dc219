(** C87: tries loaded into memory are the tries that were given. *)
From Coq Require Import List Arith NArith Bool Lia.
From Coq Require Import ZifyN ZifyNat ZifyBool.
From Verif.Mpt Require Import TrieModel TrieFacts NibblesModel NibblesProofs HexPrefixProofs.
From Verif.Generation Require Import LoadModel.
Import ListNotations.
Local Open Scope nat_scope.

(** * Cells *)

Lemma set_length : forall m i v, i < length m -> length (set_cell m i v) = length m.
Proof. intros m i v H. unfold set_cell. rewrite app_length, firstn_length. cbn [length]. rewrite skipn_length. lia. Qed.
Lemma set_same : forall m i v, i < length m -> nth_error (set_cell m i v) i = Some v.
Proof. intros m i v H. unfold set_cell. rewrite nth_error_app2 by (rewrite firstn_length; lia). rewrite firstn_length, Nat.min_l, Nat.sub_diag by lia. reflexivity. Qed.
Lemma nth_error_firstn' : forall {A} (m : list A) i j, j < i -> nth_error (firstn i m) j = nth_error m j.
Proof. intros A m. induction m as [|a m IH]; intros [|i] [|j] H; try lia; cbn [firstn nth_error]; try reflexivity. apply IH. lia. Qed.
Lemma nth_error_skipn' : forall {A} (m : list A) i j, nth_error (skipn i m) j = nth_error m (i + j).
Proof. intros A m. induction m as [|a m IH]; intros [|i] j; cbn [skipn Nat.add nth_error]; try reflexivity; [destruct j; reflexivity|]. apply IH. Qed.
Lemma set_other : forall m i v j, i < length m -> j <> i -> nth_error (set_cell m i v) j = nth_error m j.
Proof.
  intros m i v j H N. unfold set_cell. destruct (Nat.lt_ge_cases j i) as [L|L].
  - rewrite nth_error_app1 by (rewrite firstn_length; lia). apply nth_error_firstn'. exact L.
  - rewrite nth_error_app2 by (rewrite firstn_length; lia). rewrite firstn_length, Nat.min_l by lia. destruct (j - i) as [|d] eqn:D; [lia|]. cbn [nth_error]. rewrite nth_error_skipn'. f_equal. lia.
Qed.

Definition agree (m td : list cell) (lo hi : nat) : Prop := forall i, lo <= i < hi -> nth_error m i = nth_error td i.

Lemma cell_of : forall m i v, nth_error m i = Some (Some v) -> load_cell m i = v.
Proof. intros m i v H. unfold load_cell. rewrite H. reflexivity. Qed.
Lemma usize_of : forall n, (N.of_nat n < 2 ^ 64)%N -> u256_to_usize (N.of_nat n) = LOk n.
Proof. intros n H. unfold u256_to_usize. replace (N.of_nat n <? 2 ^ 64)%N with true by lia. rewrite Nat2N.id. reflexivity. Qed.

Lemma slice_of : forall (m vs : list cell) a, (forall i, i < length vs -> nth_error m (a + i) = nth_error vs i) -> a + length vs <= length m -> skipn a m = vs ++ skipn (a + length vs) m.
Proof.
  intros m vs. revert m. induction vs as [|v vs IH]; intros m a H L; [cbn [length app]; rewrite Nat.add_0_r; reflexivity|]. cbn [length] in L.
  specialize (IH m (S a)). cbn [app length]. replace (a + S (length vs)) with (S a + length vs) by lia. rewrite <- IH.
  - pose proof (H 0 ltac:(cbn [length]; lia)) as H0. rewrite Nat.add_0_r in H0. cbn [nth_error] in H0. clear -H0. revert a H0. induction m as [|x m IH]; intros [|a] H0; try discriminate H0; [injection H0 as ->; reflexivity|]. cbn [skipn nth_error] in *. apply IH. exact H0.
  - intros i Hi. specialize (H (S i) ltac:(cbn [length]; lia)). replace (S a + i) with (a + S i) by lia. exact H.
  - lia.
Qed.

Lemma unpack_val : forall ns, nibs ns -> unpack (length ns) (val ns) = ns.
Proof.
  intros ns. induction ns as [|x ns IH] using rev_ind; intros H; [reflexivity|]. apply Forall_app in H. destruct H as [H1 H2]. inversion H2; subst. rewrite app_length, Nat.add_1_r. cbn [unpack]. rewrite val_app. change (N.of_nat (length [x])) with 1%N. rewrite N.pow_1_r.
  assert (V : val [x] = N.of_nat x) by (unfold val; cbn [fold_left]; lia). rewrite V. replace ((val ns * 16 + N.of_nat x) / 16)%N with (val ns) by (clear -H3; lia). replace ((val ns * 16 + N.of_nat x) mod 16)%N with (N.of_nat x) by (clear -H3; lia). rewrite Nat2N.id, IH by assumption. reflexivity.
Qed.

Lemma val_bound : forall ns, nibs ns -> (val ns < 16 ^ N.of_nat (length ns))%N.
Proof.
  intros ns. induction ns as [|x ns IH] using rev_ind; intros H; [cbn; lia|]. apply Forall_app in H. destruct H as [H1 H2]. inversion H2; subst. rewrite val_app, app_length. change (N.of_nat (length [x])) with 1%N. rewrite N.pow_1_r.
  assert (V : val [x] = N.of_nat x) by (unfold val; cbn [fold_left]; lia). rewrite V. specialize (IH H1). change (length [x]) with 1. rewrite Nat2N.inj_add. change (N.of_nat 1) with 1%N. rewrite N.pow_add_r, N.pow_1_r. nia.
Qed.

Lemma key_fits : forall ns, nibs ns -> length ns <= 64 -> nibbles_u256 ns = LOk (val ns).
Proof.
  intros ns H L. unfold nibbles_u256. assert (B : (val ns < 2 ^ 256)%N); [|replace (val ns <? 2 ^ 256)%N with true by lia; reflexivity].
  eapply N.lt_le_trans; [apply val_bound; exact H|]. change (2 ^ 256)%N with (16 ^ 64)%N. apply N.pow_le_mono_r; lia.
Qed.

(** * Tries that can be loaded *)

(** How deep a trie is. *)
Fixpoint height (t : node) : nat := match t with Branch ch _ => S (fold_right (fun c a => Nat.max (height c) a) 0 ch) | Ext _ c => S (height c) | _ => 1 end.
Lemma height_child : forall ch v i c, nth_error ch i = Some c -> height c < height (Branch ch v).
Proof. intros ch v i c H. cbn [height]. apply -> Nat.lt_succ_r. revert i H. induction ch as [|a ch IH]; intros [|i] H; try discriminate H; cbn [fold_right nth_error] in *; [injection H as ->; lia|]. specialize (IH i H). lia. Qed.

Section RoundTrip.
  Variable parse_value : list N -> lres (list N).
  Variable read_value : list cell -> lres (list N).
  (** Cells that the reader needs after the value. *)
  Variable more : nat.

  (** The reader returns the value that the parser was given. *)
  Definition readable (v : list N) : Prop := exists vs, parse_value v = LOk vs /\ forall rest, more <= length rest -> read_value (map Some vs ++ rest) = LOk v.

  (** Sixteen children, hashes of 32 bytes, keys of at most 64 nibbles, readable values. *)
  Inductive loadable : nat -> node -> Prop :=
  | loadable_empty n : loadable n Empty
  | loadable_hash n h : length h = 32 -> byte_list h -> loadable n (Hash h)
  | loadable_branch n ch v : n < 64 -> length ch = 16 -> (v = [] \/ readable v) -> (forall i c, nth_error ch i = Some c -> loadable (S n) c) -> loadable n (Branch ch v)
  | loadable_ext n ns c : nibs ns -> n + length ns <= 64 -> loadable (n + length ns) c -> loadable n (Ext ns c)
  | loadable_leaf n ns v : nibs ns -> length ns <= 64 -> readable v -> loadable n (Leaf ns v).

  Definition extends (td td' : list cell) : Prop := length td <= length td' /\ forall i, i < length td -> nth_error td' i = nth_error td i.
  Definition holds (t : node) (n p : nat) (td' : list cell) (lo : nat) : Prop :=
    forall m fuel pre, agree m td' lo (length td') -> load_cell m 0 = 0%N -> length td' + more <= length m -> (N.of_nat (length td') < 2 ^ 64)%N -> height t <= fuel -> length pre = n ->
      get_trie read_value m fuel p pre = Some (LOk t).
  Definition loads (t : node) : Prop := forall n td, loadable n t -> 0 < length td -> exists p td', load_mpt parse_value t td = LOk (p, td') /\ extends td td' /\
    ((t = Empty /\ p = 0 /\ td' = td) \/ (t <> Empty /\ p = length td /\ length td < length td')) /\ holds t n p td' (length td).

  Lemma children_load : forall n first ch i td, (forall j c, nth_error ch j = Some c -> loads c /\ loadable (S n) c) -> first + i + length ch <= length td -> 0 < length td ->
    exists td', load_children (load_mpt parse_value) first ch i td = LOk td' /\ length td <= length td' /\
      (forall x, x < length td -> x < first + i \/ first + i + length ch <= x -> nth_error td' x = nth_error td x) /\
      forall j c, nth_error ch j = Some c -> exists p, nth_error td' (first + i + j) = Some (num p) /\ p <= length td' /\ holds c (S n) p td' (length td).
  Proof.
    intros n first ch. induction ch as [|c ch IH]; intros i td H L P.
    - exists td. split; [reflexivity|]. split; [lia|]. split; [reflexivity|]. intros [|j] c E; discriminate E.
    - cbn [length] in L. destruct (H 0 c eq_refl) as [LC WC]. destruct (LC (S n) td WC P) as (p & td1 & E1 & (X1 & X2) & PT & HO).
      assert (B : first + i < length td1) by lia. set (td2 := set_cell td1 (first + i) (num p)). assert (L2 : length td2 = length td1) by (apply set_length; exact B).
      destruct (IH (S i) td2) as (td' & E2 & Y1 & Y2 & Y3); [intros j c' Hj; exact (H (S j) c' Hj)|lia|lia|]. exists td'. split; [cbn [load_children]; rewrite E1; cbn [lbind]; exact E2|]. split; [lia|]. split.
      + intros x Hx D. cbn [length] in D. rewrite Y2 by lia. unfold td2. rewrite set_other by lia. apply X2. exact Hx.
      + intros [|j] c' Hj; cbn [nth_error] in Hj.
        * injection Hj as <-. exists p. rewrite Nat.add_0_r. split; [rewrite Y2 by lia; apply set_same; exact B|]. split; [destruct PT as [(_ & -> & _)|(_ & -> & _)]; lia|].
          intros m fuel pre AG Z0 LM L64 HF PL. apply HO; try assumption; try lia. intros x Hx. rewrite AG by lia. rewrite Y2 by lia. apply set_other; lia.
        * destruct (Y3 j c' Hj) as (p' & Z1 & Z2 & Z3). exists p'. replace (first + i + S j) with (first + S i + j) by lia. split; [exact Z1|]. split; [exact Z2|].
          intros m fuel pre AG. apply Z3. intros x Hx. apply AG. lia.
  Qed.

  Lemma children_get : forall m get ptr pre ch i, length pre < 64 -> (forall j c, nth_error ch j = Some c -> exists p, load_cell m (ptr + (i + j)) = N.of_nat p /\ (N.of_nat p < 2 ^ 64)%N /\ get p (pre ++ [i + j]) = Some (LOk c)) ->
    get_children m get ptr pre (length ch) i = Some (LOk ch).
  Proof.
    intros m get ptr pre ch. induction ch as [|c ch IH]; intros i LP H; [reflexivity|]. cbn [length get_children]. destruct (H 0 c eq_refl) as (p & E1 & E2 & E3). rewrite !Nat.add_0_r in *.
    rewrite E1, usize_of by exact E2. cbn [obind']. unfold merge_nibble. replace (length pre <? 64) with true by lia. cbn [nib_panic obind']. rewrite E3. cbn [obind']. rewrite IH; [reflexivity|exact LP|].
    intros j c' Hj. destruct (H (S j) c' Hj) as (p' & F). exists p'. replace (S i + j) with (i + S j) by lia. exact F.
  Qed.

  Lemma app_cell : forall (td l : list cell) i, nth_error (td ++ l) (length td + i) = nth_error l i.
  Proof. intros td l i. rewrite nth_error_app2 by lia. f_equal. lia. Qed.
  Lemma app_cell0 : forall (td l : list cell), nth_error (td ++ l) (length td) = nth_error l 0.
  Proof. intros td l. rewrite nth_error_app2 by lia. f_equal. lia. Qed.
  Lemma app_before : forall (td l : list cell) i, i < length td -> nth_error (td ++ l) i = nth_error td i.
  Proof. intros td l i H. apply nth_error_app1. exact H. Qed.

  Lemma all_load : forall t, loads t.
  Proof.
    induction t as [|h|ch v IH|ns c IH|ns v] using node_ind'; intros n td W P; cbn [load_mpt trie_type Nat.ltb Nat.leb].
    - exists 0, td. split; [reflexivity|]. split; [split; [lia|reflexivity]|]. split; [left; auto|]. intros m [|fuel] pre AG Z0 LM L64 HF PL; [cbn [height] in HF; lia|]. cbn [get_trie]. rewrite Z0. reflexivity.
    - inversion W; subst. exists (length td), (td ++ [num 1; Some (h2u h)]). rewrite <- app_assoc. split; [reflexivity|]. split; [split; [rewrite app_length; lia|intros; apply app_before; assumption]|].
      split; [right; split; [discriminate|split; [reflexivity|rewrite app_length; cbn [length]; lia]]|]. intros m [|fuel] pre AG Z0 LM L64 HF PL; [cbn [height] in HF; lia|]. rewrite app_length in AG. cbn [length] in AG.
      assert (A0 : nth_error m (length td) = Some (num 1)) by (rewrite AG by lia; rewrite app_cell0; reflexivity). assert (A1 : nth_error m (length td + 1) = Some (Some (h2u h))) by (rewrite AG by lia; rewrite app_cell; reflexivity).
      cbn [get_trie]. rewrite (cell_of _ _ _ A0), (cell_of _ _ _ A1). change (u256_to_usize (N.of_nat 1)) with (LOk 1). cbn [obind']. unfold from_uint, h2u. rewrite be_bytes_unique by assumption. reflexivity.
    - inversion W as [| |n' ch' v' N64 LCH VOK WC| |]; subst. set (td1 := td ++ [num 2]). assert (L1 : length td1 = length td + 1) by (unfold td1; rewrite app_length; reflexivity).
      set (td2 := td1 ++ repeat (num 0) 16). assert (L2 : length td2 = length td + 17) by (unfold td2; rewrite app_length, repeat_length; lia).
      assert (VAL : exists td3, match v with [] => LOk (td2 ++ [num 0]) | _ :: _ => let! vs := parse_value v in LOk (td2 ++ [num (length td2 + 1)] ++ map Some vs) end = LOk td3 /\ extends td2 td3 /\ length td2 < length td3 /\
        ((v = [] /\ nth_error td3 (length td2) = Some (num 0)) \/ (v <> [] /\ nth_error td3 (length td2) = Some (num (length td2 + 1)) /\
           forall m, agree m td3 (length td2) (length td3) -> length td3 + more <= length m -> slice_from m (length td2 + 1) = LOk (skipn (length td2 + 1) m) /\ read_value (skipn (length td2 + 1) m) = LOk v))).
      { destruct v as [|b v].
        - exists (td2 ++ [num 0]). split; [reflexivity|]. split; [split; [rewrite app_length; lia|intros; apply app_before; assumption]|]. split; [rewrite app_length; cbn [length]; lia|]. left. split; [reflexivity|]. rewrite app_cell0. reflexivity.
        - destruct VOK as [VOK|(vs & PV & RV)]; [discriminate VOK|]. rewrite PV. cbn [lbind]. exists (td2 ++ [num (length td2 + 1)] ++ map Some vs). split; [reflexivity|]. split; [split; [rewrite app_length; lia|intros; apply app_before; assumption]|].
          split; [rewrite !app_length; cbn [length]; lia|]. right. split; [discriminate|]. split; [rewrite app_cell0; reflexivity|]. intros m AG LM. rewrite !app_length, map_length in AG, LM. cbn [length] in AG, LM.
          split; [unfold slice_from; replace (length td2 + 1 <=? length m) with true by lia; reflexivity|]. rewrite (slice_of m (map Some vs)).
          + apply RV. rewrite skipn_length, map_length. lia.
          + intros i Hi. rewrite map_length in Hi. rewrite AG by lia. rewrite <- Nat.add_assoc, app_cell. reflexivity.
          + rewrite map_length. lia. }
      destruct VAL as (td3 & E3 & (X1 & X2) & L3 & VC). rewrite E3. cbn [lbind].
      destruct (children_load n (length td1) ch 0 td3) as (td' & E4 & Y1 & Y2 & Y3); [intros j c Hj; split; [apply (IH j c Hj)|apply (WC j c Hj)]|lia|lia|]. rewrite E4. cbn [lbind]. exists (length td), td'. split; [reflexivity|].
      assert (B0 : forall x, x < length td -> nth_error td' x = nth_error td x).
      { intros x Hx. rewrite Y2 by lia. rewrite X2 by lia. unfold td2. rewrite app_before by lia. unfold td1. apply app_before. lia. }
      split; [split; [lia|exact B0]|]. split; [right; split; [discriminate|split; [reflexivity|lia]]|]. intros m [|fuel] pre AG Z0 LM L64 HF PL; [cbn [height] in HF; lia|]. subst n.
      assert (A0 : nth_error m (length td) = Some (num 2)).
      { rewrite AG by lia. rewrite Y2 by lia. rewrite X2 by lia. unfold td2. rewrite app_before by lia. unfold td1. rewrite app_cell0. reflexivity. }
      cbn [get_trie]. rewrite (cell_of _ _ _ A0). change (u256_to_usize (N.of_nat 2)) with (LOk 2). cbn [obind']. replace 16 with (length ch) at 1. rewrite (children_get m _ (length td + 1) pre ch 0 N64).
      + cbn [obind']. assert (AV : nth_error m (length td + 1 + 16) = nth_error td3 (length td2)) by (rewrite AG by lia; rewrite Y2 by lia; f_equal; lia).
        destruct VC as [(-> & VC)|(NV & VC & RD)]; rewrite VC in AV; rewrite (cell_of _ _ _ AV); [reflexivity|]. rewrite usize_of by lia. cbn [obind']. replace (length td2 + 1 =? 0) with false by lia.
        destruct (RD m) as [R1 R2]; [intros x Hx; rewrite AG by lia; apply Y2; lia|lia|]. rewrite R1. cbn [lbind]. rewrite R2. reflexivity.
      + intros j c Hj. destruct (Y3 j c Hj) as (p & Z1 & Z2 & Z3). assert (JL : j < length ch) by (apply nth_error_Some; rewrite Hj; discriminate). exists p. split; [|split; [lia|]].
        * apply cell_of. rewrite AG by lia. replace (length td + 1 + (0 + j)) with (length td1 + 0 + j) by lia. exact Z1.
        * apply Z3; try assumption; [intros x Hx; apply AG; lia| |rewrite app_length; cbn [length]; lia]. pose proof (height_child ch v j c Hj). lia.
    - inversion W as [| | |n' ns' c' NS LN WC|]; subst. rewrite key_fits by (assumption || lia). cbn [lbind]. set (td1 := (td ++ [num 3]) ++ [num (length ns); Some (val ns)]). assert (L1 : length td1 = length td + 3) by (unfold td1; rewrite !app_length; cbn [length]; lia).
      set (td2 := td1 ++ [num (length td1 + 1)]). assert (L2 : length td2 = length td + 4) by (unfold td2; rewrite app_length; cbn [length]; lia). destruct (IH (n + length ns) td2 WC ltac:(lia)) as (p & td3 & E3 & (X1 & X2) & PT & HO). rewrite E3. cbn [lbind].
      exists (length td), (if p =? 0 then td3 ++ [num 0] else td3). split; [reflexivity|]. set (td' := if p =? 0 then td3 ++ [num 0] else td3).
      assert (LT : length td3 <= length td' <= length td3 + 1) by (unfold td'; destruct (p =? 0); rewrite ?app_length; cbn [length]; lia). assert (BT : forall x, x < length td3 -> nth_error td' x = nth_error td3 x) by (intros x Hx; unfold td'; destruct (p =? 0); [apply app_before; exact Hx|reflexivity]).
      assert (T2 : td2 = td ++ [num 3; num (length ns); Some (val ns); num (length td1 + 1)]) by (unfold td2, td1; rewrite <- !app_assoc; reflexivity).
      split; [split; [lia|intros x Hx; rewrite BT by lia; rewrite X2 by lia; rewrite T2; apply app_before; exact Hx]|]. split; [right; split; [discriminate|split; [reflexivity|lia]]|]. intros m [|fuel] pre AG Z0 LM L64 HF PL; [cbn [height] in HF; lia|]. subst n.
      assert (A : forall i, i < 4 -> nth_error m (length td + i) = nth_error [num 3; num (length ns); Some (val ns); num (length td1 + 1)] i) by (intros i Hi; rewrite AG by lia; rewrite BT by lia; rewrite X2 by lia; rewrite T2; apply app_cell).
      pose proof (A 0 ltac:(lia)) as A0. rewrite Nat.add_0_r in A0. pose proof (A 1 ltac:(lia)) as A1. pose proof (A 2 ltac:(lia)) as A2. pose proof (A 3 ltac:(lia)) as A3. cbn [nth_error] in A0, A1, A2, A3.
      cbn [get_trie]. rewrite (cell_of _ _ _ A0), (cell_of _ _ _ A1), (cell_of _ _ _ A2), (cell_of _ _ _ A3). change (u256_to_usize (N.of_nat 3)) with (LOk 3). cbn [obind']. rewrite !usize_of by lia. cbn [obind']. rewrite unpack_val by exact NS.
      unfold merge_nibbles. replace (length pre + length ns <=? 64) with true by lia. cbn [nib_panic obind'].
      enough (G : get_trie read_value m fuel (length td1 + 1) (pre ++ ns) = Some (LOk c)) by (rewrite G; reflexivity). cbn [height] in HF. destruct PT as [(-> & -> & ->)|(NE & -> & LL)].
      + destruct fuel as [|fuel]; [cbn [height] in HF; lia|]. cbn [get_trie]. assert (AE : nth_error m (length td1 + 1) = Some (num 0)) by (rewrite AG by (unfold td'; cbn [Nat.eqb]; rewrite app_length; cbn [length]; lia); unfold td'; cbn [Nat.eqb]; replace (length td1 + 1) with (length td2 + 0) by lia; rewrite app_cell; reflexivity).
        rewrite (cell_of _ _ _ AE). reflexivity.
      + replace (length td1 + 1) with (length td2) by lia. apply HO; try assumption; try lia; [|rewrite app_length; reflexivity]. intros x Hx. rewrite AG by lia. apply BT. lia.
    - inversion W as [| | | |n' ns' v' NS LN (vs & PV & RV)]; subst. rewrite key_fits by assumption. cbn [lbind]. rewrite PV. cbn [lbind]. set (td1 := (td ++ [num 4]) ++ [num (length ns); Some (val ns)]). assert (L1 : length td1 = length td + 3) by (unfold td1; rewrite !app_length; cbn [length]; lia).
      assert (T : (td1 ++ [num (length td1 + 1)]) ++ map Some vs = td ++ [num 4; num (length ns); Some (val ns); num (length td1 + 1)] ++ map Some vs) by (unfold td1; rewrite <- !app_assoc; reflexivity).
      exists (length td), (td ++ [num 4; num (length ns); Some (val ns); num (length td1 + 1)] ++ map Some vs). rewrite T. split; [reflexivity|]. split; [split; [rewrite app_length; lia|intros; apply app_before; assumption]|].
      split; [right; split; [discriminate|split; [reflexivity|rewrite app_length; cbn [app length]; lia]]|]. intros m [|fuel] pre AG Z0 LM L64 HF PL; [cbn [height] in HF; lia|]. rewrite !app_length, map_length in AG, LM, L64. cbn [length] in AG, LM, L64.
      assert (A : forall i, i < 4 -> nth_error m (length td + i) = nth_error [num 4; num (length ns); Some (val ns); num (length td1 + 1)] i) by (intros i Hi; rewrite AG by lia; rewrite app_cell; apply nth_error_app1; exact Hi).
      pose proof (A 0 ltac:(lia)) as A0. rewrite Nat.add_0_r in A0. pose proof (A 1 ltac:(lia)) as A1. pose proof (A 2 ltac:(lia)) as A2. pose proof (A 3 ltac:(lia)) as A3. cbn [nth_error] in A0, A1, A2, A3.
      cbn [get_trie]. rewrite (cell_of _ _ _ A0), (cell_of _ _ _ A1), (cell_of _ _ _ A2), (cell_of _ _ _ A3). change (u256_to_usize (N.of_nat 4)) with (LOk 4). cbn [obind']. rewrite !usize_of by lia. cbn [obind']. rewrite unpack_val by exact NS.
      unfold slice_from. replace (length td1 + 1 <=? length m) with true by lia. cbn [lbind]. rewrite (slice_of m (map Some vs)).
      + rewrite RV by (rewrite skipn_length, map_length; lia). reflexivity.
      + intros i Hi. rewrite map_length in Hi. rewrite AG by lia. replace (length td1 + 1 + i) with (length td + (4 + i)) by lia. rewrite app_cell. reflexivity.
      + rewrite map_length. lia.
  Qed.
End RoundTrip.

(** Loading succeeds, keeps what was in memory, and the trie read back from the
    pointer is the trie given. [m] is the memory later on: it may have grown and
    changed anywhere else, as long as its first cell is still zero. *)
Theorem C87_load_extract : forall parse read more t td, loadable parse read more 0 t -> 0 < length td ->
  exists p td', load_mpt parse t td = LOk (p, td') /\ length td <= length td' /\ (forall i, i < length td -> nth_error td' i = nth_error td i) /\
    forall m fuel, (forall i, length td <= i < length td' -> nth_error m i = nth_error td' i) -> load_cell m 0 = 0%N -> length td' + more <= length m -> (N.of_nat (length td') < 2 ^ 64)%N -> height t <= fuel ->
      get_trie read m fuel p [] = Some (LOk t).
Proof.
  intros parse read more t td W P. destruct (all_load parse read more t 0 td W P) as (p & td' & E & (X1 & X2) & _ & H). exists p, td'. split; [exact E|]. split; [exact X1|]. split; [exact X2|].
  intros m fuel AG Z0 LM L64 HF. apply (H m fuel []); try assumption. reflexivity.
Qed.
Print Assumptions C87_load_extract.
