(** Serialization of the sparse Merkle tree. *)

From Coq Require Import List Arith NArith ZArith Lia Bool ZifyN ZifyNat ZifyBool.
From Verif.Smt Require Import SmtModel SmtSpec KeyProofs SmtProofs SmtSetProofs SmtHistory.
Import ListNotations.
Local Open Scope nat_scope.

Fixpoint height (t : tree) : nat := match t with I l r => S (Nat.max (height l) (height r)) | _ => 0 end.

Lemma placed_height : forall t p, length p <= 256 -> placed p t -> height t + length p <= 256.
Proof.
  induction t as [|k v|l IHl r IHr|big h]; intros p Hp Hpl; cbn [height] in *; try lia.
  destruct Hpl as (Hlt & Hl & Hr).
  pose proof (IHl (p ++ [false]) ltac:(rewrite app_length; cbn [length]; lia) Hl) as A.
  pose proof (IHr (p ++ [true]) ltac:(rewrite app_length; cbn [length]; lia) Hr) as B.
  rewrite app_length in A, B. cbn [length] in A, B. lia.
Qed.

Lemma set_nth_length : forall l i x, length (set_nth l i x) = length l.
Proof. induction l as [|y l IH]; intros [|i] x; cbn; auto. Qed.

Lemma set_nth_same : forall l i x, i < length l -> nth_error (set_nth l i x) i = Some x.
Proof. induction l as [|y l IH]; intros [|i] x Hi; cbn in *; try lia; auto. apply IH. lia. Qed.

Lemma set_nth_other : forall l i j x, i <> j -> nth_error (set_nth l i x) j = nth_error l j.
Proof. induction l as [|y l IH]; intros [|i] [|j] x Hij; cbn in *; try congruence; auto. Qed.

(** [V] shows [v'] from position [a] on. *)
Definition agree (V v' : list N) (a : nat) : Prop := forall j, a <= j < length v' -> nth_error V j = nth_error v' j.
Definition zeros (V : list N) : Prop := nth_error V 0 = Some 0%N /\ nth_error V 1 = Some 0%N.

(** The hash nodes hold field elements. *)
Definition hvalid (t : tree) : Prop := forall p x, In x (hashes p t) -> qvalid (snd (snd x)).

Section Poseidon.
Variable pos : node -> quad.
Hypothesis pos_valid : forall n, qvalid (pos n).
Notation thash := (thash pos).
Notation stored := (stored pos).
Notation db_ok := (db_ok pos).
Notation nodes d := (map snd d).

Lemma thash_valid : forall t d, hvalid t -> qvalid (thash d t).
Proof.
  intros [|k v|l r|big h] d Hh; cbn [SmtProofs.thash]; try apply pos_valid.
  - repeat split.
  - apply (Hh [] ([], (big, h))). left. reflexivity.
Qed.

Lemma hvalid_children : forall l r, hvalid (I l r) -> hvalid l /\ hvalid r.
Proof.
  assert (G : forall t p p' x, In x (hashes p t) -> exists x', In x' (hashes p' t) /\ snd x' = snd x).
  { induction t as [|k v|l IHl r IHr|big h]; intros p p' x Hx; cbn [hashes] in *; try contradiction.
    - apply in_app_iff in Hx. destruct Hx as [Hx|Hx].
      + destruct (IHl _ (p' ++ [false]) _ Hx) as (x' & A & B). exists x'. rewrite in_app_iff. auto.
      + destruct (IHr _ (p' ++ [true]) _ Hx) as (x' & A & B). exists x'. rewrite in_app_iff. auto.
    - destruct Hx as [Hx|[]]. subst x. eexists. split; [left; reflexivity|reflexivity]. }
  intros l r Hh. split; intros p x Hx.
  - destruct (G l p ([] ++ [false]) x Hx) as (x' & A & <-). apply (Hh [] x'). cbn [hashes]. apply in_app_iff. auto.
  - destruct (G r p ([] ++ [true]) x Hx) as (x' & A & <-). apply (Hh [] x'). cbn [hashes]. apply in_app_iff. auto.
Qed.

Definition tlook (t : tree) (k : quad) (x : N) : Prop :=
  (In (k, x) (leaves t) /\ x <> 0%N) \/ ((forall w, ~ In (k, w) (leaves t)) /\ x = 0%N).

Lemma serialize_eq : forall f d K key v cur, serialize_rec (S f) d K key v cur =
  if is_zero key then Some (v, 0)
  else
    match existsb (is_prefix_of cur) K, get_node d key with
    | true, Some node =>
        if is_zero (n0 node) && is_zero (n1 node) && is_zero (n2 node) then None
        else if is_one_siblings node then
          match get_node d (n1 node) with
          | None => None
          | Some val => Some (v ++ [LEAF_TYPE; key2u (n0 node); limbs2f (n0 val) (n1 val)], length v)
          end
        else
          match serialize_rec f d K (n0 node) (v ++ [INTERNAL_TYPE; 0%N; 0%N]) (cur ++ [false]) with
          | None => None
          | Some (v1, i_left) =>
              match serialize_rec f d K (n1 node) (set_nth v1 (length v + 1) (N.of_nat i_left)) (cur ++ [true]) with
              | None => None
              | Some (v3, i_right) => Some (set_nth v3 (length v + 2) (N.of_nat i_right), length v)
              end
          end
    | _, _ => Some (v ++ [HASH_TYPE; key2u key], length v)
    end.
Proof. reflexivity. Qed.

Lemma hash_ser_eq : forall f V i, hash_serialize_rec pos (S f) V i =
  match nth_error V i with
  | None => None
  | Some ty =>
      if (ty =? HASH_TYPE)%N then option_map u2k (nth_error V (i + 1))
      else if (ty =? INTERNAL_TYPE)%N then
        match nth_error V (i + 1), nth_error V (i + 2) with
        | Some l, Some r =>
            match hash_serialize_rec pos f V (N.to_nat (l mod 2 ^ 64)) with
            | None => None
            | Some hl =>
                match hash_serialize_rec pos f V (N.to_nat (r mod 2 ^ 64)) with
                | None => None
                | Some hr => Some (pos (node0 hl hr))
                end
            end
        | _, _ => None
        end
      else if (ty =? LEAF_TYPE)%N then
        match nth_error V (i + 1), nth_error V (i + 2) with
        | Some k, Some x => Some (pos (leaf_node (u2k k) (pos (value_node x))))
        | _, _ => None
        end
      else None
  end.
Proof. reflexivity. Qed.

Lemma lookup_eq : forall V i bits n k, ser_lookup V i bits n k =
  match nth_error V i, nth_error V (i + 1), nth_error V (i + 2) with
  | Some 0%N, Some 0%N, _ => Some 0%N
  | Some 2%N, Some rk, Some x =>
      if match remove_key_bits k n with Some r => (key2u r =? rk)%N | None => false end then Some x else Some 0%N
  | Some 1%N, Some l, Some r =>
      match bits with
      | [] => None
      | b :: bits' => ser_lookup V (N.to_nat (if b then r else l)) bits' (S n) k
      end
  | _, _, _ => None
  end.
Proof. intros V i [|b bits] n k; reflexivity. Qed.

Lemma existsb_prefix_in : forall k K cur bits, In (split k) K -> split k = cur ++ bits -> existsb (is_prefix_of cur) K = true.
Proof.
  intros k K cur bits Hin Hs. apply existsb_exists. exists (split k). split; [exact Hin|]. rewrite Hs. clear.
  induction cur as [|b cur IH]; [reflexivity|]. cbn. rewrite eqb_reflx. exact IH.
Qed.

Lemma key2u_inj : forall a b, qvalid a -> qvalid b -> key2u a = key2u b -> a = b.
Proof. intros a b Ha Hb Hab. rewrite <- (key2u_roundtrip a Ha), <- (key2u_roundtrip b Hb), Hab. reflexivity. Qed.

Lemma serialize_spec : forall t fuel D d K v p, db_ok D d -> stored D (nodes d) (length p) t -> placed p t -> canon t ->
  hvalid t -> height t < fuel -> 2 <= length v ->
  exists v' i, serialize_rec fuel d K (thash (length p) t) v p = Some (v', i) /\
    (exists w, v' = v ++ w) /\ (i = 0 \/ i < length v') /\ (t = E -> v' = v) /\ (t <> E -> i = length v /\ length v < length v') /\
    (forall V f, agree V v' (length v) -> zeros V -> (N.of_nat (length v') < 2 ^ 64)%N -> height t < f ->
       hash_serialize_rec pos f V i = Some (thash (length p) t)) /\
    (forall V k bits, agree V v' (length v) -> zeros V -> plain t -> In (split k) K -> qvalid k ->
       split k = p ++ bits -> exists x, ser_lookup V i bits (length p) k = Some x /\ tlook t k x).
Proof.
  induction t as [|k v0|l IHl r IHr|big h]; intros fuel D d K v p Hd Hst Hpl Hcan Hhv Hfu Hv2;
    (destruct fuel as [|fuel]; [lia|]); rewrite serialize_eq; rewrite (is_zero_thash pos _ D d) by assumption.
  - cbn [isE]. exists v, 0. split; [reflexivity|]. split; [exists []; rewrite app_nil_r; reflexivity|].
    split; [auto|]. split; [auto|]. split; [congruence|]. split.
    + intros V [|f] _ [Z0 Z1] _ Hf; [lia|]. rewrite hash_ser_eq, Z0. cbn [Nat.add]. change (0 =? HASH_TYPE)%N with true. cbv iota.
      rewrite Z1. reflexivity.
    + intros V k bits _ [Z0 Z1] _ _ _ _. exists 0%N. rewrite lookup_eq, Z0. cbn [Nat.add]. rewrite Z1.
      split; [reflexivity|]. right. split; [intros w []|reflexivity].
  - cbn [isE].
    assert (HashCase : exists v' i, Some (v ++ [HASH_TYPE; key2u (thash (length p) (L k v0))], length v) = Some (v', i) /\
        (exists w, v' = v ++ w) /\ (i = 0 \/ i < length v') /\ (L k v0 = E -> v' = v) /\ (L k v0 <> E -> i = length v /\ length v < length v') /\
        (forall V f, agree V v' (length v) -> zeros V -> (N.of_nat (length v') < 2 ^ 64)%N -> height (L k v0) < f ->
          hash_serialize_rec pos f V i = Some (thash (length p) (L k v0)))).
    { eexists _, _. split; [reflexivity|]. split; [eexists; reflexivity|]. rewrite app_length. cbn [length].
      split; [right; lia|]. split; [discriminate|]. split; [intros _; split; [reflexivity|lia]|].
      intros V [|f] Hag _ _ Hf; [lia|]. rewrite hash_ser_eq.
      rewrite (Hag (length v)), (Hag (length v + 1)) by (rewrite app_length; cbn [length]; lia).
      rewrite !nth_error_app2 by lia. rewrite Nat.sub_diag. replace (length v + 1 - length v) with 1 by lia. cbn [nth_error option_map].
      change (HASH_TYPE =? HASH_TYPE)%N with true. cbv iota. f_equal. apply key2u_roundtrip, pos_valid. }
    destruct (existsb (is_prefix_of p) K) eqn:Ex.
    + clear HashCase. destruct (get_stored_leaf pos D d k v0 _ Hd Hst) as [G1 G2]. rewrite G1.
      change (n2 (lnode pos k (length p) v0)) with one_zero. change (is_zero one_zero) with false. rewrite andb_false_r.
      change (is_one_siblings (lnode pos k (length p) v0)) with true. cbv iota.
      change (n1 (lnode pos k (length p) v0)) with (vhash pos v0). rewrite G2.
      change (n0 (value_node v0)) with (fst (f2limbs v0)). change (n1 (value_node v0)) with (snd (f2limbs v0)).
      change (n0 (lnode pos k (length p) v0)) with (rem k (length p)).
      destruct Hpl as ([q Q] & Hle & Hkv & Hvv). rewrite limbs_roundtrip by apply Hvv.
      eexists _, _. split; [reflexivity|]. split; [eexists; reflexivity|]. rewrite app_length. cbn [length].
      split; [right; lia|]. split; [discriminate|]. split; [intros _; split; [reflexivity|lia]|].
      assert (N : forall V, agree V (v ++ [LEAF_TYPE; key2u (rem k (length p)); v0]) (length v) ->
        nth_error V (length v) = Some LEAF_TYPE /\ nth_error V (length v + 1) = Some (key2u (rem k (length p))) /\
        nth_error V (length v + 2) = Some v0).
      { intros V Hag. rewrite (Hag (length v)), (Hag (length v + 1)), (Hag (length v + 2)) by (rewrite app_length; cbn [length]; lia).
        rewrite !nth_error_app2 by lia. rewrite Nat.sub_diag. replace (length v + 1 - length v) with 1 by lia.
        replace (length v + 2 - length v) with 2 by lia. auto. }
      split.
      * intros V [|f] Hag _ _ Hf; [lia|]. destruct (N V Hag) as (N1 & N2 & N3). rewrite hash_ser_eq, N1, N2, N3.
        change (LEAF_TYPE =? HASH_TYPE)%N with false. change (LEAF_TYPE =? INTERNAL_TYPE)%N with false.
        change (LEAF_TYPE =? LEAF_TYPE)%N with true. cbv iota. rewrite key2u_roundtrip by (apply rem_valid; exact Hkv). reflexivity.
      * intros V k2 bits Hag _ _ Hin Hk2 Hs. destruct (N V Hag) as (N1 & N2 & N3). rewrite lookup_eq, N1, N2, N3.
        change LEAF_TYPE with 2%N. cbv iota. rewrite remove_key_bits_rem by exact Hle.
        destruct (key2u (rem k2 (length p)) =? key2u (rem k (length p)))%N eqn:Eq.
        -- exists v0. split; [reflexivity|]. left. apply N.eqb_eq, key2u_inj in Eq; [|apply rem_valid; assumption..].
           assert (k2 = k).
           { apply (rem_inj k2 k (length p)); auto. rewrite Hs, Q, !firstn_app, !firstn_all, Nat.sub_diag. reflexivity. }
           subst k2. split; [left; reflexivity|]. apply Hvv.
        -- exists 0%N. split; [reflexivity|]. right. split; [|reflexivity]. intros w [Hw|[]]. inversion Hw; subst.
           rewrite N.eqb_refl in Eq. discriminate.
    + destruct HashCase as (v' & i & A & B & C & D' & F & G). exists v', i.
      repeat (split; [assumption|]). intros V k2 bits _ _ _ Hin _ Hs.
      rewrite (existsb_prefix_in k2 K p bits Hin Hs) in Ex. discriminate.
  - cbn [isE].
    assert (HashCase : exists v' i, Some (v ++ [HASH_TYPE; key2u (thash (length p) (I l r))], length v) = Some (v', i) /\
        (exists w, v' = v ++ w) /\ (i = 0 \/ i < length v') /\ (I l r = E -> v' = v) /\ (I l r <> E -> i = length v /\ length v < length v') /\
        (forall V f, agree V v' (length v) -> zeros V -> (N.of_nat (length v') < 2 ^ 64)%N -> height (I l r) < f ->
          hash_serialize_rec pos f V i = Some (thash (length p) (I l r)))).
    { eexists _, _. split; [reflexivity|]. split; [eexists; reflexivity|]. rewrite app_length. cbn [length].
      split; [right; lia|]. split; [discriminate|]. split; [intros _; split; [reflexivity|lia]|].
      intros V [|f] Hag _ _ Hf; [lia|]. rewrite hash_ser_eq.
      rewrite (Hag (length v)), (Hag (length v + 1)) by (rewrite app_length; cbn [length]; lia).
      rewrite !nth_error_app2 by lia. rewrite Nat.sub_diag. replace (length v + 1 - length v) with 1 by lia. cbn [nth_error option_map].
      change (HASH_TYPE =? HASH_TYPE)%N with true. cbv iota. f_equal. apply key2u_roundtrip, pos_valid. }
    destruct (existsb (is_prefix_of p) K) eqn:Ex.
    + clear HashCase. rewrite (get_stored_inode pos D d l r _ Hd Hst).
      destruct Hst as (_ & Sl & Sr). destruct Hpl as (Hlen & Pl & Pr). destruct Hcan as ((O1 & O2 & O3) & Cl & Cr).
      destruct (hvalid_children l r Hhv) as [Hvl Hvr].
      cbn [inode node0 n0 n1 n2]. rewrite (is_zero_thash pos l D d), (is_zero_thash pos r D d) by assumption.
      replace (isE l && isE r && is_zero zero) with false
        by (destruct l, r; try reflexivity; exfalso; apply O1; auto).
      change (is_one_siblings (node0 (thash (S (length p)) l) (thash (S (length p)) r))) with false. cbv iota.
      assert (Lf : S (length p) = length (p ++ [false])) by (rewrite app_length; cbn; lia).
      assert (Lt : S (length p) = length (p ++ [true])) by (rewrite app_length; cbn; lia).
      cbn [height] in Hfu. unfold inode. cbn [node0 n0 n1].
      assert (Sl' : stored D (nodes d) (length (p ++ [false])) l) by (rewrite <- Lf; exact Sl).
      assert (Sr' : stored D (nodes d) (length (p ++ [true])) r) by (rewrite <- Lt; exact Sr).
      destruct (IHl fuel D d K (v ++ [INTERNAL_TYPE; 0%N; 0%N]) (p ++ [false]) Hd Sl' Pl Cl Hvl ltac:(lia)
                  ltac:(rewrite app_length; lia))
        as (v1 & il & E1 & (w1 & W1) & B1 & _ & _ & Hash1 & Look1).
      rewrite <- Lf in E1. rewrite E1. set (v2 := set_nth v1 (length v + 1) (N.of_nat il)).
      assert (Lv1 : length v + 3 <= length v1) by (rewrite W1, !app_length; cbn; lia).
      assert (Lv2 : length v2 = length v1) by apply set_nth_length.
      destruct (IHr fuel D d K v2 (p ++ [true]) Hd Sr' Pr Cr Hvr ltac:(lia) ltac:(lia))
        as (v3 & ir & E3 & (w3 & W3) & B3 & _ & _ & Hash3 & Look3).
      rewrite <- Lt in E3. fold v2. rewrite E3. set (v4 := set_nth v3 (length v + 2) (N.of_nat ir)).
      assert (Lv4 : length v4 = length v3) by apply set_nth_length.
      assert (Lv3 : length v1 <= length v3) by (rewrite W3, app_length; lia).
      exists v4, (length v). split; [reflexivity|].
      assert (Pre : forall j, j < length v -> nth_error v4 j = nth_error v j).
      { intros j Hj. unfold v4. rewrite set_nth_other by lia. rewrite W3, nth_error_app1 by lia.
        unfold v2. rewrite set_nth_other by lia. rewrite W1, <- app_assoc, nth_error_app1 by lia. reflexivity. }
      assert (R0 : nth_error v4 (length v) = Some INTERNAL_TYPE).
      { unfold v4. rewrite set_nth_other by lia. rewrite W3, nth_error_app1 by lia.
        unfold v2. rewrite set_nth_other by lia. rewrite W1, <- app_assoc, nth_error_app2 by lia. rewrite Nat.sub_diag. reflexivity. }
      assert (R1 : nth_error v4 (length v + 1) = Some (N.of_nat il)).
      { unfold v4. rewrite set_nth_other by lia. rewrite W3, nth_error_app1 by lia.
        unfold v2. rewrite set_nth_same by lia. reflexivity. }
      assert (R2 : nth_error v4 (length v + 2) = Some (N.of_nat ir)).
      { unfold v4. rewrite set_nth_same by lia. reflexivity. }
      assert (A1 : forall V, agree V v4 (length v) -> agree V v1 (length (v ++ [INTERNAL_TYPE; 0%N; 0%N]))).
      { intros V Hag j Hj. rewrite app_length in Hj. cbn [length] in Hj. rewrite Hag by lia.
        unfold v4. rewrite set_nth_other by lia. rewrite W3, nth_error_app1 by lia.
        unfold v2. rewrite set_nth_other by lia. reflexivity. }
      assert (A3 : forall V, agree V v4 (length v) -> agree V v3 (length v2)).
      { intros V Hag j Hj. rewrite Hag by lia. unfold v4. rewrite set_nth_other by lia. reflexivity. }
      split.
      { exists (skipn (length v) v4). rewrite <- (firstn_skipn (length v) v4) at 1. f_equal.
        assert (G : forall (a b : list N), length a <= length b -> (forall j, j < length a -> nth_error b j = nth_error a j) -> firstn (length a) b = a).
        { clear. induction a as [|x a IH]; intros [|y b] Hl Hn; cbn [length firstn] in *; try lia; auto.
          pose proof (Hn 0 ltac:(lia)) as E0. cbn in E0. inversion E0; subst. f_equal. apply IH; [lia|].
          intros j Hj. apply (Hn (S j)). lia. }
        apply G; [lia|exact Pre]. }
      split; [right; lia|]. split; [discriminate|]. split; [intros _; split; [reflexivity|lia]|]. split.
      * intros V [|f] Hag Hz Hlen64 Hf; [lia|]. cbn [height] in Hf. rewrite hash_ser_eq.
        rewrite (Hag (length v)), (Hag (length v + 1)), (Hag (length v + 2)) by lia. rewrite R0, R1, R2.
        change (INTERNAL_TYPE =? HASH_TYPE)%N with false. change (INTERNAL_TYPE =? INTERNAL_TYPE)%N with true. cbv iota.
        assert (M : forall i, i = 0 \/ i < length v3 -> N.to_nat (N.of_nat i mod 2 ^ 64) = i).
        { intros i Hi. rewrite N.mod_small by lia. apply Nat2N.id. }
        rewrite (M il) by lia. rewrite (M ir) by lia.
        rewrite (Hash1 V f (A1 V Hag) Hz) by lia. rewrite (Hash3 V f (A3 V Hag) Hz) by lia. cbn [SmtProofs.thash].
        rewrite <- Lf, <- Lt. reflexivity.
      * intros V k bits Hag Hz Hplain Hin Hk Hs. rewrite lookup_eq.
        rewrite (Hag (length v)), (Hag (length v + 1)), (Hag (length v + 2)) by lia. rewrite R0, R1, R2.
        change INTERNAL_TYPE with 1%N. cbv iota. destruct Hplain as [Npl Npr].
        destruct bits as [|b bits].
        { exfalso. rewrite app_nil_r in Hs. pose proof (split_length k) as A. rewrite Hs in A. lia. }
        assert (Hs' : split k = (p ++ [b]) ++ bits) by (rewrite <- app_assoc; exact Hs).
        destruct b; rewrite Nat2N.id.
        -- destruct (Look3 V k bits (A3 V Hag) Hz Npr Hin Hk Hs') as (x & X1 & X2).
           rewrite <- Lt in X1. exists x. split; [exact X1|].
           assert (Off : forall w, ~ In (k, w) (leaves l)).
           { intros w Hw. destruct (leaves_prefix _ _ _ _ Pl Hw) as ([q' Q'] & _). rewrite Hs', <- !app_assoc in Q'.
             apply app_inv_head in Q'. discriminate. }
           destruct X2 as [[X2 X3]|[X2 X3]]; [left; split; [cbn [leaves]; apply in_app_iff; auto|exact X3]|].
           right. split; [|exact X3]. intros w Hw. cbn [leaves] in Hw. apply in_app_iff in Hw. destruct Hw; [exact (Off w H)|exact (X2 w H)].
        -- destruct (Look1 V k bits (A1 V Hag) Hz Npl Hin Hk Hs') as (x & X1 & X2).
           rewrite <- Lf in X1. exists x. split; [exact X1|].
           assert (Off : forall w, ~ In (k, w) (leaves r)).
           { intros w Hw. destruct (leaves_prefix _ _ _ _ Pr Hw) as ([q' Q'] & _). rewrite Hs', <- !app_assoc in Q'.
             apply app_inv_head in Q'. discriminate. }
           destruct X2 as [[X2 X3]|[X2 X3]]; [left; split; [cbn [leaves]; apply in_app_iff; auto|exact X3]|].
           right. split; [|exact X3]. intros w Hw. cbn [leaves] in Hw. apply in_app_iff in Hw. destruct Hw; [exact (X2 w H)|exact (Off w H)].
    + destruct HashCase as (v' & i & A & B & C & D' & F & G). exists v', i.
      repeat (split; [assumption|]). intros V k2 bits _ _ _ Hin _ Hs.
      rewrite (existsb_prefix_in k2 K p bits Hin Hs) in Ex. discriminate.
  - cbn [isE].
    replace (match existsb (is_prefix_of p) K with true => _ | false => _ end)
      with (Some (v ++ [HASH_TYPE; key2u h], length v)).
    + eexists _, _. split; [reflexivity|]. split; [eexists; reflexivity|]. rewrite app_length. cbn [length].
      split; [right; lia|]. split; [discriminate|]. split; [intros _; split; [reflexivity|lia]|]. split; [|intros; contradiction].
      intros V [|f] Hag _ _ Hf; [lia|]. rewrite hash_ser_eq.
      rewrite (Hag (length v)), (Hag (length v + 1)) by (rewrite app_length; cbn [length]; lia).
      rewrite !nth_error_app2 by lia. rewrite Nat.sub_diag. replace (length v + 1 - length v) with 1 by lia. cbn [nth_error option_map].
      change (HASH_TYPE =? HASH_TYPE)%N with true. cbv iota. f_equal. apply key2u_roundtrip. exact (thash_valid (H big h) 0 Hhv).
    + destruct Hd as (Hd1 & Hd2 & Hd3). destruct Hst as [_ Hst]. cbn [SmtProofs.thash].
      rewrite (get_none pos d D h Hd1 Hd3 Hst). destruct (existsb (is_prefix_of p) K); reflexivity.
Qed.

(** The whole serialization. *)
Lemma serialize_and_prune_spec : forall D s t keys, inv pos D s t -> hvalid t ->
  exists v, serialize_and_prune s keys = Some v /\
    (forall f, (N.of_nat (length v) < 2 ^ 64)%N -> 256 < f -> hash_serialize pos f v = Some (root s)) /\
    (forall k, plain t -> In k keys -> qvalid k -> exists x, ser_lookup v 2 (split k) 0 k = Some x /\ tlook t k x).
Proof.
  intros D s t keys [Hd Hst Hroot Hpl Hcan Hkv] Hhv. unfold serialize_and_prune.
  pose proof (placed_height t [] ltac:(cbn; lia) Hpl) as Hh. cbn [length] in Hh. rewrite Nat.add_0_r in Hh.
  destruct (serialize_spec t 300 D (db s) (map split keys) [0%N; 0%N] [] Hd Hst Hpl Hcan Hhv ltac:(lia) ltac:(cbn; lia))
    as (v & i & E1 & (w & W) & B & He & Hne & Hash & Look).
  cbn [length] in E1. rewrite Hroot, E1.
  destruct (isE t) eqn:Et.
  - destruct t; try discriminate. rewrite He in * by reflexivity. cbn [length Nat.eqb app].
    exists [0%N; 0%N; 0%N; 0%N]. split; [reflexivity|]. split.
    + intros [|f] _ Hf; [lia|]. reflexivity.
    + intros k _ Hin _. exists 0%N. rewrite lookup_eq. cbn. split; [reflexivity|]. right. split; [intros x []|reflexivity].
  - destruct Hne as [Hi Hlen]; [intros ->; discriminate|]. cbn [length] in Hi, Hlen. subst i.
    replace (length v =? 2) with false by (symmetry; apply Nat.eqb_neq; lia).
    exists v. split; [reflexivity|]. split.
    + intros f H64 Hf. unfold hash_serialize. apply Hash; auto.
      * intros j Hj. reflexivity.
      * rewrite W. split; reflexivity.
      * lia.
    + intros k Hplain Hin Hk. apply (Look v k (split k)); auto.
      * intros j Hj. reflexivity.
      * rewrite W. split; reflexivity.
      * apply in_map. exact Hin.
Qed.

End Poseidon.
