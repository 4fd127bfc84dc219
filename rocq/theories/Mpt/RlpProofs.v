(** RLP strings can be decoded unambiguously; the hash of a trie determines it
    up to hash collisions among the strings hashed. *)

From Coq Require Import List Arith NArith ZArith Bool Lia ZifyN ZifyNat ZifyBool.
From Verif.Mpt Require Import TrieModel TrieSpec TrieFacts NibblesModel NibblesProofs HexPrefixProofs HashModel PruneSpec.
Import ListNotations.
Local Open Scope nat_scope.

Lemma from_be_bound b : byte_list b -> (from_be b < 256 ^ N.of_nat (length b))%N.
Proof.
  induction b as [|x b IH]; intros H; [cbn; lia|]. inversion H as [|? ? Hx Hb]; subst.
  rewrite from_be_cons. cbn [length]. rewrite Nat2N.inj_succ, N.pow_succ_r'. specialize (IH Hb). unfold is_byte in Hx. nia.
Qed.

Lemma from_be_be_bytes n : forall x, (x < 256 ^ N.of_nat n)%N -> from_be (be_bytes n x) = x.
Proof.
  induction n as [|n IH]; intros x H; cbn [be_bytes].
  - cbn in *. lia.
  - rewrite from_be_app. cbn [length]. rewrite Nat2N.inj_succ, N.pow_succ_r' in H. rewrite IH by lia.
    change (from_be [(x mod 256)%N]) with (256 * 0 + x mod 256)%N. change (256 ^ N.of_nat 1)%N with 256%N. lia.
Qed.

Lemma from_be_drop_zeros l : from_be (drop_zeros l) = from_be l.
Proof.
  induction l as [|x l IH]; cbn [drop_zeros]; auto. destruct x; auto.
Qed.

Lemma drop_zeros_length l : length (drop_zeros l) <= length l.
Proof. induction l as [|x l IH]; cbn [drop_zeros length]; auto. destruct x; cbn [length]; lia. Qed.

Lemma len_bytes_val n : (N.of_nat n < 2 ^ 64)%N -> from_be (len_bytes n) = N.of_nat n.
Proof. intros H. unfold len_bytes. rewrite from_be_drop_zeros, from_be_be_bytes; auto. Qed.

Lemma len_bytes_length n : length (len_bytes n) <= 8.
Proof. unfold len_bytes. pose proof (drop_zeros_length (be_bytes 8 (N.of_nat n))). now rewrite be_bytes_length in H. Qed.

Lemma len_bytes_pos n : (N.of_nat n < 2 ^ 64)%N -> 0 < n -> 0 < length (len_bytes n).
Proof.
  intros H P. pose proof (len_bytes_val n H). destruct (len_bytes n); [|cbn; lia]. cbn in H0. lia.
Qed.

(** A decoder for one RLP item: (is it a list, payload, rest). *)
Definition dec (l : list N) : option (bool * list N * list N) :=
  match l with
  | [] => None
  | h :: t =>
      if (h <? 128)%N then Some (false, [h], t)
      else if (h <=? 183)%N then let n := N.to_nat (h - 128) in Some (false, firstn n t, skipn n t)
      else if (h <=? 191)%N then
        let k := N.to_nat (h - 183) in let n := N.to_nat (from_be (firstn k t)) in
        Some (false, firstn n (skipn k t), skipn n (skipn k t))
      else if (h <=? 247)%N then let n := N.to_nat (h - 192) in Some (true, firstn n t, skipn n t)
      else
        let k := N.to_nat (h - 247) in let n := N.to_nat (from_be (firstn k t)) in
        Some (true, firstn n (skipn k t), skipn n (skipn k t))
  end.

Lemma fa {A} (p q : list A) n : n = length p -> firstn n (p ++ q) = p.
Proof. intros ->. apply firstn_app_exact. Qed.
Lemma sa {A} (p q : list A) n : n = length p -> skipn n (p ++ q) = q.
Proof. intros ->. apply skipn_app_exact. Qed.

Ltac decide_ifs :=
  repeat match goal with
  | |- context [N.ltb ?a ?b] => destruct (N.ltb_spec a b); try lia
  | |- context [N.leb ?a ?b] => destruct (N.leb_spec a b); try lia
  end.

Lemma dec_long (f : bool) base b r : (N.of_nat (length b) < 2 ^ 64)%N -> 55 < length b ->
  base = (if f then 247 else 183)%N ->
  dec (((base + N.of_nat (length (len_bytes (length b))))%N :: len_bytes (length b) ++ b) ++ r) = Some (f, b, r).
Proof.
  intros H L ->. pose proof (len_bytes_length (length b)) as L8. pose proof (len_bytes_pos (length b) H ltac:(lia)) as L1.
  cbn [app dec]. rewrite <- app_assoc.
  destruct f; decide_ifs; rewrite (fa (len_bytes (length b))) by lia; rewrite (sa (len_bytes (length b))) by lia;
    rewrite len_bytes_val by auto; rewrite (fa b), (sa b) by lia; reflexivity.
Qed.

Lemma dec_short (f : bool) base b r : length b <= 55 -> base = (if f then 192 else 128)%N ->
  dec (((base + N.of_nat (length b))%N :: b) ++ r) = Some (f, b, r).
Proof.
  intros L ->. cbn [app dec].
  destruct f; decide_ifs; rewrite (fa b), (sa b) by lia; reflexivity.
Qed.

Lemma dec_bytes b r : (N.of_nat (length b) < 2 ^ 64)%N -> dec (rlp_bytes b ++ r) = Some (false, b, r).
Proof.
  intros H. destruct b as [|x [|y b]].
  - reflexivity.
  - cbn [rlp_bytes]. destruct (N.ltb_spec x 128); cbn [app dec].
    + decide_ifs. reflexivity.
    + reflexivity.
  - set (c := x :: y :: b) in *. change (rlp_bytes c) with (if length c <=? 55 then (128 + N.of_nat (length c))%N :: c
         else (183 + N.of_nat (length (len_bytes (length c))))%N :: len_bytes (length c) ++ c).
    destruct (Nat.leb_spec (length c) 55); [now apply dec_short|apply dec_long; auto; lia].
Qed.

Lemma dec_list b r : (N.of_nat (length b) < 2 ^ 64)%N -> dec (rlp_list b ++ r) = Some (true, b, r).
Proof.
  intros H. unfold rlp_list. destruct (Nat.leb_spec (length b) 55); [now apply dec_short|apply dec_long; auto; lia].
Qed.

Lemma rlp_bytes_length b : length (rlp_bytes b) <= length b + 9.
Proof.
  destruct b as [|x [|y b]]; cbn [rlp_bytes].
  - cbn; lia.
  - destruct (N.ltb_spec x 128); cbn; lia.
  - set (c := x :: y :: b). pose proof (len_bytes_length (length c)).
    destruct (length c <=? 55); cbn [length]; rewrite ?app_length; lia.
Qed.

(** An RLP item, as far as decoding is concerned. *)
Definition item (b : list N) : Prop := exists f p, forall r, dec (b ++ r) = Some (f, p, r).

Lemma item_split a b x y : item a -> item b -> a ++ x = b ++ y -> a = b /\ x = y.
Proof.
  intros (f & p & Ha) (g & q & Hb) E. assert (x = y).
  { pose proof (Ha x) as E1. pose proof (Hb y) as E2. rewrite E in E1. congruence. }
  subst y. split; auto. now apply app_inv_tail in E.
Qed.

Lemma item_not_nil a x : item a -> a ++ x = [] -> False.
Proof. intros (f & p & H) E. specialize (H x). rewrite E in H. discriminate. Qed.

Lemma item_bytes b : (N.of_nat (length b) < 2 ^ 64)%N -> item (rlp_bytes b).
Proof. intros H. exists false, b. intros. now apply dec_bytes. Qed.
Lemma item_list b : (N.of_nat (length b) < 2 ^ 64)%N -> item (rlp_list b).
Proof. intros H. exists true, b. intros. now apply dec_list. Qed.

Lemma rlp_bytes_inj a b : (N.of_nat (length a) < 2 ^ 64)%N -> (N.of_nat (length b) < 2 ^ 64)%N ->
  rlp_bytes a = rlp_bytes b -> a = b.
Proof.
  intros Ha Hb E. pose proof (dec_bytes a [] Ha) as E1. pose proof (dec_bytes b [] Hb) as E2.
  rewrite E in E1. congruence.
Qed.
Lemma rlp_list_inj a b : (N.of_nat (length a) < 2 ^ 64)%N -> (N.of_nat (length b) < 2 ^ 64)%N ->
  rlp_list a = rlp_list b -> a = b.
Proof.
  intros Ha Hb E. pose proof (dec_list a [] Ha) as E1. pose proof (dec_list b [] Hb) as E2.
  rewrite E in E1. congruence.
Qed.
Lemma rlp_bytes_list a b : (N.of_nat (length a) < 2 ^ 64)%N -> (N.of_nat (length b) < 2 ^ 64)%N ->
  rlp_bytes a = rlp_list b -> False.
Proof.
  intros Ha Hb E. pose proof (dec_bytes a [] Ha) as E1. pose proof (dec_list b [] Hb) as E2.
  rewrite E in E1. congruence.
Qed.

Section Binding.
Variable keccak : list N -> list N.
Hypothesis keccak_len : forall b, length (keccak b) = 32.
Local Notation prunes := (prunes keccak).
Local Notation encode := (encode keccak).
Local Notation node_rlp := (node_rlp keccak).
Local Notation kid c := (append_to_stream (encode c)).

Lemma encode_rlp n : encode n = match n with Hash h => Hashed h | Empty => Raw [128%N] | _ => hash_bytes_if_large_enough keccak (node_rlp n) end.
Proof. destruct n; reflexivity. Qed.

Lemma wf_branch_inv ch v : wf_node (Branch ch v) -> length ch = 16 /\ Forall wf_node ch /\ (N.of_nat (length v) < 2 ^ 60)%N.
Proof. inversion 1; auto. Qed.
Lemma wf_ext_inv ns c : wf_node (Ext ns c) -> valid_key ns /\ wf_node c.
Proof. inversion 1; auto. Qed.
Lemma wf_leaf_inv ns v : wf_node (Leaf ns v) -> valid_key ns /\ (N.of_nat (length v) < 2 ^ 60)%N.
Proof. inversion 1; auto. Qed.
Lemma wf_hash_inv h : wf_node (Hash h) -> length h = 32.
Proof. inversion 1; auto. Qed.

Lemma kid_length c : wf_node c -> length (kid c) <= 41.
Proof.
  intros W. rewrite encode_rlp. unfold hash_bytes_if_large_enough.
  assert (H32 : forall h, length h = 32 -> length (append_to_stream (Hashed h)) <= 41).
  { intros h H. cbn [append_to_stream]. pose proof (rlp_bytes_length h). lia. }
  assert (G : length (append_to_stream (if 32 <=? length (node_rlp c) then Hashed (keccak (node_rlp c)) else Raw (node_rlp c))) <= 41).
  { destruct (Nat.leb_spec 32 (length (node_rlp c))); [apply H32, keccak_len|cbn [append_to_stream]; lia]. }
  destruct c; auto. apply H32. now apply wf_hash_inv in W.
Qed.

Lemma flat_kids_length ch : Forall wf_node ch -> length (flat_map (fun c => kid c) ch) <= 41 * length ch.
Proof.
  induction 1 as [|c ch W _ IH]; [cbn; lia|]. cbn [flat_map]. rewrite app_length. pose proof (kid_length c W). cbn [length]. lia.
Qed.

Lemma hp_len leaf ns : valid_key ns -> length (hp_spec leaf ns) <= 33.
Proof. intros [_ H]. pose proof (hp_length leaf ns). destruct (Nat.even (length ns)); lia. Qed.

Lemma branch_payload ch v : wf_node (Branch ch v) -> (N.of_nat (length (flat_map (fun c => kid c) ch ++ rlp_bytes v)) < 2 ^ 64)%N.
Proof.
  intros W. apply wf_branch_inv in W as (L & F & V). pose proof (flat_kids_length ch F). pose proof (rlp_bytes_length v).
  rewrite app_length. change (2 ^ 64)%N with 18446744073709551616%N. change (2 ^ 60)%N with 1152921504606846976%N in V. lia.
Qed.
Lemma ext_payload ns c : wf_node (Ext ns c) -> (N.of_nat (length (rlp_bytes (hp_spec false ns) ++ kid c)) < 2 ^ 64)%N.
Proof.
  intros W. apply wf_ext_inv in W as (K & W). pose proof (kid_length c W). pose proof (rlp_bytes_length (hp_spec false ns)).
  pose proof (hp_len false ns K). rewrite app_length. change (2 ^ 64)%N with 18446744073709551616%N. lia.
Qed.
Lemma leaf_payload ns v : wf_node (Leaf ns v) -> (N.of_nat (length (rlp_bytes (hp_spec true ns) ++ rlp_bytes v)) < 2 ^ 64)%N.
Proof.
  intros W. apply wf_leaf_inv in W as (K & V). pose proof (rlp_bytes_length v). pose proof (rlp_bytes_length (hp_spec true ns)).
  pose proof (hp_len true ns K). rewrite app_length. change (2 ^ 64)%N with 18446744073709551616%N.
  change (2 ^ 60)%N with 1152921504606846976%N in V. lia.
Qed.

Lemma hp_item leaf ns : valid_key ns -> (N.of_nat (length (hp_spec leaf ns)) < 2 ^ 64)%N.
Proof. intros H. pose proof (hp_len leaf ns H). change (2 ^ 64)%N with 18446744073709551616%N. lia. Qed.
Lemma val_item (v : bytes) : (N.of_nat (length v) < 2 ^ 60)%N -> (N.of_nat (length v) < 2 ^ 64)%N.
Proof. change (2 ^ 64)%N with 18446744073709551616%N. change (2 ^ 60)%N with 1152921504606846976%N. lia. Qed.
Lemma hash_item (v : bytes) : length v = 32 -> (N.of_nat (length v) < 2 ^ 64)%N.
Proof. intros ->. reflexivity. Qed.

(** The RLP of a node that is neither empty nor a hash is a list. *)
Lemma node_rlp_list n : wf_node n -> n <> Empty -> (forall h, n <> Hash h) ->
  exists p, node_rlp n = rlp_list p /\ (N.of_nat (length p) < 2 ^ 64)%N.
Proof.
  intros W NE NH. destruct n; try congruence.
  - eexists. split; [reflexivity|]. now apply branch_payload.
  - eexists. split; [reflexivity|]. now apply ext_payload.
  - eexists. split; [reflexivity|]. now apply leaf_payload.
Qed.

Lemma kid_item c : wf_node c -> item (kid c).
Proof.
  intros W. rewrite encode_rlp. unfold hash_bytes_if_large_enough.
  assert (G : c <> Empty -> (forall h, c <> Hash h) ->
    item (append_to_stream (if 32 <=? length (node_rlp c) then Hashed (keccak (node_rlp c)) else Raw (node_rlp c)))).
  { intros NE NH. destruct (32 <=? length (node_rlp c)); cbn [append_to_stream].
    - apply item_bytes, hash_item, keccak_len.
    - destruct (node_rlp_list c W NE NH) as (p & -> & Hp). now apply item_list. }
  destruct c; try (apply G; discriminate).
  - cbn. exists false, []. intros r. reflexivity.
  - cbn [append_to_stream]. apply item_bytes, hash_item. now apply wf_hash_inv in W.
Qed.

(** Same reference in the parent: the child prunes or the strings agree. *)
Lemma kid_eq c d : wf_node c -> wf_node d -> no_hash d -> no_collision keccak c d -> kid c = kid d ->
  prunes c d \/ (node_rlp c = node_rlp d /\ forall h, c <> Hash h).
Proof.
  intros Wc Wd ND NC E.
  assert (DH : forall h, d <> Hash h) by (intros h ->; inversion ND).
  assert (KD : exists y, encode d = y /\ (y = Raw (node_rlp d) \/ (y = Hashed (keccak (node_rlp d)) /\ d <> Empty))).
  { rewrite encode_rlp. unfold hash_bytes_if_large_enough. destruct d; try (now destruct (DH h)); eexists; (split; [reflexivity|]);
      try (left; reflexivity); destruct (32 <=? _); auto; right; split; auto; discriminate. }
  assert (InD : In (node_rlp d) (rlp_strings keccak d)).
  { destruct d; cbn; auto; now destruct (DH h). }
  assert (RD : forall x, length x = 32 -> rlp_bytes x <> node_rlp d).
  { intros x Hx Q. destruct d; try (now destruct (DH h)).
    - change (node_rlp Empty) with (rlp_bytes []) in Q. apply rlp_bytes_inj in Q; [subst x; discriminate|now apply hash_item|reflexivity].
    - destruct (node_rlp_list _ Wd) as (p & Ep & Hp); try discriminate. rewrite Ep in Q.
      eapply rlp_bytes_list; [|exact Hp|exact Q]. now apply hash_item.
    - destruct (node_rlp_list _ Wd) as (p & Ep & Hp); try discriminate. rewrite Ep in Q.
      eapply rlp_bytes_list; [|exact Hp|exact Q]. now apply hash_item.
    - destruct (node_rlp_list _ Wd) as (p & Ep & Hp); try discriminate. rewrite Ep in Q.
      eapply rlp_bytes_list; [|exact Hp|exact Q]. now apply hash_item. }
  destruct KD as (y & Ey & KD). rewrite Ey in E.
  assert (CASE : (exists h, c = Hash h) \/ (forall h, c <> Hash h)) by (destruct c; eauto; right; discriminate).
  destruct CASE as [(h & ->)|CH].
  - left. apply wf_hash_inv in Wc. cbn [HashModel.encode append_to_stream] in E. destruct KD as [->|[-> _]]; cbn [append_to_stream] in E.
    + now destruct (RD h Wc).
    + constructor. rewrite Ey. f_equal. apply rlp_bytes_inj in E; auto using hash_item.
  - right. split; auto.
    assert (KC : exists x, encode c = x /\ (x = Raw (node_rlp c) \/ (x = Hashed (keccak (node_rlp c)) /\ c <> Empty))).
    { rewrite encode_rlp. unfold hash_bytes_if_large_enough. destruct c; try (now destruct (CH h)); eexists; (split; [reflexivity|]);
      try (left; reflexivity); destruct (32 <=? _); auto; right; split; auto; discriminate. }
    assert (RC : forall x, length x = 32 -> rlp_bytes x <> node_rlp c).
    { intros x Hx Q. destruct c; try (now destruct (CH h)).
      - change (node_rlp Empty) with (rlp_bytes []) in Q. apply rlp_bytes_inj in Q; [subst x; discriminate|now apply hash_item|reflexivity].
      - destruct (node_rlp_list _ Wc) as (p & Ep & Hp); try discriminate. rewrite Ep in Q.
        eapply rlp_bytes_list; [|exact Hp|exact Q]. now apply hash_item.
      - destruct (node_rlp_list _ Wc) as (p & Ep & Hp); try discriminate. rewrite Ep in Q.
        eapply rlp_bytes_list; [|exact Hp|exact Q]. now apply hash_item.
      - destruct (node_rlp_list _ Wc) as (p & Ep & Hp); try discriminate. rewrite Ep in Q.
        eapply rlp_bytes_list; [|exact Hp|exact Q]. now apply hash_item. }
    assert (InC : In (node_rlp c) (rlp_strings keccak c)).
    { destruct c; cbn; auto; now destruct (CH h). }
    destruct KC as (x & Ex & KC). rewrite Ex in E.
    destruct KC as [->|[-> _]], KD as [->|[-> _]]; cbn [append_to_stream] in E.
    + exact E.
    + symmetry in E. now destruct (RC _ (keccak_len _) E).
    + now destruct (RD _ (keccak_len _) E).
    + apply rlp_bytes_inj in E; auto using hash_item.
Qed.

Lemma no_collision_sub a b a' b' : no_collision keccak a b ->
  incl (rlp_strings keccak a') (rlp_strings keccak a) -> incl (rlp_strings keccak b') (rlp_strings keccak b) ->
  no_collision keccak a' b'.
Proof. intros H I J x y Hx Hy. apply H; auto. Qed.

Lemma rlp_list_empty n : wf_node n -> n <> Empty -> (forall h, n <> Hash h) -> node_rlp n <> [128%N].
Proof.
  intros W NE NH Q. destruct (node_rlp_list n W NE NH) as (p & Ep & Hp). rewrite Ep in Q.
  change [128%N] with (rlp_bytes []) in Q. symmetry in Q. eapply rlp_bytes_list; [|exact Hp|exact Q]. reflexivity.
Qed.

Lemma valid_nibs ns : valid_key ns -> nibs ns.
Proof. intros [H _]. exact H. Qed.

Lemma binding P : forall T, wf_node P -> wf_node T -> no_hash T -> no_collision keccak P T ->
  (node_rlp P = node_rlp T -> (forall h, P <> Hash h) -> prunes P T) /\
  (kid P = kid T -> prunes P T).
Proof.
  induction P as [|h|ch v IH|ns c IH|ns v] using node_ind'; intros T WP WT NT NC.
  all: assert (A : forall P, wf_node P -> no_collision keccak P T -> (node_rlp P = node_rlp T -> (forall h, P <> Hash h) -> prunes P T) ->
      (node_rlp P = node_rlp T -> (forall h, P <> Hash h) -> prunes P T) /\ (kid P = kid T -> prunes P T))
    by (intros P WP' NC' HA; split; auto; intros E; destruct (kid_eq P T WP' WT NT NC' E) as [?|[? ?]]; auto).
  all: apply A; auto; intros E NH; clear A.
  - (* Empty *) destruct T; try constructor; exfalso.
    + inversion NT.
    + symmetry in E. eapply rlp_list_empty; [exact WT| | |exact E]; discriminate.
    + symmetry in E. eapply rlp_list_empty; [exact WT| | |exact E]; discriminate.
    + symmetry in E. eapply rlp_list_empty; [exact WT| | |exact E]; discriminate.
  - now destruct (NH h).
  - (* Branch *)
    pose proof (branch_payload _ _ WP) as BP. pose proof (wf_branch_inv _ _ WP) as (L & F & V).
    destruct T as [|h'|ch' v'|ns' c'|ns' v'].
    + exfalso. eapply rlp_list_empty; [exact WP| | |exact E]; discriminate.
    + inversion NT.
    + pose proof (branch_payload _ _ WT) as BT. pose proof (wf_branch_inv _ _ WT) as (L' & F' & V').
      cbn [PruneSpec.node_rlp] in E. apply rlp_list_inj in E; auto. clear BP BT WP WT NH.
      assert (NT' : Forall no_hash ch') by (now inversion NT).
      assert (NC' : forall x y, In x ch -> In y ch' -> no_collision keccak x y).
      { intros x y Ix Iy. eapply no_collision_sub; eauto; intros s Hs; cbn; right; apply in_flat_map; eauto. }
      clear NC NT. assert (LL : length ch = length ch') by congruence. clear L L'.
      assert (G : Forall2 prunes ch ch' /\ v = v').
      { revert ch' F' NT' NC' LL E. induction ch as [|x ch IHc]; intros [|y ch'] F' NT' NC' LL E; try discriminate.
        - split; [constructor|]. cbn in E. apply rlp_bytes_inj in E; auto using val_item.
        - cbn [flat_map] in E. rewrite <- !app_assoc in E. inversion F; subst. inversion F'; subst. inversion NT'; subst.
          apply item_split in E as [E1 E2]; auto using kid_item.
          destruct (IHc (fun i c Hc => IH (S i) c Hc) H2 ch') as [G1 ->]; auto.
          + intros a b Ia Ib. apply NC'; now right.
          + split; auto. constructor; auto. apply (IH 0 x eq_refl y); auto. apply NC'; now left. }
      destruct G as [G ->]. now constructor.
    + exfalso. pose proof (ext_payload _ _ WT) as BT. pose proof (wf_ext_inv _ _ WT) as (K & W').
      cbn [PruneSpec.node_rlp] in E. apply rlp_list_inj in E; auto.
      destruct ch as [|a [|b ch]]; try discriminate. cbn [flat_map] in E. rewrite <- !app_assoc in E.
      inversion F as [|? ? Wa F1]; subst. inversion F1 as [|? ? Wb F2]; subst.
      apply item_split in E as [_ E]; auto using kid_item, item_bytes, hp_item.
      rewrite <- (app_nil_r (kid c')) in E.
      apply item_split in E as [_ E]; auto using kid_item.
      apply app_eq_nil in E as [_ E]. eapply (item_not_nil (rlp_bytes v) []); [now apply item_bytes, val_item|now rewrite app_nil_r].
    + exfalso. pose proof (leaf_payload _ _ WT) as BT. pose proof (wf_leaf_inv _ _ WT) as (K & W').
      cbn [PruneSpec.node_rlp] in E. apply rlp_list_inj in E; auto.
      destruct ch as [|a [|b ch]]; try discriminate. cbn [flat_map] in E. rewrite <- !app_assoc in E.
      inversion F as [|? ? Wa F1]; subst. inversion F1 as [|? ? Wb F2]; subst.
      apply item_split in E as [_ E]; auto using kid_item, item_bytes, hp_item.
      rewrite <- (app_nil_r (rlp_bytes v')) in E.
      apply item_split in E as [_ E]; auto using kid_item, item_bytes, val_item.
      apply app_eq_nil in E as [_ E]. eapply (item_not_nil (rlp_bytes v) []); [now apply item_bytes, val_item|now rewrite app_nil_r].
  - (* Ext *)
    pose proof (ext_payload _ _ WP) as BP. pose proof (wf_ext_inv _ _ WP) as (K & W).
    destruct T as [|h'|ch' v'|ns' c'|ns' v'].
    + exfalso. eapply rlp_list_empty; [exact WP| | |exact E]; discriminate.
    + inversion NT.
    + exfalso. pose proof (branch_payload _ _ WT) as BT. pose proof (wf_branch_inv _ _ WT) as (L' & F & V').
      cbn [PruneSpec.node_rlp] in E. apply rlp_list_inj in E; auto.
      destruct ch' as [|a [|b ch]]; try discriminate. cbn [flat_map] in E. rewrite <- !app_assoc in E.
      inversion F as [|? ? Wa F1]; subst. inversion F1 as [|? ? Wb F2]; subst.
      apply item_split in E as [_ E]; auto using kid_item, item_bytes, hp_item.
      rewrite <- (app_nil_r (kid c)) in E.
      apply item_split in E as [_ E]; auto using kid_item. symmetry in E.
      apply app_eq_nil in E as [_ E]. eapply (item_not_nil (rlp_bytes v') []); [now apply item_bytes, val_item|now rewrite app_nil_r].
    + pose proof (ext_payload _ _ WT) as BT. pose proof (wf_ext_inv _ _ WT) as (K' & W').
      cbn [PruneSpec.node_rlp] in E. apply rlp_list_inj in E; auto.
      apply item_split in E as [E1 E2]; auto using item_bytes, hp_item.
      apply rlp_bytes_inj in E1; auto using hp_item. apply hp_inj in E1 as [_ ->]; auto using valid_nibs.
      constructor. apply (IH c'); auto.
      * now inversion NT.
      * eapply no_collision_sub; eauto; intros s Hs; cbn; now right.
    + exfalso. pose proof (leaf_payload _ _ WT) as BT. pose proof (wf_leaf_inv _ _ WT) as (K' & W').
      cbn [PruneSpec.node_rlp] in E. apply rlp_list_inj in E; auto.
      apply item_split in E as [E1 E2]; auto using item_bytes, hp_item.
      apply rlp_bytes_inj in E1; auto using hp_item. apply hp_inj in E1 as [E1 _]; auto using valid_nibs. discriminate.
  - (* Leaf *)
    pose proof (leaf_payload _ _ WP) as BP. pose proof (wf_leaf_inv _ _ WP) as (K & W).
    destruct T as [|h'|ch' v'|ns' c'|ns' v'].
    + exfalso. eapply rlp_list_empty; [exact WP| | |exact E]; discriminate.
    + inversion NT.
    + exfalso. pose proof (branch_payload _ _ WT) as BT. pose proof (wf_branch_inv _ _ WT) as (L' & F & V').
      cbn [PruneSpec.node_rlp] in E. apply rlp_list_inj in E; auto.
      destruct ch' as [|a [|b ch]]; try discriminate. cbn [flat_map] in E. rewrite <- !app_assoc in E.
      inversion F as [|? ? Wa F1]; subst. inversion F1 as [|? ? Wb F2]; subst.
      apply item_split in E as [_ E]; auto using kid_item, item_bytes, hp_item.
      rewrite <- (app_nil_r (rlp_bytes v)) in E.
      apply item_split in E as [_ E]; auto using kid_item, item_bytes, val_item. symmetry in E.
      apply app_eq_nil in E as [_ E]. eapply (item_not_nil (rlp_bytes v') []); [now apply item_bytes, val_item|now rewrite app_nil_r].
    + exfalso. pose proof (ext_payload _ _ WT) as BT. pose proof (wf_ext_inv _ _ WT) as (K' & W').
      cbn [PruneSpec.node_rlp] in E. apply rlp_list_inj in E; auto.
      apply item_split in E as [E1 E2]; auto using item_bytes, hp_item.
      apply rlp_bytes_inj in E1; auto using hp_item. apply hp_inj in E1 as [E1 _]; auto using valid_nibs. discriminate.
    + pose proof (leaf_payload _ _ WT) as BT. pose proof (wf_leaf_inv _ _ WT) as (K' & W').
      cbn [PruneSpec.node_rlp] in E. apply rlp_list_inj in E; auto.
      apply item_split in E as [E1 E2]; auto using item_bytes, hp_item.
      apply rlp_bytes_inj in E1; auto using hp_item. apply hp_inj in E1 as [_ ->]; auto using valid_nibs.
      apply rlp_bytes_inj in E2; auto using val_item. subst. constructor.
Qed.

Lemma root_rlp n : (forall h, n <> Hash h) -> hash_trie keccak n = keccak (node_rlp n).
Proof.
  intros H. unfold hash_trie. rewrite encode_rlp. unfold hash_bytes_if_large_enough.
  destruct n; try reflexivity; [now destruct (H h)| | |]; destruct (32 <=? _); reflexivity.
Qed.

Lemma root_binding P T : wf_node P -> wf_node T -> no_hash T -> no_collision keccak P T ->
  hash_trie keccak P = hash_trie keccak T -> P = Hash (hash_trie keccak T) \/ prunes P T.
Proof.
  intros WP WT NT NC E.
  assert (TH : forall h, T <> Hash h) by (intros h ->; inversion NT).
  assert (CASE : (exists h, P = Hash h) \/ (forall h, P <> Hash h)) by (destruct P; eauto; right; discriminate).
  destruct CASE as [(h & ->)|PH].
  - left. cbn in E. congruence.
  - right. destruct (binding P T WP WT NT NC) as [HB _]. apply HB; auto. rewrite !root_rlp in E by auto. apply NC; auto.
    + destruct P; try (cbn; now left). now destruct (PH h).
    + destruct T; try (cbn; now left). now destruct (TH h).
Qed.

End Binding.
