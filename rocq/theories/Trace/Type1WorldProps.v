(** Properties of the type-1 world (Type1WorldModel.v): C40 (storage roots stay in
    sync) and C60 (the world behaves as a map of accounts and slots). *)

From Coq Require Import List Arith NArith Bool Lia ZifyN ZifyNat ZifyBool.
From Verif.Mpt Require Import NibblesModel TrieModel TrieSpec TrieFacts TrieOpsProofs TrieIterProofs HashModel HexPrefixProofs RlpProofs
  SubsetModel QueryModel PruneSpec PartialProps FixedOpsProofs.
From Verif.Trace Require Import WireModel Type1Model Type1WorldModel.
Import ListNotations.
Local Open Scope nat_scope.

(** * Specification *)

(** A 256-bit key. *)
Definition hash_key (k : nibbles) : Prop := length k = 64 /\ nibs_ok k.

(** The values the types [U256] and [H256] allow. *)
Definition acct_ok (a : account) : Prop :=
  (a_nonce a < 2 ^ 256)%N /\ (a_balance a < 2 ^ 256)%N /\ length (a_storage_root a) = 32 /\ length (a_code_hash a) = 32.

(** What tries.rs says of a [StateMpt]: values are RLP-encoded accounts, at 256
    bits; other entries are hashed-out subtries.  (Canonical: what inserting in
    an empty trie gives.) *)
Definition state_ok (s : trie) : Prop :=
  canon (t_node s) /\
  forall k x, stored (t_node s) k x ->
    match x with
    | VHash _ => length k <= 64
    | Val v => length k = 64 /\ exists a, acct_ok a /\ v = enc_account a
    end.

Section Props.
  Variable keccak : list N -> list N.
  (** The hash function returns 32 bytes. *)
  Definition keccak_ok : Prop := forall b, length (keccak b) = 32 /\ byte_list (keccak b).

  Definition empty_root : list N := hash_trie keccak Empty.

  (** The storage root recorded in an account is the root of its storage trie. *)
  Definition in_sync (w : world) : Prop :=
    forall k a t, hash_key k -> state_get (w_state w) k = Done (Some a) -> storage_get (w_storage w) k = Some t ->
      a_storage_root a = troot keccak t.
  (** There is no account at [k], and none can be hidden in a hashed-out part. *)
  Definition absent (w : world) (k : nibbles) : Prop :=
    state_get (w_state w) k = Done None /\ ~ meets_hash (t_node (w_state w)) k.
  (** No storage is left over where there is no account. *)
  Definition no_orphans (w : world) : Prop :=
    forall k t, hash_key k -> absent w k -> storage_get (w_storage w) k = Some t -> troot keccak t = empty_root.
  Definition world_ok (w : world) : Prop := state_ok (w_state w) /\ in_sync w /\ no_orphans w.

  (** The calls that change a world. *)
  Inductive op : Type :=
  | OpBalance (addr : list N) (f : N -> N)
  | OpNonce (addr : list N) (f : N -> N)
  | OpCode (addr : list N) (code : list N + list N)
  | OpStoreInt (addr : list N) (slot value : N)
  | OpStoreHash (addr : list N) (hash value : list N)
  | OpDestroySlot (addr : list N) (slot : N)
  | OpMask (keys : list nibbles)
  | OpMaskStorage (masks : list (list N * list nibbles))
  | OpDestroyStorage (addr : list N)
  | OpCreateStorage (addr : list N)
  | OpDestroy (addr : list N).

  (** The world after a call, whether it succeeds or fails. *)
  Definition after (w : world) (o : op) : world :=
    match o with
    | OpBalance addr f => fst (w_update_balance keccak w addr f)
    | OpNonce addr f => fst (w_update_nonce keccak w addr f)
    | OpCode addr code => fst (w_set_code keccak w addr code)
    | OpStoreInt addr slot value => fst (w_store_int keccak w addr slot value)
    | OpStoreHash addr hash value => fst (w_store_hash keccak w addr hash value)
    | OpDestroySlot addr slot => fst (w_reporting_destroy_slot keccak w addr slot)
    | OpMask keys => fst (w_mask keccak w keys)
    | OpMaskStorage masks => fst (w_mask_storage keccak w masks)
    | OpDestroyStorage addr => fst (w_destroy_storage keccak w addr)
    | OpCreateStorage addr => fst (w_create_storage keccak w addr)
    | OpDestroy addr => fst (w_reporting_destroy keccak w addr)
    end.
  Fixpoint after_all (w : world) (l : list op) : world :=
    match l with [] => w | o :: l => after_all (after w o) l end.

  (** The arguments have their Rust types. *)
  Definition typed (o : op) : Prop :=
    match o with
    | OpBalance _ f | OpNonce _ f => forall x, (x < 2 ^ 256)%N -> (f x < 2 ^ 256)%N
    | OpCode _ (inr h) => length h = 32
    | OpStoreHash _ h _ => length h = 32 /\ byte_list h
    | _ => True
    end.
  (** Storage is created only where no account refers to other storage, and an
      account is removed only when its storage is gone (or empty). *)
  Definition orderly (w : world) (o : op) : Prop :=
    match o with
    | OpCreateStorage addr => forall a, state_get (w_state w) (hkey keccak addr) = Done (Some a) -> a_storage_root a = empty_root
    | OpDestroy addr => forall a t, state_get (w_state w) (hkey keccak addr) = Done (Some a) ->
        storage_get (w_storage w) (hkey keccak addr) = Some t -> troot keccak t = empty_root
    | _ => True
    end.
  Fixpoint orderly_all (w : world) (l : list op) : Prop :=
    match l with [] => True | o :: l => orderly w o /\ orderly_all (after w o) l end.
  (** Storage writes, slot deletions, account updates and masking. *)
  Definition plain (o : op) : Prop :=
    match o with OpCreateStorage _ | OpDestroy _ => False | _ => True end.

  (** * Accounts and their encoding *)

  Lemma drop_zeros_head l : match drop_zeros l with 0%N :: _ => False | _ => True end.
  Proof. induction l as [|x l IH]; cbn; auto. destruct x; auto. Qed.

  Lemma dec_uint_ok n : (n < 2 ^ 256)%N -> dec_uint (drop_zeros (be_bytes 32 n)) = Some n.
  Proof.
    intros H. pose proof (drop_zeros_head (be_bytes 32 n)) as Z. pose proof (drop_zeros_length (be_bytes 32 n)) as L. rewrite be_bytes_length in L.
    pose proof (from_be_drop_zeros (be_bytes 32 n)) as E. rewrite from_be_be_bytes in E by (change (256 ^ N.of_nat 32)%N with (2 ^ 256)%N; exact H).
    unfold dec_uint. destruct (drop_zeros (be_bytes 32 n)) as [|[|p] d]; [|easy|]; apply Nat.leb_le in L; rewrite L, E; reflexivity.
  Qed.

  Lemma uint_len n : length (drop_zeros (be_bytes 32 n)) <= 32.
  Proof. pose proof (drop_zeros_length (be_bytes 32 n)) as L. now rewrite be_bytes_length in L. Qed.

  Lemma small_dec b r : length b <= 32 -> dec (rlp_bytes b ++ r) = Some (false, b, r).
  Proof. intros H. apply dec_bytes. lia. Qed.

  Lemma dec_enc a : acct_ok a -> dec_account (enc_account a) = Some a.
  Proof.
    destruct a as [n b sr ch]. intros (Hn & Hb & Hs & Hc). cbn in Hn, Hb, Hs, Hc. unfold dec_account, enc_account, account_rlp. cbn [a_nonce a_balance a_storage_root a_code_hash].
    set (p := rlp_uint n ++ rlp_uint b ++ rlp_bytes sr ++ rlp_bytes ch).
    assert (L : length p <= 1000).
    { unfold p, rlp_uint. rewrite !app_length. pose proof (rlp_bytes_length (drop_zeros (be_bytes 32 n))). pose proof (rlp_bytes_length (drop_zeros (be_bytes 32 b))).
      pose proof (rlp_bytes_length sr). pose proof (rlp_bytes_length ch). pose proof (uint_len n). pose proof (uint_len b). lia. }
    assert (E : dec (rlp_list p) = Some (true, p, [])).
    { rewrite <- (app_nil_r (rlp_list p)). apply dec_list. lia. }
    rewrite E. unfold p, rlp_uint. rewrite small_dec by apply uint_len. rewrite small_dec by apply uint_len. rewrite small_dec by lia.
    rewrite <- (app_nil_r (rlp_bytes ch)), small_dec by lia.
    rewrite !dec_uint_ok by assumption. unfold dec_hash. now rewrite Hs, Hc.
  Qed.

  Lemma enc_inj a b : acct_ok a -> acct_ok b -> enc_account a = enc_account b -> a = b.
  Proof. intros A B E. apply dec_enc in A, B. congruence. Qed.

  Lemma decode_uint_ok n : (n < 2 ^ 256)%N -> decode_uint (rlp_uint n) = Some n.
  Proof.
    intros H. unfold decode_uint, rlp_uint. rewrite <- (app_nil_r (rlp_bytes _)), small_dec by apply uint_len. now apply dec_uint_ok.
  Qed.

  Lemma nibbles_of_key b : length b = 32 -> byte_list b -> hash_key (nibbles_of b).
  Proof.
    intros L B. split.
    - enough (G : forall b, length (nibbles_of b) = 2 * length b) by (rewrite G; lia).
      clear. intros b. unfold nibbles_of. induction b as [|x b IH]; [reflexivity|]. cbn [flat_map]. rewrite app_length, IH. cbn [length]. lia.
    - clear L. unfold nibbles_of, nibs_ok. induction B as [|x b Hx _ IH]; [constructor|]. cbn [flat_map]. apply Forall_app. split; [|exact IH].
      unfold is_byte in Hx. assert (x / 16 < 16)%N by (apply N.div_lt_upper_bound; lia). assert (x mod 16 < 16)%N by (apply N.mod_lt; lia).
      constructor; [lia|]. constructor; [lia|]. constructor.
  Qed.

  Hypothesis KOK : keccak_ok.

  Lemma hkey_ok addr : hash_key (hkey keccak addr).
  Proof. apply nibbles_of_key; apply KOK. Qed.
  Lemma slot_key_ok s : hash_key (slot_key keccak s).
  Proof. apply nibbles_of_key; apply KOK. Qed.

  Lemma encode_len n h : (forall h, n <> Hash h) -> encode keccak n = Hashed h -> length h = 32.
  Proof.
    intros NH E. destruct n; try (exfalso; eapply NH; reflexivity); cbn [encode] in E; try discriminate;
      unfold hash_bytes_if_large_enough in E; match type of E with (if ?c then _ else _) = _ => destruct c end; try discriminate;
      match type of E with Hashed ?x = _ => assert (h = x) as -> by congruence end; apply KOK.
  Qed.
  Lemma root_len n : (forall h, n <> Hash h) -> length (hash_trie keccak n) = 32.
  Proof.
    intros NH. unfold hash_trie. destruct (encode keccak n) as [b|h] eqn:E; [apply KOK|]. exact (encode_len n h NH E).
  Qed.

  Lemma default_ok : acct_ok (default_account keccak).
  Proof.
    split; [cbn; lia|]. split; [cbn; lia|]. split; [|apply KOK]. cbn [default_account a_storage_root]. apply root_len. discriminate.
  Qed.

  (** * The state trie *)

  Lemma state_depth s : state_ok s -> at_depth 64 (t_node s).
  Proof.
    intros [_ H] k x L. apply look_stored in L. apply H in L. destruct x as [v|h]; [|split; [auto|discriminate]].
    destruct L as [L _]. split; [lia|auto].
  Qed.

  (** Reading the state: the account stored under the key, if any. *)
  Lemma get_spec s k : state_ok s -> hash_key k ->
    (exists a, acct_ok a /\ look (t_node s) k = Some (Val (enc_account a)) /\ state_get s k = Done (Some a)) \/
    ((forall v, look (t_node s) k <> Some (Val v)) /\ state_get s k = Done None).
  Proof.
    intros S [Lk Hk]. pose proof (get_fixed 64 (t_node s) k (proj1 S) (state_depth s S) Lk Hk) as G. unfold state_get. rewrite G.
    destruct (look (t_node s) k) as [[v|h]|] eqn:E.
    - left. destruct S as [_ S]. apply look_stored in E. apply S in E as (_ & a & A & ->). exists a. rewrite dec_enc by auto. auto.
    - right. split; [discriminate|auto].
    - right. split; [discriminate|auto].
  Qed.

  Lemma get_some s k a : state_ok s -> hash_key k -> state_get s k = Done (Some a) <-> acct_ok a /\ look (t_node s) k = Some (Val (enc_account a)).
  Proof.
    intros S K. destruct (get_spec s k S K) as [(b & B & L & G)|[L G]]; rewrite G; split.
    - intros E. assert (a = b) by congruence. subst b. auto.
    - intros [A E]. assert (Q : enc_account b = enc_account a) by congruence. apply enc_inj in Q; auto. congruence.
    - discriminate.
    - intros [_ E]. now apply L in E.
  Qed.

  Lemma meets_look n k : meets_hash n k <-> exists p h, is_prefix p k /\ look n p = Some (VHash h).
  Proof.
    unfold meets_hash. split; intros (p & h & P & S); exists p, h; split; auto.
    - apply look_stored. now constructor.
    - apply look_stored in S. inversion S; subst. auto.
  Qed.

  (** The two ways a state can be read at a key depend on the entries only. *)
  Lemma get_ext s s' k : state_ok s -> state_ok s' -> hash_key k -> look (t_node s') k = look (t_node s) k -> state_get s' k = state_get s k.
  Proof.
    intros S S' K E. destruct (get_spec s k S K) as [(a & A & L & G)|[L G]], (get_spec s' k S' K) as [(a' & A' & L' & G')|[L' G']]; rewrite G, G'.
    - f_equal. f_equal. symmetry. apply enc_inj; auto. congruence.
    - rewrite E in L'. now apply L' in L.
    - rewrite E in L'. now apply L in L'.
    - reflexivity.
  Qed.

  Lemma insert_state s k a s' : state_ok s -> hash_key k -> acct_ok a -> state_insert s k a = Done s' ->
    state_ok s' /\ state_get s' k = Done (Some a) /\ (forall k', hash_key k' -> k' <> k -> state_get s' k' = state_get s k') /\
    (forall k', meets_hash (t_node s') k' <-> meets_hash (t_node s) k') /\ ~ meets_hash (t_node s) k.
  Proof.
    intros S [Lk Hk] A E. unfold state_insert in E. destruct (trie_insert (t_node s) k (Val (enc_account a))) as [n'| |] eqn:Ei; try discriminate.
    cbn [of_res obind] in E. assert (s' = {| t_node := n'; t_strategy := t_strategy s |}) by congruence. subst s'. cbn [t_node].
    destruct (insert_fixed 64 (t_node s) k (enc_account a) n' (proj1 S) (state_depth s S) Lk Hk Ei) as (C' & A' & L' & P).
    assert (S' : state_ok {| t_node := n'; t_strategy := t_strategy s |}).
    { split; [exact C'|]. cbn [t_node]. intros k' x St. apply look_stored in St. rewrite L' in St. destruct (key_eq_dec k' k) as [->|].
      - assert (x = Val (enc_account a)) by congruence. subst x. eauto.
      - apply look_stored in St. now apply S in St. }
    assert (V : ~ meets_hash (t_node s) k).
    { rewrite meets_look. intros (p & h & [q ->] & Hp). unfold trie_insert in Ei. rewrite (insert_at_hash _ p q h _ Hp) in Ei. discriminate. }
    split; [exact S'|]. split; [|split; [|split; [|exact V]]].
    - apply get_some; [exact S'|split; auto|]. split; [auto|]. cbn [t_node]. rewrite L'. destruct (key_eq_dec k k); congruence.
    - intros k' K' Ne. apply get_ext; auto. cbn [t_node]. rewrite L'. destruct (key_eq_dec k' k); congruence.
    - intros k'. rewrite !meets_look. split; intros (p & h & Pp & Hp); exists p, h; split; auto.
      + rewrite L' in Hp. destruct (key_eq_dec p k); congruence.
      + rewrite L'. destruct (key_eq_dec p k) as [->|]; [|auto]. exfalso. apply V. rewrite meets_look. exists k, h. split; [exists []; now rewrite app_nil_r|exact Hp].
  Qed.

  (** Writing back an account that was read never fails. *)
  Lemma insert_visible s k a b : state_ok s -> hash_key k -> state_get s k = Done (Some b) -> exists s', state_insert s k a = Done s'.
  Proof.
    intros S K G. pose proof K as [Lk Hk]. apply get_some in G as [B L]; auto.
    destruct (compat_or_hash (t_node s) 64 k (proj1 S) (state_depth s S) Lk Hk) as [P|(p & h & [q E] & Hp)].
    - destruct (insert_succeeds (t_node s) k (enc_account a) (proj1 S) P Hk) as (n' & E); [congruence|]. unfold state_insert. rewrite E. cbn. eauto.
    - exfalso. rewrite E in L. pose proof (look_past_hash _ _ _ _ _ Hp L). subst q. rewrite app_nil_r in L. congruence.
  Qed.

  Lemma remove_state s k s' o : state_ok s -> hash_key k -> trie_reporting_remove s k = Done (s', o) ->
    state_ok s' /\ state_get s' k = Done None /\ (forall k', hash_key k' -> k' <> k -> state_get s' k' = state_get s k') /\
    (forall k', meets_hash (t_node s') k' <-> meets_hash (t_node s) k').
  Proof.
    intros S K E. pose proof K as [Lk Hk]. unfold trie_reporting_remove in E.
    destruct (reporting_remove (t_node s) k (t_strategy s)) as [[n' r]| |] eqn:Er; try discriminate. cbn [of_res obind fst snd] in E.
    assert (s' = {| t_node := n'; t_strategy := t_strategy s |}) by congruence. subst s'. cbn [t_node]. clear E.
    unfold reporting_remove in Er. destruct (path_for_query _ _ _); try discriminate. cbn [bind] in Er.
    destruct (trie_delete (t_node s) k (t_strategy s)) as [[n1 d]| |] eqn:Ed; try discriminate. cbn [bind fst] in Er.
    destruct (path_for_query n1 _ _); try discriminate. cbn [bind] in Er. destruct (node_deletion_resulted_in_a_branch_collapse _ _); try discriminate. cbn [bind] in Er.
    assert (n1 = n') by congruence. subst n1. clear Er.
    destruct (delete_fixed 64 (t_node s) k (t_strategy s) n' d (proj1 S) (state_depth s S) Lk Ed) as (C' & A' & _ & L').
    assert (S' : state_ok {| t_node := n'; t_strategy := t_strategy s |}).
    { split; [exact C'|]. cbn [t_node]. intros k' x St. apply look_stored in St. rewrite L' in St. destruct (key_eq_dec k' k); [discriminate|].
      apply look_stored in St. now apply S in St. }
    assert (V : ~ exists h, look (t_node s) k = Some (VHash h)).
    { intros (h & Hh). assert (Q : forall n p h, look n p = Some (VHash h) -> forall r, delete_intern n p (t_strategy s) <> Ok r).
      { clear. induction n as [ | h0 | ch w IH | ns c IH | ns w ] using node_ind'; intros p h H r.
        - discriminate.
        - discriminate.
        - destruct p as [|i p]; [cbn in H; destruct w; discriminate|]. rewrite look_branch in H. rewrite delete_branch.
          destruct (nth_error ch i) as [c|] eqn:Ei; [|discriminate]. specialize (IH i c Ei p h H).
          destruct (delete_intern c p (t_strategy s)) as [q| |]; try discriminate. now specialize (IH q).
        - apply look_ext_some in H as (p' & -> & H). cbn [delete_intern]. rewrite identical_app. unfold truncate_front. rewrite skipn_app_exact.
          specialize (IH p' h H). destruct (delete_intern c p' (t_strategy s)) as [q| |]; try discriminate. now specialize (IH q).
        - apply look_leaf_some in H as [_ H]. discriminate. }
      unfold trie_delete in Ed. destruct (delete_intern (t_node s) k (t_strategy s)) as [q| |] eqn:Eq; try discriminate. now apply (Q _ _ _ Hh) in Eq. }
    split; [exact S'|]. split; [|split].
    - destruct (get_spec _ k S' K) as [(b & A & L & G)|[L G]]; [|exact G]. cbn [t_node] in L. rewrite L' in L. destruct (key_eq_dec k k); congruence.
    - intros k' K' Ne. apply get_ext; auto. cbn [t_node]. rewrite L'. destruct (key_eq_dec k' k); congruence.
    - intros k'. rewrite !meets_look. split; intros (p & h & Pp & Hp); exists p, h; split; auto.
      + rewrite L' in Hp. destruct (key_eq_dec p k); congruence.
      + rewrite L'. destruct (key_eq_dec p k) as [->|]; [|auto]. exfalso. eauto.
  Qed.

  Lemma mask_trie t ks t' : trie_mask keccak t ks = Done t' -> prunes keccak (t_node t') (t_node t) /\ troot keccak t' = troot keccak t.
  Proof.
    intros E. unfold trie_mask in E. destruct (create_trie_subset keccak (t_node t) ks) as [n| |] eqn:Es; try discriminate.
    cbn [of_sub obind] in E. assert (t' = {| t_node := n; t_strategy := Reject |}) by congruence. subst t'. cbn [t_node]. unfold troot. cbn [t_node].
    now apply C06_same_root with (ks := ks).
  Qed.

  Lemma mask_state s ks s' : state_ok s -> trie_mask keccak s ks = Done s' ->
    state_ok s' /\ (forall k a, hash_key k -> state_get s' k = Done (Some a) -> state_get s k = Done (Some a)) /\
    (forall k, hash_key k -> state_get s' k = Done None -> ~ meets_hash (t_node s') k -> state_get s k = Done None /\ ~ meets_hash (t_node s) k).
  Proof.
    intros S E. apply mask_trie in E as [P _]. pose proof (prunes_canon keccak _ _ P (proj1 S)) as C'.
    pose proof (prunes_depth keccak 64 _ _ P (proj1 S) (state_depth s S)) as D'.
    assert (S' : state_ok s').
    { split; [exact C'|]. intros k x St. apply look_stored in St. pose proof (D' k x St) as [L _].
      pose proof (prunes_look keccak _ _ P (proj1 S) k x St) as Q. destruct x as [v|h]; [|exact L]. apply look_stored in Q. now apply S in Q. }
    split; [exact S'|]. split.
    - intros k a K G. apply get_some in G as [A L]; auto. apply get_some; auto. split; auto. exact (prunes_look keccak _ _ P (proj1 S) k _ L).
    - intros k K G NM. split.
      + destruct (get_spec s k S K) as [(a & A & L & G')|[L G']]; [|exact G']. exfalso.
        destruct (prunes_back keccak _ _ P k _ L) as [L'|M].
        * assert (E : state_get s' k = Done (Some a)) by (apply get_some; auto). congruence.
        * apply NM. now apply meets_look.
      + intros M. apply NM. apply meets_look in M as (p & h & Pp & Hp). apply meets_look.
        destruct (prunes_back keccak _ _ P p _ Hp) as [L'|(p' & h' & [q ->] & L')]; [eauto|]. exists p', h'. split; auto.
        destruct Pp as [r ->]. exists (q ++ r). now rewrite app_assoc.
  Qed.

  (** * The storage map *)
  Lemma storage_get_del m k k' : storage_get (storage_del m k) k' = if key_eq_dec k' k then None else storage_get m k'.
  Proof.
    unfold storage_del. induction m as [|[q t] m IH]; cbn [filter storage_get fst].
    - now destruct (key_eq_dec k' k).
    - destruct (nibbles_eqb q k) eqn:E; cbn [negb storage_get]; [|cbn [fst]; destruct (nibbles_eqb q k') eqn:E'].
      + apply nibbles_eqb_eq in E. subst q. rewrite IH. destruct (key_eq_dec k' k) as [->|Ne]; [auto|].
        assert (F : k <> k') by congruence. apply nibbles_eqb_neq in F. now rewrite F.
      + apply nibbles_eqb_eq in E'. subst q. apply nibbles_eqb_neq in E. destruct (key_eq_dec k' k); congruence.
      + exact IH.
  Qed.
  Lemma storage_get_set m k t k' : storage_get (storage_set m k t) k' = if key_eq_dec k' k then Some t else storage_get m k'.
  Proof.
    unfold storage_set. cbn [storage_get]. destruct (nibbles_eqb k k') eqn:E.
    - apply nibbles_eqb_eq in E. subst k'. destruct (key_eq_dec k k); congruence.
    - apply nibbles_eqb_neq in E. rewrite storage_get_del. destruct (key_eq_dec k' k); congruence.
  Qed.
  Lemma storage_get_filter keep m k : storage_get (filter (fun e => existsb (nibbles_eqb (fst e)) keep) m) k =
    if in_dec key_eq_dec k keep then storage_get m k else None.
  Proof.
    assert (X : forall q, existsb (nibbles_eqb q) keep = if in_dec key_eq_dec q keep then true else false).
    { intros q. destruct (in_dec key_eq_dec q keep) as [I|I].
      - apply existsb_exists. exists q. split; [auto|apply nibbles_eqb_refl].
      - apply not_true_iff_false. intros E. apply existsb_exists in E as (z & Hz & E). apply nibbles_eqb_eq in E. subst. auto. }
    induction m as [|[q t] m IH]; cbn [filter storage_get fst].
    - now destruct (in_dec key_eq_dec k keep).
    - rewrite X. destruct (nibbles_eqb q k) eqn:E.
      + apply nibbles_eqb_eq in E. subst q. destruct (in_dec key_eq_dec k keep); [|exact IH]. cbn [storage_get]. now rewrite nibbles_eqb_refl.
      + destruct (in_dec key_eq_dec q keep); [|exact IH]. cbn [storage_get]. rewrite E. exact IH.
  Qed.

  Lemma mask_tries_roots masks : forall m k t', storage_get (fst (mask_tries keccak masks m)) k = Some t' ->
    exists t, storage_get m k = Some t /\ troot keccak t' = troot keccak t.
  Proof.
    induction masks as [|[addr keys] masks IH]; intros m k t' H; cbn [mask_tries] in H.
    - cbn [fst] in H. eauto.
    - destruct (storage_get m (hkey keccak addr)) as [t|] eqn:E; [|now apply IH].
      destruct (trie_mask keccak t keys) as [t1| |] eqn:Em; cbn [fst] in H; eauto.
      apply IH in H as (t2 & H & R). rewrite storage_get_set in H. destruct (key_eq_dec k (hkey keccak addr)) as [->|]; [|eauto].
      assert (t1 = t2) by congruence. subst t2. exists t. split; auto. rewrite R. now apply (mask_trie _ _ _ Em).
  Qed.

  (** * Each call keeps the world in order *)

  Lemma update_ok w addr f : world_ok w -> (forall a, acct_ok a -> acct_ok (f a)) -> (forall a, a_storage_root (f a) = a_storage_root a) ->
    world_ok (fst (update_account keccak w addr f)).
  Proof.
    intros (S & Y & O) F R. pose proof (hkey_ok addr) as K. unfold update_account.
    set (k := hkey keccak addr) in *.
    destruct (get_spec (w_state w) k S K) as [(a & A & L & G)|[L G]]; rewrite G.
    - destruct (state_insert (w_state w) k (f a)) as [s'| |] eqn:E; cbn [fst]; try (exact (conj S (conj Y O))).
      destruct (insert_state _ _ _ _ S K (F a A) E) as (S' & G' & O' & M & V). split; [exact S'|]. split.
      + intros k' a' t K' Ga St. cbn [with_state w_state w_storage] in *. destruct (key_eq_dec k' k) as [->|Ne].
        * assert (f a = a') by congruence. subst a'. rewrite R. eauto.
        * rewrite O' in Ga by auto. eauto.
      + intros k' t K' [Ga NM] St. cbn [with_state w_state w_storage] in *. destruct (key_eq_dec k' k) as [->|Ne]; [congruence|].
        rewrite O' in Ga by auto. rewrite M in NM. apply (O k' t K'); [split; auto|auto].
    - destruct (state_insert (w_state w) k (f (default_account keccak))) as [s'| |] eqn:E; cbn [fst]; try (exact (conj S (conj Y O))).
      destruct (insert_state _ _ _ _ S K (F _ default_ok) E) as (S' & G' & O' & M & V). split; [exact S'|]. split.
      + intros k' a' t K' Ga St. cbn [with_state w_state w_storage] in *. destruct (key_eq_dec k' k) as [->|Ne].
        * assert (f (default_account keccak) = a') by congruence. subst a'. rewrite R. symmetry. apply (O k t K'); [split; auto|auto].
        * rewrite O' in Ga by auto. eauto.
      + intros k' t K' [Ga NM] St. cbn [with_state w_state w_storage] in *. destruct (key_eq_dec k' k) as [->|Ne]; [congruence|].
        rewrite O' in Ga by auto. rewrite M in NM. apply (O k' t K'); [split; auto|auto].
  Qed.

  Lemma on_storage_ok {A} w addr (f : trie -> outcome (trie * A)) : world_ok w ->
    (forall t t' r, f t = Done (t', r) -> forall h, t_node t' <> Hash h) -> world_ok (fst (on_storage keccak w addr f)).
  Proof.
    intros (S & Y & O) F. pose proof (hkey_ok addr) as K. unfold on_storage. set (k := hkey keccak addr) in *.
    destruct (state_get (w_state w) k) as [[a|]| |] eqn:G; try (cbn [fst]; exact (conj S (conj Y O))).
    destruct (storage_get (w_storage w) k) as [t|] eqn:St; [|cbn [fst]; split; [auto|split; auto]].
    destruct (f t) as [[t' r]| |] eqn:Ef; try (cbn [fst]; exact (conj S (conj Y O))).
    destruct (insert_visible (w_state w) k (with_storage_root a (troot keccak t')) a S K G) as (s' & E). rewrite E. cbn [fst].
    pose proof (proj1 (get_some _ _ _ S K) G) as [(A1 & A2 & A3 & A4) _].
    assert (A' : acct_ok (with_storage_root a (troot keccak t'))).
    { split; [exact A1|]. split; [exact A2|]. split; [|exact A4]. apply root_len. eapply F; eauto. }
    destruct (insert_state _ _ _ _ S K A' E) as (S' & G' & O' & M & V). split; [exact S'|]. split.
    - intros k' a' u K' Ga Gs. cbn [with_state with_storage w_state w_storage] in *. rewrite storage_get_set in Gs. destruct (key_eq_dec k' k) as [->|Ne].
      + rewrite G' in Ga. assert (Q : with_storage_root a (troot keccak t') = a') by congruence. assert (t' = u) by congruence. subst a' u. reflexivity.
      + rewrite O' in Ga by auto. eauto.
    - intros k' u K' [Ga NM] Gs. cbn [with_state with_storage w_state w_storage] in *. rewrite storage_get_set in Gs. destruct (key_eq_dec k' k) as [->|Ne]; [congruence|].
      rewrite O' in Ga by auto. rewrite M in NM. apply (O k' u K'); [split; auto|auto].
  Qed.

  Lemma put_not_hash t k v t' : trie_put t k (Val v) = Done t' -> forall h, t_node t' <> Hash h.
  Proof.
    intros E. unfold trie_put in E. destruct (trie_insert (t_node t) k (Val v)) as [n| |] eqn:Ei; try discriminate. cbn [of_res obind] in E.
    assert (t' = {| t_node := n; t_strategy := t_strategy t |}) by congruence. subst t'. cbn [t_node]. exact (insert_not_hash _ _ _ _ Ei).
  Qed.
  Lemma remove_not_hash t k t' o : trie_reporting_remove t k = Done (t', o) -> forall h, t_node t' <> Hash h.
  Proof.
    intros E. unfold trie_reporting_remove in E. destruct (reporting_remove (t_node t) k (t_strategy t)) as [[n r]| |] eqn:Er; try discriminate. cbn [of_res obind fst snd] in E.
    assert (t' = {| t_node := n; t_strategy := t_strategy t |}) by congruence. subst t'. cbn [t_node].
    unfold reporting_remove in Er. destruct (path_for_query _ _ _); try discriminate. cbn [bind] in Er.
    destruct (trie_delete (t_node t) k (t_strategy t)) as [[n1 d]| |] eqn:Ed; try discriminate. cbn [bind fst] in Er.
    destruct (path_for_query n1 _ _); try discriminate. cbn [bind] in Er. destruct (node_deletion_resulted_in_a_branch_collapse _ _); try discriminate. cbn [bind] in Er.
    assert (n1 = n) by congruence. subst n1. exact (delete_not_hash _ _ _ _ _ Ed).
  Qed.

  (** One call, successful or not, keeps the world in order. *)
  Theorem C40_step : forall w o, world_ok w -> typed o -> orderly w o -> world_ok (after w o).
  Proof.
    intros w o W T L. destruct o as [addr f|addr f|addr c|addr s v|addr h v|addr s|ks|ms|addr|addr|addr]; cbn [after].
    - apply update_ok; auto. intros a (A1 & A2 & A3 & A4). cbn in T. split; [|split; [|split]]; auto. now apply T.
    - apply update_ok; auto. intros a (A1 & A2 & A3 & A4). cbn in T. split; [|split; [|split]]; auto. now apply T.
    - apply update_ok; auto. intros a (A1 & A2 & A3 & A4). split; [|split; [|split]]; auto. cbn. destruct c; [apply KOK|exact T].
    - apply on_storage_ok; auto. intros t t' r E. destruct (trie_put t _ _) as [t1| |] eqn:Ep; try discriminate. cbn [obind] in E.
      assert (t1 = t') by congruence. subst t1. exact (put_not_hash _ _ _ _ Ep).
    - apply on_storage_ok; auto. intros t t' r E. destruct (trie_put t _ _) as [t1| |] eqn:Ep; try discriminate. cbn [obind] in E.
      assert (t1 = t') by congruence. subst t1. exact (put_not_hash _ _ _ _ Ep).
    - apply on_storage_ok; auto. intros t t' r E. exact (remove_not_hash _ _ _ _ E).
    - destruct W as (S & Y & O). unfold w_mask. destruct (trie_mask keccak (w_state w) ks) as [s'| |] eqn:E; cbn [fst]; try (exact (conj S (conj Y O))).
      destruct (mask_state _ _ _ S E) as (S' & G' & M). split; [exact S'|]. split.
      + intros k a t K Ga St. cbn [with_state w_state w_storage] in *. eauto.
      + intros k t K [Ga NM] St. cbn [with_state w_state w_storage] in *. apply (O k t K); [|auto]. now apply M.
    - destruct W as (S & Y & O). unfold w_mask_storage.
      destruct (mask_tries keccak ms _) as [m o] eqn:E. cbn [fst].
      assert (Q : forall k t', storage_get m k = Some t' -> exists t, storage_get (w_storage w) k = Some t /\ troot keccak t' = troot keccak t).
      { intros k t' H. change m with (fst (m, o)) in H. rewrite <- E in H. apply mask_tries_roots in H as (t & H & R).
        rewrite storage_get_filter in H. destruct (in_dec _ _ _); [eauto|discriminate]. }
      split; [exact S|]. split.
      + intros k a t K Ga St. cbn [with_storage w_state w_storage] in *. apply Q in St as (t0 & St & ->). eauto.
      + intros k t K Ab St. cbn [with_storage w_state w_storage] in *. apply Q in St as (t0 & St & ->). eauto.
    - destruct W as (S & Y & O). unfold w_destroy_storage. destruct (storage_get (w_storage w) (hkey keccak addr)) eqn:E; cbn [fst]; [|split; [auto|split; auto]].
      split; [exact S|]. split.
      + intros k a t' K Ga St. cbn [with_storage w_state w_storage] in *. rewrite storage_get_del in St. destruct (key_eq_dec _ _); [discriminate|eauto].
      + intros k t' K Ab St. cbn [with_storage w_state w_storage] in *. rewrite storage_get_del in St. destruct (key_eq_dec _ _); [discriminate|eauto].
    - destruct W as (S & Y & O). unfold w_create_storage. cbn [fst]. split; [exact S|]. split.
      + intros k a t' K Ga St. cbn [with_storage w_state w_storage] in *. rewrite storage_get_set in St. destruct (key_eq_dec k (hkey keccak addr)) as [->|]; [|eauto].
        assert (t' = empty_trie Reject) by congruence. subst t'. exact (L a Ga).
      + intros k t' K Ab St. cbn [with_storage w_state w_storage] in *. rewrite storage_get_set in St. destruct (key_eq_dec k (hkey keccak addr)) as [->|]; [|eauto].
        assert (t' = empty_trie Reject) by congruence. subst t'. reflexivity.
    - destruct W as (S & Y & O). pose proof (hkey_ok addr) as K. unfold w_reporting_destroy.
      destruct (trie_reporting_remove (w_state w) (hkey keccak addr)) as [[s' o]| |] eqn:E; cbn [fst]; try (exact (conj S (conj Y O))).
      destruct (remove_state _ _ _ _ S K E) as (S' & G' & O' & M). split; [exact S'|]. split.
      + intros k a t K' Ga St. cbn [with_state w_state w_storage] in *. destruct (key_eq_dec k (hkey keccak addr)) as [->|]; [congruence|].
        rewrite O' in Ga by auto. eauto.
      + intros k t K' [Ga NM] St. cbn [with_state w_state w_storage] in *. rewrite M in NM. destruct (key_eq_dec k (hkey keccak addr)) as [->|].
        * destruct (get_spec (w_state w) _ S K') as [(a & A & Lk & G)|[Lk G]].
          -- exact (L a t G St).
          -- apply (O _ t K'); [split; auto|auto].
        * rewrite O' in Ga by auto. apply (O k t K'); [split; auto|auto].
  Qed.

  (** The storage roots stay in sync through any sequence of calls, failing ones
      included, in which storage is created and accounts are removed in order. *)
  Theorem C40_sync : forall l w, world_ok w -> Forall typed l -> orderly_all w l -> world_ok (after_all w l).
  Proof.
    induction l as [|o l IH]; intros w W T L; [exact W|]. inversion T; subst. destruct L as [L1 L2]. cbn [after_all].
    apply IH; auto. now apply C40_step.
  Qed.

  (** In particular through any sequence of storage writes, slot deletions,
      account updates, storage removals and maskings. *)
  Theorem C40_writes : forall l w, world_ok w -> Forall typed l -> Forall plain l -> world_ok (after_all w l).
  Proof.
    induction l as [|o l IH]; intros w W T P; [exact W|]. inversion T; subst. inversion P; subst. cbn [after_all].
    apply IH; auto. apply C40_step; auto. destruct o; cbn in *; easy.
  Qed.

  (** * The constructor *)

  Lemma init_spec items : forall m m', init_storage keccak items m = Done m' ->
    (forall k b, In (k, Val b) items -> exists a t, dec_account b = Some a /\ storage_get m' k = Some t /\ troot keccak t = a_storage_root a) /\
    (forall k t, storage_get m k = Some t -> storage_get m' k = Some t) /\
    (forall k t, storage_get m' k = Some t -> storage_get m k = Some t \/ exists b, In (k, Val b) items).
  Proof.
    induction items as [|[k x] items IH]; intros m m' E; cbn [init_storage] in E.
    - assert (m = m') by congruence. subst m'. split; [easy|]. split; auto.
    - destruct x as [b|h].
      + destruct (length k =? 64); [|discriminate]. destruct (dec_account b) as [a|] eqn:Ed; [|discriminate].
        destruct (storage_get m k) as [t0|] eqn:E0.
        * cbn [obind] in E. rewrite E0 in E. destruct (list_eq_dec N.eq_dec (troot keccak t0) (a_storage_root a)) as [R|]; [|discriminate].
          destruct (IH _ _ E) as (I1 & I2 & I3). split; [|split].
          -- intros k' b' [Q|Q]; [|auto]. assert (k = k' /\ b = b') as [-> ->] by (split; congruence). exists a, t0. auto.
          -- exact I2.
          -- intros k' t' H. destruct (I3 k' t' H) as [?|[b' ?]]; [auto|right; exists b'; now right].
        * cbn [trie_put trie_insert of_res obind empty_trie t_node insert_rec create_node_from_insert_val t_strategy] in E.
          rewrite storage_get_set in E. destruct (key_eq_dec k k) as [_|]; [|congruence].
          destruct (list_eq_dec N.eq_dec _ (a_storage_root a)) as [R|]; [|discriminate].
          destruct (IH _ _ E) as (I1 & I2 & I3). split; [|split].
          -- intros k' b' [Q|Q]; [|auto]. assert (k = k' /\ b = b') as [-> ->] by (split; congruence). exists a. eexists.
             split; [auto|]. split; [|exact R]. apply I2. rewrite storage_get_set. destruct (key_eq_dec k' k'); congruence.
          -- intros k' t' H. apply I2. rewrite storage_get_set. destruct (key_eq_dec k' k) as [->|]; [congruence|auto].
          -- intros k' t' H. destruct (I3 k' t' H) as [Q|[b' Q]]; [|right; exists b'; now right].
             rewrite storage_get_set in Q. destruct (key_eq_dec k' k) as [->|]; [right; exists b; now left|auto].
      + destruct (IH _ _ E) as (I1 & I2 & I3). split; [|split; [exact I2|]].
        * intros k' b' [Q|Q]; [discriminate|auto].
        * intros k' t' H. destruct (I3 k' t' H) as [?|[b' ?]]; [auto|right; exists b'; now right].
  Qed.

  (** A world the constructor accepts is in sync, and every visible account has
      a storage trie.  It is in order if the given storage belongs to accounts
      (visible or hashed out). *)
  Theorem C40_new : forall fuel items state storage w, state_ok state ->
    drain fuel (trie_items (t_node state)) = TrieModel.Done items -> world_new keccak items state storage = Done w ->
    in_sync w /\
    (forall k a, hash_key k -> state_get (w_state w) k = Done (Some a) -> exists t, storage_get (w_storage w) k = Some t) /\
    ((forall k t, hash_key k -> storage_get storage k = Some t ->
        (exists a, state_get state k = Done (Some a)) \/ meets_hash (t_node state) k \/ troot keccak t = empty_root) -> world_ok w).
  Proof.
    intros fuel items state storage w S D E. unfold world_new in E. destruct (init_storage keccak items storage) as [m| |] eqn:Ei; try discriminate.
    cbn [obind] in E. assert (w = {| w_state := state; w_storage := m |}) by congruence. subst w. clear E.
    destruct (init_spec _ _ _ Ei) as (I1 & I2 & I3).
    assert (B : bounded (t_node state)) by (intros k x L; exact (proj1 (state_depth state S k x L))).
    destruct (items_ok (t_node state) (proj1 S) B) as (f & F).
    assert (Q : items = ents (t_node state)).
    { pose proof (F (max f fuel) ltac:(lia)) as F1. rewrite (drain_mono fuel (max f fuel) (trie_items (t_node state)) items D ltac:(lia)) in F1. congruence. }
    assert (V : forall k a, hash_key k -> state_get state k = Done (Some a) -> exists t, storage_get m k = Some t /\ troot keccak t = a_storage_root a).
    { intros k a K G. apply get_some in G as [A L]; auto. apply in_ents_look in L. rewrite <- Q in L.
      destruct (I1 _ _ L) as (a' & t & D' & St & R). rewrite dec_enc in D' by auto. assert (a = a') by congruence. subst a'. eauto. }
    assert (Y : in_sync {| w_state := state; w_storage := m |}).
    { intros k a t K G St. cbn [w_state w_storage] in *. destruct (V k a K G) as (t' & St' & R). congruence. }
    split; [exact Y|]. split.
    - intros k a K G. destruct (V k a K G) as (t & St & _). eauto.
    - intros H. split; [exact S|]. split; [exact Y|]. intros k t K [Ga NM] St. cbn [w_state w_storage] in *.
      destruct (I3 k t St) as [St'|[b Hb]].
      + destruct (H k t K St') as [[a G]|[M|R]]; [congruence|easy|exact R].
      + exfalso. rewrite Q in Hb. apply in_ents_look in Hb. destruct (get_spec state k S K) as [(a & _ & _ & G)|[L _]]; [congruence|]. now apply L in Hb.
  Qed.
End Props.
Print Assumptions C40_step.
Print Assumptions C40_sync.
Print Assumptions C40_writes.
Print Assumptions C40_new.

(** * The world made from a witness *)
From Verif.Trace Require Import Type1Props.

Section Frontend.
  Variable keccak : list N -> list N.
  Hypothesis KOK : keccak_ok keccak.

  (** The accounts of the witness have the ranges of their types. *)
  Definition witness_typed (w : wnode) : Prop :=
    forall p n b s c, account_at w p n b s c ->
      (n < 2 ^ 256)%N /\ (b < 2 ^ 256)%N /\ (forall h, c = Some (inl h) -> length h = 32) /\ (forall h, s = Some (WHash h) -> length h = 32).

  Lemma value_account w : forall t p v, state_trie keccak w = Some t -> look t p = Some (Val v) ->
    exists n b s c st, account_at w p n b s c /\ storage_of s = Some st /\ v = account_rlp n b (hash_trie keccak st) (code_hash keccak c).
  Proof.
    induction w as [h|k v|k nn b c|k nn b s c _|k c IH|cs IH|c| ] using wnode_ind'; intros t p x E L; try discriminate.
    - assert (Hash h = t) as <- by (cbn in E; congruence). destruct p; discriminate.
    - cbn [state_trie storage_of option_map] in E. match type of E with Some ?y = _ => assert (t = y) as -> by congruence end.
      apply look_leaf_some in L as [-> L]. exists nn, b, None, c, Empty. split; [constructor|]. split; [reflexivity|congruence].
    - cbn [state_trie storage_of option_map] in E. destruct (storage_trie s) as [st|] eqn:Est; [|discriminate]. cbn [option_map] in E.
      match type of E with Some ?y = _ => assert (t = y) as -> by congruence end.
      apply look_leaf_some in L as [-> L]. exists nn, b, (Some s), c, st. split; [constructor|]. split; [exact Est|congruence].
    - cbn [state_trie] in E. destruct (state_trie keccak c) as [tc|] eqn:Ec; [|discriminate]. cbn [option_map] in E.
      assert (t = Ext k tc) as -> by congruence. apply look_ext_some in L as (q & -> & L).
      destruct (IH _ _ _ eq_refl L) as (n0 & b0 & s0 & c0 & st & A & Es & Ev). exists n0, b0, s0, c0, st. split; [now constructor|auto].
    - rewrite state_trie_branch in E. destruct (state_tries keccak cs) as [ch|] eqn:Ec; [|discriminate]. cbn [option_map] in E.
      assert (t = Branch ch []) as -> by congruence. destruct p as [|i p]; [discriminate|]. rewrite look_branch in L.
      destruct (nth_error ch i) as [ci|] eqn:Ei; [|discriminate].
      assert (Q : ci = Empty \/ exists wi, nth_error cs i = Some (Some wi) /\ state_trie keccak wi = Some ci).
      { clear - Ec Ei. revert ch i Ec Ei. induction cs as [|o cs IHc]; intros ch i Ec Ei; cbn [state_tries] in Ec.
        - assert (ch = []) as -> by congruence. destruct i; discriminate.
        - destruct o as [x|].
          + destruct (state_trie keccak x) as [tc|] eqn:Ex; [|discriminate]. destruct (state_tries keccak cs) as [r|]; [|discriminate].
            assert (ch = tc :: r) as -> by congruence. destruct i as [|i]; cbn [nth_error] in *; [right; exists x; split; [auto|congruence]|eauto].
          + destruct (state_tries keccak cs) as [r|]; [|discriminate]. cbn [option_map] in Ec.
            assert (ch = Empty :: r) as -> by congruence. destruct i as [|i]; cbn [nth_error] in *; [left; congruence|eauto]. }
      destruct Q as [->|(wi & Hi & Ew)]; [discriminate|].
      destruct (IH wi (nth_error_In _ _ Hi) _ _ _ Ew L) as (n0 & b0 & s0 & c0 & st & A & Es & Ev). exists n0, b0, s0, c0, st. split; [econstructor; eauto|auto].
    - assert (Empty = t) as <- by (cbn in E; congruence). discriminate.
    - assert (Empty = t) as <- by (cbn in E; congruence). discriminate.
  Qed.

  Lemma storage_len s st : storage_of s = Some st -> (forall h, s = Some (WHash h) -> length h = 32) -> length (hash_trie keccak st) = 32.
  Proof.
    intros E H. assert (D : (exists h, st = Hash h) \/ forall h, st <> Hash h) by (destruct st; eauto; right; discriminate).
    destruct D as [[h ->]|D]; [|now apply root_len]. destruct s as [w|]; [|discriminate]. cbn [storage_of] in E.
    destruct w as [h'|k v|k n b s c|k c|cs|c| ]; try discriminate.
    - assert (h' = h) by (cbn in E; congruence). subst h'. unfold hash_trie. cbn [encode]. auto.
    - cbn in E. destruct (storage_trie c); discriminate.
    - rewrite storage_trie_branch in E. destruct (storage_tries cs); discriminate.
  Qed.

  Definition storage_tries_of (m : list (nibbles * node)) : list (nibbles * trie) :=
    map (fun e => (fst e, {| t_node := snd e; t_strategy := Reject |})) m.
  Lemma storage_get_of m k : storage_get (storage_tries_of m) k = option_map (fun n => {| t_node := n; t_strategy := Reject |}) (storage_find m k).
  Proof. induction m as [|[q n] m IH]; cbn; [auto|]. destruct (nibbles_eqb q k); auto. Qed.

  Lemma init_ok items : forall m, (forall k b, In (k, Val b) items -> length k = 64 /\ exists a t, dec_account b = Some a /\
    storage_get m k = Some t /\ troot keccak t = a_storage_root a) -> init_storage keccak items m = Done m.
  Proof.
    induction items as [|[k [b|h]] items IH]; intros m H; cbn [init_storage]; auto.
    - destruct (H k b (or_introl eq_refl)) as (L & a & t & D & S & R). apply Nat.eqb_eq in L. rewrite L, D, S. cbn [obind]. rewrite S.
      destruct (list_eq_dec N.eq_dec _ _); [|easy]. apply IH. intros k' b' I. exact (H k' b' (or_intror I)).
    - apply IH. intros k' b' I. exact (H k' b' (or_intror I)).
  Qed.

  (** The world made from the witness of a canonical state is accepted by the
      constructor and is in order. *)
  Theorem C40_frontend : forall w l t,
    builds w l -> root_ok w -> state_trie keccak w = Some t -> canon t ->
    (forall k x, stored t k x -> match x with Val _ => length k = 64 | VHash _ => length k <= 64 end) ->
    storages_proper w -> witness_typed w ->
    exists f items fuel world, frontend keccak l = Done f /\
      (forall n, fuel <= n -> drain n (trie_items (f_state f)) = TrieModel.Done items) /\
      world_new keccak items {| t_node := f_state f; t_strategy := CollapseToExtension |} (storage_tries_of (f_storage f)) = Done world /\
      world_ok keccak world /\ w_root keccak world = hash_trie keccak t /\
      (forall p n b s c, account_at w p n b s c -> exists st, storage_of s = Some st /\
         state_get (w_state world) p = Done (Some {| a_nonce := n; a_balance := b; a_storage_root := hash_trie keccak st; a_code_hash := code_hash keccak c |})).
  Proof.
    intros w l t B R E C D SP WT. destruct (C57_frontend keccak w l t B R E C D SP) as (f & F & Et & G & St & _). subst t.
    assert (BD : bounded (f_state f)) by (intros k x L; apply look_stored in L; apply D in L; destruct x; lia).
    destruct (items_ok (f_state f) C BD) as (fuel & It).
    set (state := {| t_node := f_state f; t_strategy := CollapseToExtension |}).
    assert (AC : forall p n b s c st, account_at w p n b s c -> storage_of s = Some st ->
      acct_ok {| a_nonce := n; a_balance := b; a_storage_root := hash_trie keccak st; a_code_hash := code_hash keccak c |}).
    { intros p n b s c st A Es. destruct (WT _ _ _ _ _ A) as (Hn & Hb & Hc & Hs). split; [exact Hn|]. split; [exact Hb|]. split.
      - exact (storage_len s st Es Hs).
      - cbn. destruct c as [[h|cc]|]; cbn; [auto|apply KOK|apply KOK]. }
    assert (VA : forall k v, look (f_state f) k = Some (Val v) -> exists n b s c st, account_at w k n b s c /\ storage_of s = Some st /\
      v = enc_account {| a_nonce := n; a_balance := b; a_storage_root := hash_trie keccak st; a_code_hash := code_hash keccak c |}).
    { intros k v L. exact (value_account w (f_state f) k v E L). }
    assert (S : state_ok state).
    { split; [exact C|]. intros k x Hx. pose proof (D k x Hx) as Dx. destruct x as [v|h]; [|exact Dx]. split; [exact Dx|].
      apply look_stored in Hx. destruct (VA k v Hx) as (n & b & s & c & st & A & Es & ->). eexists. split; [|reflexivity]. eauto. }
    assert (I : init_storage keccak (ents (f_state f)) (storage_tries_of (f_storage f)) = Done (storage_tries_of (f_storage f))).
    { apply init_ok. intros k v Hin. apply in_ents_look in Hin. split; [apply look_stored in Hin; exact (D k _ Hin)|].
      destruct (VA k v Hin) as (n & b & s & c & st & A & Es & ->). eexists. exists {| t_node := st; t_strategy := Reject |}.
      split; [apply dec_enc; eauto|]. split; [|reflexivity]. rewrite storage_get_of.
      assert (Q : storage_find (f_storage f) k = Some st) by (apply G; eauto 6). now rewrite Q. }
    exists f, (ents (f_state f)), fuel. eexists. split; [exact F|]. split; [exact It|].
    assert (N : world_new keccak (ents (f_state f)) state (storage_tries_of (f_storage f)) = Done {| w_state := state; w_storage := storage_tries_of (f_storage f) |})
      by (unfold world_new; rewrite I; reflexivity).
    split; [exact N|]. destruct (C40_new keccak fuel (ents (f_state f)) state _ _ S (It fuel (le_n _)) N) as (_ & _ & W). split; [|split].
    - apply W. intros k u K Hs. left. rewrite storage_get_of in Hs. destruct (storage_find (f_storage f) k) as [st|] eqn:Ef; [|discriminate].
      apply G in Ef as (n & b & s & c & A & Es). destruct (St _ _ _ _ _ A) as (st' & Ef' & Hst). apply G in Ef' as (n' & b' & s' & c' & A' & Es').
      eexists. apply get_some; auto. split; [exact (AC _ _ _ _ _ _ A Es)|]. cbn [state t_node]. apply look_stored in Hst. rewrite Hst. f_equal. f_equal.
      destruct (VA k _ Hst) as (n2 & b2 & s2 & c2 & st2 & A2 & Es2 & E2). unfold enc_account. cbn. f_equal.
      assert (Q : storage_find (f_storage f) k = Some st) by (apply G; eauto 6). assert (Q' : storage_find (f_storage f) k = Some st') by (apply G; eauto 6). congruence.
    - reflexivity.
    - intros p n b s c A. destruct (St _ _ _ _ _ A) as (st & Ef & Hst). destruct (SP _ _ _ _ _ A) as (st' & Es & _).
      assert (Q : storage_find (f_storage f) p = Some st') by (apply G; eauto 6). assert (st = st') by congruence. subst st'. exists st. split; [exact Es|].
      cbn [w_state]. pose proof (D p _ Hst) as L. apply look_stored in Hst. apply get_some; auto.
      + split; [exact L|]. exact (look_nibs _ _ _ C Hst).
      + split; [exact (AC _ _ _ _ _ _ A Es)|]. exact Hst.
  Qed.
End Frontend.
Print Assumptions C40_frontend.

(** * Worlds meeting the hypotheses, and calls out of order *)
Module Type1WorldDemo.
  Import Type1Demo.
  Lemma kec_ok : keccak_ok kec.
  Proof.
    intros b. split; [unfold kec; rewrite map_length; apply seq_length|]. unfold kec, byte_list. apply Forall_forall. intros x H.
    apply in_map_iff in H as (i & <- & _). unfold is_byte. apply N.mod_lt. lia.
  Qed.

  Definition empty_world : world := {| w_state := new_state; w_storage := [] |}.
  Lemma empty_ok : world_ok kec empty_world.
  Proof.
    split; [|split].
    - split; [constructor|]. intros k x S. apply look_stored in S. discriminate.
    - intros k a t K G. discriminate.
    - intros k t K A S. discriminate.
  Qed.

  Definition A : list N := [1%N].
  Definition B : list N := [3%N].
  (** Account [A] gets two slots, one of them then removed; [B] is made and
      destroyed in order; writing the storage of an account not there fails. *)
  Definition calls : list op :=
    [OpCreateStorage A; OpBalance A (fun x => (x + 100) mod 2 ^ 256)%N; OpCode A (inl [96%N; 0%N]); OpStoreInt A 5 77; OpStoreInt A 6 1; OpStoreInt B 1 1;
     OpDestroySlot A 6; OpCreateStorage B; OpNonce B (fun _ => 1%N); OpStoreInt B 2 9; OpDestroyStorage B; OpDestroy B].

  Lemma mod_typed : forall x, (x < 2 ^ 256)%N -> ((x + 100) mod 2 ^ 256 < 2 ^ 256)%N.
  Proof. intros. apply N.mod_lt. discriminate. Qed.
  Lemma one_typed : forall x, (x < 2 ^ 256)%N -> (1 < 2 ^ 256)%N.
  Proof. reflexivity. Qed.
  Lemma typed_calls : Forall typed calls.
  Proof. repeat (constructor; [first [exact I|exact mod_typed|exact one_typed]|]). constructor. Qed.

  Lemma orderly_calls : orderly_all kec empty_world calls.
  Proof.
    unfold calls. cbn [orderly_all]. repeat split; try exact I.
    - intros a H. vm_compute in H. discriminate.
    - intros a H. vm_compute in H. discriminate.
    - intros a t _ H. vm_compute in H. discriminate.
  Qed.

  Example C40_example : world_ok kec empty_world /\ Forall typed calls /\ orderly_all kec empty_world calls /\
    (exists a t, state_get (w_state (after_all kec empty_world calls)) (hkey kec A) = Done (Some a) /\ a_balance a = 100%N /\
       storage_get (w_storage (after_all kec empty_world calls)) (hkey kec A) = Some t /\ a_storage_root a = troot kec t /\ troot kec t <> empty_root kec) /\
    state_get (w_state (after_all kec empty_world calls)) (hkey kec B) = Done None.
  Proof.
    split; [exact empty_ok|]. split; [exact typed_calls|]. split; [exact orderly_calls|]. split.
    - eexists. eexists. split; [vm_compute; reflexivity|]. split; [reflexivity|]. split; [vm_compute; reflexivity|]. split; [vm_compute; reflexivity|]. vm_compute. discriminate.
    - vm_compute. reflexivity.
  Qed.

  Definition filled : world := after_all kec empty_world calls.
  Lemma filled_ok : world_ok kec filled.
  Proof. exact (C40_sync kec kec_ok calls empty_world empty_ok typed_calls orderly_calls). Qed.

  (** Creating storage for an account that has some replaces its storage trie
      and leaves the old root in the account. *)
  Theorem C40_create_storage_refuted : exists w addr, world_ok kec w /\ typed (OpCreateStorage addr) /\ ~ in_sync kec (after kec w (OpCreateStorage addr)).
  Proof.
    exists filled, A. split; [exact filled_ok|]. split; [exact I|]. intros Y.
    assert (Ga : exists a, state_get (w_state filled) (hkey kec A) = Done (Some a)) by (eexists; vm_compute; reflexivity). destruct Ga as (a & Ga).
    assert (Q : a_storage_root a = troot kec (empty_trie Reject)).
    { apply (Y (hkey kec A) a (empty_trie Reject)); [apply hkey_ok, kec_ok|exact Ga|vm_compute; reflexivity]. }
    assert (R : match state_get (w_state filled) (hkey kec A) with Done (Some a) => a_storage_root a | _ => [] end = troot kec (empty_trie Reject)) by (rewrite Ga; exact Q).
    revert R. vm_compute. discriminate.
  Qed.

  (** Destroying an account keeps its storage trie, which an account made at the
      same address later is not in sync with. *)
  Theorem C40_destroy_refuted : exists w addr, world_ok kec w /\
    let l := [OpDestroy addr; OpBalance addr (fun _ => 1%N)] in Forall typed l /\ ~ in_sync kec (after_all kec w l).
  Proof.
    exists filled, A. split; [exact filled_ok|]. cbn zeta. split.
    { constructor; [exact I|]. constructor; [exact one_typed|]. constructor. }
    set (w := after_all kec filled _). intros Y.
    assert (Ga : exists a, state_get (w_state w) (hkey kec A) = Done (Some a)) by (eexists; vm_compute; reflexivity). destruct Ga as (a & Ga).
    assert (Gt : exists t, storage_get (w_storage w) (hkey kec A) = Some t) by (eexists; vm_compute; reflexivity). destruct Gt as (t0 & Gt).
    pose proof (Y (hkey kec A) a t0 (hkey_ok kec kec_ok A) Ga Gt) as Q.
    assert (R : match state_get (w_state w) (hkey kec A), storage_get (w_storage w) (hkey kec A) with
                | Done (Some a), Some t => if list_eq_dec N.eq_dec (a_storage_root a) (troot kec t) then true else false | _, _ => true end = true).
    { rewrite Ga, Gt. destruct (list_eq_dec _ _ _); [reflexivity|easy]. }
    revert R. vm_compute. discriminate.
  Qed.

  (** The witness of Type1Demo meets the hypotheses of [C40_frontend]. *)
  Example C40_frontend_example : witness_typed tree.
  Proof.
    intros p n b s c H. inversion H; subst.
    assert (Hw : w = acct1 \/ w = acct2 \/ w = WHash (repeat 9%N 32)).
    { match goal with H : nth_error _ i = _ |- _ => apply nth_error_In in H; cbn in H; rename H into Hin end.
      repeat destruct Hin as [Hin|Hin]; try discriminate; try easy; injection Hin as <-; auto. }
    destruct Hw as [ -> | [ -> | -> ] ]; match goal with H : account_at _ _ _ _ _ _ |- _ => inversion H; subst end;
      (split; [reflexivity|]); (split; [reflexivity|]); split; discriminate.
  Qed.
End Type1WorldDemo.
Print Assumptions Type1WorldDemo.C40_create_storage_refuted.
Print Assumptions Type1WorldDemo.C40_destroy_refuted.
