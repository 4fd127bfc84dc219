(** The block loop on type-1 worlds: the roots chain (C35) and do not depend on
    the batching (C53), the account tries and storage tries stay consistent
    (C40), and what a batch touches reads the same in the pruned world given to
    the prover (C54). *)

From Coq Require Import List Arith NArith ZArith Bool Lia ZifyN ZifyNat ZifyBool.
From Verif.Mpt Require Import NibblesModel TrieModel TrieSpec TrieFacts HashModel HexPrefixProofs RlpProofs PartialProofs PartialProps TrieOpsProofs TrieIterProofs FixedOpsProofs.
From Verif.Trace Require Import WireModel Type1Model Type1Props Type1WorldModel Type1WorldProps Type1MapProps Type1BlockModel BatchModel BatchProps BatchInv.
Import ListNotations.
Local Open Scope nat_scope.

Section Props.
  Variable keccak : list N -> list N.
  Hypothesis KOK : keccak_ok keccak.

  Ltac proj H := cbn [contains update_balance update_nonce set_code reporting_destroy create_storage destroy_storage store_int
    reporting_destroy_slot mask_storage mask root path_of_address type1_impl t_new t_insert t_mask t_root type1_tries] in H.

  Lemma u256_bound z : (u256 z < 2 ^ 256)%N.
  Proof.
    unfold u256. pose proof (Z.mod_pos_bound z (2 ^ 256) ltac:(reflexivity)) as B. apply N2Z.inj_lt. rewrite Z2N.id by (apply B).
    change (Z.of_N (2 ^ 256)) with (2 ^ 256)%Z. apply B.
  Qed.
  Lemma be_bytes_list n x : byte_list (be_bytes n x).
  Proof. apply be_bytes_bytes. Qed.
  Lemma hash_bytes_ok h : length (hash_bytes h) = 32 /\ byte_list (hash_bytes h).
  Proof. split; [apply be_bytes_length|apply be_bytes_list]. Qed.

  Lemma done_inv {A B} (r : A * outcome B) a : done r = Some a -> exists b, r = (a, WireModel.Done b).
  Proof. destruct r as [a' [b| |]]; cbn; try discriminate. intros E. exists b. congruence. Qed.
  Lemma done_with_inv {A B} (r : A * outcome B) a b : done_with r = Some (a, b) -> r = (a, WireModel.Done b).
  Proof. destruct r as [a' [b'| |]]; cbn; try discriminate. intros E. congruence. Qed.
  Lemma done_fst {A B} (r : A * outcome B) a : done r = Some a -> a = fst r.
  Proof. intros E. apply done_inv in E as [b ->]. reflexivity. Qed.
  Lemma checked_inv w a fld f upd w' : checked_update keccak w a fld f upd = Some w' -> exists v, upd (fun _ => u256 v) = Some w'.
  Proof.
    unfold checked_update. destruct (state_get _ _) as [o| |]; try discriminate. destruct (f _) as [v|]; [|discriminate]. eauto.
  Qed.

  (** * Masking keeps the roots *)
  Theorem C35_type1_masks : masks_keep_roots (type1_impl keccak) (type1_tries keccak).
  Proof.
    split; [|split].
    - intros w ps w' E. proj E. apply done_inv in E as [[] E]. cbn [root type1_impl]. f_equal. unfold w_mask in E.
      destruct (trie_mask keccak (w_state w) ps) as [s'| |] eqn:Em; try discriminate. assert (w' = with_state w s') by congruence. subst w'.
      exact (proj2 (mask_trie _ _ _ _ Em)).
    - intros w ms w' E. proj E. apply done_inv in E as [[] E]. cbn [root type1_impl]. f_equal. unfold w_mask_storage in E.
      destruct (mask_tries _ _ _) as [m o]. assert (w' = with_storage w m) by congruence. subst w'. reflexivity.
    - intros t l t' E. proj E. cbn [t_root type1_tries]. f_equal. destruct (trie_mask keccak t (map txn_key l)) as [s'| |] eqn:Em; try discriminate. cbn [ok_or_none] in E. assert (s' = t') by congruence. subst s'.
      exact (proj2 (mask_trie _ _ _ _ Em)).
  Qed.

  (** * The invariant *)
  Definition good (w : world) : Prop := world_ok keccak w /\ storages_ok w.
  Lemma good_step w o : good w -> typed o -> orderly keccak w o -> good (after keccak w o).
  Proof. intros [W S] T O. split; [now apply C40_step|now apply C60_storages_ok]. Qed.

  Lemma good_store_int w a k v w' : good w -> store_int (type1_impl keccak) w a k v = Some w' -> good w'.
  Proof. intros G E. proj E. apply done_fst in E. subst w'. exact (good_step w (OpStoreInt _ _ _) G I I). Qed.
  Lemma good_store_hash w a k v w' : good w -> type1_store_hash keccak w a k v = Some w' -> good w'.
  Proof. intros G E. apply done_fst in E. subst w'. exact (good_step w (OpStoreHash _ _ _) G (hash_bytes_ok k) I). Qed.

  Lemma good_beacon_stores : forall l m w m' w', good w -> beacon_stores (type1_impl keccak) (type1_slot_key keccak) l m w = Some (m', w') -> good w'.
  Proof.
    induction l as [|[ix u] l IH]; intros m w m' w' G E; cbn [beacon_stores] in E; [congruence|].
    destruct (Z.eqb u 0).
    - destruct (reporting_destroy_slot _ _ _ _) as [[w1 k]|] eqn:Ed; [|discriminate]. apply IH in E; auto.
      proj Ed. apply done_with_inv in Ed. change w1 with (fst (w1, WireModel.Done k)). rewrite <- Ed.
      exact (good_step w (OpDestroySlot _ _) G I I).
    - destruct (store_int _ _ _ _ _) as [w1|] eqn:Ed; [|discriminate]. apply IH in E; auto. eapply good_store_int; eauto.
  Qed.
  Lemma good_scalable_stores : forall l m w m' w', good w -> scalable_stores (type1_impl keccak) (type1_slot_key keccak) l m w = Some (m', w') -> good w'.
  Proof.
    induction l as [|[ix u] l IH]; intros m w m' w' G E; cbn [scalable_stores] in E; [congruence|].
    destruct (Z.eqb u 0); [discriminate|].
    destruct (store_int _ _ _ _ _) as [w1|] eqn:Ed; [|discriminate]. apply IH in E; auto. eapply good_store_int; eauto.
  Qed.

  Definition address (a : Z) : Prop := (0 <= a < 2 ^ 160)%Z.
  Lemma nil_wf : masks_wf (Key := nibbles) address [].
  Proof. split; constructor. Qed.
  Lemma scalable_wf : forall l m w m' w', masks_wf address m -> scalable_stores (type1_impl keccak) (type1_slot_key keccak) l m w = Some (m', w') -> masks_wf address m'.
  Proof.
    induction l as [|[ix u] l IH]; intros m w m' w' G E; cbn [scalable_stores] in E; [congruence|].
    destruct (Z.eqb u 0); [discriminate|].
    destruct (store_int _ _ _ _ _) as [w1|] eqn:Ed; [|discriminate]. apply IH in E; auto. apply extend_wf; [exact G|]. now vm_compute.
  Qed.
  Lemma beacon_wf : forall l m w m' w', masks_wf address m -> beacon_stores (type1_impl keccak) (type1_slot_key keccak) l m w = Some (m', w') -> masks_wf address m'.
  Proof.
    assert (P : address BEACON_ROOTS_CONTRACT_ADDRESS) by (now vm_compute).
    induction l as [|[ix u] l IH]; intros m w m' w' G E; cbn [beacon_stores] in E; [congruence|].
    destruct (Z.eqb u 0).
    - destruct (reporting_destroy_slot _ _ _ _) as [[w1 k]|] eqn:Ed; [|discriminate]. apply IH in E; auto. repeat (apply extend_wf; auto).
    - destruct (store_int _ _ _ _ _) as [w1|] eqn:Ed; [|discriminate]. apply IH in E; auto. repeat (apply extend_wf; auto).
  Qed.

  Lemma hook_ok hook : is_hook keccak hook -> forall w m p w', hook w = Some (m, p, w') -> (good w -> good w') /\ masks_wf address m.
  Proof.
    intros [|t r|n t g] w m p w' E.
    - unfold type1_no_hook in E. assert (w' = w) by congruence. assert (m = []) by congruence. subst. split; [auto|apply nil_wf].
    - unfold type1_beacon_hook, do_beacon_hook in E. cbn zeta in E. destruct (beacon_stores _ _ _ _ _) as [[m1 w1]|] eqn:Eb; [|discriminate].
      assert (w1 = w') by congruence. assert (m1 = m) by congruence. subst. split; [intros G; eapply good_beacon_stores; eauto|eapply beacon_wf; [apply nil_wf|exact Eb]].
    - unfold type1_scalable_hook, do_scalable_hook in E. destruct (Z.eqb n 0); [discriminate|]. cbn zeta in E.
      destruct (scalable_stores _ _ _ _ _) as [[m1 w1]|] eqn:Eb; [|discriminate].
      destruct (type1_store_hash keccak w1 _ _ _) as [w2|] eqn:E2; [|discriminate].
      assert (G2 : (good w -> good w2) /\ masks_wf address m1).
      { split; [intros G; eapply good_store_hash; [|exact E2]; eapply good_scalable_stores; eauto|eapply scalable_wf; [apply nil_wf|exact Eb]]. }
      destruct G2 as [G2 M1]. destruct g as [[ger l1]|].
      + destruct (type1_store_hash keccak w2 _ _ _) as [w3|] eqn:E3; [|discriminate]. assert (w3 = w') by congruence.
        match type of E with Some (?x, _, _) = _ => assert (x = m) by congruence end. subst. split; [intros G; eapply good_store_hash; [|exact E3]; auto|].
        apply extend_wf; [apply extend_wf; [exact M1|now vm_compute]|now vm_compute].
      + assert (w2 = w') by congruence. match type of E with Some (?x, _, _) = _ => assert (x = m) by congruence end. subst. split; [exact G2|].
        apply extend_wf; [exact M1|now vm_compute].
  Qed.

  Lemma kept hook : is_hook keccak hook -> kept_by (type1_impl keccak) hook good.
  Proof.
    intros HK. split.
    - intros w a f w' G E. proj E. apply checked_inv in E as [v E]. apply done_fst in E. subst w'.
      refine (good_step w (OpBalance _ _) G _ I). intros x _. apply u256_bound.
    - intros w a f w' G E. proj E. apply checked_inv in E as [v E]. apply done_fst in E. subst w'.
      refine (good_step w (OpNonce _ _) G _ I). intros x _. apply u256_bound.
    - intros w a c w' G E. proj E. apply done_fst in E. subst w'. refine (good_step w (OpCode _ _) G _ I). destruct c; [exact I|apply hash_bytes_ok].
    - intros w a w' G C E. proj C. proj E. apply done_fst in E. subst w'. refine (good_step w (OpCreateStorage _) G I _).
      intros x Gx. unfold w_contains in C. rewrite Gx in C. discriminate.
    - intros w a w1 w2 p G E1 E2. proj E1. proj E2. apply done_inv in E1 as [[] E1]. apply done_with_inv in E2.
      assert (Q : w1 = after keccak w (OpDestroyStorage (addr_bytes a))) by (cbn [after]; rewrite E1; reflexivity).
      assert (G1 : good w1) by (rewrite Q; exact (good_step w (OpDestroyStorage _) G I I)).
      change w2 with (fst (w2, WireModel.Done p)). rewrite <- E2. refine (good_step w1 (OpDestroy _) G1 I _).
      intros x t _ St. unfold w_destroy_storage in E1. destruct (storage_get (w_storage w) _); [|discriminate].
      match type of E1 with (?x, _) = _ => assert (w1 = x) by congruence end. rewrite H in St. cbn [with_storage w_storage] in St. rewrite storage_get_del in St.
      destruct (key_eq_dec _ _); [discriminate|congruence].
    - intros w a k v w' G E. eapply good_store_int; eauto.
    - intros w a k w' p G E. proj E. apply done_with_inv in E. change w' with (fst (w', WireModel.Done p)). rewrite <- E. exact (good_step w (OpDestroySlot _ _) G I I).
    - intros w ms w' G E. proj E. apply done_fst in E. subst w'. exact (good_step w (OpMaskStorage _) G I I).
    - intros w ps w' G E. proj E. apply done_fst in E. subst w'. exact (good_step w (OpMask _) G I I).
    - intros w m p w' G E. now apply (hook_ok hook HK) in E as [E _]; auto.
  Qed.

  Section Run.
    Variable map_receipt_bytes : bytes -> option bytes.
    Variable receipt_status : bytes -> option bool.
    Variable hook : world -> option (list (Z * list nibbles) * list nibbles * world).
    Variable fatal_missing_code : bool.
    Notation run := (type1_entrypoint keccak map_receipt_bytes receipt_status hook fatal_missing_code).
    Notation roots_before := (roots_before (type1_impl keccak) (type1_tries keccak)).

    (** C35 for type 1: no hypothesis on masking is left. *)
    Theorem C35_type1_chain : forall w txns code withdrawals hint gs, run w txns code withdrawals hint = Some gs ->
      let bs := batch txns hint in
      length gs = length bs /\
      (forall i g, nth_error gs i = Some g -> exists b, nth_error bs i = Some b /\
         g_txn_number_before g = length (reals (concat (firstn i bs))) /\
         g_gas_used_before g = total_gas (reals (concat (firstn i bs))) /\
         g_gas_used_after g = total_gas (reals (concat (firstn (S i) bs)))) /\
      (forall g, nth_error gs 0 = Some g ->
         root (type1_impl keccak) (g_world g) = hash_of_bytes (w_root keccak w) /\
         hash_of_bytes (troot keccak (g_txns g)) = hash_of_bytes (empty_root keccak) /\
         hash_of_bytes (troot keccak (g_receipts g)) = hash_of_bytes (empty_root keccak)) /\
      (forall i g g', nth_error gs i = Some g -> nth_error gs (S i) = Some g' ->
         (hash_of_bytes (w_root keccak (g_world g')), hash_of_bytes (troot keccak (g_txns g')), hash_of_bytes (troot keccak (g_receipts g'))) = g_roots_after g).
    Proof.
      intros w txns code withdrawals hint gs E bs. unfold type1_entrypoint in E.
      destruct (C35_chain _ _ _ _ _ _ _ _ _ _ _ _ _ _ C35_type1_masks E) as (L & A & B & C & _). split; [exact L|]. split; [|split].
      - intros i g Hg. destruct (A i g Hg) as (b & Hb & A1 & A2 & A3 & _). exists b. auto.
      - intros g Hg. specialize (B g Hg). unfold roots_before in B.
        assert (root (type1_impl keccak) (g_world g) = root (type1_impl keccak) w) by congruence.
        assert (t_root (type1_tries keccak) (g_txns g) = t_root (type1_tries keccak) (t_new (type1_tries keccak))) by congruence.
        assert (t_root (type1_tries keccak) (g_receipts g) = t_root (type1_tries keccak) (t_new (type1_tries keccak))) by congruence. auto.
      - intros i g g' H1 H2. destruct (C i g g' H1 H2) as [_ H]. exact H.
    Qed.

    (** C53 for type 1: the final roots do not depend on the batch size. *)
    Theorem C53_type1_hint_independent : forall w txns code withdrawals hint hint' gs gs' d d',
      txns <> [] -> gas_ok txns -> run w txns code withdrawals hint = Some gs -> run w txns code withdrawals hint' = Some gs' ->
      g_roots_after (List.last gs d) = g_roots_after (List.last gs' d').
    Proof.
      intros w txns code withdrawals hint hint' gs gs' d d' Hne Hgas E E'. unfold type1_entrypoint in E, E'.
      exact (proj1 (C53_hint_independent _ _ _ _ _ _ _ _ _ _ _ _ _ _ _ _ _ _ Hne Hgas C35_type1_masks E E')).
    Qed.

    (** C40 through a whole block: every world handed to the prover is
        consistent. *)
    Theorem C40_block : forall w txns code withdrawals hint gs, is_hook keccak hook -> world_ok keccak w -> storages_ok w ->
      run w txns code withdrawals hint = Some gs -> Forall (fun g => world_ok keccak (g_world g) /\ storages_ok (g_world g)) gs.
    Proof.
      intros w txns code withdrawals hint gs HK W S E. unfold type1_entrypoint in E.
      exact (inv_entrypoint _ _ _ _ _ _ _ _ good (kept hook HK) _ _ _ _ _ _ (conj W S) E).
    Qed.

    (** C54 for type 1: the accounts and slots in the traces of a batch read the
        same in the world handed to the prover as in an unpruned world with the
        root the batch starts from (the input world for the first batch). *)
    Definition distinct_hashes : Prop := forall a b, address a -> address b -> hkey keccak (addr_bytes a) = hkey keccak (addr_bytes b) -> a = b.
    Theorem C54_type1_reads : forall w txns code withdrawals hint gs, is_hook keccak hook -> distinct_hashes -> world_ok keccak w -> storages_ok w ->
      (forall a, touched txns a -> address a) -> run w txns code withdrawals hint = Some gs ->
      forall i g b, nth_error gs i = Some g -> nth_error (batch txns hint) i = Some b ->
      exists full, world_ok keccak full /\ storages_ok full /\ (i = 0 -> full = w) /\
        hash_of_bytes (w_root keccak (g_world g)) = hash_of_bytes (w_root keccak full) /\
        (forall p g', i = S p -> nth_error gs p = Some g' -> fst (fst (g_roots_after g')) = hash_of_bytes (w_root keccak full)) /\
        (forall a, touched (reals b) a -> account_of keccak (g_world g) (addr_bytes a) = account_of keccak full (addr_bytes a)) /\
        (forall a k, touched_slot (reals b) a k -> slot_of keccak (g_world g) (addr_bytes a) (u256 k) = slot_of keccak full (addr_bytes a) (u256 k)).
    Proof.
      intros w txns code withdrawals hint gs HK DH W S HP E i g b Hg Hb. unfold type1_entrypoint in E.
      destruct (inv_batches _ _ _ _ _ _ _ _ good (kept hook HK) address (fun w m p w' E => proj2 (hook_ok hook HK w m p w' E)) _ _ _ _ _ _ (conj W S) HP E i g b Hg Hb)
        as (full & [Wf Sf] & (paths & masks & w1 & E1 & E2 & (ND & FA) & Cv & Cs) & Z0 & Ch).
      exists full. split; [exact Wf|]. split; [exact Sf|]. split; [exact Z0|].
      pose proof (proj1 C35_type1_masks _ _ _ E1) as R1. pose proof (proj1 (proj2 C35_type1_masks) _ _ _ E2) as R2. cbn [root type1_impl] in R1, R2.
      split; [now rewrite R2|]. split; [exact Ch|]. clear Ch Z0.
      proj E1. proj E2. apply done_inv in E1 as [[] E1]. apply done_inv in E2 as [[] E2].
      destruct (C60_mask keccak KOK _ _ _ Wf E1) as (M1 & _ & M3).
      assert (S1 : storages_ok w1) by (intros k t H; rewrite M3 in H; exact (Sf _ _ H)).
      assert (ND' : NoDup (map (fun e : list N * list nibbles => hkey keccak (fst e)) (map (fun e : Z * list nibbles => (addr_bytes (fst e), snd e)) masks))).
      { rewrite map_map. cbn [fst]. rewrite <- (map_map fst (fun a => hkey keccak (addr_bytes a))). clear - ND FA DH.
        induction (map fst masks) as [|x l IH]; cbn; constructor; inversion ND; inversion FA; subst; [|auto].
        intros I. apply in_map_iff in I as (y & Ey & Iy). assert (y = x); [|congruence]. apply DH; auto. rewrite Forall_forall in H6. auto. }
      destruct (C60_mask_storage keccak KOK _ _ _ S1 ND' E2) as (N1 & N2 & _).
      split.
      - intros a Ha. rewrite <- (M1 (addr_bytes a) (Cv a Ha)). unfold account_of. now rewrite N1.
      - intros a k Hk. destruct (Cs a k Hk) as (ks & I1 & I2).
        rewrite (N2 (addr_bytes a) ks (u256 k)); [|change (addr_bytes a, ks) with ((fun e : Z * list nibbles => (addr_bytes (fst e), snd e)) (a, ks)); now apply in_map|exact I2].
        unfold slot_of, w_load_int. now rewrite M3.
    Qed.
  End Run.
End Props.
Print Assumptions C35_type1_masks.
Print Assumptions C35_type1_chain.
Print Assumptions C53_type1_hint_independent.
Print Assumptions C40_block.
Print Assumptions C54_type1_reads.

(** * A block meeting the hypotheses *)
Module Type1BlockDemo.
  (** A hash with 32-byte results that tells addresses apart. *)
  Definition pad (b : list N) : list N := be_bytes 32 (from_be b).
  Lemma pad_ok : keccak_ok pad.
  Proof. intros b. split; [apply be_bytes_length|apply be_bytes_bytes]. Qed.
  Lemma nibbles_of_inj : forall a b, byte_list a -> byte_list b -> nibbles_of a = nibbles_of b -> a = b.
  Proof.
    induction a as [|x a IH]; intros [|y b] Ha Hb E; cbn [nibbles_of flat_map app] in E; try discriminate; [reflexivity|].
    inversion Ha as [|? ? Hx Ha']; inversion Hb as [|? ? Hy Hb']; subst. unfold is_byte in Hx, Hy. injection E as E1 E2 E3. f_equal; [|apply IH; auto].
    apply N2Nat.inj in E1, E2. rewrite (N.div_mod x 16), (N.div_mod y 16) by discriminate. congruence.
  Qed.
  Lemma pad_distinct : distinct_hashes pad.
  Proof.
    intros a b Ha Hb E. unfold address in *. unfold hkey in E. apply nibbles_of_inj in E; [|apply pad_ok|apply pad_ok]. unfold pad in E.
    assert (B : forall x, (0 <= x < 2 ^ 160)%Z -> from_be (addr_bytes x) = Z.to_N x /\ (Z.to_N x < 2 ^ 160)%N).
    { intros x Hx. assert (L : (Z.to_N x < 2 ^ 160)%N) by (apply N2Z.inj_lt; rewrite Z2N.id by apply Hx; apply Hx). split; [|exact L].
      unfold addr_bytes. rewrite Z.mod_small by exact Hx. apply from_be_be_bytes. exact L. }
    destruct (B a Ha) as [A1 A2]. destruct (B b Hb) as [B1 B2]. rewrite A1, B1 in E. apply (f_equal from_be) in E.
    assert (Up : (2 ^ 160 < 256 ^ N.of_nat 32)%N) by reflexivity.
    rewrite !from_be_be_bytes in E by (eapply N.lt_trans; [eassumption|exact Up]). apply Z2N.inj in E; [exact E|apply Ha|apply Hb].
  Qed.
  Definition start : world := {| w_state := new_state; w_storage := [] |}.
  Lemma start_good : world_ok pad start /\ storages_ok start.
  Proof.
    split; [split; [|split]|].
    - split; [constructor|]. intros k x S. apply look_stored in S. discriminate.
    - intros k a t K G. discriminate.
    - intros k t K A S. discriminate.
    - intros k t S. discriminate.
  Qed.
  Definition trace (balance nonce : Z) (read : list Z) (written : list (Z * Z)) (u : option code_usage) (sd : bool) : txn_trace :=
    {| t_balance := Some balance; t_nonce := Some nonce; t_storage_read := read; t_storage_written := written; t_code_usage := u; t_self_destructed := sd |}.
  Definition txns : list txn_info := [
    {| i_traces := [(1%Z, trace 900 1 [] [] None false); (2%Z, trace 150 0 [] [(4, 7); (5, 3)]%Z None false)]; i_byte_code := [1; 1]%Z; i_receipt := [5]%Z; i_gas_used := 21000 |};
    {| i_traces := [(3%Z, trace 10 1 [] [(1, 1)]%Z (Some (Write [96; 0]%Z)) false)]; i_byte_code := [2]%Z; i_receipt := [6]%Z; i_gas_used := 53000 |};
    {| i_traces := [(2%Z, trace 33 1 [5%Z] [(4, 0)]%Z None false)]; i_byte_code := [3]%Z; i_receipt := [7]%Z; i_gas_used := 30000 |};
    {| i_traces := [(3%Z, trace 0 2 [] [] None true)]; i_byte_code := [4]%Z; i_receipt := [8]%Z; i_gas_used := 1000 |} ].
  Definition run (hint : nat) := type1_entrypoint pad Some (fun _ => Some true) type1_no_hook true start txns (fun _ => None) [(1, 2)]%Z hint.
  (** Two batches; in the second, slot 5 of account 2 reads 3, and account 3 has
      its balance. *)
  Example block_example :
    option_map (map (fun g => (g_txn_number_before g, g_gas_used_after g, slot_of pad (g_world g) (addr_bytes 2) 5, account_of pad (g_world g) (addr_bytes 4)))) (run 2)
      = Some [(0, 74000%Z, Fail, Done None); (2, 105000%Z, Done 3%N, Done None)] /\
    option_map (map (fun g => match account_of pad (g_world g) (addr_bytes 3) with Done (Some a) => Some (a_balance a) | _ => None end)) (run 2) = Some [None; Some 10%N].
  Proof. split; vm_compute; reflexivity. Qed.
  Lemma txns_addresses : forall a, touched txns a -> address a.
  Proof.
    intros a (i & t & I & J). assert (F : Forall (fun i => Forall (fun e : Z * txn_trace => (0 <=? fst e)%Z && (fst e <? 2 ^ 160)%Z = true) (i_traces i)) txns) by (repeat constructor).
    rewrite Forall_forall in F. specialize (F i I). rewrite Forall_forall in F. specialize (F (a, t) J). cbn [fst] in F. unfold address. lia.
  Qed.
  Example C54_type1_example : exists gs, run 2 = Some gs /\ is_hook pad type1_no_hook /\ distinct_hashes pad /\ world_ok pad start /\ storages_ok start /\
    (forall a, touched txns a -> address a) /\ length gs = 2.
  Proof.
    eexists. split; [vm_compute; reflexivity|]. split; [constructor|]. split; [exact pad_distinct|]. split; [apply start_good|]. split; [apply start_good|].
    split; [exact txns_addresses|reflexivity].
  Qed.
  Example C53_type1_example : exists gs gs', run 1 = Some gs /\ run 3 = Some gs' /\ length gs = 4 /\ length gs' = 2 /\ txns <> [] /\ gas_ok txns.
  Proof.
    eexists. eexists. split; [vm_compute; reflexivity|]. split; [vm_compute; reflexivity|]. split; [reflexivity|]. split; [reflexivity|]. split; [discriminate|].
    repeat constructor; discriminate.
  Qed.
End Type1BlockDemo.
