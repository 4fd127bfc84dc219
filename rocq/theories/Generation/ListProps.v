(** C90: the linked lists of accounts and storage slots hold the leaves of the
    tries, in increasing order of keys, as one cycle through the head. *)
From Coq Require Import List Arith NArith Bool Lia Sorted.
From Coq Require Import ZifyN ZifyNat ZifyBool.
From Verif.Mpt Require Import TrieModel TrieFacts NibblesModel NibblesProofs.
From Verif.Generation Require Import LoadModel ListModel LoadProps.
Import ListNotations.
Local Open Scope nat_scope.

(** * Specification *)

(** The leaves of a trie, from left to right, with their whole keys. *)
Fixpoint leaves (key : list nat) (t : node) : list (list nat * list N) :=
  match t with
  | Branch ch _ => (fix go (ch : list node) (i : nat) : list (list nat * list N) := match ch with [] => [] | c :: ch => leaves (key ++ [i]) c ++ go ch (S i) end) ch 0
  | Ext ns c => leaves (key ++ ns) c
  | Leaf ns v => [(key ++ ns, v)]
  | _ => []
  end.

Definition slice (m : list cell) (pos n : nat) : list cell := firstn n (skipn pos m).

(** Following the pointers from position [pos] of segment [seg] meets the given
    nodes and then comes back to the start of the segment. *)
Inductive chain (seg : N) (size : nat) (mem : list cell) : nat -> list (list N) -> Prop :=
| chain_last : forall pos p, slice mem pos (S size) = map Some p ++ [Some seg] -> length p = size -> chain seg size mem pos [p]
| chain_next : forall pos p pos' ps, slice mem pos (S size) = map Some p ++ [Some (seg + N.of_nat pos')%N] -> length p = size -> pos < pos' -> chain seg size mem pos' ps -> chain seg size mem pos (p :: ps).

(** * Layout of a list in memory *)

Fixpoint layout (seg : N) (off : nat) (ps : list (list N)) : list cell :=
  match ps with
  | [] => []
  | p :: rest => map Some p ++ Some (match rest with [] => seg | _ => (seg + N.of_nat (off + S (length p)))%N end) :: layout seg (off + S (length p)) rest
  end.

Lemma set_cell_app : forall a b i x, length a <= i -> set_cell (a ++ b) i x = a ++ set_cell b (i - length a) x.
Proof.
  intros a b i x H. unfold set_cell. rewrite firstn_app, skipn_app, firstn_all2 by lia. rewrite (skipn_all2 a) by lia. rewrite <- app_assoc. cbn [app].
  replace (S i - length a) with (S (i - length a)) by lia. reflexivity.
Qed.

Lemma layout_len : forall size ps seg off, Forall (fun p => length p = size) ps -> length (layout seg off ps) = length ps * S size.
Proof.
  intros size ps. induction ps as [|p ps IH]; intros seg off F; [reflexivity|]. inversion F as [|? ? E F' X]; subst. cbn [layout]. rewrite app_length, map_length. cbn [length]. rewrite (IH _ _ F'). lia.
Qed.

Lemma layout_snoc : forall ps seg off p, ps <> [] ->
  set_cell (layout seg off ps) (length (layout seg off ps) - 1) (Some (seg + N.of_nat (off + length (layout seg off ps)))%N) ++ map Some p ++ [Some seg] = layout seg off (ps ++ [p]).
Proof.
  intros ps. induction ps as [|q ps IH]; intros seg off p NE; [contradiction|]. destruct ps as [|q2 ps].
  - cbn [layout app]. rewrite app_length, map_length. cbn [length]. rewrite set_cell_app by (rewrite map_length; lia). rewrite map_length. replace (length q + 1 - 1 - length q) with 0 by lia.
    rewrite <- app_assoc. unfold set_cell. cbn [firstn skipn app]. replace (off + (length q + 1)) with (off + S (length q)) by lia. reflexivity.
  - specialize (IH seg (off + S (length q)) p ltac:(discriminate)).
    set (R := q2 :: ps) in *. assert (HR : exists a b, R ++ [p] = a :: b) by (exists q2, (ps ++ [p]); reflexivity). assert (HR' : exists a b, R = a :: b) by (exists q2, ps; reflexivity).
    assert (LL : 1 <= length (layout seg (off + S (length q)) R)) by (unfold R; cbn [layout]; rewrite app_length; cbn [length]; lia). clearbody R.
    cbn [layout app]. destruct HR as (a & b & HR). rewrite HR in *. destruct HR' as (a' & b' & ->). set (T := layout seg (off + S (length q)) (a' :: b')) in *.
    rewrite app_length, map_length. cbn [length]. rewrite set_cell_app by (rewrite map_length; lia). rewrite map_length.
    change (Some (seg + N.of_nat (off + S (length q)))%N :: T) with ([Some (seg + N.of_nat (off + S (length q)))%N] ++ T). rewrite set_cell_app by (cbn [length]; lia). rewrite <- app_assoc. cbn [app]. rewrite <- IH. cbn [length].
    replace (length q + S (length T) - 1 - length q - 1) with (length T - 1) by lia. replace (off + (length q + S (length T))) with (off + S (length q) + length T) by lia. reflexivity.
Qed.

Lemma layout_chain : forall size seg ps pre, ps <> [] -> Forall (fun p => length p = size) ps -> chain seg size (pre ++ layout seg (length pre) ps) (length pre) ps.
Proof.
  intros size seg ps. induction ps as [|p ps IH]; intros pre NE F; [contradiction|]. inversion F as [|? ? E F' X]; subst. destruct ps as [|q ps].
  - apply chain_last; [|reflexivity]. unfold slice. rewrite skipn_app, skipn_all, Nat.sub_diag. cbn [skipn app layout]. rewrite firstn_all2 by (rewrite app_length, map_length; cbn [length]; lia). reflexivity.
  - apply chain_next with (pos' := length pre + S (length p)); [|reflexivity|lia|].
    + unfold slice. rewrite skipn_app, skipn_all, Nat.sub_diag. cbn [skipn app]. change (layout seg (length pre) (p :: q :: ps)) with (map Some p ++ Some (seg + N.of_nat (length pre + S (length p)))%N :: layout seg (length pre + S (length p)) (q :: ps)).
      rewrite firstn_app, map_length, firstn_all2 by (rewrite map_length; lia). replace (S (length p) - length p) with 1 by lia. reflexivity.
    + specialize (IH (pre ++ map Some p ++ [Some (seg + N.of_nat (length pre + S (length p)))%N]) ltac:(discriminate) F').
      rewrite !app_length, map_length in IH. cbn [length] in IH. replace (length pre + (length p + 1)) with (length pre + S (length p)) in IH by lia. rewrite <- !app_assoc in IH. exact IH.
Qed.

(** The node number [i] is at cell [i * S size]. *)
Lemma layout_nth : forall size seg ps off i p, Forall (fun p => length p = size) ps -> nth_error ps i = Some p -> slice (layout seg off ps) (i * S size) size = map Some p.
Proof.
  intros size seg ps. induction ps as [|q ps IH]; intros off i p F H; [destruct i; discriminate H|]. inversion F as [|? ? E F' X]; subst. cbn [layout]. destruct i as [|i].
  - injection H as ->. unfold slice. cbn [Nat.mul skipn]. rewrite firstn_app, map_length, Nat.sub_diag, firstn_all2 by (rewrite map_length; lia). apply app_nil_r.
  - cbn [nth_error] in H. rewrite <- (IH (off + S (length q)) i p F' H). unfold slice. f_equal. rewrite skipn_app, map_length, skipn_all2 by (rewrite map_length; lia). cbn [app].
    replace (S i * S (length q) - length q) with (S (i * S (length q))) by lia. reflexivity.
Qed.

(** * Traversal *)

Fixpoint foldm {S} (f : list nat -> list N -> S -> lres S) (ls : list (list nat * list N)) (s : S) : lres S :=
  match ls with [] => LOk s | (k, v) :: ls => let! s := f k v s in foldm f ls s end.

Lemma foldm_app : forall {S} f a b (s s1 s2 : S), foldm f a s = LOk s1 -> foldm f b s1 = LOk s2 -> foldm f (a ++ b) s = LOk s2.
Proof. intros S f a. induction a as [|[k v] a IH]; intros b s s1 s2 H1 H2; cbn [foldm app] in *; [injection H1 as ->; exact H2|]. destruct (f k v s); cbn [lbind] in *; try discriminate H1. eapply IH; eauto. Qed.

Lemma merge_ok : forall a b k, nib_panic (merge_nibbles a b) = LOk k -> k = a ++ b /\ length a + length b <= 64.
Proof. intros a b k H. unfold merge_nibbles in H. destruct (Nat.leb_spec (length a + length b) 64); [|discriminate H]. injection H as <-. split; [reflexivity|assumption]. Qed.

Fixpoint child_leaves (key : list nat) (ch : list node) (i : nat) : list (list nat * list N) := match ch with [] => [] | c :: ch => leaves (key ++ [i]) c ++ child_leaves key ch (S i) end.
Lemma leaves_branch : forall key ch v, leaves key (Branch ch v) = child_leaves key ch 0.
Proof. intros key ch v. cbn [leaves]. generalize 0. induction ch as [|c ch IH]; intros i; [reflexivity|]. cbn [child_leaves]. rewrite IH. reflexivity. Qed.

Section Lists.
  Variable accounts_segment storage_segment : N.
  Variable hash_of : node -> list N.
  Variable decode_account : list N -> option acct.
  Variable decode_slot : list N -> option N.
  Variable storage_of : list nat -> option node.

  Notation storage_leaf := (storage_leaf storage_segment decode_slot).
  Notation get_storage_leaves := (get_storage_leaves storage_segment decode_slot).
  Notation state_leaf := (state_leaf accounts_segment storage_segment hash_of decode_account decode_slot storage_of).
  Notation get_state := (get_state_and_storage_leaves accounts_segment storage_segment hash_of decode_account decode_slot storage_of).

  Lemma storage_fold : forall addr t key s s', get_storage_leaves addr t key s = LOk s' -> foldm (storage_leaf addr) (leaves key t) s = LOk s'.
  Proof.
    intros addr t. induction t as [|h|ch v IH|ns c IH|ns v] using node_ind'; intros key s s' H; cbn [ListModel.get_storage_leaves] in H; try (exact H).
    - rewrite leaves_branch. revert s H. generalize 0 as i. induction ch as [|c ch IHc]; intros i s H; [exact H|]. cbn [over_children child_leaves] in *.
      destruct (nib_panic (merge_nibbles key [i])) as [k| |] eqn:M; cbn [lbind] in H; try discriminate H. apply merge_ok in M as (-> & _).
      destruct (get_storage_leaves addr c (key ++ [i]) s) as [s1| |] eqn:E; cbn [lbind] in H; try discriminate H.
      eapply foldm_app; [apply (IH 0 c eq_refl _ _ _ E)|]. apply IHc; [|exact H]. intros j c' Hc'. exact (IH (S j) c' Hc').
    - destruct (nib_panic (merge_nibbles key ns)) as [k| |] eqn:M; cbn [lbind] in H; try discriminate H. apply merge_ok in M as (-> & _). apply IH. exact H.
    - destruct (nib_panic (merge_nibbles key ns)) as [k| |] eqn:M; cbn [lbind] in H; try discriminate H. apply merge_ok in M as (-> & _). cbn [leaves foldm]. rewrite H. reflexivity.
  Qed.

  Lemma state_fold : forall t key s s', get_state t key s = LOk s' -> foldm state_leaf (leaves key t) s = LOk s'.
  Proof.
    intros t. induction t as [|h|ch v IH|ns c IH|ns v] using node_ind'; intros key s s' H; cbn [ListModel.get_state_and_storage_leaves] in H; try (exact H).
    - destruct v; [|discriminate H]. rewrite leaves_branch. revert s H. generalize 0 as i. induction ch as [|c ch IHc]; intros i s H; [exact H|]. cbn [over_children child_leaves] in *.
      destruct (nib_panic (merge_nibbles key [i])) as [k| |] eqn:M; cbn [lbind] in H; try discriminate H. apply merge_ok in M as (-> & _).
      destruct (get_state c (key ++ [i]) s) as [s1| |] eqn:E; cbn [lbind] in H; try discriminate H.
      eapply foldm_app; [apply (IH 0 c eq_refl _ _ _ E)|]. apply IHc; [|exact H]. intros j c' Hc'. exact (IH (S j) c' Hc').
    - destruct (nib_panic (merge_nibbles key ns)) as [k| |] eqn:M; cbn [lbind] in H; try discriminate H. apply merge_ok in M as (-> & _). apply IH. exact H.
    - destruct (nib_panic (merge_nibbles key ns)) as [k| |] eqn:M; cbn [lbind] in H; try discriminate H. apply merge_ok in M as (-> & _). cbn [leaves foldm]. rewrite H. reflexivity.
  Qed.

  Lemma set_last_layout : forall seg ps m' x, ps <> [] -> set_last (layout seg 0 ps) x = LOk m' -> m' = set_cell (layout seg 0 ps) (length (layout seg 0 ps) - 1) x.
  Proof. intros seg ps m' x NE H. unfold set_last in H. destruct (length (layout seg 0 ps)) as [|k] eqn:E; [discriminate H|]. injection H as <-. rewrite Nat.sub_0_r || idtac. f_equal; lia. Qed.

  (** ** Storage *)
  Definition slot_of (v : list N) : N := match decode_slot v with Some w => w | None => 0%N end.
  Definition slot_node (addr : N) (kv : list nat * list N) : list N := [addr; val (fst kv); slot_of (snd kv); 0%N].
  Fixpoint slot_pointers (n : nat) (nodes : list (list N)) : list ((N * N) * N) :=
    match nodes with [] => [] | p :: r => ((nth 0 p 0%N, nth 1 p 0%N), (storage_segment + N.of_nat (n * 5))%N) :: slot_pointers (S n) r end.

  Lemma slots_added : forall addr ls s s' ps, ps <> [] -> Forall (fun p => length p = 4) ps -> storage_leaves s = layout storage_segment 0 ps -> foldm (storage_leaf addr) ls s = LOk s' ->
    storage_leaves s' = layout storage_segment 0 (ps ++ map (slot_node addr) ls) /\ Forall (fun kv => decode_slot (snd kv) <> None) ls /\
    state_leaves s' = state_leaves s /\ list_data s' = list_data s /\ accounts_pointers s' = accounts_pointers s /\
    storage_pointers s' = storage_pointers s ++ slot_pointers (length ps) (map (slot_node addr) ls).
  Proof.
    intros addr ls. induction ls as [|[k v] ls IH]; intros s s' ps NE F E H; cbn [foldm map slot_pointers] in *.
    - injection H as <-. rewrite !app_nil_r. repeat split; try assumption. constructor.
    - unfold ListModel.storage_leaf at 1 in H. rewrite E in H. destruct (set_last (layout storage_segment 0 ps) _) as [sl| |] eqn:SL; cbn [lbind] in H; try discriminate H.
      apply set_last_layout in SL; [|exact NE]. unfold nibbles_u256 in H. destruct (val k <? 2 ^ 256)%N; cbn [lbind] in H; [|discriminate H]. destruct (decode_slot v) as [w|] eqn:D; cbn [lbind] in H; [|discriminate H].
      assert (Fs : Forall (fun p => length p = 4) (ps ++ [slot_node addr (k, v)])) by (apply Forall_app; split; [exact F|repeat constructor]).
      eapply IH with (ps := ps ++ [slot_node addr (k, v)]) in H; [|destruct ps; discriminate|exact Fs|].
      2: { cbn [storage_leaves]. rewrite SL. change [Some addr; Some (val k); Some w; Some 0%N; Some storage_segment] with (map Some [addr; val k; w; 0%N] ++ [Some storage_segment]).
           replace [addr; val k; w; 0%N] with (slot_node addr (k, v)) by (unfold slot_node, slot_of; cbn [fst snd]; rewrite D; reflexivity). apply (layout_snoc ps storage_segment 0). exact NE. }
      cbn [storage_leaves state_leaves list_data accounts_pointers storage_pointers] in H. destruct H as (A & B & C & DD & G & P). rewrite <- app_assoc in A. split; [exact A|]. split; [constructor; [cbn [snd]; rewrite D; discriminate|exact B]|].
      split; [exact C|]. split; [exact DD|]. split; [exact G|]. rewrite P, app_length. cbn [length]. rewrite Nat.add_1_r, <- app_assoc. cbn [app]. do 3 f_equal.
      rewrite (layout_len 4 ps _ _ F). reflexivity.
  Qed.

  (** ** Accounts *)
  Definition fields (v : list N) : list N := match decode_account v with Some a => [ac_nonce a; ac_balance a; 0%N; ac_code a] | None => [] end.
  Fixpoint account_nodes (ptr : nat) (ls : list (list nat * list N)) : list (list N) :=
    match ls with [] => [] | (k, _) :: ls => [val k; N.of_nat ptr; 0%N] :: account_nodes (ptr + 4) ls end.
  Fixpoint account_pointers (n : nat) (ls : list (list nat * list N)) : list (N * N) :=
    match ls with [] => [] | (k, _) :: ls => (val k, (accounts_segment + N.of_nat (n * 4))%N) :: account_pointers (S n) ls end.
  (** The slots of an account: the leaves of its storage trie, if it was given. *)
  Definition slots (k : list nat) : list (list nat * list N) := match storage_of k with Some t => leaves [] t | None => [] end.
  Definition slot_nodes (ls : list (list nat * list N)) : list (list N) := flat_map (fun kv => map (slot_node (val (fst kv))) (slots (fst kv))) ls.

  Definition leaf_ok (kv : list nat * list N) : Prop :=
    exists a, decode_account (snd kv) = Some a /\ (forall t, storage_of (fst kv) = Some t -> hash_of t = ac_root a) /\ Forall (fun sv => decode_slot (snd sv) <> None) (slots (fst kv)).

  Lemma account_node_len : forall ls ptr, Forall (fun p => length p = 3) (account_nodes ptr ls).
  Proof. induction ls as [|[k v] ls IH]; intros ptr; constructor; [reflexivity|apply IH]. Qed.
  Lemma slot_pointers_app : forall a b n, slot_pointers n (a ++ b) = slot_pointers n a ++ slot_pointers (n + length a) b.
  Proof. induction a as [|p a IH]; intros b n; cbn [slot_pointers app length]; [rewrite Nat.add_0_r; reflexivity|]. rewrite IH. do 2 f_equal. f_equal. lia. Qed.

  Lemma accounts_added : forall ls s s' ps qs, ps <> [] -> Forall (fun p => length p = 3) ps -> state_leaves s = layout accounts_segment 0 ps ->
    qs <> [] -> Forall (fun p => length p = 4) qs -> storage_leaves s = layout storage_segment 0 qs -> foldm state_leaf ls s = LOk s' ->
    state_leaves s' = layout accounts_segment 0 (ps ++ account_nodes (length (list_data s)) ls) /\
    storage_leaves s' = layout storage_segment 0 (qs ++ slot_nodes ls) /\
    list_data s' = list_data s ++ map Some (flat_map (fun kv => fields (snd kv)) ls) /\
    accounts_pointers s' = accounts_pointers s ++ account_pointers (length ps) ls /\
    storage_pointers s' = storage_pointers s ++ slot_pointers (length qs) (slot_nodes ls) /\
    Forall leaf_ok ls.
  Proof.
    intros ls. induction ls as [|[k v] ls IH]; intros s s' ps qs NE F E NQ FQ EQ H; cbn [foldm account_nodes account_pointers] in *.
    - injection H as <-. unfold slot_nodes. cbn [flat_map slot_pointers map]. rewrite !app_nil_r. repeat split; try assumption. constructor.
    - unfold ListModel.state_leaf at 1 in H. destruct (decode_account v) as [a|] eqn:D; cbn [lbind] in H; [|discriminate H].
      unfold bytes_same in H. destruct (list_eq_dec N.eq_dec _ (ac_root a)) as [HH|]; cbn [negb lbind] in H; [|discriminate H].
      rewrite E in H. destruct (set_last (layout accounts_segment 0 ps) _) as [sl| |] eqn:SL; cbn [lbind] in H; try discriminate H.
      apply set_last_layout in SL; [|exact NE]. unfold nibbles_u256 in H. destruct (val k <? 2 ^ 256)%N; cbn [lbind] in H; [|discriminate H].
      set (T := match storage_of k with Some t => t | None => Hash (ac_root a) end) in *.
      destruct (get_storage_leaves (val k) T [] _) as [s1| |] eqn:G; cbn [lbind] in H; try discriminate H.
      apply storage_fold in G. assert (LT : leaves [] T = slots k) by (unfold T, slots; destruct (storage_of k); reflexivity). rewrite LT in G.
      eapply slots_added with (ps := qs) in G; [|exact NQ|exact FQ|exact EQ]. cbn [storage_leaves state_leaves list_data accounts_pointers storage_pointers] in G. destruct G as (G1 & G2 & G3 & G4 & G5 & G6).
      assert (Fs : Forall (fun p => length p = 3) (ps ++ [[val k; N.of_nat (length (list_data s)); 0%N]])) by (apply Forall_app; split; [exact F|repeat constructor]).
      assert (FQs : Forall (fun p => length p = 4) (qs ++ map (slot_node (val k)) (slots k))) by (apply Forall_app; split; [exact FQ|apply Forall_map, Forall_forall; reflexivity]).
      eapply IH with (ps := ps ++ [[val k; N.of_nat (length (list_data s)); 0%N]]) (qs := qs ++ map (slot_node (val k)) (slots k)) in H;
        [|destruct ps; discriminate|exact Fs| |destruct qs; [contradiction|discriminate]|exact FQs|exact G1].
      2: { cbn [state_leaves]. rewrite G3, SL. apply (layout_snoc ps accounts_segment 0 [val k; N.of_nat (length (list_data s)); 0%N]). exact NE. }
      cbn [storage_leaves state_leaves list_data accounts_pointers storage_pointers] in H. destruct H as (A1 & A2 & A3 & A4 & A5 & A6).
      rewrite G4, app_length in A1. cbn [length] in A1. rewrite <- app_assoc in A1. split; [exact A1|].
      split; [rewrite A2, <- app_assoc; reflexivity|]. split; [|split; [|split]].
      + rewrite A3, G4, <- app_assoc. cbn [flat_map snd]. rewrite map_app. unfold fields at 2. rewrite D. reflexivity.
      + rewrite A4, G5, app_length, <- app_assoc. cbn [length app]. rewrite (layout_len 3 ps _ _ F), Nat.add_1_r. reflexivity.
      + rewrite A5, G6, <- app_assoc. unfold slot_nodes at 2. cbn [flat_map fst]. rewrite slot_pointers_app, app_length, map_length. reflexivity.
      + constructor; [|exact A6]. exists a. split; [exact D|]. split; [|exact G2]. cbn [fst]. intros t Ht. unfold T in HH. rewrite Ht in HH. exact HH.
  Qed.

  (** * The claims *)

  Definition load := load_linked_lists accounts_segment storage_segment hash_of decode_account decode_slot storage_of.

  Lemma loaded : forall t td s', load t td = LOk s' ->
    state_leaves s' = layout accounts_segment 0 ([U256_MAX; 0%N; 0%N] :: account_nodes (length td) (leaves [] t)) /\
    storage_leaves s' = layout storage_segment 0 ([U256_MAX; 0%N; 0%N; 0%N] :: slot_nodes (leaves [] t)) /\
    list_data s' = td ++ map Some (flat_map (fun kv => fields (snd kv)) (leaves [] t)) /\
    accounts_pointers s' = account_pointers 1 (leaves [] t) /\
    storage_pointers s' = slot_pointers 1 (slot_nodes (leaves [] t)) /\
    Forall leaf_ok (leaves [] t).
  Proof.
    intros t td s' H. unfold load, load_linked_lists in H. apply state_fold in H.
    apply accounts_added with (ps := [[U256_MAX; 0%N; 0%N]]) (qs := [[U256_MAX; 0%N; 0%N; 0%N]]) in H; [exact H|discriminate|repeat constructor|reflexivity|discriminate|repeat constructor|reflexivity].
  Qed.

  Lemma slot_nodes_len : forall ls, Forall (fun p => length p = 4) (slot_nodes ls).
  Proof. intros ls. apply Forall_forall. intros p H. apply in_flat_map in H as ([k v] & _ & H). apply in_map_iff in H as (x & <- & _). reflexivity. Qed.

  Lemma nodes_fields : forall ls td pre, Forall leaf_ok ls -> td = pre ++ map Some (flat_map (fun kv => fields (snd kv)) ls) ->
    Forall2 (fun kv node => exists a ptr, decode_account (snd kv) = Some a /\ node = [val (fst kv); N.of_nat ptr; 0%N] /\ slice td ptr 4 = [Some (ac_nonce a); Some (ac_balance a); Some 0%N; Some (ac_code a)]) ls (account_nodes (length pre) ls).
  Proof.
    intros ls. induction ls as [|[k v] ls IH]; intros td pre F E; [constructor|]. inversion F as [|? ? (a & D & _) F' X]; subst x l. cbn [snd] in D. cbn [flat_map snd] in E. unfold fields at 1 in E. rewrite D in E. cbn [account_nodes]. constructor.
    - exists a, (length pre). split; [exact D|]. split; [reflexivity|]. rewrite E. unfold slice. rewrite skipn_app, skipn_all, Nat.sub_diag. reflexivity.
    - specialize (IH td (pre ++ map Some [ac_nonce a; ac_balance a; 0%N; ac_code a]) F'). rewrite app_length in IH. apply IH. rewrite E, <- app_assoc, map_app. reflexivity.
  Qed.

  (** Whenever loading succeeds, the accounts are one cycle through the head: a
      node per leaf of the state trie, left to right, with the key of the leaf
      and a pointer to the fields of its account; the cells before are kept. *)
  Theorem C90_accounts : forall t td s', load t td = LOk s' ->
    exists nodes, chain accounts_segment 3 (state_leaves s') 0 ([U256_MAX; 0%N; 0%N] :: nodes) /\
      length (state_leaves s') = 4 * (1 + length (leaves [] t)) /\ firstn (length td) (list_data s') = td /\
      Forall2 (fun kv node => exists a ptr, decode_account (snd kv) = Some a /\ node = [val (fst kv); N.of_nat ptr; 0%N] /\
        slice (list_data s') ptr 4 = [Some (ac_nonce a); Some (ac_balance a); Some 0%N; Some (ac_code a)]) (leaves [] t) nodes.
  Proof.
    intros t td s' H. apply loaded in H as (A & _ & C & _ & _ & F). exists (account_nodes (length td) (leaves [] t)).
    assert (Fn : Forall (fun p => length p = 3) ([U256_MAX; 0%N; 0%N] :: account_nodes (length td) (leaves [] t))) by (constructor; [reflexivity|apply account_node_len]).
    split; [rewrite A; apply (layout_chain 3 accounts_segment ([U256_MAX; 0%N; 0%N] :: account_nodes (length td) (leaves [] t)) []); [discriminate|exact Fn]|]. split; [|split].
    - rewrite A, (layout_len 3 _ _ _ Fn). cbn [length]. assert (L : forall ls ptr, length (account_nodes ptr ls) = length ls) by (induction ls as [|[k v] ls IH]; intros ptr; [reflexivity|cbn [account_nodes length]; rewrite IH; reflexivity]). rewrite L. lia.
    - rewrite C, firstn_app, firstn_all, Nat.sub_diag. apply app_nil_r.
    - apply nodes_fields; assumption.
  Qed.

  (** The slots are one cycle too: for each account in that order, a node per
      leaf of its storage trie, whose hash is the account's storage root. *)
  Theorem C90_storage : forall t td s', load t td = LOk s' ->
    chain storage_segment 4 (storage_leaves s') 0 ([U256_MAX; 0%N; 0%N; 0%N] ::
      flat_map (fun kv => match storage_of (fst kv) with
                          | Some st => map (fun sv => [val (fst kv); val (fst sv); match decode_slot (snd sv) with Some w => w | None => 0%N end; 0%N]) (leaves [] st)
                          | None => [] end) (leaves [] t)) /\
    forall k v st, In (k, v) (leaves [] t) -> storage_of k = Some st -> (exists a, decode_account v = Some a /\ hash_of st = ac_root a) /\ forall sk sv, In (sk, sv) (leaves [] st) -> decode_slot sv <> None.
  Proof.
    intros t td s' H. apply loaded in H as (_ & A & _ & _ & _ & F). split.
    - rewrite A. match goal with |- chain _ _ _ _ (_ :: ?l) => replace l with (slot_nodes (leaves [] t)) end.
      + apply (layout_chain 4 storage_segment ([U256_MAX; 0%N; 0%N; 0%N] :: slot_nodes (leaves [] t)) []); [discriminate|constructor; [reflexivity|apply slot_nodes_len]].
      + unfold slot_nodes, slots. apply flat_map_ext. intros [k v]. cbn [fst]. destruct (storage_of k); reflexivity.
    - intros k v st I S. rewrite Forall_forall in F. destruct (F _ I) as (a & D & Hh & Sl). cbn [fst snd] in *. split; [exists a; auto|]. intros sk sv Is. unfold slots in Sl. rewrite S, Forall_forall in Sl. exact (Sl _ Is).
  Qed.

  Lemma account_pointers_at : forall ls n ptr k p, In (k, p) (account_pointers n ls) ->
    exists i d, p = (accounts_segment + N.of_nat ((n + i) * 4))%N /\ nth_error (account_nodes ptr ls) i = Some [k; d; 0%N].
  Proof.
    induction ls as [|[k0 v0] ls IH]; intros n ptr k p H; [destruct H|]. destruct H as [H|H].
    - injection H as <- <-. exists 0, (N.of_nat ptr). rewrite Nat.add_0_r. split; reflexivity.
    - destruct (IH _ (ptr + 4) _ _ H) as (i & d & -> & Hn). exists (S i), d. split; [do 2 f_equal; lia|exact Hn].
  Qed.
  Lemma slot_pointers_at : forall nodes n a k p, In ((a, k), p) (slot_pointers n nodes) -> exists i nd, p = (storage_segment + N.of_nat ((n + i) * 5))%N /\ nth_error nodes i = Some nd /\ nth 0 nd 0%N = a /\ nth 1 nd 0%N = k.
  Proof.
    induction nodes as [|nd nodes IH]; intros n a k p H; [destruct H|]. destruct H as [H|H].
    - injection H as <- <- <-. exists 0, nd. rewrite Nat.add_0_r. repeat split; reflexivity.
    - destruct (IH _ _ _ _ H) as (i & nd' & -> & Hn). exists (S i), nd'. split; [do 2 f_equal; lia|exact Hn].
  Qed.

  (** The pointer recorded for a key is the address of the node with that key,
      and every key of the list has a pointer. *)
  Theorem C90_pointers : forall t td s', load t td = LOk s' ->
    map fst (accounts_pointers s') = map (fun kv => val (fst kv)) (leaves [] t) /\
    (forall k p, In (k, p) (accounts_pointers s') -> exists pos d, p = (accounts_segment + N.of_nat pos)%N /\ slice (state_leaves s') pos 3 = [Some k; Some d; Some 0%N]) /\
    map fst (storage_pointers s') = flat_map (fun kv => match storage_of (fst kv) with Some st => map (fun sv => (val (fst kv), val (fst sv))) (leaves [] st) | None => [] end) (leaves [] t) /\
    (forall a k p, In ((a, k), p) (storage_pointers s') -> exists pos d, p = (storage_segment + N.of_nat pos)%N /\ slice (storage_leaves s') pos 4 = [Some a; Some k; Some d; Some 0%N]).
  Proof.
    intros t td s' H. apply loaded in H as (A & B & _ & P & Q & _). rewrite A, B, P, Q. clear A B P Q. set (L := leaves [] t). clearbody L. split; [|split; [|split]].
    - generalize 1. induction L as [|[k v] L IH]; intros n; cbn [account_pointers map fst]; [reflexivity|]. rewrite IH. reflexivity.
    - intros k p H. destruct (account_pointers_at L 1 (length td) k p H) as (i & d & -> & Hn). exists ((1 + i) * 4), d. split; [reflexivity|].
      apply (layout_nth 3 accounts_segment ([U256_MAX; 0%N; 0%N] :: account_nodes (length td) L) 0 (S i) [k; d; 0%N]); [constructor; [reflexivity|apply account_node_len]|exact Hn].
    - assert (M : forall nodes n, map fst (slot_pointers n nodes) = map (fun nd => (nth 0 nd 0%N, nth 1 nd 0%N)) nodes) by (induction nodes as [|nd nodes IH]; intros n; cbn [slot_pointers map fst]; [reflexivity|rewrite IH; reflexivity]).
      rewrite M. unfold slot_nodes, slots. induction L as [|[k v] L IH]; [reflexivity|]. cbn [flat_map fst]. rewrite map_app, IH. f_equal. destruct (storage_of k); [|reflexivity]. rewrite map_map. reflexivity.
    - intros a k p H. destruct (slot_pointers_at _ _ _ _ _ H) as (i & nd & -> & Hn & Ha & Hk). 
      assert (Hd : exists w, nd = [a; k; w; 0%N]).
      { apply nth_error_In in Hn. apply in_flat_map in Hn as ([k0 v0] & _ & Hn). apply in_map_iff in Hn as (x & <- & _). cbn in Ha, Hk. subst. eexists. reflexivity. }
      destruct Hd as (w & ->). exists ((1 + i) * 5), w. split; [reflexivity|].
      apply (layout_nth 4 storage_segment ([U256_MAX; 0%N; 0%N; 0%N] :: slot_nodes L) 0 (S i) [a; k; w; 0%N]); [constructor; [reflexivity|apply slot_nodes_len]|exact Hn].
  Qed.

  (** ** Order *)

  (** Nodes as the library builds them: 16 children, keys of nibbles. *)
  Fixpoint nib_trie (t : node) : Prop :=
    match t with
    | Branch ch _ => length ch = 16 /\ (fix all (l : list node) := match l with [] => True | c :: l => nib_trie c /\ all l end) ch
    | Ext ns c => nibs ns /\ nib_trie c
    | Leaf ns _ => nibs ns
    | _ => True
    end.
  Lemma all_nib : forall ch, (fix all (l : list node) := match l with [] => True | c :: l => nib_trie c /\ all l end) ch <-> Forall nib_trie ch.
  Proof. induction ch as [|c ch IH]; [split; constructor|]. rewrite IH. split; [intros [? ?]; constructor; assumption|intros F; inversion F; auto]. Qed.

  Definition before (a b : list nat) : Prop := exists c i j x y, a = c ++ i :: x /\ b = c ++ j :: y /\ i < j.

  Lemma leaves_prefix : forall t key k v, In (k, v) (leaves key t) -> exists s, k = key ++ s.
  Proof.
    intros t. induction t as [|h|ch w IH|ns c IH|ns w] using node_ind'; intros key k v H; try destruct H.
    - rewrite leaves_branch in H. revert H. generalize 0 as i. induction ch as [|c ch IHc]; intros i H; [destruct H|]. cbn [child_leaves] in H. apply in_app_or in H as [H|H].
      + apply (IH 0 c eq_refl) in H as (s & ->). exists (i :: s). rewrite <- app_assoc. reflexivity.
      + apply (IHc (fun j c' E => IH (S j) c' E) _ H).
    - cbn [leaves] in H. apply IH in H as (s & ->). exists (ns ++ s). rewrite <- app_assoc. reflexivity.
    - injection H as <- <-. exists ns. reflexivity.
    - destruct H.
  Qed.
  Lemma child_prefix : forall ch key i k v, In (k, v) (child_leaves key ch i) -> exists j s, i <= j /\ k = key ++ j :: s.
  Proof.
    induction ch as [|c ch IH]; intros key i k v H; [destruct H|]. cbn [child_leaves] in H. apply in_app_or in H as [H|H].
    - apply leaves_prefix in H as (s & ->). exists i, s. rewrite <- app_assoc. split; [lia|reflexivity].
    - apply IH in H as (j & s & L & ->). exists j, s. split; [lia|reflexivity].
  Qed.

  Lemma leaves_nibs : forall t key k v, nib_trie t -> nibs key -> In (k, v) (leaves key t) -> nibs k.
  Proof.
    intros t. induction t as [|h|ch w IH|ns c IH|ns w] using node_ind'; intros key k v W K H; try (destruct H; fail).
    - rewrite leaves_branch in H. cbn [nib_trie] in W. destruct W as (L & W). apply all_nib in W. remember 16 as hi eqn:Hhi. assert (LL : 0 + length ch <= hi) by lia. clear L. revert H LL. generalize 0 as i. induction ch as [|c ch IHc]; intros i H LL; [destruct H|]. cbn [child_leaves length] in *. inversion W as [|? ? Wc Wch X]; subst. apply in_app_or in H as [H|H].
      + apply (IH 0 c eq_refl) in H; [exact H|exact Wc|]. apply nibs_app. split; [exact K|]. constructor; [lia|constructor].
      + apply (IHc (fun j c' E => IH (S j) c' E) Wch _ H). lia.
    - destruct W as (Wn & Wc). apply IH in H; [exact H|exact Wc|apply nibs_app; auto].
    - destruct H as [H|[]]. injection H as <- <-. apply nibs_app. split; [exact K|exact W].
  Qed.

  Lemma sorted_app : forall {A} (R : A -> A -> Prop) a b, StronglySorted R a -> StronglySorted R b -> (forall x y, In x a -> In y b -> R x y) -> StronglySorted R (a ++ b).
  Proof.
    intros A R a. induction a as [|x a IH]; intros b Sa Sb H; [exact Sb|]. inversion Sa as [|? ? Sa' Fa]; subst. cbn [app]. constructor; [apply IH; auto; intros; apply H; [right|]; assumption|].
    apply Forall_app. split; [exact Fa|]. apply Forall_forall. intros y Hy. apply H; [left; reflexivity|exact Hy].
  Qed.

  Lemma leaves_before : forall t key, StronglySorted before (map fst (leaves key t)).
  Proof.
    intros t. induction t as [|h|ch w IH|ns c IH|ns w] using node_ind'; intros key; try (cbn; repeat constructor; fail).
    - rewrite leaves_branch. generalize 0 as i. induction ch as [|c ch IHc]; intros i; [constructor|]. cbn [child_leaves]. rewrite map_app. apply sorted_app.
      + apply (IH 0 c eq_refl).
      + apply IHc. intros j c' E. exact (IH (S j) c' E).
      + intros x y Hx Hy. apply in_map_iff in Hx as ([k v] & <- & Hx). apply in_map_iff in Hy as ([k' v'] & <- & Hy). cbn [fst]. apply leaves_prefix in Hx as (s & ->). apply child_prefix in Hy as (j & s' & Hj & ->).
        exists key, i, j, s, s'. rewrite <- app_assoc. split; [reflexivity|]. split; [reflexivity|lia].
    - apply IH.
  Qed.

  Lemma before_val : forall a b, before a b -> length a = length b -> nibs a -> (val a < val b)%N.
  Proof.
    intros a b (c & i & j & x & y & -> & -> & L) E Na. rewrite !app_length in E. cbn [length] in E. apply nibs_app in Na as (_ & Na). inversion Na as [|? ? Hi Nx]; subst. apply val_bound in Nx.
    rewrite !val_app, !val_cons. cbn [length]. assert (EL : length x = length y) by lia. rewrite EL in *. set (P := (16 ^ N.of_nat (length y))%N) in *. nia.
  Qed.

  Lemma sorted_map : forall {A B} (R : A -> A -> Prop) (Q : B -> B -> Prop) (f : A -> B) l, StronglySorted R l -> (forall x y, In x l -> In y l -> R x y -> Q (f x) (f y)) -> StronglySorted Q (map f l).
  Proof.
    intros A B R Q f l S. induction S as [|x l S IH F]; intros H; [constructor|]. cbn [map]. constructor; [apply IH; intros; apply H; try (right; assumption); assumption|].
    apply Forall_map, Forall_forall. intros y Hy. rewrite Forall_forall in F. apply H; [left; reflexivity|right; exact Hy|apply F; exact Hy].
  Qed.

  Definition keys_of_hashes (t : node) : Prop := nib_trie t /\ Forall (fun kv => length (fst kv) = 64) (leaves [] t).
  Definition pair_lt (a b : N * N) : Prop := (fst a < fst b)%N \/ (fst a = fst b /\ snd a < snd b)%N.

  Lemma leaves_sorted : forall t, keys_of_hashes t -> StronglySorted N.lt (map (fun kv => val (fst kv)) (leaves [] t)).
  Proof.
    intros t (W & L). rewrite <- (map_map fst val). apply sorted_map with (R := before); [apply leaves_before|]. intros x y Hx Hy B. apply in_map_iff in Hx as ([k v] & <- & Hx). apply in_map_iff in Hy as ([k' v'] & <- & Hy). cbn [fst] in *.
    rewrite Forall_forall in L. apply before_val; [exact B| |apply (leaves_nibs t [] k v W); [constructor|exact Hx]]. rewrite (L _ Hx : length k = 64), (L _ Hy : length k' = 64). reflexivity.
  Qed.

  (** When every key is the 64 nibbles of a hash, keys increase strictly along
      each list, so no two nodes (and no two pointers) share a key. *)
  Theorem C90_sorted : forall t td s', load t td = LOk s' -> keys_of_hashes t -> (forall k st, storage_of k = Some st -> keys_of_hashes st) ->
    StronglySorted N.lt (map fst (accounts_pointers s')) /\ StronglySorted pair_lt (map fst (storage_pointers s')).
  Proof.
    intros t td s' H K KS. apply C90_pointers in H as (-> & _ & -> & _). apply leaves_sorted in K. split; [exact K|]. revert K. generalize (leaves [] t) as L. induction L as [|[k v] L IH]; intros S; [constructor|]. cbn [flat_map map fst] in *. inversion S as [|? ? S' F]; subst. apply sorted_app.
    - destruct (storage_of k) as [st|] eqn:E; [|constructor]. pose proof (leaves_sorted st (KS k st E)) as Ss. rewrite <- (map_map (fun sv => val (fst sv)) (fun n => (val k, n))). eapply sorted_map; [exact Ss|]. intros x y _ _ Lt. right. split; [reflexivity|exact Lt].
    - apply IH. exact S'.
    - intros x y Hx Hy. destruct (storage_of k); [|destruct Hx]. apply in_map_iff in Hx as (sv & <- & _). apply in_flat_map in Hy as ([k' v'] & I & Hy). cbn [fst] in Hy. destruct (storage_of k'); [|destruct Hy]. apply in_map_iff in Hy as (sv' & <- & _). left. cbn [fst].
      rewrite Forall_forall in F. apply F. apply in_map_iff. exists (k', v'). auto.
  Qed.

  (** ** Success *)

  (** No path is longer than 64 nibbles; with [values] no branch has a value. *)
  Fixpoint fits (valueless : bool) (d : nat) (t : node) : Prop :=
    match t with
    | Branch ch v => d < 64 /\ (valueless = true -> v = []) /\ (fix all (l : list node) := match l with [] => True | c :: l => fits valueless (S d) c /\ all l end) ch
    | Ext ns c => d + length ns <= 64 /\ fits valueless (d + length ns) c
    | Leaf ns _ => d + length ns <= 64
    | _ => True
    end.
  Lemma all_fits : forall b d ch, (fix all (l : list node) := match l with [] => True | c :: l => fits b d c /\ all l end) ch <-> Forall (fits b d) ch.
  Proof. intros b d. induction ch as [|c ch IH]; [split; constructor|]. rewrite IH. split; [intros [? ?]; constructor; assumption|intros F; inversion F; auto]. Qed.
  Lemma merge_fits : forall a b, length a + length b <= 64 -> nib_panic (merge_nibbles a b) = LOk (a ++ b).
  Proof. intros a b H. unfold merge_nibbles. apply Nat.leb_le in H. rewrite H. reflexivity. Qed.

  Lemma foldm_app_eq : forall {S} f a b (s : S), foldm f (a ++ b) s = let! s1 := foldm f a s in foldm f b s1.
  Proof. intros S f a. induction a as [|[k v] a IH]; intros b s; cbn [foldm app lbind]; [reflexivity|]. destruct (f k v s); cbn [lbind]; [apply IH|reflexivity|reflexivity]. Qed.

  Lemma storage_fold_eq : forall addr t key s, fits false (length key) t -> get_storage_leaves addr t key s = foldm (storage_leaf addr) (leaves key t) s.
  Proof.
    intros addr t. induction t as [|h|ch v IH|ns c IH|ns v] using node_ind'; intros key s F; cbn [ListModel.get_storage_leaves fits] in *; try reflexivity.
    - destruct F as (D & _ & F). apply all_fits in F. rewrite leaves_branch. revert s. generalize 0 as i. induction ch as [|c ch IHc]; intros i s; [reflexivity|]. inversion F as [|? ? Fc Fch X]; subst. cbn [over_children child_leaves].
      rewrite merge_fits by (cbn [length]; lia). cbn [lbind]. rewrite foldm_app_eq, (IH 0 c eq_refl) by (rewrite app_length; cbn [length]; rewrite Nat.add_1_r; exact Fc). destruct (foldm _ _ s); cbn [lbind]; try reflexivity. apply IHc; [intros j c' E; exact (IH (S j) c' E)|exact Fch].
    - destruct F as (D & F). rewrite merge_fits by exact D. cbn [lbind leaves]. apply IH. rewrite app_length. exact F.
    - rewrite merge_fits by exact F. cbn [lbind leaves foldm]. destruct (storage_leaf addr (key ++ ns) v s); reflexivity.
  Qed.
  Lemma state_fold_eq : forall t key s, fits true (length key) t -> get_state t key s = foldm state_leaf (leaves key t) s.
  Proof.
    intros t. induction t as [|h|ch v IH|ns c IH|ns v] using node_ind'; intros key s F; cbn [ListModel.get_state_and_storage_leaves fits] in *; try reflexivity.
    - destruct F as (D & Hv & F). apply all_fits in F. rewrite (Hv eq_refl). rewrite leaves_branch. revert s. generalize 0 as i. induction ch as [|c ch IHc]; intros i s; [reflexivity|]. inversion F as [|? ? Fc Fch X]; subst. cbn [over_children child_leaves].
      rewrite merge_fits by (cbn [length]; lia). cbn [lbind]. rewrite foldm_app_eq, (IH 0 c eq_refl) by (rewrite app_length; cbn [length]; rewrite Nat.add_1_r; exact Fc). destruct (foldm _ _ s); cbn [lbind]; try reflexivity. apply IHc; [intros j c' E; exact (IH (S j) c' E)|exact Fch].
    - destruct F as (D & F). rewrite merge_fits by exact D. cbn [lbind leaves]. apply IH. rewrite app_length. exact F.
    - rewrite merge_fits by exact F. cbn [lbind leaves foldm]. destruct (state_leaf (key ++ ns) v s); reflexivity.
  Qed.

  Lemma set_last_some : forall m x, m <> [] -> exists m', set_last m x = LOk m'.
  Proof. intros [|a m] x H; [contradiction|]. eexists. reflexivity. Qed.
  Lemma app_nonnil : forall {A} (a b : list A), b <> [] -> a ++ b <> [].
  Proof. intros A [|x a] b H; [exact H|discriminate]. Qed.
  Lemma key_word : forall k, nibs k -> length k <= 64 -> nibbles_u256 k = LOk (val k).
  Proof.
    intros k K L. unfold nibbles_u256. apply val_bound2 in K. assert (P : (2 ^ N.of_nat (length k * 4) <= 2 ^ 256)%N) by (apply N.pow_le_mono_r; lia). destruct (N.ltb_spec (val k) (2 ^ 256)); [reflexivity|lia].
  Qed.
  Definition word_key (kv : list nat * list N) : Prop := nibs (fst kv) /\ length (fst kv) <= 64.

  Lemma slots_success : forall addr ls s, storage_leaves s <> [] -> Forall word_key ls -> Forall (fun kv => decode_slot (snd kv) <> None) ls ->
    exists s', foldm (storage_leaf addr) ls s = LOk s' /\ storage_leaves s' <> [] /\ state_leaves s' = state_leaves s.
  Proof.
    intros addr ls. induction ls as [|[k v] ls IH]; intros s NE K D; [exists s; auto|]. inversion K as [|? ? (K1 & K2) K' X]; subst. inversion D as [|? ? D1 D' X]; subst. cbn [fst snd foldm] in *. unfold ListModel.storage_leaf at 1.
    destruct (set_last_some (storage_leaves s) (Some (storage_segment + N.of_nat (length (storage_leaves s)))%N) NE) as (m & ->). cbn [lbind]. rewrite key_word by assumption. cbn [lbind]. destruct (decode_slot v); [|contradiction]. cbn [lbind].
    match goal with |- exists s', foldm _ _ ?S = _ /\ _ => destruct (IH S) as (s' & E & A & B) end; [apply app_nonnil; discriminate|assumption|assumption|]. exists s'. split; [exact E|]. split; [exact A|exact B].
  Qed.

  Lemma fits_keys : forall b t key k v, fits b (length key) t -> length key <= 64 -> In (k, v) (leaves key t) -> length k <= 64.
  Proof.
    intros b t. induction t as [|h|ch w IH|ns c IH|ns w] using node_ind'; intros key k v F K H; try (destruct H; fail).
    - rewrite leaves_branch in H. cbn [fits] in F. destruct F as (D & _ & F). apply all_fits in F. revert H. assert (G : forall i, In (k, v) (child_leaves key ch i) -> length k <= 64); [|apply G]. induction ch as [|c ch IHc]; intros i H; [destruct H|]. cbn [child_leaves] in H. inversion F as [|? ? Fc Fch X]; subst. apply in_app_or in H as [H|H].
      + apply (IH 0 c eq_refl) in H; [exact H| |]; rewrite app_length; cbn [length]; [rewrite Nat.add_1_r; exact Fc|lia].
      + apply (IHc (fun j c' E => IH (S j) c' E) Fch _ H).
    - destruct F as (D & F). apply IH in H; [exact H| |]; rewrite app_length; assumption.
    - destruct H as [H|[]]. injection H as <- <-. rewrite app_length. exact F.
  Qed.
  Lemma fits_words : forall b t, fits b 0 t -> nib_trie t -> Forall word_key (leaves [] t).
  Proof. intros b t F W. apply Forall_forall. intros [k v] H. split; cbn [fst]; [apply (leaves_nibs t [] k v W); [constructor|exact H]|apply (fits_keys b t [] k v F); [cbn [length]; lia|exact H]]. Qed.

  (** Loading succeeds when the state trie has accounts at its leaves and no
      branch values, each given storage trie hashes to its account's root and has
      slots at its leaves, and no path is longer than 64 nibbles. *)
  Theorem C90_loads : forall t td, (forall r, hash_of (Hash r) = r) -> fits true 0 t -> nib_trie t ->
    (forall k v, In (k, v) (leaves [] t) -> exists a, decode_account v = Some a /\
       forall st, storage_of k = Some st -> hash_of st = ac_root a /\ fits false 0 st /\ nib_trie st /\ forall sk sv, In (sk, sv) (leaves [] st) -> decode_slot sv <> None) ->
    exists s', load t td = LOk s'.
  Proof.
    intros t td HH F W A. unfold load, load_linked_lists. rewrite state_fold_eq by exact F. pose proof (fits_words true t F W) as K. clear F W. revert A K.
    match goal with |- _ -> _ -> exists s', foldm _ _ ?S = _ => assert (N1 : state_leaves S <> []) by discriminate; assert (N2 : storage_leaves S <> []) by discriminate; revert N1 N2; generalize S end.
    generalize (leaves [] t) as ls. clear t. induction ls as [|[k v] ls IH]; intros s N1 N2 A K; [exists s; reflexivity|]. inversion K as [|? ? (K1 & K2) K' X]; subst. cbn [fst foldm] in *. unfold ListModel.state_leaf at 1.
    destruct (A k v (or_introl eq_refl)) as (a & D & St). rewrite D.
    set (T := match storage_of k with Some t => t | None => Hash (ac_root a) end).
    assert (HT : hash_of T = ac_root a /\ fits false 0 T /\ nib_trie T /\ forall sk sv, In (sk, sv) (leaves [] T) -> decode_slot sv <> None).
    { unfold T. destruct (storage_of k) as [st|]; [apply St; reflexivity|]. split; [apply HH|]. split; [exact I|]. split; [exact I|]. intros sk sv []. }
    destruct HT as (T1 & T2 & T3 & T4). clearbody T. unfold bytes_same. destruct (list_eq_dec N.eq_dec (hash_of T) (ac_root a)); [|contradiction]. cbn [negb].
    destruct (set_last_some (state_leaves s) (Some (accounts_segment + N.of_nat (length (state_leaves s)))%N) N1) as (m & ->). cbn [lbind]. rewrite key_word by assumption. cbn [lbind]. rewrite storage_fold_eq by exact T2.
    match goal with |- context [foldm (ListModel.storage_leaf _ _ ?addr) ?l ?S] => destruct (slots_success addr l S) as (s1 & -> & B1 & B2) end; [exact N2|apply (fits_words false); assumption|apply Forall_forall; intros [sk sv] Hs; exact (T4 _ _ Hs)|].
    cbn [lbind]. apply IH; [cbn [state_leaves]; rewrite B2; cbn [state_leaves]; apply app_nonnil; discriminate|exact B1|intros k' v' H'; apply A; right; exact H'|exact K'].
  Qed.
End Lists.
Print Assumptions C90_accounts.
Print Assumptions C90_storage.
Print Assumptions C90_pointers.
Print Assumptions C90_sorted.
Print Assumptions C90_loads.

(** Two accounts, the second with a storage trie of two slots. *)
Definition sample_storage : node := Branch [Leaf [7] [5%N]; Empty; Leaf [1] [6%N]; Empty; Empty; Empty; Empty; Empty; Empty; Empty; Empty; Empty; Empty; Empty; Empty; Empty] [].
Definition sample_state : node := Ext [2] (Branch [Empty; Leaf [3] [10%N]; Empty; Empty; Empty; Empty; Empty; Empty; Empty; Leaf [4] [20%N]; Empty; Empty; Empty; Empty; Empty; Empty] []).
Definition sample_account (v : list N) : option acct := match v with [x] => Some {| ac_nonce := x; ac_balance := x + 1; ac_root := if (x =? 20)%N then [9%N] else [8%N]; ac_code := x + 2 |} | _ => None end.
Definition sample_slot (v : list N) : option N := match v with [x] => Some x | _ => None end.
Definition sample_hash (t : node) : list N := match t with Hash r => r | _ => [9%N] end.
Definition sample_of (k : list nat) : option node := if list_eq_dec Nat.eq_dec k [2; 9; 4] then Some sample_storage else None.
Theorem C90_case : load_linked_lists 1000 2000 sample_hash sample_account sample_slot sample_of sample_state [Some 0%N] =
  LOk {| state_leaves := [Some U256_MAX; Some 0; Some 0; Some 1004; Some 0x213; Some 1; Some 0; Some 1008; Some 0x294; Some 5; Some 0; Some 1000]%N;
         storage_leaves := [Some U256_MAX; Some 0; Some 0; Some 0; Some 2005; Some 0x294; Some 0x07; Some 5; Some 0; Some 2010; Some 0x294; Some 0x21; Some 6; Some 0; Some 2000]%N;
         list_data := [Some 0; Some 10; Some 11; Some 0; Some 12; Some 20; Some 21; Some 0; Some 22]%N;
         accounts_pointers := [(0x213, 1004); (0x294, 1008)]%N; storage_pointers := [((0x294, 0x07), 2005); ((0x294, 0x21), 2010)]%N |}.
Proof. vm_compute. reflexivity. Qed.

(** A value held by a branch of a storage trie is not in the list. *)
Theorem C90_branch_value_refuted : exists hash_of decode_account decode_slot storage_of t st k s', storage_of k = Some st /\ trie_get st [] = Ok (Some [6%N]) /\ decode_slot [6%N] = Some 6%N /\
  load_linked_lists 1000 2000 hash_of decode_account decode_slot storage_of t [] = LOk s' /\ storage_leaves s' = empty_list_mem STORAGE_NODE_SIZE 2000.
Proof.
  exists sample_hash, sample_account, sample_slot, (fun _ => Some (Branch (repeat Empty 16) [6%N])), (Leaf [1; 2] [20%N]), (Branch (repeat Empty 16) [6%N]), [1; 2]. eexists. repeat split; vm_compute; reflexivity.
Qed.
Print Assumptions C90_case.
Print Assumptions C90_branch_value_refuted.
