(** C70: the circuits loaded from disk are those of the configuration. *)
From Coq Require Import ZArith List Bool Lia ZifyBool ZifyNat String.
From Verif Require Import Zero.IntervalModel Zero.IntervalProps Zero.ParseProps Zero.CircuitModel.
Import ListNotations.
Local Open Scope Z_scope.

(** A configuration as the type of the program allows it: one range for each
    table, bounds of 64 bits. *)
Definition config_ok (c : circuit_config) : Prop :=
  List.length (circuits c) = NUM_TABLES /\ Forall (fun r => 0 <= fst r < 2^64 /\ 0 <= snd r < 2^64) (circuits c).

(** * Texts *)
Definition starts_digit (s : list Z) : Prop := match s with [] => False | c :: _ => digit c end.
Lemma digits_app : forall a b x y, Forall digit a -> Forall digit b -> ~ starts_digit x -> ~ starts_digit y -> a ++ x = b ++ y -> a = b /\ x = y.
Proof.
  induction a as [|c a IH]; intros [|d b] x y A B X Y E; cbn [app] in E.
  - split; [reflexivity|exact E].
  - exfalso. apply X. rewrite E. inversion B; subst. assumption.
  - exfalso. apply Y. rewrite <- E. inversion A; subst. assumption.
  - inversion A; inversion B; subst. assert (E' : a ++ x = b ++ y) by congruence. destruct (IH _ _ _ H2 H6 X Y E') as [-> ->]. split; [congruence|reflexivity].
Qed.
Lemma digits_suffix : forall x y a b, Forall digit a -> Forall digit b -> ~ starts_digit (rev x) -> ~ starts_digit (rev y) -> x ++ a = y ++ b -> x = y /\ a = b.
Proof.
  intros x y a b A B X Y E. assert (R : rev a ++ rev x = rev b ++ rev y) by (rewrite <- !rev_app_distr; congruence).
  apply digits_app in R; [|apply Forall_rev; assumption|apply Forall_rev; assumption|exact X|exact Y]. destruct R as [R1 R2].
  split; [rewrite <- (rev_involutive x), R2; apply rev_involutive|rewrite <- (rev_involutive a), R1; apply rev_involutive].
Qed.

(** * The digest *)
Definition joined (l : list (nat * (Z * Z))) : list Z := flat_map (fun p => chars "_" ++ range_digest (fst p) (snd p)) l.
Lemma fold_joined : forall l acc, acc <> [] ->
  fold_left (fun acc s => (if match acc with [] => true | _ => false end then acc else acc ++ chars "_") ++ s) (map (fun p => range_digest (fst p) (snd p)) l) acc = acc ++ joined l.
Proof.
  induction l as [|p l IH]; intros acc N; [symmetry; apply app_nil_r|]. cbn [map fold_left joined flat_map]. destruct acc as [|c acc]; [contradiction|].
  rewrite IH by discriminate. fold (joined l). rewrite <- !app_assoc. reflexivity.
Qed.
Lemma joined_head : forall l, ~ starts_digit (joined l).
Proof. intros [|p l]; cbn; [intros []|]. unfold digit. lia. Qed.
Lemma digest_joined : forall c, circuits c <> [] -> chars "_" ++ configuration_digest c = joined (combine (seq 0 (List.length (circuits c))) (circuits c)).
Proof.
  intros [rs t] N. unfold configuration_digest. cbn [circuits]. destruct rs as [|r rs]; [contradiction|]. cbn [List.length seq combine map fold_left]. cbn [circuits] in N.
  rewrite fold_joined; [cbn [joined flat_map]; rewrite <- !app_assoc; reflexivity|]. unfold range_digest. cbn [app]. intros X. apply (f_equal (@List.length Z)) in X. rewrite !app_length in X. cbn in X. lia.
Qed.
Lemma joined_inj : forall l l' k, List.length l = List.length l' ->
  Forall (fun r => 0 <= fst r < 2^64 /\ 0 <= snd r < 2^64) l -> Forall (fun r => 0 <= fst r < 2^64 /\ 0 <= snd r < 2^64) l' ->
  joined (combine (seq k (List.length l)) l) = joined (combine (seq k (List.length l')) l') -> l = l'.
Proof.
  induction l as [|[a b] l IH]; intros [|[a' b'] l'] k L F F' E; try discriminate L; [reflexivity|]. cbn [List.length seq combine joined flat_map fst snd] in E.
  fold (joined (combine (seq (S k) (List.length l)) l)) in E. fold (joined (combine (seq (S k) (List.length l')) l')) in E.
  inversion F as [|? ? [A B] F1]; inversion F' as [|? ? [A' B'] F1']; subst. cbn [fst snd] in A, B, A', B'.
  unfold range_digest in E. cbn [fst snd] in E. rewrite <- !app_assoc in E. apply app_inv_head in E. apply app_inv_head in E. apply app_inv_head in E.
  pose proof (display_spec a A) as (_ & DA & _). pose proof (display_spec a' A') as (_ & DA' & _). pose proof (display_spec b B) as (_ & DB & _). pose proof (display_spec b' B') as (_ & DB' & _).
  apply digits_app in E; [|assumption|assumption|cbn; unfold digit; lia|cbn; unfold digit; lia]. destruct E as [E1 E]. apply app_inv_head in E.
  apply digits_app in E; [|assumption|assumption|apply joined_head|apply joined_head]. destruct E as [E2 E].
  apply display_inj in E1; [|assumption|assumption]. apply display_inj in E2; [|assumption|assumption]. subst. f_equal. eapply IH; [|exact F1|exact F1'|exact E]. cbn in L. congruence.
Qed.

(** The digest tells the ranges. *)
Theorem C70_digest : forall c c', config_ok c -> config_ok c' -> configuration_digest c = configuration_digest c' <-> circuits c = circuits c'.
Proof.
  intros c c' [L F] [L' F']. split; [intros E|intros E; destruct c as [rs t], c' as [rs' t']; cbn [circuits] in E; subst; reflexivity].
  assert (N : forall c, List.length (circuits c) = NUM_TABLES -> circuits c <> []) by (intros x X Y; rewrite Y in X; discriminate X).
  assert (J : joined (combine (seq 0 (List.length (circuits c))) (circuits c)) = joined (combine (seq 0 (List.length (circuits c'))) (circuits c'))) by (rewrite <- !digest_joined by auto; congruence).
  eapply joined_inj; [congruence|exact F|exact F'|exact J].
Qed.
Print Assumptions C70_digest.

(** * The files *)
Section Disk.
  Variables dir kernel_hash : list Z.
  Variables Circuits Table Verifier : Type.
  Variable build : list (Z * Z) -> bool -> Circuits.
  Variable upper : Circuits -> Circuits.
  Variable table : Circuits -> nat -> Z -> Table.
  Variable final_verifier_data : Circuits -> Verifier.
  Definition hex (c : Z) : Prop := digit c \/ 97 <= c <= 102.
  Hypothesis kernel_hash_ok : List.length kernel_hash = 8%nat /\ Forall hex kernel_hash.
  (** The circuits of one table and size depend on nothing else but the test
      flag (fixed_recursive_verifier.rs:2954-2981). *)
  Variable table_of : bool -> nat -> Z -> Table.
  Hypothesis tables_local : forall rs t i size, table (build rs t) i size = table_of t i size.

  Notation base_path := (base_path dir kernel_hash).
  Notation monolithic_path := (monolithic_path dir kernel_hash).
  Notation table_path := (table_path dir kernel_hash).
  Notation verifier_path := (verifier_path dir kernel_hash).
  Notation disk := (disk Circuits Table Verifier).
  Notation read := (read Circuits Table Verifier).
  Notation write := (write Circuits Table Verifier).
  Notation initialize := (initialize dir kernel_hash Circuits Table Verifier build upper table final_verifier_data).
  Notation verifier := (verifier dir kernel_hash Circuits Table Verifier build final_verifier_data).
  Notation load_table_circuit := (load_table_circuit dir kernel_hash Circuits Table Verifier).

  Lemma hash_head : forall s, exists a b c d e r, kernel_hash ++ s = a :: b :: c :: d :: e :: r /\ hex a /\ hex e.
  Proof.
    intros s. destruct kernel_hash_ok as [L F]. destruct kernel_hash as [|a [|b [|c [|d [|e r]]]]]; try discriminate L. exists a, b, c, d, e, (r ++ s). split; [reflexivity|].
    inversion F as [|? ? A F1]; inversion F1 as [|? ? ? F2]; inversion F2 as [|? ? ? F3]; inversion F3 as [|? ? ? F4]; inversion F4 as [|? ? E ?]; subst. split; assumption.
  Qed.
  (** No file serves two purposes. *)
  Lemma base_mono : forall c c', base_path c <> monolithic_path c'.
  Proof. intros c c' E. apply app_inv_head in E. discriminate E. Qed.
  Lemma base_verifier : forall c c', base_path c <> verifier_path c'.
  Proof. intros c c' E. apply app_inv_head in E. discriminate E. Qed.
  Lemma mono_verifier : forall c c', monolithic_path c <> verifier_path c'.
  Proof. intros c c' E. apply app_inv_head in E. discriminate E. Qed.
  Lemma table_verifier : forall i n c', table_path i n <> verifier_path c'.
  Proof. intros i n c' E. apply app_inv_head in E. discriminate E. Qed.
  Lemma base_table : forall c i n, base_path c <> table_path i n.
  Proof.
    intros c i n E. apply app_inv_head in E. change (chars "/prover_state_base_") with (chars "/prover_state_" ++ chars "base_") in E. rewrite <- app_assoc in E. apply app_inv_head in E.
    destruct (hash_head (chars "_" ++ short_str i ++ chars "_" ++ display n)) as (a & b & c0 & d & e & r & H & _ & X). rewrite H in E.
    assert (e = 95) as -> by (change (chars "base_") with [98; 97; 115; 101; 95] in E; cbn [app] in E; congruence). unfold hex, digit in X. lia.
  Qed.
  Lemma mono_table : forall c i n, monolithic_path c <> table_path i n.
  Proof.
    intros c i n E. apply app_inv_head in E. change (chars "/prover_state_monolithic_") with (chars "/prover_state_" ++ 109 :: chars "onolithic_") in E. rewrite <- app_assoc in E. apply app_inv_head in E.
    destruct (hash_head (chars "_" ++ short_str i ++ chars "_" ++ display n)) as (a & b & c0 & d & e & r & H & X & _). rewrite H in E.
    assert (a = 109) as -> by (cbn [app] in E; congruence). unfold hex, digit in X. lia.
  Qed.
  Lemma table_inj : forall i j n m, (i < NUM_TABLES)%nat -> (j < NUM_TABLES)%nat -> 0 <= n < 2^64 -> 0 <= m < 2^64 -> table_path i n = table_path j m -> i = j /\ n = m.
  Proof.
    intros i j n m I J N M E. apply app_inv_head in E. apply app_inv_head in E. apply app_inv_head in E. apply app_inv_head in E. rewrite !app_assoc in E.
    pose proof (display_spec n N) as (_ & DN & _). pose proof (display_spec m M) as (_ & DM & _).
    apply digits_suffix in E; [|assumption|assumption|rewrite rev_app_distr; cbn; unfold digit; lia|rewrite rev_app_distr; cbn; unfold digit; lia]. destruct E as [E1 E2].
    apply display_inj in E2; [|assumption|assumption]. apply app_inv_tail in E1. split; [|exact E2].
    assert (C : forallb (fun i => forallb (fun j => implb (path_eqb (short_str i) (short_str j)) (i =? j)%nat) (seq 0 NUM_TABLES)) (seq 0 NUM_TABLES) = true) by (vm_compute; reflexivity).
    rewrite forallb_forall in C. specialize (C i ltac:(apply in_seq; lia)). cbv beta in C. rewrite forallb_forall in C. specialize (C j ltac:(apply in_seq; lia)). cbv beta in C.
    unfold path_eqb in C. destruct (list_eq_dec Z.eq_dec (short_str i) (short_str j)) as [_|X]; [|contradiction]. cbn in C. lia.
  Qed.
  Lemma read_write : forall p q f d, read (write p f d) q = if path_eqb p q then Some f else read d q.
  Proof. reflexivity. Qed.
  Lemma read_same : forall p f d, read (write p f d) p = Some f.
  Proof. intros p f d. rewrite read_write. unfold path_eqb. destruct (list_eq_dec Z.eq_dec p p); [reflexivity|contradiction]. Qed.
  Lemma read_other : forall p q f d, p <> q -> read (write p f d) q = read d q.
  Proof. intros p q f d N. rewrite read_write. unfold path_eqb. destruct (list_eq_dec Z.eq_dec p q); [contradiction|reflexivity]. Qed.

  (** All files were made with the test flag [t]; where the circuits of a
      configuration are, the circuits of its tables are. *)
  Definition has_tables (t : bool) (d : disk) (c : circuit_config) : Prop :=
    forall i r size, nth_error (circuits c) i = Some r -> fst r <= size < snd r -> read d (table_path i size) = Some (FileTable _ _ _ (table_of t i size)).
  Record genuine (t : bool) (d : disk) : Prop := {
    ge_base : forall c f, config_ok c -> read d (base_path c) = Some f -> f = FileCircuits _ _ _ (upper (build (circuits c) t)) /\ has_tables t d c;
    ge_mono : forall c f, config_ok c -> read d (monolithic_path c) = Some f -> f = FileCircuits _ _ _ (build (circuits c) t);
    ge_verifier : forall c f, config_ok c -> read d (verifier_path c) = Some f -> f = FileVerifier _ _ _ (final_verifier_data (build (circuits c) t)) }.

  Definition write_tables (x : Circuits) (c : circuit_config) (d : disk) : disk :=
    fold_left (fun d p => fold_left (fun d size => write (table_path (fst p) size) (FileTable _ _ _ (table x (fst p) size)) d) (range (fst (snd p)) (snd (snd p))) d)
      (combine (seq 0 (List.length (circuits c))) (circuits c)) d.
  Lemma fold_read : forall (A : Type) (key : A -> list Z) (val : A -> file Circuits Table Verifier) l d q,
    (forall x y, In x l -> In y l -> key x = key y -> val x = val y) ->
    (forall x, In x l -> key x <> q) /\ read (fold_left (fun d x => write (key x) (val x) d) l d) q = read d q \/
    exists x, In x l /\ key x = q /\ read (fold_left (fun d x => write (key x) (val x) d) l d) q = Some (val x).
  Proof.
    intros A key val. induction l as [|x l IH]; intros d q V; [left; split; [intros x []|reflexivity]|]. cbn [fold_left].
    destruct (IH (write (key x) (val x) d) q) as [[N R]|(y & I & K & R)]; [intros a b Ha Hb; apply V; right; assumption|..].
    - rewrite read_write in R. unfold path_eqb in R. destruct (list_eq_dec Z.eq_dec (key x) q) as [E|E].
      + right. exists x. split; [left; reflexivity|]. split; [exact E|exact R].
      + left. split; [|exact R]. intros a [<-|Ha]; [exact E|apply N, Ha].
    - right. exists y. split; [right; exact I|]. split; [exact K|exact R].
  Qed.
  Definition table_list (c : circuit_config) : list (nat * Z) := flat_map (fun p => map (fun size => (fst p, size)) (range (fst (snd p)) (snd (snd p)))) (combine (seq 0 (List.length (circuits c))) (circuits c)).
  Lemma write_tables_flat : forall x c d, write_tables x c d = fold_left (fun d p => write (table_path (fst p) (snd p)) (FileTable _ _ _ (table x (fst p) (snd p))) d) (table_list c) d.
  Proof.
    intros x c. unfold write_tables, table_list. induction (combine (seq 0 (List.length (circuits c))) (circuits c)) as [|p l IH]; intros d; [reflexivity|]. cbn [fold_left flat_map]. rewrite fold_left_app, IH. f_equal.
    generalize d. induction (range (fst (snd p)) (snd (snd p))) as [|n ns IHn]; intros d0; [reflexivity|]. cbn [fold_left map fst snd]. apply IHn.
  Qed.
  Lemma in_range : forall a b n, In n (range a b) <-> a <= n < b.
  Proof.
    intros a b n. unfold range. rewrite in_map_iff. split.
    - intros (k & <- & I). apply in_seq in I. lia.
    - intros H. exists (Z.to_nat (n - a)). split; [lia|]. apply in_seq. lia.
  Qed.
  Lemma combine_seq : forall (A : Type) (l : list A) k i r, In (i, r) (combine (seq k (List.length l)) l) <-> (k <= i)%nat /\ nth_error l (i - k) = Some r.
  Proof.
    intros A. induction l as [|x l IH]; intros k i r; [cbn; split; [intros []|intros [_ H]; destruct (i - k)%nat; discriminate H]|]. cbn [List.length seq combine In]. rewrite IH. split.
    - intros [E|[L N]]; [injection E as -> ->; split; [lia|rewrite Nat.sub_diag; reflexivity]|]. split; [lia|]. replace (i - k)%nat with (S (i - S k)) by lia. exact N.
    - intros [L N]. destruct (Nat.eq_dec i k) as [->|D]; [left; rewrite Nat.sub_diag in N; cbn in N; congruence|]. right. split; [lia|]. replace (i - k)%nat with (S (i - S k)) in N by lia. exact N.
  Qed.
  Lemma in_table_list : forall c i n, In (i, n) (table_list c) <-> exists r, nth_error (circuits c) i = Some r /\ fst r <= n < snd r.
  Proof.
    intros c i n. unfold table_list. rewrite in_flat_map. split.
    - intros ([j r] & I & J). apply in_map_iff in J. destruct J as (m & E & R). cbn [fst snd] in E, R. apply in_range in R. apply combine_seq in I. destruct I as [_ I]. rewrite Nat.sub_0_r in I. assert (j = i /\ m = n) as [-> ->] by (split; congruence). exists r. split; assumption.
    - intros (r & N & R). exists (i, r). split; [apply combine_seq; split; [lia|rewrite Nat.sub_0_r; exact N]|]. apply in_map_iff. exists n. split; [reflexivity|]. apply in_range. exact R.
  Qed.
  Lemma table_list_ok : forall c i n, config_ok c -> In (i, n) (table_list c) -> (i < NUM_TABLES)%nat /\ 0 <= n < 2^64.
  Proof.
    intros c i n [L F] I. apply in_table_list in I. destruct I as (r & N & R). assert (X : (i < List.length (circuits c))%nat) by (apply nth_error_Some; congruence). rewrite L in X. split; [exact X|].
    apply nth_error_In in N. rewrite Forall_forall in F. specialize (F r N). cbv beta in F. lia.
  Qed.

  Lemma written : forall c t d, config_ok c -> let d' := write_tables (build (circuits c) t) c d in
    (forall q, (forall i n, q <> table_path i n) -> read d' q = read d q) /\
    (forall i n, (i < NUM_TABLES)%nat -> 0 <= n < 2^64 -> read d' (table_path i n) = if existsb (fun p => (fst p =? i)%nat && (snd p =? n)) (table_list c) then Some (FileTable _ _ _ (table_of t i n)) else read d (table_path i n)).
  Proof.
    intros c t d OK. cbv zeta. rewrite write_tables_flat.
    pose proof (fun q => fold_read (nat * Z) (fun p => table_path (fst p) (snd p)) (fun p => FileTable _ _ _ (table (build (circuits c) t) (fst p) (snd p))) (table_list c) d q) as FR. cbv beta in FR.
    assert (V : forall x y, In x (table_list c) -> In y (table_list c) -> table_path (fst x) (snd x) = table_path (fst y) (snd y) ->
       FileTable Circuits Table Verifier (table (build (circuits c) t) (fst x) (snd x)) = FileTable _ _ _ (table (build (circuits c) t) (fst y) (snd y))).
    { intros [i n] [j m] I J E. apply (table_list_ok c _ _ OK) in I. apply (table_list_ok c _ _ OK) in J. cbn [fst snd] in *. destruct (table_inj i j n m) as [-> ->]; try tauto. }
    split.
    - intros q N. destruct (FR q V) as [[_ R]|(x & _ & K & _)]; [exact R|]. exfalso. apply (N (fst x) (snd x)). congruence.
    - intros i n I NN. destruct (FR (table_path i n) V) as [[N R]|([j m] & J & K & R)].
      + assert (X : existsb (fun p => (fst p =? i)%nat && (snd p =? n)) (table_list c) = false).
        { apply not_true_iff_false. intros X. apply existsb_exists in X. destruct X as ([j m] & J & E). cbn [fst snd] in E. apply (N (j, m) J). cbn [fst snd]. f_equal; lia. }
        rewrite X. exact R.
      + cbn [fst snd] in K, R. pose proof (table_list_ok c _ _ OK J) as [J1 J2]. destruct (table_inj j i m n J1 I J2 NN K) as [-> ->].
        assert (X : existsb (fun p => (fst p =? i)%nat && (snd p =? n)) (table_list c) = true) by (apply existsb_exists; exists (i, n); split; [exact J|cbn [fst snd]; lia]).
        rewrite X, R, tables_local. reflexivity.
  Qed.

  Lemma genuine_write_verifier : forall t d c, config_ok c -> genuine t d -> genuine t (write (verifier_path c) (FileVerifier _ _ _ (final_verifier_data (build (circuits c) t))) d).
  Proof.
    intros t d c OK G. constructor.
    - intros c' f OK' R. rewrite read_other in R by (intros X; symmetry in X; revert X; apply base_verifier). destruct (ge_base _ _ G c' f OK' R) as [E H]. split; [exact E|].
      intros i r n N S. rewrite read_other by (intros X; symmetry in X; revert X; apply table_verifier). exact (H i r n N S).
    - intros c' f OK' R. rewrite read_other in R by (intros X; symmetry in X; revert X; apply mono_verifier). exact (ge_mono _ _ G c' f OK' R).
    - intros c' f OK' R. rewrite read_write in R. unfold path_eqb in R. destruct (list_eq_dec Z.eq_dec (verifier_path c) (verifier_path c')) as [E|E]; [|exact (ge_verifier _ _ G c' f OK' R)].
      apply app_inv_head in E. apply app_inv_head in E. apply app_inv_head in E. apply app_inv_head in E. apply (C70_digest c c' OK OK') in E. rewrite <- E. congruence.
  Qed.
  Lemma genuine_persist : forall t d c, config_ok c -> use_test_config c = t -> genuine t d ->
    let d' := persist_all_to_disk dir kernel_hash Circuits Table Verifier upper table final_verifier_data (build (circuits c) t) c d in genuine t d' /\ has_tables t d' c.
  Proof.
    intros t d c OK T G. cbv zeta. unfold persist_all_to_disk, prover_to_disk.
    set (d1 := write (base_path c) _ d). set (d2 := write (monolithic_path c) _ d1). fold (write_tables (build (circuits c) t) c d2). set (d3 := write_tables (build (circuits c) t) c d2).
    destruct (written c t d2 OK) as [W1 W2]. fold d3 in W1, W2.
    assert (D2T : forall i n, read d2 (table_path i n) = read d (table_path i n)).
    { intros i n. unfold d2, d1. rewrite !read_other; [reflexivity| |]; intros X; revert X; [apply base_table|apply mono_table]. }
    assert (RB : forall c', read d3 (base_path c') = read d1 (base_path c')).
    { intros c'. rewrite W1; [|intros i n; apply base_table]. unfold d2. rewrite read_other; [reflexivity|]. intros X. symmetry in X. revert X. apply base_mono. }
    assert (RM : forall c', read d3 (monolithic_path c') = read d2 (monolithic_path c')) by (intros c'; apply W1; intros i n; apply mono_table).
    assert (RV : forall c', read d3 (verifier_path c') = read d (verifier_path c')).
    { intros c'. rewrite W1; [|intros i n X; symmetry in X; revert X; apply table_verifier]. unfold d2, d1. rewrite !read_other; [reflexivity| |]; intros X; revert X; [apply base_verifier|apply mono_verifier]. }
    assert (HT : has_tables t d3 c).
    { intros i r n N S. assert (I : In (i, n) (table_list c)) by (apply in_table_list; exists r; split; assumption). pose proof (table_list_ok c _ _ OK I) as [I1 I2]. rewrite W2 by assumption.
      assert (X : existsb (fun p => (fst p =? i)%nat && (snd p =? n)) (table_list c) = true) by (apply existsb_exists; exists (i, n); split; [exact I|cbn [fst snd]; lia]). rewrite X. reflexivity. }
    assert (G3 : genuine t d3).
    { constructor.
      - intros c' f OK' R. rewrite RB in R. unfold d1 in R. rewrite read_write in R. unfold path_eqb in R. destruct (list_eq_dec Z.eq_dec (base_path c) (base_path c')) as [E|E].
        + apply app_inv_head in E. apply app_inv_head in E. apply app_inv_head in E. apply app_inv_head in E. apply (C70_digest c c' OK OK') in E. rewrite <- E. split; [congruence|].
          intros i r n N S. rewrite <- E in N. exact (HT i r n N S).
        + destruct (ge_base _ _ G c' f OK' R) as [F H]. split; [exact F|]. intros i r n N S. assert (I : In (i, n) (table_list c')) by (apply in_table_list; exists r; split; assumption).
          pose proof (table_list_ok c' _ _ OK' I) as [I1 I2]. rewrite W2 by assumption. destruct (existsb _ _); [reflexivity|]. rewrite D2T. exact (H i r n N S).
      - intros c' f OK' R. rewrite RM in R. unfold d2 in R. rewrite read_write in R. unfold path_eqb in R. destruct (list_eq_dec Z.eq_dec (monolithic_path c) (monolithic_path c')) as [E|E].
        + apply app_inv_head in E. apply app_inv_head in E. apply app_inv_head in E. apply app_inv_head in E. apply (C70_digest c c' OK OK') in E. rewrite <- E. congruence.
        + unfold d1 in R. rewrite read_other in R by apply base_mono. exact (ge_mono _ _ G c' f OK' R).
      - intros c' f OK' R. rewrite RV in R. exact (ge_verifier _ _ G c' f OK' R). }
    split; [apply genuine_write_verifier; assumption|]. intros i r n N S. rewrite read_other by (intros X; symmetry in X; revert X; apply table_verifier). exact (HT i r n N S).
  Qed.

  (** With one test flag for all runs on a directory, the prover gets the
      circuits of its configuration, or their upper part and every table, and
      the verifier gets its verifier data; the files stay so. *)
  Theorem C70_initialize : forall t d p c, genuine t d -> config_ok c -> use_test_config c = t -> let (x, d') := initialize p c d in
    genuine t d' /\
    (x = build (circuits c) t \/ p = OnDemand /\ x = upper (build (circuits c) t)) /\
    (p = OnDemand -> forall i r size, nth_error (circuits c) i = Some r -> 0 <= fst r -> fst r <= size < snd r -> snd r - fst r <= 256 ->
       load_table_circuit c i size d' = Fine (Some (table_of t i size, size - fst r))).
  Proof.
    intros t d p c G OK T.
    assert (LOAD : forall d', has_tables t d' c -> forall i r size, nth_error (circuits c) i = Some r -> 0 <= fst r -> fst r <= size < snd r -> snd r - fst r <= 256 -> load_table_circuit c i size d' = Fine (Some (table_of t i size, size - fst r))).
    { intros d' HT i r size N R0 S W. unfold CircuitModel.load_table_circuit. rewrite (HT i r size N S). rewrite (nth_error_nth _ _ (0, 0) N). replace (size <? fst r) with false by lia. rewrite Z.mod_small by lia. reflexivity. }
    unfold CircuitModel.initialize, as_all_recursive_circuits. rewrite T. pose proof (genuine_persist t d c OK T G) as [GP HP].
    destruct p.
    - split; [exact G|]. split; [left; reflexivity|discriminate].
    - destruct (read d (base_path c)) as [f|] eqn:R.
      + destruct (ge_base _ _ G c f OK R) as [-> H]. split; [exact G|]. split; [right; split; reflexivity|]. intros _. apply LOAD, H.
      + split; [exact GP|]. split; [left; reflexivity|]. intros _. apply LOAD, HP.
    - destruct (read d (monolithic_path c)) as [f|] eqn:R.
      + pose proof (ge_mono _ _ G c f OK R) as ->. split; [exact G|]. split; [left; reflexivity|discriminate].
      + split; [exact GP|]. split; [left; reflexivity|discriminate].
  Qed.
  Theorem C70_verifier : forall t d p c, genuine t d -> config_ok c -> use_test_config c = t -> let (v, d') := verifier p c d in
    genuine t d' /\ v = final_verifier_data (build (circuits c) t).
  Proof.
    intros t d p c G OK T. unfold CircuitModel.verifier, as_all_recursive_circuits. rewrite T.
    assert (X : let (v, d') := match read d (verifier_path c) with Some (FileVerifier _ _ _ v) => (v, d) | _ => (final_verifier_data (build (circuits c) t), write (verifier_path c) (FileVerifier _ _ _ (final_verifier_data (build (circuits c) t))) d) end in
       genuine t d' /\ v = final_verifier_data (build (circuits c) t)).
    { destruct (read d (verifier_path c)) as [f|] eqn:R.
      - pose proof (ge_verifier _ _ G c f OK R) as ->. split; [exact G|reflexivity].
      - split; [apply genuine_write_verifier; assumption|reflexivity]. }
    destruct p; [split; [exact G|reflexivity]|exact X|exact X].
  Qed.
  (** The empty directory. *)
  Theorem C70_empty : forall t, genuine t [].
  Proof. intros t. constructor; intros c f _ R; discriminate R. Qed.
End Disk.
Print Assumptions C70_initialize.
Print Assumptions C70_verifier.
Print Assumptions C70_empty.

(** * Examples *)
Definition demo_hash : list Z := chars "0123abcd".
Definition demo_build (rs : list (Z * Z)) (t : bool) : list (Z * Z) * bool := (rs, t).
Notation demo_initialize := (initialize (chars "/tmp") demo_hash (list (Z * Z) * bool) (bool * nat * Z) bool demo_build (fun x => x) (fun x i n => (snd x, i, n)) snd).
Notation demo_verifier := (verifier (chars "/tmp") demo_hash (list (Z * Z) * bool) (bool * nat * Z) bool demo_build snd).
Definition demo_config (t : bool) : circuit_config := into_circuit_config [Some (16, 18); None; Some (12, 14); None; None; None; None; None; None] t.
Example C70_example : config_ok (demo_config false) /\ circuits (demo_config false) = [(16, 18); (9, 21); (12, 14); (14, 20); (9, 15); (12, 18); (17, 28); (7, 23); (7, 27)] /\
  configuration_digest (demo_config false) = chars "a_16-18_bp_9-21_c_12-14_k_14-20_ks_9-15_l_12-18_m_17-28_m_b_7-23_m_a_7-27" /\
  demo_verifier OnDemand (demo_config false) (snd (demo_initialize OnDemand (demo_config false) [])) = (false, snd (demo_initialize OnDemand (demo_config false) [])).
Proof. split; [split; [reflexivity|repeat constructor; discriminate]|]. repeat split. Qed.
(** The digest leaves out the test flag: after a run with --use-test-config,
    a verifier without it is given the verifier data of the low-security
    circuits, and a prover the low-security circuits. *)
Theorem C70_test_flag_refuted : exists c c', use_test_config c = true /\ use_test_config c' = false /\ configuration_digest c = configuration_digest c' /\
  let d := snd (demo_initialize OnDemand c []) in
  fst (demo_verifier OnDemand c' d) = true /\ fst (demo_verifier OnDemand c' []) = false /\ snd (fst (demo_initialize OnDemand c' d)) = true.
Proof. exists (demo_config true), (demo_config false). vm_compute. repeat split. Qed.
Print Assumptions C70_test_flag_refuted.
