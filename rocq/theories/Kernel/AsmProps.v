(** C33: the two passes of the assembler agree. *)
From Coq Require Import ZArith String Ascii List Bool Arith Lia.
From Verif Require Import Kernel.OptModel Kernel.StackModel Kernel.AsmModel.
Import ListNotations.
Local Open Scope nat_scope.
Local Open Scope list_scope.

(** * Specification *)

(** Item j of file i. *)
Definition at2 {A : Type} (ll : list (list A)) (i j : nat) : option A :=
  match nth_error ll i with Some l => nth_error l j | None => None end.
(** The number of bytes before item j of file i, when [chunks] are the bytes
    of the items. *)
Definition position (chunks : list (list (list Z))) (i j : nat) : nat :=
  List.length (concat (concat (firstn i chunks))) + List.length (concat (firstn j (nth i chunks []))).
(** A big-endian number. *)
Definition be_value (bytes : list Z) : Z := fold_left (fun a b => a * 256 + b)%Z bytes 0%Z.
Definition is_byte (b : Z) : Prop := (0 <= b < 256)%Z.

(** What the name [l] means in file i: the local label of that name, or else
    the global one; [q] is where it is declared. *)
Definition resolves (bodies : list (list aitem)) (chunks : list (list (list Z))) (i : nat) (l : string) (q : nat) : Prop :=
  (exists j, at2 bodies i j = Some (ALocal l) /\ q = position chunks i j) \/
  ((forall j, at2 bodies i j <> Some (ALocal l)) /\ exists i' j', at2 bodies i' j' = Some (AGlobal l) /\ q = position chunks i' j').
(** A three-byte address. *)
Definition address_bytes (q : nat) (bytes : list Z) : Prop :=
  List.length bytes = 3 /\ Forall is_byte bytes /\ be_value bytes = (Z.of_nat q mod 2^24)%Z.

(** The bytes of an item of file i. *)
Definition encodes (bodies : list (list aitem)) (chunks : list (list (list Z))) (i : nat) (item : aitem) (chunk : list Z) : Prop :=
  match item with
  | AGlobal _ | ALocal _ => chunk = []
  | APush (Literal n) => exists bytes, chunk = (95 + Z.of_nat (List.length bytes))%Z :: bytes /\
      List.length bytes <= 32 /\ Forall is_byte bytes /\ be_value bytes = n /\ hd 1%Z bytes <> 0%Z
  | APush (Label l) => exists q bytes, chunk = 98%Z :: bytes /\ resolves bodies chunks i l q /\ address_bytes q bytes
  | AOp op => exists b, chunk = [b] /\ In (to_uppercase op, b) opcode_table
  | AProverInput _ => chunk = [238%Z]
  | ABytes targets => targets = map BLiteral chunk
  | AJumptable ls => exists parts, chunk = concat parts /\
      Forall2 (fun l bytes => exists q, resolves bodies chunks i l q /\ address_bytes q bytes) ls parts
  | _ => False
  end.

Definition local_labels (body : list aitem) : list string := flat_map (fun i => match i with ALocal l => [l] | _ => [] end) body.
Definition global_labels (body : list aitem) : list string := flat_map (fun i => match i with AGlobal l => [l] | _ => [] end) body.
Definition literals_are_words (bodies : list (list aitem)) : Prop :=
  Forall (Forall (fun i => match i with APush (Literal n) => (0 <= n < 2^256)%Z | _ => True end)) bodies.

(** * Small facts *)

Lemma bind_good : forall A B (r : res A) (f : A -> res B) b, bind r f = Good b -> exists a, r = Good a /\ f a = Good b.
Proof. intros A B [| | a] f b H; cbn in H; try discriminate. eauto. Qed.
Ltac binds H :=
  let a := fresh "v" in let E := fresh "E" in
  apply bind_good in H; destruct H as (a & E & H).

Lemma mapM_good : forall A B (f : A -> res B) l bs, mapM f l = Good bs <-> Forall2 (fun a b => f a = Good b) l bs.
Proof.
  intros A B f. induction l as [|a l IH]; intros bs; cbn; split; intros H.
  - injection H as <-. constructor.
  - inversion H. reflexivity.
  - binds H. binds H. injection H as <-. constructor; [exact E|]. apply IH. exact E0.
  - inversion H; subst. rewrite H2. cbn. apply IH in H4. rewrite H4. reflexivity.
Qed.

Lemma at2_cons_0 : forall A (l : list A) ll j, at2 (l :: ll) 0 j = nth_error l j. Proof. reflexivity. Qed.
Lemma at2_cons_S : forall A (l : list A) ll i j, at2 (l :: ll) (S i) j = at2 ll i j. Proof. reflexivity. Qed.
Lemma position_cons_0 : forall c cs j, position (c :: cs) 0 j = List.length (concat (firstn j c)). Proof. reflexivity. Qed.
Lemma position_cons_S : forall c cs i j, position (c :: cs) (S i) j = List.length (concat c) + position cs i j.
Proof.
  intros. unfold position. cbn [firstn concat nth]. rewrite concat_app, app_length. lia.
Qed.

(** Bytes *)
Lemma be_value_snoc : forall bs b, be_value (bs ++ [b]) = (be_value bs * 256 + b)%Z.
Proof. intros. unfold be_value. rewrite fold_left_app. reflexivity. Qed.

Lemma map_rev_seq_S : forall (f : nat -> Z) n, map f (rev (seq 0 (S n))) = map (fun i => f (S i)) (rev (seq 0 n)) ++ [f 0].
Proof. intros f n. cbn [seq]. rewrite <- seq_shift. cbn [rev]. rewrite map_app, <- map_rev, map_map. reflexivity. Qed.

Lemma byte_S : forall n i, ((n / 256 ^ Z.of_nat (S i)) mod 256 = ((n / 256) / 256 ^ Z.of_nat i) mod 256)%Z.
Proof.
  intros. rewrite Nat2Z.inj_succ, Z.pow_succ_r by lia. rewrite Z.div_div; [reflexivity|lia|]. apply Z.pow_pos_nonneg; lia.
Qed.

Lemma be_value_digits : forall k n, (0 <= n)%Z ->
  be_value (map (fun i => (n / 256 ^ Z.of_nat i) mod 256)%Z (rev (seq 0 k))) = (n mod 256 ^ Z.of_nat k)%Z.
Proof.
  induction k as [|k IH]; intros n Hn.
  - cbn. rewrite Z.mod_1_r. reflexivity.
  - rewrite map_rev_seq_S, be_value_snoc.
    rewrite (map_ext _ (fun i => ((n / 256) / 256 ^ Z.of_nat i) mod 256)%Z) by (intros; apply byte_S).
    rewrite IH by (apply Z.div_pos; lia).
    rewrite Z.pow_0_r, Z.div_1_r.
    rewrite Nat2Z.inj_succ, Z.pow_succ_r by lia.
    assert (0 < 256 ^ Z.of_nat k)%Z by (apply Z.pow_pos_nonneg; lia).
    rewrite (Z.rem_mul_r n 256) by lia. lia.
Qed.

Lemma digits_bytes : forall (n : Z) l, Forall is_byte (map (fun i => (n / 256 ^ Z.of_nat i) mod 256)%Z l).
Proof. intros. apply Forall_forall. intros x Hx. apply in_map_iff in Hx. destruct Hx as (i & <- & _). unfold is_byte. apply Z.mod_pos_bound. lia. Qed.

Lemma u_byte_256 : forall n i, u_byte n (Z.of_nat i) = ((n / 256 ^ Z.of_nat i) mod 256)%Z.
Proof. intros. unfold u_byte. rewrite Z.pow_mul_r by lia. reflexivity. Qed.

Lemma trimmed_alt : forall n, trimmed_be_bytes n = map (fun i => (n / 256 ^ Z.of_nat i) mod 256)%Z (rev (seq 0 (Z.to_nat (trimmed_len n)))).
Proof. intros. unfold trimmed_be_bytes. apply map_ext. intros. apply u_byte_256. Qed.

Lemma trimmed_length : forall n, List.length (trimmed_be_bytes n) = Z.to_nat (trimmed_len n).
Proof. intros. unfold trimmed_be_bytes. rewrite map_length, rev_length, seq_length. reflexivity. Qed.

Lemma trimmed_len_bound : forall n, (0 <= n < 2^256)%Z -> (0 <= trimmed_len n <= 32)%Z.
Proof.
  intros n [H1 H2]. unfold trimmed_len. destruct (Z.eqb_spec n 0); [lia|].
  assert (Z.log2 n < 256)%Z by (apply Z.log2_lt_pow2; lia).
  assert (0 <= Z.log2 n)%Z by apply Z.log2_nonneg.
  assert (0 <= Z.log2 n / 8)%Z by (apply Z.div_pos; lia).
  assert (Z.log2 n / 8 < 32)%Z by (apply Z.div_lt_upper_bound; lia). lia.
Qed.

Lemma trimmed_spec : forall n, (0 <= n < 2^256)%Z ->
  List.length (trimmed_be_bytes n) <= 32 /\ Forall is_byte (trimmed_be_bytes n) /\ be_value (trimmed_be_bytes n) = n /\ hd 1%Z (trimmed_be_bytes n) <> 0%Z.
Proof.
  intros n Hn. pose proof (trimmed_len_bound n Hn) as Hb.
  split; [rewrite trimmed_length; lia|]. rewrite trimmed_alt. split; [apply digits_bytes|].
  split.
  - rewrite be_value_digits by lia. rewrite Z2Nat.id by lia. apply Z.mod_small. split; [lia|].
    unfold trimmed_len. destruct (Z.eqb_spec n 0) as [->|Hz]; [cbn; lia|].
    replace (256 ^ (Z.log2 n / 8 + 1))%Z with (2 ^ (8 * (Z.log2 n / 8 + 1)))%Z
      by (rewrite Z.pow_mul_r by (pose proof (Z.div_pos (Z.log2 n) 8 (Z.log2_nonneg n)); lia); reflexivity).
    apply Z.log2_lt_cancel. rewrite Z.log2_pow2 by (pose proof (Z.div_pos (Z.log2 n) 8 (Z.log2_nonneg n)); lia).
    pose proof (Z.mod_pos_bound (Z.log2 n) 8 ltac:(lia)). pose proof (Z.div_mod (Z.log2 n) 8 ltac:(lia)). lia.
  - unfold trimmed_len in *. destruct (Z.eqb_spec n 0) as [->|Hz]; [cbn; lia|].
    assert (Hq : (0 <= Z.log2 n / 8)%Z) by (apply Z.div_pos; [apply Z.log2_nonneg|lia]).
    rewrite Z2Nat.inj_add by lia. rewrite Nat.add_1_r.
    rewrite <- seq_shift || idtac.
    replace (rev (seq 0 (S (Z.to_nat (Z.log2 n / 8))))) with (Z.to_nat (Z.log2 n / 8) :: rev (seq 0 (Z.to_nat (Z.log2 n / 8)))).
    2:{ rewrite seq_S, rev_app_distr. reflexivity. }
    cbn [map hd]. rewrite Z2Nat.id by lia.
    replace (256 ^ (Z.log2 n / 8))%Z with (2 ^ (8 * (Z.log2 n / 8)))%Z by (rewrite Z.pow_mul_r by lia; reflexivity).
    rewrite <- Z.shiftr_div_pow2 by lia.
    set (m := Z.shiftr n (8 * (Z.log2 n / 8))).
    assert (Hl : Z.log2 m = (Z.log2 n mod 8)%Z).
    { unfold m. rewrite Z.log2_shiftr by lia. rewrite Z.max_r; pose proof (Z.div_mod (Z.log2 n) 8 ltac:(lia)); pose proof (Z.mod_pos_bound (Z.log2 n) 8 ltac:(lia)); lia. }
    assert (Hm : (0 < m)%Z).
    { unfold m. rewrite Z.shiftr_div_pow2 by lia. apply Z.div_str_pos. split; [apply Z.pow_pos_nonneg; lia|].
      apply (Z.le_trans _ (2 ^ Z.log2 n)); [apply Z.pow_le_mono_r; [lia|]; pose proof (Z.div_mod (Z.log2 n) 8 ltac:(lia)); pose proof (Z.mod_pos_bound (Z.log2 n) 8 ltac:(lia)); lia|].
      apply Z.log2_spec. lia. }
    rewrite Z.mod_small; [lia|]. split; [lia|].
    change 256%Z with (2^8)%Z. apply Z.log2_lt_cancel. rewrite Hl, Z.log2_pow2 by lia. apply Z.mod_pos_bound. lia.
Qed.

Lemma look_up_spec : forall l L G bytes, look_up_label l L G = Good bytes ->
  exists q, (match assoc l L with Some o => Some o | None => assoc l G end) = Some q /\ address_bytes q bytes.
Proof.
  intros l L G bytes H. unfold look_up_label in H. destruct (match assoc l L with Some o => Some o | None => assoc l G end) as [q|]; [|discriminate].
  assert (Hb : bytes = map (offset_byte q) (rev (seq 0 bytes_per_offset))) by congruence. subst bytes. clear H.
  exists q. split; [reflexivity|]. unfold address_bytes.
  split; [reflexivity|].
  change (map (offset_byte q) (rev (seq 0 bytes_per_offset))) with (map (fun i => (Z.of_nat q / 256 ^ Z.of_nat i) mod 256)%Z (rev (seq 0 3))).
  split; [apply digits_bytes|]. rewrite be_value_digits by lia. reflexivity.
Qed.

(** * One file *)

Lemma Forall2_len : forall A B (R : A -> B -> Prop) l l', Forall2 R l l' -> List.length l = List.length l'.
Proof. intros A B R l l' H. induction H; cbn; auto. Qed.
Lemma mapM_length : forall A B (f : A -> res B) l bs, mapM f l = Good bs -> List.length bs = List.length l.
Proof. intros A B f l bs H. apply mapM_good in H. symmetry. eapply Forall2_len; eauto. Qed.

Lemma concat_length3 : forall (ls : list string) parts L G, mapM (fun l => look_up_label l L G) ls = Good parts -> List.length (concat parts) = List.length ls * 3.
Proof.
  induction ls as [|l ls IH]; intros parts L G H; cbn in H.
  - injection H as <-. reflexivity.
  - binds H. binds H. injection H as <-. cbn. rewrite app_length. rewrite (IH _ _ _ E0).
    apply look_up_spec in E. destruct E as (q & _ & Hq & _). lia.
Qed.

Lemma item_step : forall item s s' L G c, find_labels_item item s = Good s' -> assemble_item item L G = Good c ->
  offset s' = offset s + List.length c /\
  locals s' = match item with ALocal l => (l, offset s) :: locals s | _ => locals s end /\
  globals s' = match item with AGlobal l => (l, offset s) :: globals s | _ => globals s end /\
  inputs s' = match item with AProverInput f => (offset s, f) :: inputs s | _ => inputs s end /\
  (match item with ALocal l => assoc l (locals s) = None | AGlobal l => assoc l (globals s) = None | _ => True end).
Proof.
  intros item s s' L G c H1 H2. destruct item; cbn in H1, H2; try discriminate.
  - destruct (assoc l (globals s)); [discriminate|]. injection H1 as <-. injection H2 as <-. cbn. repeat split; lia.
  - destruct (assoc l (locals s)); [discriminate|]. injection H1 as <-. injection H2 as <-. cbn. repeat split; lia.
  - binds H1. injection H1 as <-. binds H2. binds H2. injection H2 as <-. cbn. repeat split.
    destruct t; cbn in E; try discriminate.
    + injection E as <-. injection E0 as <-. lia.
    + injection E as <-. apply look_up_spec in E0. destruct E0 as (q & _ & Hl & _). rewrite Hl. reflexivity.
  - injection H1 as <-. injection H2 as <-. cbn. repeat split.
  - injection H1 as <-. binds H2. injection H2 as <-. cbn. repeat split.
  - injection H1 as <-. cbn. apply mapM_length in H2. rewrite H2. repeat split.
  - injection H1 as <-. binds H2. injection H2 as <-. cbn. rewrite (concat_length3 _ _ _ _ E). repeat split.
Qed.

Lemma assoc_cons : forall A k k' (v : A) m q, assoc k ((k', v) :: m) = Some q <-> (k = k' /\ q = v) \/ (k <> k' /\ assoc k m = Some q).
Proof.
  intros. cbn. destruct (String.eqb_spec k k'); split; intros H.
  - injection H as <-. auto.
  - destruct H as [[_ ->]|[? _]]; [reflexivity|contradiction].
  - auto.
  - destruct H as [[? _]|[_ H]]; [contradiction|exact H].
Qed.

Lemma file_layout : forall body s s' L G code, find_labels body s = Good s' -> assemble_file body L G = Good code ->
  exists chunks, code = concat chunks /\ Forall2 (fun i c => assemble_item i L G = Good c) body chunks /\
  offset s' = offset s + List.length code /\
  (forall l q, assoc l (locals s') = Some q <-> assoc l (locals s) = Some q \/ exists j, nth_error body j = Some (ALocal l) /\ q = offset s + List.length (concat (firstn j chunks))) /\
  (forall l q, assoc l (globals s') = Some q <-> assoc l (globals s) = Some q \/ exists j, nth_error body j = Some (AGlobal l) /\ q = offset s + List.length (concat (firstn j chunks))) /\
  (forall p f, In (p, f) (inputs s') <-> In (p, f) (inputs s) \/ exists j, nth_error body j = Some (AProverInput f) /\ p = offset s + List.length (concat (firstn j chunks))) /\
  NoDup (local_labels body) /\ (forall l, In l (local_labels body) -> assoc l (locals s) = None) /\
  NoDup (global_labels body) /\ (forall l, In l (global_labels body) -> assoc l (globals s) = None) /\
  (forall l, assoc l (globals s') = None <-> assoc l (globals s) = None /\ ~ In l (global_labels body)).
Proof.
  induction body as [|i body IH]; intros s s' L G code H1 H2; cbn in H1, H2.
  - injection H1 as <-. injection H2 as <-. exists []. cbn. repeat split; try constructor; try lia; auto; try tauto;
      intros [H|([|j] & H & _)]; first [exact H | discriminate].
  - binds H1. binds H2. binds H2. injection H2 as <-.
    destruct (item_step _ _ _ _ _ _ E E0) as (Ho & Hl & Hg & Hi & Hfresh).
    destruct (IH _ _ _ _ _ H1 E1) as (chunks & -> & Hf & Ho' & Hl' & Hg' & Hi' & Hn1 & Hn2 & Hn3 & Hn4 & Hn5).
    exists (v0 :: chunks). cbn [concat]. rewrite !app_length.
    split; [reflexivity|]. split; [constructor; assumption|]. split; [lia|].
    assert (Hsplit : forall (P : aitem) (q : nat),
      (exists j, nth_error (i :: body) j = Some P /\ q = offset s + List.length (concat (firstn j (v0 :: chunks)))) <->
      ((i = P /\ q = offset s) \/ exists j, nth_error body j = Some P /\ q = offset v + List.length (concat (firstn j chunks)))).
    { intros P q. split.
      - intros ([|j] & Hj & Hq); cbn in Hj, Hq.
        + injection Hj as ->. left. split; [reflexivity|lia].
        + rewrite app_length in Hq. right. exists j. split; [exact Hj|lia].
      - intros [[-> ->]|(j & Hj & Hq)].
        + exists 0. cbn. split; [reflexivity|lia].
        + exists (S j). cbn. rewrite app_length. split; [exact Hj|lia]. }
    split; [|split; [|split; [|split; [|split; [|split; [|split]]]]]].
    + intros l q. rewrite Hl', Hsplit, Hl. destruct i; try (intuition congruence); try tauto.
      rewrite assoc_cons. split.
      * intros [[[-> ->]|[Hne H]]|H]; auto.
      * intros [H|[[H ->]|H]]; auto.
        -- left. right. split; [|exact H]. intros ->. rewrite Hfresh in H. discriminate.
        -- injection H as ->. left. left. auto.
    + intros l q. rewrite Hg', Hsplit, Hg. destruct i; try (intuition congruence); try tauto.
      rewrite assoc_cons. split.
      * intros [[[-> ->]|[Hne H]]|H]; auto.
      * intros [H|[[H ->]|H]]; auto.
        -- left. right. split; [|exact H]. intros ->. rewrite Hfresh in H. discriminate.
        -- injection H as ->. left. left. auto.
    + intros p f. rewrite Hi', Hsplit, Hi. destruct i; try (intuition congruence); try tauto.
      cbn [In]. split.
      * intros [[H|H]|H]; auto. injection H as <- <-. auto.
      * intros [H|[[H ->]|H]]; auto. injection H as ->. auto.
    + destruct i; cbn; try exact Hn1. constructor; [|exact Hn1]. intros Hin. apply Hn2 in Hin. rewrite Hl in Hin. cbn in Hin. rewrite String.eqb_refl in Hin. discriminate.
    + intros l Hin. rewrite Hl in Hn2. destruct i; cbn in Hin; try (apply Hn2; exact Hin). destruct Hin as [<-|Hin]; [exact Hfresh|].
      apply Hn2 in Hin. cbn in Hin. destruct (String.eqb l l0); [discriminate|exact Hin].
    + destruct i; cbn; try exact Hn3. constructor; [|exact Hn3]. intros Hin. apply Hn4 in Hin. rewrite Hg in Hin. cbn in Hin. rewrite String.eqb_refl in Hin. discriminate.
    + intros l Hin. rewrite Hg in Hn4. destruct i; cbn in Hin; try (apply Hn4; exact Hin). destruct Hin as [<-|Hin]; [exact Hfresh|].
      apply Hn4 in Hin. cbn in Hin. destruct (String.eqb l l0); [discriminate|exact Hin].
    + intros l1. rewrite Hn5, Hg. destruct i; cbn [global_labels flat_map app In]; try (cbn; tauto).
      fold (global_labels body). cbn. destruct (String.eqb_spec l1 l); [subst|]; split; intros [A B]; try discriminate.
      * exfalso. apply B. left. reflexivity.
      * split; [exact A|]. intros [->|Hc]; [congruence|tauto].
      * split; [exact A|]. intros Hc. apply B. right. exact Hc.
Qed.

(** * All files *)

Lemma assoc_none : forall (m : list (string * nat)) l, assoc l m = None <-> forall q, assoc l m <> Some q.
Proof. intros m l. destruct (assoc l m); split; congruence. Qed.

Lemma files_layout : forall bodies s ls s' G code, find_all_labels bodies s = Good (ls, s') -> assemble_files bodies ls G = Good code ->
  exists chunks, code = concat (concat chunks) /\ offset s' = offset s + List.length code /\
  List.length chunks = List.length bodies /\
  Forall2 (fun b c => List.length b = List.length c) bodies chunks /\
  (forall i j item, at2 bodies i j = Some item -> exists L c, nth_error ls i = Some L /\ at2 chunks i j = Some c /\ assemble_item item L G = Good c) /\
  (forall i L, nth_error ls i = Some L -> forall l q, assoc l L = Some q <-> exists j, at2 bodies i j = Some (ALocal l) /\ q = offset s + position chunks i j) /\
  (forall l q, assoc l (globals s') = Some q <-> assoc l (globals s) = Some q \/ exists i j, at2 bodies i j = Some (AGlobal l) /\ q = offset s + position chunks i j) /\
  (forall p f, In (p, f) (inputs s') <-> In (p, f) (inputs s) \/ exists i j, at2 bodies i j = Some (AProverInput f) /\ p = offset s + position chunks i j) /\
  Forall (fun b => NoDup (local_labels b)) bodies /\ NoDup (global_labels (concat bodies)) /\
  (forall l, In l (global_labels (concat bodies)) -> assoc l (globals s) = None).
Proof.
  induction bodies as [|b bodies IH]; intros s ls s' G code H1 H2; cbn in H1.
  - injection H1 as <- <-. cbn in H2. injection H2 as <-. exists []. cbn.
    assert (Hn : forall i j (x : aitem), at2 [] i j = Some x -> False) by (intros [|i] j x H; discriminate).
    repeat split; try constructor; try lia; auto; try tauto.
    + intros i j item Hx. destruct (Hn _ _ _ Hx).
    + destruct i; discriminate.
    + intros (j & Hx & _). destruct (Hn _ _ _ Hx).
    + intros [Hx|(i & j & Hx & _)]; [exact Hx|destruct (Hn _ _ _ Hx)].
    + intros [Hx|(i & j & Hx & _)]; [exact Hx|destruct (Hn _ _ _ Hx)].
  - binds H1. binds H1. destruct v0 as [ls0 s0]. injection H1 as <- <-. cbn in H2. binds H2. binds H2. injection H2 as <-.
    destruct (file_layout _ _ _ _ _ _ E E1) as (c & -> & Hf & Ho & Hl & Hg & Hi & Hn1 & _ & Hn3 & Hn4 & Hn5). cbn in Ho, Hl, Hg, Hi, Hn4, Hn5.
    destruct (IH _ _ _ _ _ E0 E2) as (chunks & -> & Ho' & Hlen & Hlens & Hitem & Hloc & Hglob & Hinp & Hnl & Hng & Hngf).
    exists (c :: chunks). cbn [concat]. rewrite concat_app, app_length.
    assert (Hsplit : forall (P : aitem) (q : nat),
      (exists i j, at2 (b :: bodies) i j = Some P /\ q = offset s + position (c :: chunks) i j) <->
      ((exists j, nth_error b j = Some P /\ q = offset s + List.length (concat (firstn j c))) \/ exists i j, at2 bodies i j = Some P /\ q = offset v + position chunks i j)).
    { intros P q. split.
      - intros ([|i] & j & Hj & Hq); [left; exists j; split; [exact Hj|exact Hq]|].
        rewrite position_cons_S in Hq. right. exists i, j. split; [exact Hj|lia].
      - intros [(j & Hj & Hq)|(i & j & Hj & Hq)]; [exists 0, j; split; [exact Hj|exact Hq]|].
        exists (S i), j. rewrite position_cons_S. split; [exact Hj|lia]. }
    split; [reflexivity|]. split; [lia|]. split; [cbn; lia|].
    split; [constructor; [eapply Forall2_len; exact Hf|exact Hlens]|].
    split; [|split; [|split; [|split; [|split; [|split]]]]].
    + intros [|i] j item Hj.
      * rewrite at2_cons_0 in Hj |- *. exists (locals v). cbn [nth_error].
        assert (Hx : exists c0, nth_error c j = Some c0 /\ assemble_item item (locals v) G = Good c0).
        { clear -Hf Hj. revert j Hj. induction Hf; intros [|j] Hj; cbn in Hj; try discriminate.
          - injection Hj as <-. exists y. split; [reflexivity|exact H].
          - cbn. apply IHHf. exact Hj. }
        destruct Hx as (c0 & Hx1 & Hx2). exists c0. auto.
      * rewrite at2_cons_S in Hj |- *. cbn [nth_error]. apply Hitem. exact Hj.
    + intros [|i] L HL l q; cbn in HL.
      * injection HL as <-. rewrite Hl. split.
        -- intros [H|H]; [discriminate|exact H].
        -- intros H. right. exact H.
      * rewrite (Hloc _ _ HL). split; intros (j & Hj & Hq); exists j; (split; [exact Hj|]); rewrite position_cons_S in *; lia.
    + intros l q. rewrite Hglob, Hg, Hsplit. tauto.
    + intros p f. rewrite Hinp, Hi, Hsplit. tauto.
    + constructor; assumption.
    + unfold global_labels in *. rewrite flat_map_app.
      assert (Hd : forall A (a b : list A), NoDup a -> NoDup b -> (forall x, In x a -> In x b -> False) -> NoDup (a ++ b)).
      { clear. induction a; intros b Ha Hb Hd; cbn; [exact Hb|]. inversion Ha; subst. constructor.
        - rewrite in_app_iff. intros [H|H]; [contradiction|]. apply (Hd a); [left; reflexivity|exact H].
        - apply IHa; auto. intros x Hx Hy. apply (Hd x); [right; exact Hx|exact Hy]. }
      apply Hd; [assumption|assumption|]. intros x Hx Hy. apply Hngf in Hy. apply Hn5 in Hy. tauto.
    + unfold global_labels. intros l Hin. rewrite flat_map_app in Hin. apply in_app_iff in Hin. destruct Hin as [Hin|Hin]; [apply Hn4; exact Hin|].
      apply Hngf in Hin. apply Hn5 in Hin. tauto.
Qed.

Lemma assoc_in : forall (A : Type) k (m : list (string * A)) v, assoc k m = Some v -> In (k, v) m.
Proof. induction m as [|[k' v'] m IH]; intros v H; cbn in H; [discriminate|]. destruct (String.eqb_spec k k'); [left; congruence|right; auto]. Qed.

(** A chunk sits at its position. *)
Lemma chunk_at_flat : forall (c : list (list Z)) j x rest, nth_error c j = Some x ->
  firstn (List.length x) (skipn (List.length (concat (firstn j c))) (concat c ++ rest)) = x.
Proof.
  induction c as [|y c IH]; intros [|j] x rest H; cbn in H; try discriminate.
  - injection H as ->. cbn. rewrite <- app_assoc. rewrite firstn_app, Nat.sub_diag, firstn_all, firstn_O, app_nil_r. reflexivity.
  - cbn [firstn concat]. rewrite app_length, <- app_assoc, skipn_app.
    rewrite skipn_all2 by lia. rewrite Nat.add_comm, Nat.add_sub. cbn [app]. apply IH. exact H.
Qed.
Lemma chunk_at : forall chunks i j x, at2 chunks i j = Some x ->
  firstn (List.length x) (skipn (position chunks i j) (concat (concat chunks))) = x.
Proof.
  induction chunks as [|c chunks IH]; intros [|i] j x H; try discriminate.
  - rewrite at2_cons_0 in H. rewrite position_cons_0. cbn [concat]. rewrite concat_app. apply chunk_at_flat. exact H.
  - rewrite at2_cons_S in H. rewrite position_cons_S. cbn [concat]. rewrite concat_app, skipn_app.
    rewrite skipn_all2 by lia. cbn [app]. replace (List.length (concat c) + position chunks i j - List.length (concat c)) with (position chunks i j) by lia.
    apply IH. exact H.
Qed.

Theorem C33_layout : forall bodies k, literals_are_words bodies -> link bodies = Good k ->
  exists chunks,
    Forall2 (fun b c => List.length b = List.length c) bodies chunks /\
    k_code k = concat (concat chunks) /\
    (forall i j item, at2 bodies i j = Some item -> exists chunk, at2 chunks i j = Some chunk /\
       encodes bodies chunks i item chunk /\
       firstn (List.length chunk) (skipn (position chunks i j) (k_code k)) = chunk) /\
    (forall l q, assoc l (k_globals k) = Some q <-> exists i j, at2 bodies i j = Some (AGlobal l) /\ q = position chunks i j) /\
    (forall p f, In (p, f) (k_inputs k) <-> exists i j, at2 bodies i j = Some (AProverInput f) /\ p = position chunks i j) /\
    Forall (fun b => NoDup (local_labels b)) bodies /\ NoDup (global_labels (concat bodies)).
Proof.
  intros bodies k Hw H. unfold link in H. binds H. destruct v as [ls s]. binds H.
  destruct (List.length v =? offset s); [|discriminate]. injection H as <-.
  destruct (files_layout _ _ _ _ _ _ E E0) as (chunks & -> & _ & Hlen & Hlens & Hitem & Hloc & Hglob & Hinp & Hnl & Hng & _).
  cbn [k_code k_globals k_inputs]. exists chunks.
  split; [exact Hlens|]. split; [reflexivity|]. cbn in Hglob, Hinp.
  assert (Hglob' : forall l q, assoc l (globals s) = Some q <-> exists i j, at2 bodies i j = Some (AGlobal l) /\ q = position chunks i j).
  { intros l q. rewrite Hglob. split; [intros [H|H]; [discriminate|exact H]|intros H; right; exact H]. }
  split; [|split; [exact Hglob'|split; [|split; assumption]]].
  2:{ intros p f. rewrite Hinp. split; [intros [[]|H]; exact H|intros H; right; exact H]. }
  intros i j item Hj. destruct (Hitem _ _ _ Hj) as (L & c & HL & Hc & Ha). exists c. split; [exact Hc|]. split; [|apply chunk_at; exact Hc].
  assert (Hres : forall l bytes, look_up_label l L (globals s) = Good bytes -> exists q, resolves bodies chunks i l q /\ address_bytes q bytes).
  { intros l bytes Hb. apply look_up_spec in Hb. destruct Hb as (q & Hq & Hb). exists q. split; [|exact Hb].
    specialize (Hloc _ _ HL). cbn in Hloc. destruct (assoc l L) as [o|] eqn:EL.
    - injection Hq as ->. left. apply Hloc. exact EL.
    - right. split; [|apply Hglob'; exact Hq]. intros j' Hj'. rewrite assoc_none in EL. apply (EL (position chunks i j')). apply Hloc. exists j'. auto. }
  destruct item; cbn in Ha; try discriminate.
  - injection Ha as <-. reflexivity.
  - injection Ha as <-. reflexivity.
  - binds Ha. binds Ha. injection Ha as <-. unfold get_push_opcode in E2. destruct (List.length v <=? 32) eqn:E32; [|discriminate]. injection E2 as <-.
    destruct t; try discriminate.
    + injection E1 as <-. cbn [encodes]. exists (trimmed_be_bytes x). split; [reflexivity|]. apply trimmed_spec.
      unfold literals_are_words in Hw. rewrite Forall_forall in Hw. unfold at2 in Hj. destruct (nth_error bodies i) as [b|] eqn:Eb; [|discriminate].
      apply nth_error_In in Eb. apply Hw in Eb. rewrite Forall_forall in Eb. apply nth_error_In in Hj. apply Eb in Hj. exact Hj.
    + destruct (Hres _ _ E1) as (q & Hq & Hb). cbn [encodes]. exists q, v. destruct Hb as (Hb & Hb'). rewrite Hb. split; [reflexivity|]. split; [exact Hq|]. split; assumption.
  - injection Ha as <-. reflexivity.
  - binds Ha. injection Ha as <-. exists v. split; [reflexivity|]. unfold get_opcode in E1. destruct (assoc (to_uppercase op) opcode_table) eqn:Eo; [|discriminate].
    injection E1 as <-. apply assoc_in. exact Eo.
  - cbn [encodes]. apply mapM_good in Ha. clear -Ha. induction Ha as [|t b targets bs Ht _ IH]; [reflexivity|]. cbn. destruct t; [|discriminate]. injection Ht as ->. f_equal. exact IH.
  - binds Ha. injection Ha as <-. exists v. split; [reflexivity|]. apply mapM_good in E1. clear -E1 Hres. induction E1 as [|l c ls cs Hl _ IH]; constructor; auto.
Qed.
Print Assumptions C33_layout.

(** * When the assembler accepts *)

Definition declared (bodies : list (list aitem)) (i : nat) (l : string) : Prop :=
  (exists j, at2 bodies i j = Some (ALocal l)) \/ exists i' j', at2 bodies i' j' = Some (AGlobal l).
Definition placeable (bodies : list (list aitem)) (i : nat) (item : aitem) : Prop :=
  match item with
  | AGlobal _ | ALocal _ | AProverInput _ | APush (Literal _) => True
  | APush (Label l) => declared bodies i l
  | AOp op => exists b, In (to_uppercase op, b) opcode_table
  | ABytes targets => exists bytes, targets = map BLiteral bytes
  | AJumptable ls => Forall (declared bodies i) ls
  | _ => False
  end.

Definition keys (m : list (string * nat)) (l : string) : Prop := exists q, assoc l m = Some q.
Lemma keys_cons : forall m l q l', keys ((l, q) :: m) l' <-> l' = l \/ keys m l'.
Proof.
  intros. unfold keys. cbn. destruct (String.eqb_spec l' l); split; intros H; eauto.
  destruct H as [H|H]; [contradiction|exact H].
Qed.
Lemma not_keys : forall m l, ~ keys m l -> assoc l m = None.
Proof. intros m l H. destruct (assoc l m) eqn:E; [|reflexivity]. exfalso. apply H. exists n. exact E. Qed.

(** What the first pass looks at. *)
Definition sized (item : aitem) : Prop :=
  match item with
  | AGlobal _ | ALocal _ | AProverInput _ | APush (Literal _) | APush (Label _) | AOp _ | ABytes _ | AJumptable _ => True
  | _ => False
  end.

Lemma find_labels_ok : forall body s, Forall sized body ->
  NoDup (local_labels body) -> (forall l, In l (local_labels body) -> ~ keys (locals s) l) ->
  NoDup (global_labels body) -> (forall l, In l (global_labels body) -> ~ keys (globals s) l) ->
  exists s', find_labels body s = Good s' /\
    (forall l, keys (locals s') l <-> keys (locals s) l \/ In l (local_labels body)) /\
    (forall l, keys (globals s') l <-> keys (globals s) l \/ In l (global_labels body)).
Proof.
  induction body as [|i body IH]; intros s Hs Hl1 Hl2 Hg1 Hg2.
  - exists s. cbn. repeat split; tauto.
  - inversion Hs; subst.
    assert (Hstep : exists s1, find_labels_item i s = Good s1 /\
      (forall l, keys (locals s1) l <-> keys (locals s) l \/ In l (local_labels [i])) /\
      (forall l, keys (globals s1) l <-> keys (globals s) l \/ In l (global_labels [i]))).
    { destruct i; cbn in H1; try contradiction; cbn [find_labels_item].
      - rewrite not_keys by (apply Hg2; cbn; auto). eexists. split; [reflexivity|]. cbn. split; intros l'; [tauto|]. rewrite keys_cons. intuition congruence.
      - rewrite not_keys by (apply Hl2; cbn; auto). eexists. split; [reflexivity|]. cbn. split; intros l'; [|tauto]. rewrite keys_cons. intuition congruence.
      - destruct t; try contradiction; eexists; (split; [reflexivity|]); cbn; split; intros l'; tauto.
      - eexists; (split; [reflexivity|]); cbn; split; intros l'; tauto.
      - eexists; (split; [reflexivity|]); cbn; split; intros l'; tauto.
      - eexists; (split; [reflexivity|]); cbn; split; intros l'; tauto.
      - eexists; (split; [reflexivity|]); cbn; split; intros l'; tauto. }
    destruct Hstep as (s1 & E1 & K1 & K2).
    change (local_labels (i :: body)) with (local_labels ([i] ++ body)) in *. change (global_labels (i :: body)) with (global_labels ([i] ++ body)) in *.
    unfold local_labels, global_labels in *. rewrite !flat_map_app in *.
    destruct (IH s1) as (s' & E' & K1' & K2').
    + assumption.
    + clear -Hl1. destruct i; cbn in *; try assumption. inversion Hl1; assumption.
    + intros l Hin. rewrite K1. intros [Hk|Hk].
      * apply (Hl2 l); [apply in_app_iff; auto|exact Hk].
      * clear -Hl1 Hin Hk. destruct i; cbn in *; try contradiction. destruct Hk as [->|[]]. inversion Hl1; contradiction.
    + clear -Hg1. destruct i; cbn in *; try assumption. inversion Hg1; assumption.
    + intros l Hin. rewrite K2. intros [Hk|Hk].
      * apply (Hg2 l); [apply in_app_iff; auto|exact Hk].
      * clear -Hg1 Hin Hk. destruct i; cbn in *; try contradiction. destruct Hk as [->|[]]. inversion Hg1; contradiction.
    + exists s'. cbn [find_labels]. rewrite E1. cbn [bind]. split; [exact E'|]. split; intros l.
      * rewrite K1', K1, in_app_iff. tauto.
      * rewrite K2', K2, in_app_iff. tauto.
Qed.

Lemma find_all_ok : forall bodies s, Forall (Forall sized) bodies ->
  Forall (fun b => NoDup (local_labels b)) bodies -> NoDup (global_labels (concat bodies)) ->
  (forall l, In l (global_labels (concat bodies)) -> ~ keys (globals s) l) ->
  exists ls s', find_all_labels bodies s = Good (ls, s') /\
    Forall2 (fun b L => forall l, keys L l <-> In l (local_labels b)) bodies ls /\
    (forall l, keys (globals s') l <-> keys (globals s) l \/ In l (global_labels (concat bodies))).
Proof.
  induction bodies as [|b bodies IH]; intros s Hs Hl Hg1 Hg2; cbn [find_all_labels concat].
  - exists [], s. split; [reflexivity|]. split; [constructor|]. cbn. tauto.
  - inversion Hs; subst. inversion Hl; subst.
    unfold global_labels in *. cbn [concat] in *. rewrite flat_map_app in *.
    assert (Hx : NoDup (global_labels b) /\ NoDup (global_labels (concat bodies)) /\ forall l, In l (global_labels b) -> ~ In l (global_labels (concat bodies))).
    { unfold global_labels. clear -Hg1. induction (flat_map (fun i => match i with AGlobal l => [l] | _ => [] end) b) as [|x xs IHx]; cbn in *.
      - repeat split; [constructor|exact Hg1|tauto].
      - inversion Hg1; subst. destruct (IHx H2) as (A & B & C). rewrite in_app_iff in H1. repeat split.
        + constructor; tauto.
        + exact B.
        + intros l [<-|Hin]; [tauto|apply C; exact Hin]. }
    destruct Hx as (Hx1 & Hx2 & Hx3).
    destruct (find_labels_ok b {| offset := offset s; locals := []; globals := globals s; inputs := inputs s |}) as (s1 & E1 & K1 & K2); try assumption.
    { intros l _ (q & Hq). discriminate. }
    { intros l Hin. apply Hg2. apply in_app_iff. left. exact Hin. }
    cbn in K1, K2.
    destruct (IH s1) as (ls & s' & E' & F' & K'); try assumption.
    { intros l Hin. rewrite K2. intros [Hk|Hk]; [apply (Hg2 l); [apply in_app_iff; right; exact Hin|exact Hk]|]. apply (Hx3 l Hk). exact Hin. }
    rewrite E1. cbn [bind]. rewrite E'. cbn [bind]. eexists _, _. split; [reflexivity|]. split.
    + constructor; [|exact F']. intros l. rewrite K1. split; [intros [(q & Hq)|H]; [discriminate|exact H]|auto].
    + intros l. rewrite K', K2, in_app_iff. unfold global_labels. tauto.
Qed.

Lemma in_locals : forall b l, In l (local_labels b) <-> In (ALocal l) b.
Proof.
  intros. unfold local_labels. rewrite in_flat_map. split.
  - intros (x & Hx & Hl). destruct x; cbn in Hl; try contradiction. destruct Hl as [->|[]]. exact Hx.
  - intros H. exists (ALocal l). cbn. auto.
Qed.
Lemma in_globals : forall b l, In l (global_labels b) <-> In (AGlobal l) b.
Proof.
  intros. unfold global_labels. rewrite in_flat_map. split.
  - intros (x & Hx & Hl). destruct x; cbn in Hl; try contradiction. destruct Hl as [->|[]]. exact Hx.
  - intros H. exists (AGlobal l). cbn. auto.
Qed.
Lemma in_concat_at2 : forall A (ll : list (list A)) x, In x (concat ll) <-> exists i j, at2 ll i j = Some x.
Proof.
  intros. rewrite in_concat. unfold at2. split.
  - intros (l & Hl & Hx). apply In_nth_error in Hl, Hx. destruct Hl as (i & Hi), Hx as (j & Hj). exists i, j. rewrite Hi. exact Hj.
  - intros (i & j & H). destruct (nth_error ll i) eqn:E; [|discriminate]. exists l. split; eapply nth_error_In; eassumption.
Qed.

Theorem C33_accepts : forall bodies, literals_are_words bodies ->
  ((exists k, link bodies = Good k) <->
   (forall i j item, at2 bodies i j = Some item -> placeable bodies i item) /\
   Forall (fun b => NoDup (local_labels b)) bodies /\ NoDup (global_labels (concat bodies))).
Proof.
  intros bodies Hw. split.
  - intros (k & Hk). destruct (C33_layout _ _ Hw Hk) as (chunks & _ & _ & Hitem & _ & _ & Hl & Hg). split; [|split; assumption].
    intros i j item Hj. destruct (Hitem _ _ _ Hj) as (c & _ & He & _).
    assert (Hd : forall l q, resolves bodies chunks i l q -> declared bodies i l).
    { intros l q [(j' & H & _)|(_ & i' & j' & H & _)]; [left|right]; eauto. }
    destruct item; cbn in He |- *; try exact I; try contradiction.
    + destruct t; try exact I; try contradiction. destruct He as (q & _ & _ & Hq & _). eauto.
    + destruct He as (b & _ & H). eauto.
    + eauto.
    + destruct He as (parts & _ & H). clear -H Hd. induction H as [|l c ls cs (q & Hq & _) _ IH]; constructor; eauto.
  - intros (Hp & Hl & Hg).
    assert (Hs : Forall (Forall sized) bodies).
    { apply Forall_forall. intros b Hb. apply Forall_forall. intros x Hx. apply In_nth_error in Hb, Hx. destruct Hb as (i & Hi), Hx as (j & Hj).
      assert (Hat : at2 bodies i j = Some x) by (unfold at2; rewrite Hi; exact Hj). apply Hp in Hat. destruct x; cbn in *; try exact I; try contradiction. destruct t; try exact I; contradiction. }
    destruct (find_all_ok bodies {| offset := 0; locals := []; globals := []; inputs := [] |} Hs Hl Hg) as (ls & s & E & F & K).
    { intros l _ (q & Hq). discriminate. }
    cbn in K.
    assert (Ha : exists code, assemble_files bodies ls (globals s) = Good code).
    { assert (Hitems : forall i b L, nth_error bodies i = Some b -> nth_error ls i = Some L -> forall item, In item b -> exists c, assemble_item item L (globals s) = Good c).
      { intros i b L Hb HL item Hin.
        assert (HK : forall l, declared bodies i l -> exists bytes, look_up_label l L (globals s) = Good bytes /\ List.length bytes = 3).
        { intros l Hd. unfold look_up_label.
          assert (Hsome : exists q, match assoc l L with Some o => Some o | None => assoc l (globals s) end = Some q).
          { destruct (assoc l L) eqn:EL; [eauto|]. destruct Hd as [(j & Hj)|(i' & j' & Hj)].
            - assert (HLl : keys L l).
              { assert (HF : forall i b L, nth_error bodies i = Some b -> nth_error ls i = Some L -> forall l, keys L l <-> In l (local_labels b)).
                { clear -F. induction F; intros [|i] b' L' H1 H2; cbn in *; try discriminate; [injection H1 as <-; injection H2 as <-; assumption|eauto]. }
                apply (HF _ _ _ Hb HL). apply in_locals. unfold at2 in Hj. rewrite Hb in Hj. eapply nth_error_In; exact Hj. }
              destruct HLl as (q & Hq). congruence.
            - assert (HG : keys (globals s) l) by (apply K; right; apply in_globals, in_concat_at2; eauto). exact HG. }
          destruct Hsome as (q & ->). eexists. split; reflexivity. }
        apply In_nth_error in Hin. destruct Hin as (j & Hj).
        assert (Hat : at2 bodies i j = Some item) by (unfold at2; rewrite Hb; exact Hj). pose proof (Hp _ _ _ Hat) as Hpl.
        destruct item; cbn in Hpl; try contradiction; cbn [assemble_item].
        - eauto.
        - eauto.
        - destruct t; try contradiction; cbn [bind].
          + assert (Hlit : (0 <= x < 2^256)%Z).
            { unfold literals_are_words in Hw. rewrite Forall_forall in Hw. apply nth_error_In in Hb. apply Hw in Hb. rewrite Forall_forall in Hb. apply nth_error_In in Hj. apply Hb in Hj. exact Hj. }
            destruct (trimmed_spec x Hlit) as (Hlen & _). unfold get_push_opcode. apply Nat.leb_le in Hlen. rewrite Hlen. cbn [bind]. eauto.
          + destruct (HK _ Hpl) as (bytes & -> & Hlen). cbn [bind]. rewrite Hlen. cbn. eauto.
        - eexists; vm_compute; reflexivity.
        - change (exists b, In (to_uppercase op, b) opcode_table) in Hpl. destruct Hpl as (b0 & Hb0). unfold get_opcode.
          assert (Has : exists v, assoc (to_uppercase op) opcode_table = Some v).
          { clear -Hb0. revert Hb0. generalize opcode_table. intros m Hb0.
 induction m as [|[k v] m IH]; [destruct Hb0|]. cbn in Hb0 |- *. destruct (String.eqb_spec (to_uppercase op) k); [eauto|]. destruct Hb0 as [H|H]; [congruence|auto]. }
          destruct Has as (v & ->). cbn. eauto.
        - destruct Hpl as (bytes & ->). exists bytes. apply mapM_good. clear. induction bytes; constructor; auto.
        - assert (Hm : exists parts, mapM (fun l => look_up_label l L (globals s)) ls0 = Good parts).
          { clear -Hpl HK. induction Hpl as [|l ls Hd _ (parts & IH)]; [cbn; eauto|]. destruct (HK _ Hd) as (bytes & Hb & _). cbn. rewrite Hb. cbn. rewrite IH. cbn. eauto. }
          destruct Hm as (parts & ->). cbn. eauto. }
      clear -F Hitems. induction F as [|b L bodies ls _ _ IH]; cbn; [eauto|].
      assert (Hb : exists c, assemble_file b L (globals s) = Good c).
      { specialize (Hitems 0 b L eq_refl eq_refl). clear -Hitems. induction b as [|i b IH]; cbn; [eauto|].
        destruct (Hitems i (or_introl eq_refl)) as (c & ->). cbn. destruct IH as (cs & ->); [intros; apply Hitems; right; assumption|]. cbn. eauto. }
      destruct Hb as (c & ->). cbn. destruct IH as (cs & ->); [intros i; apply (Hitems (S i))|]. cbn. eauto. }
    destruct Ha as (code & Ha). unfold link. rewrite E. cbn [bind]. rewrite Ha. cbn [bind].
    destruct (files_layout _ _ _ _ _ _ E Ha) as (chunks & _ & Ho & _). cbn in Ho. rewrite Ho, Nat.eqb_refl. eauto.
Qed.
Print Assumptions C33_accepts.
