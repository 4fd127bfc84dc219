(** C68: parsing and printing of ranges. *)
From Coq Require Import ZArith List Bool Lia ZifyBool ZifyNat.
From Verif Require Import Zero.IntervalModel.
Import ListNotations.
Local Open Scope Z_scope.

(** * Numerals *)
Definition digit (c : Z) : Prop := 48 <= c <= 57.
(** The value of digits, most significant first. *)
Definition value (s : list Z) : Z := fold_left (fun v c => 10 * v + (c - 48)) s 0.
(** [s] is written as a number: digits, perhaps with a plus sign, of value v
    below 2^64. *)
Definition numeral (s : list Z) (v : Z) : Prop :=
  exists ds, (s = ds \/ s = 43 :: ds) /\ ds <> [] /\ Forall digit ds /\ value ds = v /\ v < 2^64.

Lemma fold_value : forall s acc, fold_left (fun v c => 10 * v + (c - 48)) s acc = acc * 10 ^ Z.of_nat (length s) + value s.
Proof.
  unfold value. induction s as [|c s IH]; intros acc; [cbn; lia|]. cbn [fold_left length]. rewrite IH, (IH (10 * 0 + (c - 48))). replace (Z.of_nat (S (length s))) with (Z.of_nat (length s) + 1) by lia. rewrite Z.pow_add_r by lia. change (10^1) with 10. ring.
Qed.
Lemma value_nonneg : forall s acc, Forall digit s -> 0 <= acc -> acc <= fold_left (fun v c => 10 * v + (c - 48)) s acc.
Proof.
  induction s as [|c s IH]; intros acc F A; [cbn; lia|]. inversion F; subst. unfold digit in *. cbn [fold_left]. specialize (IH (10 * acc + (c - 48)) H2). lia.
Qed.
Lemma digits_value_spec : forall s acc v, 0 <= acc -> digits_value acc s = Some v <-> Forall digit s /\ fold_left (fun v c => 10 * v + (c - 48)) s acc = v /\ (s <> [] -> v < 2^64).
Proof.
  induction s as [|c s IH]; intros acc v A; cbn [digits_value fold_left].
  - split; [intros H|intros (_ & <- & _); reflexivity]. split; [constructor|]. split; [congruence|intros X; contradiction].
  - destruct ((48 <=? c) && (c <=? 57)) eqn:D.
    + assert (DC : digit c) by (unfold digit; lia). replace (acc * 10 + (c - 48)) with (10 * acc + (c - 48)) by lia. destruct (Z.ltb_spec (10 * acc + (c - 48)) (2^64)) as [L|L].
      * rewrite IH by (unfold digit in DC; lia). split; intros (F & V & B); (split; [first [constructor; assumption | inversion F; assumption]|]); (split; [exact V|]); intros X.
        -- destruct s; [cbn [fold_left] in V; lia|apply B; discriminate].
        -- apply B. discriminate.
      * split; [discriminate|]. intros (F & V & B). exfalso. inversion F; subst. specialize (B ltac:(discriminate)). pose proof (value_nonneg s (10 * acc + (c - 48)) H2). unfold digit in DC. lia.
    + split; [discriminate|]. intros (F & _). exfalso. inversion F; subst. unfold digit in *. lia.
Qed.
Lemma parse_usize_spec : forall s v, parse_usize s = Some v <-> numeral s v.
Proof.
  intros s v. destruct s as [|c s]; cbn [parse_usize].
  - split; [discriminate|]. intros (ds & [<-|X] & N & _); [contradiction|discriminate X].
  - destruct (Z.eqb_spec c 43) as [->|C].
    + destruct s as [|d s].
      * split; [discriminate|]. intros (ds & [E|E] & N & F & _); [subst ds; inversion F; unfold digit in *; lia|]. congruence.
      * rewrite digits_value_spec by lia. split.
        -- intros (F & V & B). exists (d :: s). split; [right; reflexivity|]. split; [discriminate|]. split; [exact F|]. split; [exact V|]. apply B. discriminate.
        -- intros (ds & [E|E] & N & F & V & B); [subst ds; inversion F; unfold digit in *; lia|]. assert (ds = d :: s) as -> by congruence. split; [exact F|]. split; [exact V|]. intros _. exact B.
    + rewrite digits_value_spec by lia. split.
      * intros (F & V & B). exists (c :: s). split; [left; reflexivity|]. split; [discriminate|]. split; [exact F|]. split; [exact V|]. apply B. discriminate.
      * intros (ds & [E|E] & N & F & V & B); [subst ds|congruence]. split; [exact F|]. split; [exact V|]. intros _. exact B.
Qed.
Lemma numeral_no_dot : forall s v, numeral s v -> s <> [] /\ Forall (fun c => c <> DOT) s.
Proof.
  intros s v (ds & E & N & F & _). assert (G : Forall (fun c => c <> DOT) ds) by (eapply Forall_impl; [|exact F]; unfold digit, DOT; intros; lia).
  destruct E as [->| ->]; [split; assumption|]. split; [discriminate|]. constructor; [unfold DOT; lia|exact G].
Qed.

(** * Splitting *)
Lemma split_dots_app : forall l acc s, Forall (fun c => c <> DOT) l -> split_dots acc (l ++ DOT :: DOT :: s) = (rev acc ++ l) :: split_dots [] s.
Proof.
  induction l as [|c l IH]; intros acc s F.
  - cbn [app split_dots]. rewrite Z.eqb_refl. cbn [andb]. rewrite app_nil_r. reflexivity.
  - inversion F; subst. change ((c :: l) ++ DOT :: DOT :: s) with (c :: (l ++ DOT :: DOT :: s)). assert (X : split_dots acc (c :: l ++ DOT :: DOT :: s) = split_dots (c :: acc) (l ++ DOT :: DOT :: s)).
    { cbn [split_dots]. destruct (l ++ DOT :: DOT :: s) as [|d s'] eqn:E; [destruct l; discriminate E|]. replace (c =? DOT) with false by lia. reflexivity. }
    rewrite X, IH by assumption. cbn [rev]. rewrite <- app_assoc. reflexivity.
Qed.
Lemma split_dots_none : forall l acc, Forall (fun c => c <> DOT) l -> split_dots acc l = [rev acc ++ l].
Proof.
  induction l as [|c l IH]; intros acc F; [cbn; rewrite app_nil_r; reflexivity|]. inversion F; subst.
  assert (X : split_dots acc (c :: l) = split_dots (c :: acc) l) by (cbn [split_dots]; destruct l as [|d l']; [reflexivity|]; replace (c =? DOT) with false by lia; reflexivity).
  rewrite X, IH by assumption. cbn [rev]. rewrite <- app_assoc. reflexivity.
Qed.
Lemma split_dots_inv : forall n s acc, (length s <= n)%nat -> exists l rest, split_dots acc s = (rev acc ++ l) :: rest /\
  (rest = [] /\ s = l \/ exists s', s = l ++ DOT :: DOT :: s' /\ rest = split_dots [] s').
Proof.
  induction n as [|n IH]; intros s acc L.
  - destruct s; [|cbn in L; lia]. exists [], []. cbn. rewrite app_nil_r. split; [reflexivity|]. left. split; reflexivity.
  - destruct s as [|c s]; [exists [], []; cbn; rewrite app_nil_r; split; [reflexivity|left; split; reflexivity]|]. cbn [length] in L.
    destruct s as [|d s].
    + exists [c], []. cbn. split; [reflexivity|]. left. split; reflexivity.
    + destruct ((c =? DOT) && (d =? DOT)) eqn:E.
      * assert (c = DOT /\ d = DOT) as [-> ->] by lia. exists [], (split_dots [] s). split; [cbn [split_dots]; rewrite Z.eqb_refl; cbn [andb]; rewrite app_nil_r; reflexivity|]. right. exists s. split; reflexivity.
      * assert (X : split_dots acc (c :: d :: s) = split_dots (c :: acc) (d :: s)) by (cbn [split_dots]; rewrite E; reflexivity).
        destruct (IH (d :: s) (c :: acc) ltac:(cbn [length] in *; lia)) as (l & rest & Y & Z). exists (c :: l), rest. rewrite X, Y. split; [cbn [rev]; rewrite <- app_assoc; reflexivity|].
        destruct Z as [[Z1 Z2]|(s' & Z1 & Z2)]; [left; split; [exact Z1|congruence]|]. right. exists s'. split; [rewrite Z1; reflexivity|exact Z2].
Qed.

(** A text is read as the range a..b exactly if it is a numeral of a, two dots
    and a numeral of b, perhaps followed by two dots and anything. *)
Theorem C68_accepts : forall s a b, parse_range_exclusive s = inr (a, b) <->
  exists l r rest, s = l ++ [DOT; DOT] ++ r ++ rest /\ numeral l a /\ numeral r b /\ (rest = [] \/ exists t, rest = [DOT; DOT] ++ t).
Proof.
  intros s a b. unfold parse_range_exclusive. split.
  - intros H. destruct (split_dots_inv (length s) s [] (le_n _)) as (l & rest & E & C). rewrite E in H. cbn [rev app] in H. destruct C as [[-> _]|(s' & S & ->)]; [destruct l; discriminate H|].
    destruct (split_dots_inv (length s') s' [] (le_n _)) as (r & rest & E' & C'). rewrite E' in H. cbn [rev app] in H.
    destruct l as [|c l]; [destruct r; discriminate H|]. destruct r as [|d r]; [discriminate H|].
    destruct (parse_usize (c :: l)) as [v|] eqn:PL; [|discriminate H]. destruct (parse_usize (d :: r)) as [w|] eqn:PR; [|discriminate H]. assert (v = a /\ w = b) as [-> ->] by (split; congruence).
    apply parse_usize_spec in PL. apply parse_usize_spec in PR. destruct C' as [[_ ->]|(t & -> & _)].
    + exists (c :: l), (d :: r), []. rewrite app_nil_r. split; [exact S|]. split; [exact PL|]. split; [exact PR|]. left. reflexivity.
    + exists (c :: l), (d :: r), (DOT :: DOT :: t). split; [exact S|]. split; [exact PL|]. split; [exact PR|]. right. exists t. reflexivity.
  - intros (l & r & rest & -> & NL & NR & R). pose proof (numeral_no_dot _ _ NL) as [L0 LD]. pose proof (numeral_no_dot _ _ NR) as [R0 RD]. apply parse_usize_spec in NL. apply parse_usize_spec in NR.
    change (l ++ [DOT; DOT] ++ r ++ rest) with (l ++ DOT :: DOT :: (r ++ rest)). rewrite split_dots_app by exact LD. cbn [rev app].
    assert (X : exists more, split_dots [] (r ++ rest) = r :: more).
    { destruct R as [->|[t ->]]; [rewrite app_nil_r, split_dots_none by exact RD; eexists; reflexivity|]. change (r ++ [DOT; DOT] ++ t) with (r ++ DOT :: DOT :: t). rewrite split_dots_app by exact RD. eexists; reflexivity. }
    destruct X as [more ->]. destruct l as [|c l]; [contradiction|]. destruct r as [|d r]; [contradiction|]. rewrite NL, NR. reflexivity.
Qed.
Print Assumptions C68_accepts.

(** * Printing *)
Lemma digits_spec : forall fuel n acc, (0 < fuel)%nat -> 0 <= n < 10 ^ Z.of_nat fuel -> exists ds, digits fuel n acc = ds ++ acc /\ ds <> [] /\ Forall digit ds /\ value ds = n.
Proof.
  induction fuel as [|fuel IH]; intros n acc FU N; [lia|]. cbn [digits]. pose proof (Z.mod_pos_bound n 10 ltac:(lia)).
  destruct (Z.ltb_spec n 10) as [L|L].
  - exists [48 + n mod 10]. split; [reflexivity|]. split; [discriminate|]. split; [constructor; [unfold digit; lia|constructor]|]. unfold value. cbn [fold_left]. rewrite Z.mod_small by lia. lia.
  - assert (F0 : (0 < fuel)%nat). { destruct fuel; [cbn in N; lia|lia]. }
    replace (Z.of_nat (S fuel)) with (Z.of_nat fuel + 1) in N by lia. rewrite Z.pow_add_r in N by lia. change (10^1) with 10 in N.
    destruct (IH (n / 10) (48 + n mod 10 :: acc) F0) as (ds & E & N0 & F & V). { split; [apply Z.div_pos; lia|apply Z.div_lt_upper_bound; lia]. }
    exists (ds ++ [48 + n mod 10]). split; [rewrite <- app_assoc; exact E|]. split; [intros X; destruct ds; discriminate X|]. split; [apply Forall_app; split; [exact F|constructor; [unfold digit; lia|constructor]]|].
    unfold value in *. rewrite fold_left_app, V. cbn [fold_left]. pose proof (Z.div_mod n 10). lia.
Qed.
Lemma display_spec : forall n, 0 <= n < 2^64 -> display n <> [] /\ Forall digit (display n) /\ value (display n) = n.
Proof.
  intros n N. unfold display. destruct (digits_spec 20 n [] ltac:(lia)) as (ds & E & N0 & F & V). { change (Z.of_nat 20) with 20. lia. }
  rewrite app_nil_r in E. rewrite E. split; [exact N0|]. split; assumption.
Qed.
Lemma display_inj : forall n m, 0 <= n < 2^64 -> 0 <= m < 2^64 -> display n = display m -> n = m.
Proof. intros n m N M E. pose proof (display_spec n N) as (_ & _ & <-). pose proof (display_spec m M) as (_ & _ & <-). rewrite E. reflexivity. Qed.
(** What is printed is read back. *)
Theorem C68_round_trip : forall a b, 0 <= a < 2^64 -> 0 <= b < 2^64 -> parse_range_exclusive (display_range (a, b)) = inr (a, b).
Proof.
  intros a b A B. apply C68_accepts. exists (display a), (display b), []. rewrite app_nil_r. split; [reflexivity|].
  pose proof (display_spec a A) as (A0 & AF & AV). pose proof (display_spec b B) as (B0 & BF & BV).
  split; [exists (display a); split; [left; reflexivity|]; split; [exact A0|]; split; [exact AF|]; split; [exact AV|lia]|].
  split; [exists (display b); split; [left; reflexivity|]; split; [exact B0|]; split; [exact BF|]; split; [exact BV|lia]|]. left. reflexivity.
Qed.
Print Assumptions C68_round_trip.
Example C68_example : display_range (16, 23) = [49; 54; 46; 46; 50; 51] /\ parse_range_exclusive [49; 54; 46; 46; 50; 51] = inr (16, 23) /\ parse_range_exclusive [49; 46; 46] = inl RhsMissing.
Proof. repeat split. Qed.
(** The documentation wants "start..end"; "1..2..3" is read as 1..2. *)
Theorem C68_trailing_refuted : exists s, parse_range_exclusive s = inr (1, 2) /\ ~ exists l r, s = l ++ [DOT; DOT] ++ r /\ numeral l 1 /\ numeral r 2.
Proof.
  exists [49; 46; 46; 50; 46; 46; 51]. split; [reflexivity|]. intros (l & r & E & NL & NR). pose proof (numeral_no_dot _ _ NL) as [_ LD]. pose proof (numeral_no_dot _ _ NR) as [_ RD].
  destruct l as [|c [|d l]]; cbn [app] in E.
  - discriminate E.
  - assert (R : r = [50; 46; 46; 51]) by congruence. rewrite R in RD. inversion RD as [|? ? ? RD1]; subst. inversion RD1; subst. unfold DOT in *. congruence.
  - assert (d = 46) as -> by congruence. inversion LD as [|? ? ? LD1]; subst. inversion LD1; subst. unfold DOT in *. congruence.
Qed.
Print Assumptions C68_trailing_refuted.
