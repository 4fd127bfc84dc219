(** Facts about limb lists and the polynomial helpers. *)
From Coq Require Import ZArith Znumtheory List Lia Bool.
From Coq Require Import ZifyBool ZifyNat.
From Verif Require Import Stark.Field Stark.ArithModel Stark.ArithSpec.
Import ListNotations.
Local Open Scope Z_scope.

(** The value at 2^16 of the polynomial with the given coefficients. *)
Fixpoint val (l : list Z) : Z :=
  match l with [] => 0 | x :: r => x + 65536 * val r end.

Definition B : Z := 65536.

Definition limb (x : Z) : Prop := 0 <= x < 65536.
Definition absle (M x : Z) : Prop := - M <= x <= M.

Lemma reg_val : forall n r s, reg n r s = val (read_value n r s).
Proof.
  induction n as [|n IH]; intros r s; [reflexivity|].
  unfold read_value. cbn [reg seq map val]. rewrite IH. unfold read_value. reflexivity.
Qed.

Lemma read_length : forall n r s, length (read_value n r s) = n.
Proof. intros. unfold read_value. rewrite map_length, seq_length. reflexivity. Qed.

Lemma read_Forall : forall (Q : Z -> Prop) n r s, (forall c, (s <= c < s + n)%nat -> Q (r c)) -> Forall Q (read_value n r s).
Proof.
  intros Q n r s H. apply Forall_forall. intros x Hx. unfold read_value in Hx.
  apply in_map_iff in Hx. destruct Hx as (c & <- & Hc). apply in_seq in Hc. apply H. lia.
Qed.

(** * Powers of 2^16 *)

Definition Bn (n : nat) : Z := 65536 ^ Z.of_nat n.

Lemma Bn_S : forall n, Bn (S n) = 65536 * Bn n.
Proof. intros. unfold Bn. rewrite Nat2Z.inj_succ, Z.pow_succ_r by lia. reflexivity. Qed.

Lemma Bn_0 : Bn 0 = 1.
Proof. reflexivity. Qed.

Lemma Bn_add : forall a b, Bn (a + b) = Bn a * Bn b.
Proof. intros. unfold Bn. rewrite Nat2Z.inj_add, Z.pow_add_r by lia. reflexivity. Qed.

Lemma Bn_pos : forall n, 0 < Bn n.
Proof. intros. unfold Bn. apply Z.pow_pos_nonneg; lia. Qed.

Lemma Bn_16 : Bn 16 = 2^256.
Proof. reflexivity. Qed.

Lemma Bn_pow2 : forall n, Bn n = 2 ^ (16 * Z.of_nat n).
Proof. intros. unfold Bn. rewrite Z.pow_mul_r by lia. reflexivity. Qed.

(** * val *)

Lemma val_app : forall a b, val (a ++ b) = val a + Bn (length a) * val b.
Proof.
  induction a as [|x a IH]; intros b; cbn [app val length].
  - rewrite Bn_0. lia.
  - rewrite IH, Bn_S. lia.
Qed.

Lemma val_zeros : forall n, val (repeat 0 n) = 0.
Proof. induction n as [|n IH]; cbn [repeat val]; [|rewrite IH]; reflexivity. Qed.

Lemma val_limb_bounds : forall l, Forall limb l -> 0 <= val l < Bn (length l).
Proof.
  unfold limb. induction 1 as [|x l Hx H IH]; cbn [val length]; [rewrite Bn_0; lia|].
  rewrite Bn_S. lia.
Qed.

Lemma val_all_zero : forall l, Forall (fun x => x = 0) l -> val l = 0.
Proof. induction 1 as [|x l Hx H IH]; cbn [val]; lia. Qed.

(** Limb lists of the same length with the same value are equal. *)
Lemma val_inj : forall a b, Forall limb a -> Forall limb b -> length a = length b -> val a = val b -> a = b.
Proof.
  unfold limb. induction a as [|x a IH]; intros [|y b] Ha Hb L V; try discriminate; [reflexivity|].
  inversion Ha; inversion Hb; subst. cbn [val] in V. cbn [length] in L.
  assert (x = y) by lia. subst. f_equal. apply IH; [assumption|assumption|lia|lia].
Qed.

Lemma add_assign_length : forall a b, length (pol_add_assign a b) = length a.
Proof. induction a as [|x a IH]; intros [|y b]; cbn [pol_add_assign length]; congruence. Qed.

Lemma sub_assign_length : forall a b, length (pol_sub_assign a b) = length a.
Proof. induction a as [|x a IH]; intros [|y b]; cbn [pol_sub_assign length]; congruence. Qed.

Lemma val_add_assign : forall a b, (length b <= length a)%nat -> val (pol_add_assign a b) = val a + val b.
Proof.
  induction a as [|x a IH]; intros [|y b] L; cbn [pol_add_assign val length] in *; try lia.
  rewrite IH by lia. lia.
Qed.

Lemma val_sub_assign : forall a b, (length b <= length a)%nat -> val (pol_sub_assign a b) = val a - val b.
Proof.
  induction a as [|x a IH]; intros [|y b] L; cbn [pol_sub_assign val length] in *; try lia.
  rewrite IH by lia. lia.
Qed.

Lemma add_assign_bound : forall M N a b, 0 <= N -> Forall (absle M) a -> Forall (absle N) b -> Forall (absle (M + N)) (pol_add_assign a b).
Proof.
  unfold absle. intros M N a b HN Ha. revert b. induction Ha as [|x a Hx Ha IH]; intros b Hb.
  - destruct b; constructor.
  - destruct b as [|y b]; cbn [pol_add_assign].
    + constructor; [lia|]. eapply Forall_impl; [|exact Ha]. cbn. lia.
    + inversion Hb; subst. constructor; [lia|]. apply IH. assumption.
Qed.

Lemma sub_assign_bound : forall M N a b, 0 <= N -> Forall (absle M) a -> Forall (absle N) b -> Forall (absle (M + N)) (pol_sub_assign a b).
Proof.
  unfold absle. intros M N a b HN Ha. revert b. induction Ha as [|x a Hx Ha IH]; intros b Hb.
  - destruct b; constructor.
  - destruct b as [|y b]; cbn [pol_sub_assign].
    + constructor; [lia|]. eapply Forall_impl; [|exact Ha]. cbn. lia.
    + inversion Hb; subst. constructor; [lia|]. apply IH. assumption.
Qed.

Lemma absle_weaken : forall M N l, M <= N -> Forall (absle M) l -> Forall (absle N) l.
Proof. unfold absle. intros M N l L H. eapply Forall_impl; [|exact H]. cbn. lia. Qed.

Lemma limb_absle : forall l, Forall limb l -> Forall (absle 65535) l.
Proof. unfold absle, limb. intros l H. eapply Forall_impl; [|exact H]. cbn. lia. Qed.

Lemma nth_Forall : forall (Q : Z -> Prop) l i, Forall Q l -> Q 0 -> Q (nth i l 0).
Proof.
  intros Q l i H H0. destruct (Nat.lt_ge_cases i (length l)) as [L|L].
  - rewrite Forall_forall in H. apply H. apply nth_In. exact L.
  - rewrite nth_overflow by lia. exact H0.
Qed.

(** * Products *)

Lemma sum_map_ext : forall {A} (f g : A -> Z) l, (forall x, In x l -> f x = g x) -> sum (map f l) = sum (map g l).
Proof. intros A f g l H. f_equal. apply map_ext_in. exact H. Qed.

Lemma conv_nil : forall b k, conv [] b k = 0.
Proof.
  intros. unfold conv. assert (H : forall l, sum (map (fun i => nth i [] 0 * nth (k - i) b 0) l) = 0); [|apply H].
  induction l as [|i l IH]; cbn [map sum fold_right]; [reflexivity|].
  change (fold_right Z.add 0) with sum. rewrite IH. destruct i; cbn [nth]; lia.
Qed.

Lemma conv_0 : forall x a b, conv (x :: a) b 0 = x * nth 0 b 0.
Proof. intros. unfold conv. cbn. lia. Qed.

Lemma conv_S : forall x a b k, conv (x :: a) b (S k) = x * nth (S k) b 0 + conv a b k.
Proof.
  intros. unfold conv. change (seq 0 (S (S k))) with (0%nat :: seq 1 (S k)).
  rewrite <- seq_shift. cbn [map]. rewrite map_map. reflexivity.
Qed.

Lemma conv_bound : forall a b M N k, 0 <= M -> 0 <= N -> Forall (absle M) a -> Forall (absle N) b ->
  absle (Z.of_nat (length a) * (M * N)) (conv a b k).
Proof.
  intros a b M N k HM HN Ha Hb. revert k. induction Ha as [|x a Hx Ha IH]; intros k.
  - rewrite conv_nil. unfold absle. cbn. lia.
  - assert (T : forall j, absle (M * N) (x * nth j b 0)).
    { intros j. pose proof (nth_Forall _ b j Hb) as Hy. unfold absle in *.
      specialize (Hy ltac:(lia)). nia. }
    cbn [length]. rewrite Nat2Z.inj_succ.
    destruct k as [|k].
    + rewrite conv_0. specialize (T 0%nat). unfold absle in *. nia.
    + rewrite conv_S. specialize (T (S k)). specialize (IH k). unfold absle in *. nia.
Qed.

Lemma conv_nonneg : forall a b k, Forall (fun x => 0 <= x) a -> Forall (fun x => 0 <= x) b -> 0 <= conv a b k.
Proof.
  intros a b k Ha Hb. revert k. induction Ha as [|x a Hx Ha IH]; intros k; [rewrite conv_nil; lia|].
  assert (T : forall j, 0 <= x * nth j b 0).
  { intros j. pose proof (nth_Forall (fun x => 0 <= x) b j Hb (Z.le_refl 0)). cbn in *. nia. }
  destruct k as [|k]; [rewrite conv_0; apply T|].
  rewrite conv_S. specialize (T (S k)). specialize (IH k). lia.
Qed.

Lemma val_map_nth : forall b n, (length b <= n)%nat -> val (map (fun k => nth k b 0) (seq 0 n)) = val b.
Proof.
  induction b as [|y b IH]; intros n L.
  - cbn [val]. apply val_all_zero. apply Forall_forall. intros x Hx. apply in_map_iff in Hx.
    destruct Hx as (k & <- & _). destruct k; reflexivity.
  - destruct n as [|n]; cbn [length] in L; [lia|]. cbn [seq map val nth].
    rewrite <- seq_shift, map_map. rewrite <- (IH n) by lia. reflexivity.
Qed.

Lemma val_map_lin : forall (f g : nat -> Z) x l,
  val (map (fun k => x * f k + g k) l) = x * val (map f l) + val (map g l).
Proof. induction l as [|k l IH]; cbn [map val]; [ring|]. rewrite IH. ring. Qed.

Lemma val_conv : forall a b n, (length a + length b <= S n)%nat ->
  val (map (conv a b) (seq 0 n)) = val a * val b.
Proof.
  induction a as [|x a IH]; intros b n L.
  - rewrite (map_ext (conv [] b) (fun _ => 0)) by (intro; apply conv_nil).
    rewrite val_all_zero; [cbn; lia|]. apply Forall_forall. intros y Hy. apply in_map_iff in Hy.
    destruct Hy as (? & <- & _). reflexivity.
  - cbn [length] in L. destruct n as [|n].
    + assert (b = []) by (destruct b; cbn in L; [reflexivity|lia]). subst. cbn. lia.
    + cbn [seq map val]. rewrite conv_0. rewrite <- seq_shift, map_map.
      rewrite (map_ext _ (fun k => x * nth (S k) b 0 + conv a b k)) by (intro; apply conv_S).
      rewrite val_map_lin, IH by lia.
      assert (V : nth 0 b 0 + 65536 * val (map (fun k => nth (S k) b 0) (seq 0 n)) = val b).
      { rewrite <- (val_map_nth b (S n)) by lia. cbn [seq map val]. rewrite <- (seq_shift n 0), map_map. reflexivity. }
      rewrite <- V. ring.
Qed.

Lemma seq_split : forall n m, (n <= m)%nat -> seq 0 m = seq 0 n ++ seq n (m - n).
Proof. intros n m L. replace m with (n + (m - n))%nat at 1 by lia. rewrite seq_app. reflexivity. Qed.

(** The first n coefficients determine the product modulo 2^(16n). *)
Lemma val_conv_mod : forall a b n, exists k, val a * val b = val (map (conv a b) (seq 0 n)) + Bn n * k.
Proof.
  intros a b n. set (m := Nat.max n (length a + length b)).
  exists (val (map (conv a b) (seq n (m - n)))).
  rewrite <- (val_conv a b m) by lia.
  rewrite (seq_split n m) by lia. rewrite map_app, val_app, map_length, seq_length. reflexivity.
Qed.

Lemma add_hd_length : forall l v, length (add_hd l v) = length l.
Proof. intros [|x l] v; reflexivity. Qed.

Lemma val_add_hd : forall l v, l <> [] -> val (add_hd l v) = val l + v.
Proof. intros [|x l] v H; [congruence|]. cbn. lia. Qed.

(** * (x - 2^16) * s(x) *)

Lemma adjoin_length : forall a p r, length (adjoin_from p a r) = length a.
Proof. induction a as [|x a IH]; intros; cbn [adjoin_from length]; [|rewrite IH]; reflexivity. Qed.

Lemma val_adjoin : forall a p, val (adjoin_from p a 65536) = p - Bn (length a) * last a p.
Proof.
  induction a as [|x a IH]; intros p.
  - cbn [adjoin_from val length last]. rewrite Bn_0. lia.
  - cbn [adjoin_from val length]. rewrite IH, Bn_S.
    assert (L : last (x :: a) p = last a x).
    { destruct a as [|y a]; [reflexivity|]. cbn [last]. clear IH. revert y. induction a as [|z a IH]; intro y; [reflexivity|]. cbn [last] in *. apply IH. }
    rewrite L. lia.
Qed.

Lemma adjoin_bound : forall M a p, 0 <= M -> absle M p -> Forall (absle M) a -> Forall (absle (65537 * M)) (adjoin_from p a 65536).
Proof.
  unfold absle. intros M a p HM Hp Ha. revert p Hp. induction Ha as [|x a Hx Ha IH]; intros p Hp; cbn [adjoin_from]; constructor.
  - lia.
  - apply IH. exact Hx.
Qed.

(** Exact division by x - 2^16 when the value is p + c 2^(16 n). *)
Lemma remove_root_adjoin : forall a p c, a <> [] -> val a = p + c * Bn (length a) ->
  adjoin_from p (set_last (remove_root_from p a) (- c)) 65536 = a.
Proof.
  induction a as [|x a IH]; intros p c N V; [congruence|].
  destruct a as [|y a].
  - cbn [val length] in V. change (Bn 1) with 65536 in V.
    unfold set_last. cbn [remove_root_from removelast app adjoin_from]. f_equal. lia.
  - cbn [val length] in V. rewrite Bn_S in V.
    set (q := Z.shiftr (p - x) 16).
    assert (Hq : q = val (y :: a) - c * Bn (length (y :: a))).
    { unfold q. rewrite Z.shiftr_div_pow2 by lia. change (2 ^ 16) with 65536.
      cbn [val length] in *.
      replace (p - x) with ((y + 65536 * val a - c * Bn (S (length a))) * 65536) by lia.
      apply Z.div_mul. lia. }
    change (remove_root_from p (x :: y :: a)) with (q :: remove_root_from q (y :: a)).
    specialize (IH q c ltac:(discriminate) ltac:(lia)).
    assert (NE : remove_root_from q (y :: a) <> []) by (destruct a; discriminate).
    unfold set_last in *. rewrite <- IH at 2.
    destruct (remove_root_from q (y :: a)) as [|z zs] eqn:E; [congruence|].
    change (removelast (q :: z :: zs)) with (q :: removelast (z :: zs)).
    cbn [app adjoin_from]. f_equal. cbn [val length] in *. lia.
Qed.

Lemma remove_root_length : forall a p, length (remove_root_from p a) = length a.
Proof.
  induction a as [|x a IH]; intros p; [reflexivity|]. destruct a as [|y a]; [reflexivity|].
  change (S (length (remove_root_from (Z.shiftr (p - x) 16) (y :: a))) = S (length (y :: a))). rewrite IH. reflexivity.
Qed.

Lemma pol_remove_root_from : forall x a, (65536 | x) ->
  pol_remove_root_2exp (x :: a) = - (x / 65536) :: remove_root_from (- (x / 65536)) a.
Proof. intros x a D. cbn [pol_remove_root_2exp]. rewrite Z.shiftr_div_pow2 by lia. reflexivity. Qed.

Theorem remove_root_exact : forall a c, (2 <= length a)%nat -> val a = c * Bn (length a) ->
  pol_adjoin_root (set_last (pol_remove_root_2exp a) (- c)) 65536 = a.
Proof.
  intros [|x [|y a]] c L V; cbn [length] in L; try lia. clear L.
  cbn [val length] in V. rewrite Bn_S in V.
  set (k := c * Bn (S (length a)) - val (y :: a)).
  assert (D : x = 65536 * k) by (unfold k; cbn [val]; lia).
  rewrite pol_remove_root_from by (exists k; lia).
  assert (Q : - (x / 65536) = - k).
  { rewrite D, Z.mul_comm, Z.div_mul by lia. reflexivity. }
  rewrite Q. unfold pol_adjoin_root.
  pose proof (remove_root_adjoin (y :: a) (- k) c ltac:(discriminate) ltac:(cbn [length]; unfold k; lia)) as IH.
  unfold set_last in *.
  destruct (remove_root_from (- k) (y :: a)) as [|z zs] eqn:E; [destruct a; discriminate|].
  change (removelast (- k :: z :: zs)) with (- k :: removelast (z :: zs)).
  cbn [app adjoin_from] in *. rewrite IH. f_equal. lia.
Qed.

(** The quotient's coefficients are small if a's are. *)
Lemma shiftr_bound : forall Q A p x, 0 <= Q -> absle Q p -> absle A x -> Q + A <= 65536 * Q -> absle Q (Z.shiftr (p - x) 16).
Proof.
  unfold absle. intros Q A p x HQ Hp Hx H. rewrite Z.shiftr_div_pow2 by lia. change (2 ^ 16) with 65536.
  split; [apply Z.div_le_lower_bound; lia|].
  apply Z.le_trans with ((65536 * Q) / 65536); [apply Z.div_le_mono; lia|].
  rewrite Z.mul_comm, Z.div_mul; lia.
Qed.

Lemma remove_root_from_bound : forall Q A a p, 0 <= Q -> Q + A <= 65536 * Q -> absle Q p -> Forall (absle A) a ->
  Forall (absle Q) (remove_root_from p a).
Proof.
  intros Q A a p HQ HA Hp Ha. revert p Hp. induction Ha as [|x a Hx Ha IH]; intros p Hp; [constructor|].
  destruct a as [|y a].
  - constructor; [|constructor]. unfold absle in *. lia.
  - change (remove_root_from p (x :: y :: a)) with (Z.shiftr (p - x) 16 :: remove_root_from (Z.shiftr (p - x) 16) (y :: a)).
    assert (absle Q (Z.shiftr (p - x) 16)) by (eapply shiftr_bound; eassumption).
    constructor; [assumption|]. apply IH. assumption.
Qed.

Lemma remove_root_bound : forall Q A a, 0 <= Q -> Q + A <= 65536 * Q -> Forall (absle A) a -> Forall (absle Q) (pol_remove_root_2exp a).
Proof.
  intros Q A [|x a] HQ HA H; [constructor|]. inversion H as [|? ? Hx Ha]; subst. cbn [pol_remove_root_2exp].
  assert (absle Q (- Z.shiftr x 16)).
  { unfold absle in *. rewrite Z.shiftr_div_pow2 by lia. change (2 ^ 16) with 65536.
    assert (- Q <= x / 65536) by (apply Z.div_le_lower_bound; lia).
    assert (x / 65536 <= Q).
    { apply Z.le_trans with ((65536 * Q) / 65536); [apply Z.div_le_mono; lia|]. rewrite Z.mul_comm, Z.div_mul; lia. }
    lia. }
  constructor; [assumption|]. eapply remove_root_from_bound; eassumption.
Qed.

Lemma pol_remove_root_length : forall a, length (pol_remove_root_2exp a) = length a.
Proof. intros [|x a]; [reflexivity|]. cbn [pol_remove_root_2exp length]. rewrite remove_root_length. reflexivity. Qed.

(** * Limbs of an integer *)

Lemma digits_aux : forall x n s, 0 <= x ->
  val (map (fun i => (x / 2 ^ (16 * Z.of_nat i)) mod 2^16) (seq s n)) =
  (x / 2 ^ (16 * Z.of_nat s)) mod Bn n.
Proof.
  intros x n. induction n as [|n IH]; intros s Hx.
  - cbn [seq map val]. rewrite Bn_0. symmetry. apply Z.mod_1_r.
  - cbn [seq map val]. rewrite IH by assumption. rewrite Bn_S.
    change (2 ^ 16) with 65536.
    rewrite Z.rem_mul_r by (pose proof (Bn_pos n); lia). f_equal. f_equal. f_equal.
    rewrite Nat2Z.inj_succ. replace (16 * Z.succ (Z.of_nat s)) with (16 * Z.of_nat s + 16) by lia.
    rewrite Z.pow_add_r by lia. change (2 ^ 16) with 65536.
    rewrite Z.div_div; [reflexivity| |lia]. apply Z.pow_nonzero; lia.
Qed.

Lemma u256_length : forall x, length (u256_to_array x) = 16%nat.
Proof. intros. unfold u256_to_array. rewrite map_length, seq_length. reflexivity. Qed.

Lemma u256_limbs : forall x, Forall limb (u256_to_array x).
Proof.
  intros. unfold u256_to_array. apply Forall_forall. intros y Hy. apply in_map_iff in Hy.
  destruct Hy as (i & <- & _). unfold limb. apply Z.mod_pos_bound. lia.
Qed.

Lemma u256_val : forall x, 0 <= x < 2^256 -> val (u256_to_array x) = x.
Proof.
  intros x Hx. unfold u256_to_array. rewrite digits_aux by lia. change (Bn N_LIMBS) with (2^256).
  change (2 ^ (16 * Z.of_nat 0)) with 1. rewrite Z.div_1_r. apply Z.mod_small. lia.
Qed.

(** * Small field expressions *)

Lemma zeros_of_field : forall l M, M < P -> Forall (absle M) l -> Forall (fun e => e mod P = 0) l -> Forall (fun e => e = 0) l.
Proof.
  unfold absle. intros l M HM Hb H. induction H as [|x l Hx H IH]; [constructor|].
  inversion Hb; subst. constructor; [apply small_zero; [assumption|lia]|apply IH; assumption].
Qed.
