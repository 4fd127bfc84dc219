(** C36: the type-1 stack machine accepts exactly the serializations of witness
    tries and rebuilds the trie.  C57: the frontend turns a witness trie into the
    partial state trie with the same nodes, one storage trie per account. *)

From Coq Require Import List Arith NArith Bool Lia ZifyN ZifyNat ZifyBool Sorting.Sorted.
From Verif.Mpt Require Import NibblesModel TrieModel HashModel TrieSpec TrieFacts TrieOpsProofs TrieIterProofs.
From Verif.Trace Require Import WireModel Type1Model.
Import ListNotations.
Local Open Scope nat_scope.

Section WnodeInd.
  Variable P : wnode -> Prop.
  Hypothesis H1 : forall h, P (WHash h).
  Hypothesis H2 : forall k v, P (WValue k v).
  Hypothesis H3 : forall k n b c, P (WAccount k n b None c).
  Hypothesis H4 : forall k n b s c, P s -> P (WAccount k n b (Some s) c).
  Hypothesis H5 : forall k c, P c -> P (WExt k c).
  Hypothesis H6 : forall cs, (forall c, In (Some c) cs -> P c) -> P (WBranch cs).
  Hypothesis H7 : forall c, P (WCode c).
  Hypothesis H8 : P WEmpty.
  Fixpoint wnode_ind' (w : wnode) : P w :=
    match w with
    | WHash h => H1 h
    | WValue k v => H2 k v
    | WAccount k n b None c => H3 k n b c
    | WAccount k n b (Some s) c => H4 k n b s c (wnode_ind' s)
    | WExt k c => H5 k c (wnode_ind' c)
    | WBranch cs => H6 cs ((fix go (l : list (option wnode)) : forall c, In (Some c) l -> P c :=
         match l with
         | [] => fun c H => match H with end
         | x :: t => fun c H => match H with
             | or_introl E => match x as x0 return x0 = Some c -> P c with
                              | Some y => fun E => match E in _ = z return match z with Some q => P q | None => True end with eq_refl => wnode_ind' y end
                              | None => fun E => match E with end
                              end E
             | or_intror H => go t c H
             end
         end) cs)
    | WCode c => H7 c
    | WEmpty => H8
    end.
End WnodeInd.

(** ** Serialization of witness tries *)

Definition is_someb {A} (o : option A) : bool := match o with Some _ => true | None => false end.

(** The instruction for the code of an account, if any. *)
Definition code_instr (c : option (list N + list N)) : list instruction :=
  match c with
  | None => []
  | Some (inl h) => [IHash h]
  | Some (inr c) => [ICode c]
  end.

(** The bits of a branch mask tell which of the sixteen children are there. *)
Definition mask_of (cs : list (option wnode)) (mask : N) : Prop :=
  (mask < 2 ^ 16)%N /\ forall i, i < 16 -> N.testbit mask (N.of_nat i) = is_someb (nth i cs None).

(** [builds w l]: [l] is a serialization of [w], children first, from left to
    right.  A zero nonce or balance may be left out. *)
Inductive builds : wnode -> list instruction -> Prop :=
| bd_hash h : builds (WHash h) [IHash h]
| bd_value k v : builds (WValue k v) [ILeaf k v]
| bd_code c : builds (WCode c) [ICode c]
| bd_empty : builds WEmpty [IEmptyRoot]
| bd_ext k c l : builds c l -> builds (WExt k c) (l ++ [IExtension k])
| bd_account k on ob code :
    builds (WAccount k (or_zero on) (or_zero ob) None code)
           (code_instr code ++ [IAccountLeaf k on ob (is_someb code) false])
| bd_account_storage k on ob code s l : builds s l ->
    builds (WAccount k (or_zero on) (or_zero ob) (Some s) code)
           (code_instr code ++ l ++ [IAccountLeaf k on ob (is_someb code) true])
| bd_branch cs mask l : length cs = 16 -> mask_of cs mask -> builds_children cs l ->
    builds (WBranch cs) (l ++ [IBranch mask])
with builds_children : list (option wnode) -> list instruction -> Prop :=
| bc_nil : builds_children [] []
| bc_none cs l : builds_children cs l -> builds_children (None :: cs) l
| bc_some c lc cs l : builds c lc -> builds_children cs l -> builds_children (Some c :: cs) (lc ++ l).

Scheme builds_mut := Minimality for builds Sort Prop
  with builds_children_mut := Minimality for builds_children Sort Prop.

(** A node that can be the root of a witness. *)
Definition root_ok (w : wnode) : Prop :=
  match w with WHash _ | WCode _ => False | _ => True end.

(** Several witnesses are separated by [NewTrie]. *)
Inductive serial : list wnode -> list instruction -> Prop :=
| serial_one w l : root_ok w -> builds w l -> serial [w] l
| serial_more w l ws l' : root_ok w -> builds w l -> serial ws l' -> serial (w :: ws) (l ++ INewTrie :: l').

(** *** Serializations are executed *)

Fixpoint somes (cs : list (option wnode)) : list wnode :=
  match cs with
  | [] => []
  | None :: cs => somes cs
  | Some c :: cs => c :: somes cs
  end.

Lemma somes_app a b : somes (a ++ b) = somes a ++ somes b.
Proof. induction a as [|[c|] a IH]; cbn; congruence. Qed.

Lemma pop_S mask ix stack acc : pop_children mask (S ix) stack acc =
  if N.testbit mask (N.of_nat ix) then
    if 16 <=? ix then None else match stack with [] => None | n :: stack => pop_children mask ix stack (Some n :: acc) end
  else pop_children mask ix stack (if 16 <=? ix then acc else None :: acc).
Proof. reflexivity. Qed.

Lemma pop_high mask m st acc : (mask < 2 ^ 16)%N -> pop_children mask (m + 16) st acc = pop_children mask 16 st acc.
Proof.
  intros H. induction m as [|m IH]; [reflexivity|]. change (S m + 16) with (S (m + 16)). rewrite pop_S.
  assert (E : N.testbit mask (N.of_nat (m + 16)) = false).
  { destruct (N.eq_dec mask 0) as [->|Hz]; [apply N.bits_0|]. apply N.bits_above_log2. apply N.log2_lt_pow2; [lia|].
    eapply N.lt_le_trans; [exact H|]. apply N.pow_le_mono_r; lia. }
  rewrite E. destruct (Nat.leb_spec 16 (m + 16)); [|lia]. exact IH.
Qed.

Lemma pop_low mask cs acc s : length cs <= 16 ->
  (forall i, i < length cs -> N.testbit mask (N.of_nat i) = is_someb (nth i cs None)) ->
  pop_children mask (length cs) (rev (somes cs) ++ s) acc = Some (cs ++ acc, s).
Proof.
  revert acc. induction cs as [|c cs IH] using rev_ind; intros acc L T; [reflexivity|].
  rewrite app_length in *. cbn [length] in *. replace (length cs + 1) with (S (length cs)) by lia. rewrite pop_S.
  rewrite T by lia. rewrite app_nth2, Nat.sub_diag by lia. cbn [nth].
  rewrite somes_app, rev_app_distr.
  assert (T' : forall i, i < length cs -> N.testbit mask (N.of_nat i) = is_someb (nth i cs None)).
  { intros i Hi. rewrite T by lia. now rewrite app_nth1. }
  destruct c as [c|]; cbn [is_someb somes rev app].
  - destruct (Nat.leb_spec 16 (length cs)); [lia|]. rewrite IH by (auto; lia). now rewrite <- app_assoc.
  - destruct (Nat.leb_spec 16 (length cs)); [lia|]. rewrite IH by (auto; lia). now rewrite <- app_assoc.
Qed.

Lemma pop_branch mask cs s : length cs = 16 -> mask_of cs mask -> pop_children mask 64 (rev (somes cs) ++ s) [] = Some (cs, s).
Proof.
  intros L [M T]. replace 64 with (48 + 16) by reflexivity. rewrite pop_high by exact M. rewrite <- L, pop_low; [now rewrite app_nil_r|lia|].
  rewrite L. exact T.
Qed.

Lemma builds_run : forall w l, builds w l -> forall rest s wit, execute_from (l ++ rest) s wit = execute_from rest (w :: s) wit.
Proof.
  apply (builds_mut
    (fun w l => forall rest s wit, execute_from (l ++ rest) s wit = execute_from rest (w :: s) wit)
    (fun cs l => forall rest s wit, execute_from (l ++ rest) s wit = execute_from rest (rev (somes cs) ++ s) wit)).
  - reflexivity.
  - reflexivity.
  - reflexivity.
  - reflexivity.
  - intros k c l _ IH rest s wit. rewrite <- app_assoc, IH. reflexivity.
  - intros k on ob code rest s wit. destruct code as [[h|c]|]; reflexivity.
  - intros k on ob code st l _ IH rest s wit. destruct code as [[h|c]|]; cbn [code_instr app];
      rewrite <- ?app_assoc; cbn [execute_from exec1]; rewrite IH; reflexivity.
  - intros cs mask l L M _ IH rest s wit. rewrite <- app_assoc, IH. cbn [app execute_from exec1].
    now rewrite pop_branch.
  - reflexivity.
  - intros cs l _ IH. exact IH.
  - intros c lc cs l _ IHc _ IH rest s wit. rewrite <- app_assoc, IHc, IH. cbn [somes rev]. now rewrite <- app_assoc.
Qed.

Lemma root_finish w : root_ok w -> finish_stack [w] = Some w.
Proof. destruct w; cbn; easy. Qed.

Lemma finish_root s w : finish_stack s = Some w -> s = [w] /\ root_ok w.
Proof.
  destruct s as [|x [|y s]]; try discriminate. cbn. destruct x; intros H; try discriminate;
  match type of H with Some ?a = Some ?b => assert (a = b) as <- by congruence end; cbn; auto.
Qed.

Lemma serial_run ws l : serial ws l -> forall wit, execute_from l [] wit = Some (wit ++ ws).
Proof.
  induction 1 as [w l R B|w l ws l' R B _ IH]; intros wit.
  - rewrite <- (app_nil_r l), (builds_run w l B). cbn [execute_from]. now rewrite root_finish.
  - rewrite (builds_run w l B). cbn [execute_from]. rewrite root_finish by auto. rewrite IH. now rewrite <- app_assoc.
Qed.

(** *** Only serializations are executed *)

(** The stack, top first, is what the instructions so far have built. *)
Inductive stacked : list wnode -> list instruction -> Prop :=
| st_nil : stacked [] []
| st_cons w lw s l : builds w lw -> stacked s l -> stacked (w :: s) (l ++ lw).

Lemma builds_children_snoc cs l : builds_children cs l ->
  builds_children (cs ++ [None]) l /\ forall c lc, builds c lc -> builds_children (cs ++ [Some c]) (l ++ lc).
Proof.
  induction 1 as [|cs l _ [IH1 IH2]|c lc cs l B _ [IH1 IH2]].
  - split; [repeat constructor|]. intros c lc B. cbn. rewrite <- (app_nil_r lc). now repeat constructor.
  - split; [constructor; auto|]. intros c lc B. cbn. constructor. auto.
  - split; [constructor; auto|]. intros c' lc' B'. cbn. rewrite <- app_assoc. constructor; auto.
Qed.

Lemma builds_children_app b : forall a la lb, builds_children a la -> builds_children b lb -> builds_children (a ++ b) (la ++ lb).
Proof.
  intros a la lb H Hb. induction H as [|cs l _ IH|c lc cs l B _ IH]; cbn.
  - exact Hb.
  - constructor. exact IH.
  - rewrite <- app_assoc. now constructor.
Qed.

Lemma pop_stacked mask : forall bits s l acc cs s', stacked s l -> pop_children mask bits s acc = Some (cs, s') ->
  exists cs0 l' lc, cs = cs0 ++ acc /\ length cs0 = Nat.min bits 16 /\ l = l' ++ lc /\ stacked s' l' /\ builds_children cs0 lc /\
    (forall i, i < Nat.min bits 16 -> N.testbit mask (N.of_nat i) = is_someb (nth i cs0 None)) /\
    (forall i, 16 <= i < bits -> N.testbit mask (N.of_nat i) = false).
Proof.
  induction bits as [|ix IH]; intros s l acc cs s' S H.
  - cbn [pop_children] in H. assert (acc = cs /\ s = s') as [-> ->] by (split; congruence). exists [], l, []. cbn. rewrite app_nil_r.
    repeat split; auto; try constructor; intros; lia.
  - rewrite pop_S in H. destruct (N.testbit mask (N.of_nat ix)) eqn:T.
    + destruct (Nat.leb_spec 16 ix) as [|L]; [discriminate|]. destruct S as [|w lw s l B S]; [discriminate|].
      destruct (IH _ _ _ _ _ S H) as (cs0 & l' & lc & -> & L0 & -> & S' & BC & T0 & T1).
      exists (cs0 ++ [Some w]), l', (lc ++ lw). rewrite <- app_assoc. split; [reflexivity|]. split; [rewrite app_length, L0; cbn; lia|].
      split; [now rewrite app_assoc|]. split; [auto|]. split; [now apply builds_children_snoc|]. split; [|intros; lia].
      intros i Hi. destruct (Nat.eq_dec i ix) as [->|].
      * rewrite T, app_nth2 by lia. rewrite L0. replace (ix - Nat.min ix 16) with 0 by lia. reflexivity.
      * rewrite app_nth1 by lia. apply T0. lia.
    + destruct (IH _ _ _ _ _ S H) as (cs0 & l' & lc & -> & L0 & -> & S' & BC & T0 & T1).
      destruct (Nat.leb_spec 16 ix) as [L|L].
      * exists cs0, l', lc. split; [reflexivity|]. split; [lia|]. repeat split; auto.
        -- intros i Hi. apply T0. lia.
        -- intros i Hi. destruct (Nat.eq_dec i ix) as [->|]; [auto|]. apply T1. lia.
      * exists (cs0 ++ [None]), l', lc. rewrite <- app_assoc. split; [reflexivity|]. split; [rewrite app_length, L0; cbn; lia|].
        repeat split; auto; [now apply builds_children_snoc| |intros; lia].
        intros i Hi. destruct (Nat.eq_dec i ix) as [->|].
        -- rewrite T, app_nth2 by lia. rewrite L0. replace (ix - Nat.min ix 16) with 0 by lia. reflexivity.
        -- rewrite app_nth1 by lia. apply T0. lia.
Qed.

(** Masks are [u64] values. *)
Definition instr_ok (i : instruction) : Prop := match i with IBranch m => (m < 2 ^ 64)%N | _ => True end.

Lemma testbit_bound m k : (m < 2 ^ 64)%N -> (forall i, k <= i < 64 -> N.testbit m (N.of_nat i) = false) -> (m < 2 ^ N.of_nat k)%N.
Proof.
  intros H T. destruct (N.eq_dec m 0) as [->|Hz]; [apply N.neq_0_lt_0, N.pow_nonzero; lia|].
  apply N.log2_lt_pow2; [lia|]. destruct (N.lt_ge_cases (N.log2 m) (N.of_nat k)) as [|G]; [auto|].
  assert (N.log2 m < 64)%N by (apply N.log2_lt_pow2; lia).
  specialize (T (N.to_nat (N.log2 m))). rewrite Nnat.N2Nat.id, N.bit_log2 in T by auto. discriminate T. lia.
Qed.

Lemma builds_code_inv w lw : builds w lw -> forall h, w = WHash h -> lw = [IHash h].
Proof. destruct 1; congruence. Qed.
Lemma builds_code_inv' w lw : builds w lw -> forall h, w = WCode h -> lw = [ICode h].
Proof. destruct 1; congruence. Qed.

Lemma exec1_branch mask s : exec1 (IBranch mask) s =
  match pop_children mask 64 s [] with Some (children, stack) => Some (WBranch children :: stack) | None => None end.
Proof. reflexivity. Qed.

Lemma exec1_stacked i s l s' : instr_ok i -> stacked s l -> exec1 i s = Some s' -> stacked s' (l ++ [i]).
Proof.
  intros OK S H.
  assert (D : (exists mask, i = IBranch mask) \/ (forall mask, i <> IBranch mask)) by (destruct i; eauto; right; discriminate).
  destruct D as [[mask ->]|D].
  { rewrite exec1_branch in H. destruct (pop_children mask 64 s []) as [[cs st]|] eqn:P; [|discriminate].
    assert (WBranch cs :: st = s') as <- by congruence.
    destruct (pop_stacked _ _ _ _ _ _ _ S P) as (cs0 & l' & lc & E & L0 & -> & S' & BC & T0 & T1).
    rewrite app_nil_r in E. subst cs0. rewrite <- app_assoc. constructor; [|auto]. cbn [Nat.min] in *.
    constructor; auto. split; [|exact T0]. apply (testbit_bound mask 16); auto. }
  destruct i; try (now destruct (D mask)); cbn [exec1] in H; try discriminate;
    try (match type of H with Some ?a = Some ?b => assert (a = b) as <- by congruence end; constructor; [constructor|assumption]).
  - destruct S as [|w lw s l B S]; [discriminate|].
    assert (WExt key w :: s = s') as <- by congruence. rewrite <- app_assoc. constructor; [now constructor|auto].
  - destruct has_code, has_storage.
    + destruct S as [|w lw s l B S]; [discriminate|]. destruct S as [|w2 lw2 s l B2 S]; [discriminate|].
      destruct w2; try discriminate.
      * match type of H with Some ?a = Some ?b => assert (a = b) as <- by congruence end.
        rewrite (builds_code_inv _ _ B2 _ eq_refl). rewrite <- !app_assoc. constructor; [|auto].
        apply (bd_account_storage key nonce balance (Some (inl raw_hash))). auto.
      * match type of H with Some ?a = Some ?b => assert (a = b) as <- by congruence end.
        rewrite (builds_code_inv' _ _ B2 _ eq_refl). rewrite <- !app_assoc. constructor; [|auto].
        apply (bd_account_storage key nonce balance (Some (inr code))). auto.
    + destruct S as [|w lw s l B S]; [discriminate|]. destruct w; try discriminate.
      * match type of H with Some ?a = Some ?b => assert (a = b) as <- by congruence end.
        rewrite (builds_code_inv _ _ B _ eq_refl). rewrite <- !app_assoc. constructor; [|auto].
        apply (bd_account key nonce balance (Some (inl raw_hash))).
      * match type of H with Some ?a = Some ?b => assert (a = b) as <- by congruence end.
        rewrite (builds_code_inv' _ _ B _ eq_refl). rewrite <- !app_assoc. constructor; [|auto].
        apply (bd_account key nonce balance (Some (inr code))).
    + destruct S as [|w lw s l B S]; [discriminate|].
      match type of H with Some ?a = Some ?b => assert (a = b) as <- by congruence end.
      rewrite <- !app_assoc. constructor; [|auto]. now apply (bd_account_storage key nonce balance None).
    + match type of H with Some ?a = Some ?b => assert (a = b) as <- by congruence end.
      constructor; [|auto]. apply (bd_account key nonce balance None).
Qed.

Lemma stacked_one w l : stacked [w] l -> builds w l.
Proof. intros H. inversion H as [|? lw ? l' B S]; subst. inversion S; subst. exact B. Qed.

Lemma run_serial : forall l s l0 wit ws, Forall instr_ok l -> stacked s l0 -> execute_from l s wit = Some ws ->
  exists ws', ws = wit ++ ws' /\ serial ws' (l0 ++ l).
Proof.
  induction l as [|i l IH]; intros s l0 wit ws F S H.
  - cbn in H. destruct (finish_stack s) as [w|] eqn:E; [|discriminate]. apply finish_root in E as [-> R].
    exists [w]. split; [congruence|]. rewrite app_nil_r. constructor; auto. now apply stacked_one.
  - apply Forall_cons_iff in F as [Fi F].
    assert (D : (i = INewTrie) \/ (execute_from (i :: l) s wit = match exec1 i s with Some s => execute_from l s wit | None => None end)) by (destruct i; auto).
    destruct D as [->|E].
    + cbn [execute_from] in H. destruct (finish_stack s) as [w|] eqn:E; [|discriminate]. apply finish_root in E as [-> R].
      destruct (IH _ _ _ _ F st_nil H) as (ws' & -> & Sr). exists (w :: ws'). split; [now rewrite <- app_assoc|].
      constructor; auto. now apply stacked_one.
    + rewrite E in H. destruct (exec1 i s) as [s1|] eqn:X; [|discriminate].
      destruct (IH _ _ _ _ F (exec1_stacked _ _ _ _ Fi S X) H) as (ws' & -> & Sr). exists ws'. split; [auto|]. now rewrite <- app_assoc in Sr.
Qed.

(** The stack machine accepts exactly the serializations of lists of witness
    tries, and returns these tries, node for node. *)
Theorem C36_execute : forall l ws, Forall instr_ok l -> (execute l = Some ws <-> serial ws l).
Proof.
  intros l ws F. split.
  - intros H. destruct (run_serial l [] [] [] ws F st_nil H) as (ws' & -> & S). exact S.
  - intros S. exact (serial_run ws l S []).
Qed.
Print Assumptions C36_execute.

(** A stream is the serialization of one trie at most. *)
Theorem C36_unique : forall l w w', builds w l -> builds w' l -> w = w'.
Proof.
  intros l w w' B B'. pose proof (builds_run w l B [IExtension []] [] []) as H. rewrite (builds_run w' l B') in H. cbn in H. congruence.
Qed.
Print Assumptions C36_unique.

Definition demo_leaf : wnode := WAccount [1; 2] 5 0 (Some (WExt [3] (WHash [9%N]))) (Some (inr [7%N])).
Definition demo_tree : wnode :=
  WBranch [None; Some demo_leaf; None; Some (WHash [8%N]); None; None; None; None; None; None; None; None; None; None; None; Some (WAccount [4] 0 6 None None)].
Definition demo_stream : list instruction :=
  [ICode [7%N]; IHash [9%N]; IExtension [3]; IAccountLeaf [1; 2] (Some 5%N) None true true; IHash [8%N]; IAccountLeaf [4] (Some 0%N) (Some 6%N) false false; IBranch 0x800A].
Example C36_example : execute demo_stream = Some [demo_tree] /\ Forall instr_ok demo_stream /\ serial [demo_tree] demo_stream /\
  execute (demo_stream ++ [INewTrie; IEmptyRoot]) = Some [demo_tree; WEmpty] /\
  execute [IHash [1%N]; IBranch 3] = None /\ execute [IHash [1%N]] = None /\ execute [IEmptyRoot; IEmptyRoot] = None.
Proof.
  assert (F : Forall instr_ok demo_stream) by (repeat constructor).
  repeat split; auto. now apply C36_execute.
Qed.

(** ** The tries a witness stands for *)

(** The storage trie a witness node stands for, if it is one. *)
Fixpoint storage_trie (w : wnode) : option node :=
  match w with
  | WHash h => Some (Hash h)
  | WValue k v => Some (Leaf k (rlp_bytes v))
  | WExt k c => option_map (Ext k) (storage_trie c)
  | WBranch cs =>
      option_map (fun ch => Branch ch [])
        ((fix go (l : list (option wnode)) : option (list node) :=
            match l with
            | [] => Some []
            | None :: l => option_map (cons Empty) (go l)
            | Some c :: l => match storage_trie c, go l with Some t, Some r => Some (t :: r) | _, _ => None end
            end) cs)
  | WEmpty => Some Empty
  | WAccount _ _ _ _ _ | WCode _ => None
  end.

Fixpoint storage_tries (l : list (option wnode)) : option (list node) :=
  match l with
  | [] => Some []
  | None :: l => option_map (cons Empty) (storage_tries l)
  | Some c :: l => match storage_trie c, storage_tries l with Some t, Some r => Some (t :: r) | _, _ => None end
  end.

Lemma storage_trie_branch cs : storage_trie (WBranch cs) = option_map (fun ch => Branch ch []) (storage_tries cs).
Proof. reflexivity. Qed.

(** A trie as it may be stored: canonical, no path longer than 64 nibbles. *)
Definition proper (t : node) : Prop := canon t /\ forall k x, stored t k x -> length k <= 64.

Section State.
  Variable keccak : list N -> list N.

  Definition code_hash (c : option (list N + list N)) : list N :=
    match c with None => keccak [] | Some (inl h) => h | Some (inr c) => keccak c end.

  Definition storage_of (s : option wnode) : option node :=
    match s with None => Some Empty | Some w => storage_trie w end.

  (** The state trie a witness node stands for: at an account, the RLP of the
      account with the root of its storage trie.  Code nodes are not part of it. *)
  Fixpoint state_trie (w : wnode) : option node :=
    match w with
    | WHash h => Some (Hash h)
    | WValue _ _ => None
    | WAccount k nonce balance s c =>
        option_map (fun st => Leaf k (account_rlp nonce balance (hash_trie keccak st) (code_hash c))) (storage_of s)
    | WExt k c => option_map (Ext k) (state_trie c)
    | WBranch cs =>
        option_map (fun ch => Branch ch [])
          ((fix go (l : list (option wnode)) : option (list node) :=
              match l with
              | [] => Some []
              | None :: l => option_map (cons Empty) (go l)
              | Some c :: l => match state_trie c, go l with Some t, Some r => Some (t :: r) | _, _ => None end
              end) cs)
    | WCode _ => Some Empty
    | WEmpty => Some Empty
    end.

  Fixpoint state_tries (l : list (option wnode)) : option (list node) :=
    match l with
    | [] => Some []
    | None :: l => option_map (cons Empty) (state_tries l)
    | Some c :: l => match state_trie c, state_tries l with Some t, Some r => Some (t :: r) | _, _ => None end
    end.

  Lemma state_trie_branch cs : state_trie (WBranch cs) = option_map (fun ch => Branch ch []) (state_tries cs).
  Proof. reflexivity. Qed.

  (** [account_at w p n b s c]: the witness has an account with path [p], nonce
      [n], balance [b], storage [s] and code [c]. *)
  Inductive account_at : wnode -> nibbles -> N -> N -> option wnode -> option (list N + list N) -> Prop :=
  | aa_here k n b s c : account_at (WAccount k n b s c) k n b s c
  | aa_ext k w p n b s c : account_at w p n b s c -> account_at (WExt k w) (k ++ p) n b s c
  | aa_branch cs i w p n b s c : nth_error cs i = Some (Some w) -> account_at w p n b s c -> account_at (WBranch cs) (i :: p) n b s c.

  (** [code_in w c]: the witness has the code [c] of an account or by itself. *)
  Inductive code_in : wnode -> list N -> Prop :=
  | ci_account k n b s c : code_in (WAccount k n b s (Some (inr c))) c
  | ci_code c : code_in (WCode c) c
  | ci_ext k w c : code_in w c -> code_in (WExt k w) c
  | ci_branch cs w c : In (Some w) cs -> code_in w c -> code_in (WBranch cs) c.

  (** *** Inserting the entries of a canonical trie rebuilds it *)

  Fixpoint insert_all (n : node) (l : list (nibbles * val_or_hash)) : res node :=
    match l with
    | [] => Ok n
    | (k, x) :: l => bind (trie_insert n k x) (fun n => insert_all n l)
    end.

  Lemma insert_all_app l1 l2 n : insert_all n (l1 ++ l2) = bind (insert_all n l1) (fun n => insert_all n l2).
  Proof. revert n. induction l1 as [|[k x] l1 IH]; intros n; cbn; [auto|]. destruct (trie_insert n k x); cbn; auto. Qed.

  Lemma compat_diverge n : forall k, canon n -> nibs_ok k ->
    (forall k' x, look n k' = Some x -> diverge k' k) -> compat k n.
  Proof.
    induction n as [ | h | ch w IH | ns c IH | ns w ] using node_ind'; intros k C Hk HK.
    - constructor.
    - exfalso. exact (HK [] (VHash h) eq_refl).
    - destruct (canon_branch_inv _ _ C) as (-> & HL16 & HC & _).
      destruct (canon_branch_two _ C) as (i & j & ki & kj & vi & vj & Hij & Hi & Hj).
      destruct k as [|m k].
      + destruct (HK _ _ Hi).
      + apply nibs_ok_cons in Hk as [Hm Hk].
        destruct (nth_error_lt ch m) as [c Hc]; [lia|].
        apply (PBranch m k ch [] c Hc). eapply IH; eauto.
        intros k' x Hx. assert (D : diverge (m :: k') (m :: k)) by (apply (HK _ x); now rewrite look_branch, Hc).
        cbn in D. intuition.
    - destruct (canon_ext_inv _ _ C) as (Hne & Hns & Hb & Cc).
      destruct (canon_nonempty c Cc) as (q & y & Hq); [destruct c; easy|].
      destruct (diverge_or_prefix ns k) as [D|[[k' ->]|[r ->]]].
      + now apply PExt.
      + apply PExtIn. apply nibs_ok_app in Hk as [_ Hk']. apply IH; auto.
        intros q' x Hx. apply (diverge_app_l ns). apply (HK _ x). now rewrite look_ext_app.
      + exfalso. assert (D : diverge ((k ++ r) ++ q) k) by (apply (HK _ y); now rewrite look_ext_app).
        rewrite <- app_assoc in D. rewrite <- (app_nil_r k) in D at 2. apply diverge_app_l in D. now destruct (r ++ q).
    - constructor. apply (HK ns (Val w)). cbn. now rewrite nibbles_eqb_refl.
  Qed.

  (** Distinct paths of a canonical trie diverge. *)
  Lemma look_diverge n : forall k k' x x', canon n -> look n k = Some x -> look n k' = Some x' -> k <> k' -> diverge k k'.
  Proof.
    induction n as [ | h | ch w IH | ns c IH | ns w ] using node_ind'; intros k k' x x' C H H' N.
    - discriminate.
    - destruct k, k'; try discriminate. easy.
    - destruct (canon_branch_inv _ _ C) as (-> & HL16 & HC & _).
      destruct k as [|i k]; [discriminate|]. destruct k' as [|j k']; [discriminate|].
      rewrite look_branch in H, H'. destruct (nth_error ch i) as [ci|] eqn:Ei; [|discriminate]. destruct (nth_error ch j) as [cj|] eqn:Ej; [|discriminate].
      cbn. destruct (Nat.eq_dec i j) as [->|]; [right|left; auto]. split; [auto|]. replace cj with ci in H' by congruence.
      eapply IH; eauto. congruence.
    - destruct (canon_ext_inv _ _ C) as (Hne & Hns & Hb & Cc).
      apply look_ext_some in H as (r & -> & H). apply look_ext_some in H' as (r' & -> & H').
      apply diverge_app_l. eapply IH; eauto. congruence.
    - apply look_leaf_some in H as [-> _]. apply look_leaf_some in H' as [-> _]. easy.
  Qed.

  Lemma look_nibs n : forall k x, canon n -> look n k = Some x -> nibs_ok k.
  Proof.
    induction n as [ | h | ch w IH | ns c IH | ns w ] using node_ind'; intros k x C H.
    - discriminate.
    - destruct k; [constructor|discriminate].
    - destruct (canon_branch_inv _ _ C) as (-> & HL16 & HC & _). destruct k as [|i k]; [discriminate|].
      rewrite look_branch in H. destruct (nth_error ch i) as [ci|] eqn:Ei; [|discriminate].
      apply nibs_ok_cons. split; [|eapply IH; eauto]. rewrite <- HL16. apply nth_error_Some. congruence.
    - destruct (canon_ext_inv _ _ C) as (Hne & Hns & Hb & Cc). apply look_ext_some in H as (r & -> & H).
      apply nibs_ok_app. split; [auto|]. eapply IH; eauto.
    - apply look_leaf_some in H as [-> _]. now apply canon_leaf_inv in C.
  Qed.

  Definition assoc (l : list (nibbles * val_or_hash)) (k : nibbles) (x : val_or_hash) : Prop := In (k, x) l.

  Lemma insert_all_canon : forall l n, canon n -> NoDup (map fst l) ->
    (forall k x, In (k, x) l -> nibs_ok k) ->
    (forall k x k' x', In (k, x) l -> In (k', x') l -> k <> k' -> diverge k' k) ->
    (forall k x k' x', In (k, x) l -> look n k' = Some x' -> diverge k' k) ->
    exists n', insert_all n l = Ok n' /\ canon n' /\ forall k x, look n' k = Some x <-> In (k, x) l \/ look n k = Some x.
  Proof.
    induction l as [|[k x] l IH]; intros n C ND Hok HD HN.
    - exists n. repeat split; auto; cbn; tauto.
    - cbn [map fst] in ND. inversion ND as [|? ? Hnot ND']; subst.
      assert (Hnone : look n k = None).
      { destruct (look n k) as [y|] eqn:E; [|auto]. exfalso. apply (HN k x k y) in E; [|now left]. apply diverge_neq in E. easy. }
      destruct (insert_ok n k x C) as (n1 & E1 & C1 & _ & _ & L1).
      + apply compat_diverge; auto. { eapply Hok. now left. } intros k' x' H'. eapply HN; [now left|eauto].
      + eapply Hok. now left.
      + now left.
      + destruct (IH n1 C1 ND') as (n' & E' & C' & L').
        * intros; eapply Hok; right; eauto.
        * intros; eapply HD; try (right; eauto); auto.
        * intros k1 x1 k' x' Hin Hl. rewrite L1 in Hl. destruct (key_eq_dec k' k) as [->|].
          -- eapply HD; [right; eauto|now left|]. intros ->. apply Hnot. apply in_map_iff. exists (k, x1). auto.
          -- eapply HN; [right; eauto|eauto].
        * exists n'. cbn [insert_all]. unfold trie_insert in *. rewrite E1. cbn [bind]. split; [auto|]. split; [auto|].
          intros k' x'. rewrite L', L1. destruct (key_eq_dec k' k) as [->|Nk]; cbn [In].
          -- split; [intros [H|H]; [left; right; auto|left; left; congruence]|].
             intros [[H|H]|H]; [right; congruence|left; auto|congruence].
          -- split; [intros [H|H]; auto|]. intros [[H|H]|H]; [congruence|auto|auto].
  Qed.

  Lemma ents_nodup t : canon t -> NoDup (map fst (ents t)).
  Proof.
    intros C. pose proof (ents_sorted t C) as S. induction S as [|k l S IH F]; constructor; auto.
    intros Hin. rewrite Forall_forall in F. specialize (F _ Hin).
    assert (Irr : forall a, ~ key_lt a a) by (induction a as [|x a IHa]; intros X; inversion X; subst; [lia|auto]).
    exact (Irr _ F).
  Qed.

  Lemma rebuild t : canon t -> insert_all Empty (ents t) = Ok t.
  Proof.
    intros C. destruct (insert_all_canon (ents t) Empty) as (t' & E & C' & L).
    - constructor.
    - now apply ents_nodup.
    - intros k x H. apply in_ents_look in H. eapply look_nibs; eauto.
    - intros k x k' x' H H' N. apply in_ents_look in H. apply in_ents_look in H'. eapply look_diverge; eauto.
    - intros. discriminate.
    - rewrite E. f_equal. apply canon_unique; auto. intros k.
      destruct (look t k) as [x|] eqn:Ek.
      + apply L. left. now apply in_ents_look.
      + destruct (look t' k) as [x|] eqn:Ek'; [|auto]. exfalso. apply L in Ek' as [H|H]; [|discriminate]. apply in_ents_look in H. congruence.
  Qed.
  (** *** The storage visitor inserts the entries in order *)

  Definition short (l : list (nibbles * val_or_hash)) : Prop := Forall (fun e => length (fst e) <= 64) l.

  Lemma mpt_key_short k : length k <= 64 -> mpt_key k = Some k.
  Proof. intros H. unfold mpt_key. destruct (Nat.leb_spec (length k) 64); [auto|lia]. Qed.

  Fixpoint visit_storages (path : nibbles) (l : list (option wnode)) (ix : nat) (mpt : node) : outcome node :=
    match l with
    | [] => Done mpt
    | None :: l => visit_storages path l (S ix) mpt
    | Some c :: l => do! mpt <- visit_storage mpt (path ++ [ix]) c; visit_storages path l (S ix) mpt
    end.

  Lemma visit_storage_branch mpt path cs : visit_storage mpt path (WBranch cs) = visit_storages path cs 0 mpt.
  Proof.
    cbn [visit_storage]. generalize 0 as ix. revert mpt. induction cs as [|[c|] cs IH]; intros mpt ix; cbn; auto.
    destruct (visit_storage mpt (path ++ [ix]) c); cbn; auto.
  Qed.

  Lemma of_res_bind {A B} (r : res A) (f : A -> res B) : of_res (bind r f) = obind (of_res r) (fun a => of_res (f a)).
  Proof. destruct r; reflexivity. Qed.

  Lemma bind_Ok {A} (r : res A) : bind r Ok = r.
  Proof. destruct r; reflexivity. Qed.

  Lemma visit_storage_ents w : forall t mpt path, storage_trie w = Some t -> short (map (pfx path) (ents t)) ->
    visit_storage mpt path w = of_res (insert_all mpt (map (pfx path) (ents t))).
  Proof.
    induction w as [h|k v|k n b c|k n b s c IH|k c IH|cs IH|c| ] using wnode_ind'; intros t mpt path E S; try discriminate.
    - assert (Hash h = t) as <- by (cbn in E; congruence). cbn in *. inversion S; subst. cbn in *. rewrite app_nil_r in *.
      rewrite mpt_key_short by auto. now rewrite bind_Ok.
    - assert (Leaf k (rlp_bytes v) = t) as <- by (cbn in E; congruence). cbn [ents map pfx fst snd insert_all visit_storage] in *.
      inversion S; subst. rewrite mpt_key_short by auto. now rewrite bind_Ok.
    - cbn [storage_trie] in E. destruct (storage_trie c) as [tc|]; [|discriminate]. assert (Ext k tc = t) as <- by (cbn in E; congruence).
      cbn [ents visit_storage] in *. rewrite map_pfx_app in *. now apply IH.
    - rewrite storage_trie_branch in E. destruct (storage_tries cs) as [ch|] eqn:Ech; [|discriminate].
      assert (Branch ch [] = t) as <- by (cbn in E; congruence). rewrite visit_storage_branch, ents_branch in *. cbn [value_ents] in *. rewrite app_nil_r in *.
      clear E. revert S. generalize 0 as ix. revert ch Ech mpt. induction cs as [|[c|] cs IHc]; intros ch Ech mpt ix S; cbn [storage_tries visit_storages] in *.
      + assert ([] = ch) as <- by congruence. reflexivity.
      + destruct (storage_trie c) as [tc|] eqn:Ec; [|discriminate]. destruct (storage_tries cs) as [r|]; [|discriminate].
        assert (tc :: r = ch) as <- by congruence. cbn [ents_from] in *. rewrite map_app in *. apply Forall_app in S as [S1 S2].
        rewrite map_pfx_app in *. rewrite insert_all_app, of_res_bind. rewrite (IH c (or_introl eq_refl) tc mpt _ Ec S1).
        destruct (insert_all mpt (map (pfx (path ++ [ix])) (ents tc))); cbn [of_res obind]; auto.
        apply IHc; auto. intros c' Hc'. apply IH. now right.
      + destruct (storage_tries cs) as [r|]; [|discriminate]. assert (Empty :: r = ch) as <- by (cbn in Ech; congruence).
        cbn [ents_from ents map app] in *. apply IHc; auto. intros c' Hc'. apply IH. now right.
    - assert (Empty = t) as <- by (cbn in E; congruence). reflexivity.
  Qed.

  Lemma proper_short t : proper t -> short (ents t).
  Proof. intros [C H]. apply Forall_forall. intros [k x] Hin. apply in_ents_look in Hin. apply look_stored in Hin. eapply H; eauto. Qed.

  (** A storage witness becomes the trie it stands for. *)
  Theorem C57_storage : forall w t, storage_trie w = Some t -> proper t -> node2storagetrie w = Done t.
  Proof.
    intros w t E P. unfold node2storagetrie.
    rewrite (visit_storage_ents w t Empty [] E) by (rewrite map_pfx_nil; now apply proper_short).
    rewrite map_pfx_nil, rebuild by apply P. reflexivity.
  Qed.

  (** *** The state visitor *)

  (** The storage tries of the accounts of a witness, with their paths, in order. *)
  Fixpoint acct_storages (path : nibbles) (w : wnode) : list (nibbles * node) :=
    match w with
    | WAccount k _ _ s _ => match storage_of s with Some st => [(path ++ k, st)] | None => [] end
    | WExt k c => acct_storages (path ++ k) c
    | WBranch cs => (fix go (l : list (option wnode)) (ix : nat) : list (nibbles * node) :=
         match l with
         | [] => []
         | None :: l => go l (S ix)
         | Some c :: l => acct_storages (path ++ [ix]) c ++ go l (S ix)
         end) cs 0
    | _ => []
    end.
  Fixpoint accts_storages (path : nibbles) (l : list (option wnode)) (ix : nat) : list (nibbles * node) :=
    match l with
    | [] => []
    | None :: l => accts_storages path l (S ix)
    | Some c :: l => acct_storages (path ++ [ix]) c ++ accts_storages path l (S ix)
    end.
  Lemma acct_storages_branch path cs : acct_storages path (WBranch cs) = accts_storages path cs 0.
  Proof. cbn [acct_storages]. generalize 0 as ix. induction cs as [|[c|] cs IH]; intros ix; cbn; auto. now rewrite IH. Qed.

  Fixpoint codes (w : wnode) : list (list N) :=
    match w with
    | WAccount _ _ _ _ (Some (inr c)) => [c]
    | WCode c => [c]
    | WExt _ c => codes c
    | WBranch cs => flat_map (fun o => match o with Some c => codes c | None => [] end) cs
    | _ => []
    end.

  (** Every account's storage stands for a proper trie. *)
  Definition storages_proper (w : wnode) : Prop :=
    forall p n b s c, account_at w p n b s c -> exists st, storage_of s = Some st /\ proper st.

  (** State entries are at 64 nibbles (values) or at most 64 (hashes). *)
  Definition state_entry (e : nibbles * val_or_hash) : Prop :=
    match snd e with Val _ => length (fst e) = 64 | VHash _ => length (fst e) <= 64 end.

  Fixpoint visits (f : frontend_st) (path : nibbles) (l : list (option wnode)) (ix : nat) : outcome frontend_st :=
    match l with
    | [] => Done f
    | None :: l => visits f path l (S ix)
    | Some c :: l => do! f <- visit keccak f (path ++ [ix]) c; visits f path l (S ix)
    end.
  Lemma visit_branch f path cs : visit keccak f path (WBranch cs) = visits f path cs 0.
  Proof.
    cbn [visit]. generalize 0 as ix. revert f. induction cs as [|[c|] cs IH]; intros f ix; cbn; auto.
    destruct (visit keccak f (path ++ [ix]) c); cbn; auto.
  Qed.

  Lemma storage_find_app a b k : storage_find a k = None -> storage_find (a ++ b) k = storage_find b k.
  Proof. induction a as [|[k' t] a IH]; cbn; [auto|]. destruct (nibbles_eqb k' k); [discriminate|auto]. Qed.

  Lemma storage_find_none m k : storage_find m k = None <-> ~ In k (map fst m).
  Proof.
    induction m as [|[k' t] m IH]; cbn; [tauto|]. destruct (nibbles_eqb k' k) eqn:E.
    - apply nibbles_eqb_eq in E. split; [discriminate|]. tauto.
    - apply nibbles_eqb_neq in E. tauto.
  Qed.

  Lemma visit_ents w : forall t n n' f path, state_trie w = Some t -> storages_proper w ->
    Forall state_entry (map (pfx path) (ents t)) ->
    f_state f = n -> insert_all n (map (pfx path) (ents t)) = Ok n' ->
    NoDup (map fst (acct_storages path w)) ->
    (forall k, In k (map fst (acct_storages path w)) -> ~ In k (map fst (f_storage f))) ->
    visit keccak f path w = Done {| f_state := n'; f_code := rev (codes w) ++ f_code f; f_storage := rev (acct_storages path w) ++ f_storage f |}.
  Proof.
    induction w as [h|k v|k nn b c|k nn b s c _|k c IH|cs IH|c| ] using wnode_ind'; intros t n n' f path E SP SE Ef EI ND DJ; try discriminate.
    - assert (Hash h = t) as <- by (cbn in E; congruence). cbn [ents map pfx fst snd insert_all visit] in *. rewrite app_nil_r in *.
      inversion SE as [|? ? Hs _]; subst. cbn in Hs. rewrite app_nil_r in Hs. rewrite mpt_key_short by auto. rewrite bind_Ok in EI. rewrite EI. reflexivity.
    - cbn [state_trie storage_of option_map] in E. injection E as <-. cbn [ents map pfx fst snd insert_all] in *.
      inversion SE as [|? ? Hs _]; subst. cbn in Hs. rewrite bind_Ok in EI. cbn [visit node2storagetrie visit_storage].
      apply Nat.eqb_eq in Hs. rewrite Hs. cbn [obind]. unfold node2storagetrie. cbn [visit_storage obind].
      assert (F : storage_find (f_storage f) (path ++ k) = None) by (apply storage_find_none, DJ; cbn; auto).
      rewrite F. change (match c with Some (inl h) => h | Some (inr c0) => keccak c0 | None => keccak [] end) with (code_hash c).
      rewrite EI. cbn [of_res obind]. destruct c as [[h|cc]|]; reflexivity.
    - cbn [state_trie storage_of option_map] in E. destruct (storage_trie s) as [st|] eqn:Est; [|discriminate]. cbn [option_map] in E. injection E as <-. cbn [ents map pfx fst snd insert_all] in *.
      inversion SE as [|? ? Hs _]; subst. cbn in Hs. rewrite bind_Ok in EI. cbn [visit].
      destruct (SP k nn b (Some s) c (aa_here _ _ _ _ _)) as (st' & Es' & Pst). cbn in Es'. replace st' with st in * by congruence.
      apply Nat.eqb_eq in Hs. rewrite Hs. rewrite (C57_storage s st Est Pst). cbn [obind].
      cbn [acct_storages storage_of] in *. rewrite Est in *.
      assert (F : storage_find (f_storage f) (path ++ k) = None) by (apply storage_find_none, DJ; cbn; auto).
      rewrite F. change (match c with Some (inl h) => h | Some (inr c0) => keccak c0 | None => keccak [] end) with (code_hash c).
      rewrite EI. cbn [of_res obind]. destruct c as [[h|cc]|]; reflexivity.
    - cbn [state_trie] in E. destruct (state_trie c) as [tc|]; [|discriminate]. assert (Ext k tc = t) as <- by (cbn in E; congruence).
      cbn [ents visit acct_storages codes] in *. rewrite map_pfx_app in *. eapply IH; eauto.
      intros p n0 b0 s0 c0 A. apply (SP (k ++ p) n0 b0 s0 c0). now constructor.
    - rewrite state_trie_branch in E. destruct (state_tries cs) as [ch|] eqn:Ech; [|discriminate].
      assert (Branch ch [] = t) as <- by (cbn in E; congruence). rewrite visit_branch, ents_branch, acct_storages_branch in *. cbn [value_ents] in *. rewrite app_nil_r in *.
      assert (SP' : forall c, In (Some c) cs -> storages_proper c).
      { intros c Hc p n0 b0 s0 c0 A. apply In_nth_error in Hc as [i Hi]. apply (SP (i :: p) n0 b0 s0 c0). now apply (aa_branch cs i c). }
      clear E SP. revert SE EI ND DJ. generalize 0 as ix. revert ch Ech n n' f Ef. induction cs as [|[c|] cs IHc]; intros ch Ech n n' f Ef ix SE EI ND DJ; cbn [state_tries visits accts_storages codes flat_map] in *.
      + assert ([] = ch) as <- by congruence. cbn in EI. assert (n = n') as <- by congruence. subst. destruct f; reflexivity.
      + destruct (state_trie c) as [tc|] eqn:Ec; [|discriminate]. destruct (state_tries cs) as [r|]; [|discriminate].
        assert (tc :: r = ch) as <- by congruence. cbn [ents_from] in *. rewrite map_app in *. apply Forall_app in SE as [S1 S2].
        rewrite map_pfx_app in *. rewrite insert_all_app in EI.
        destruct (insert_all n (map (pfx (path ++ [ix])) (ents tc))) as [n1| |] eqn:E1; [|discriminate|discriminate]. cbn [bind] in EI.
        assert (ND1 : NoDup (map fst (acct_storages (path ++ [ix]) c))) by (clear -ND; induction (map fst (acct_storages (path ++ [ix]) c)) as [|x l IHl]; [constructor|]; inversion ND; subst; constructor; [rewrite in_app_iff in *; tauto|auto]).
        assert (ND2 : NoDup (map fst (accts_storages path cs (S ix)))) by (clear -ND; induction (map fst (acct_storages (path ++ [ix]) c)) as [|x l IHl]; [auto|]; inversion ND; subst; auto).
        assert (ND3 : forall x, In x (map fst (acct_storages (path ++ [ix]) c)) -> ~ In x (map fst (accts_storages path cs (S ix)))).
        { clear -ND. induction (map fst (acct_storages (path ++ [ix]) c)) as [|y l IHl]; [easy|]. inversion ND as [|? ? Hn ND']; subst. intros x [<-|Hx]; [rewrite in_app_iff in Hn; tauto|auto]. }
        erewrite (IH c (or_introl eq_refl) tc n n1 f); eauto; [| |].
        2:{ apply SP'. now left. }
        2:{ intros x Hx. apply DJ. rewrite in_app_iff. auto. }
        cbn [obind].
        match goal with |- visits ?f1 _ _ _ = _ => rewrite (IHc (fun c' Hc' => IH c' (or_intror Hc')) (fun c' Hc' => SP' c' (or_intror Hc')) r eq_refl n1 n' f1 eq_refl (S ix) S2 EI ND2) end; cbn [f_state f_code f_storage].
        * f_equal. f_equal; rewrite ?rev_app_distr; now rewrite <- app_assoc.
        * intros x Hx. rewrite map_app, in_app_iff, map_rev, <- in_rev. intros [H|H].
          -- exact (ND3 x H Hx).
          -- eapply DJ; [|exact H]. rewrite in_app_iff. auto.
      + destruct (state_tries cs) as [r|]; [|discriminate]. assert (Empty :: r = ch) as <- by (cbn in Ech; congruence).
        cbn [ents_from ents map app] in *. eapply IHc; eauto.
        * intros c' Hc'. apply IH. now right.
        * intros c' Hc'. apply SP'. now right.
    - assert (Empty = t) as <- by (cbn in E; congruence). cbn in EI. assert (n = n') as <- by congruence. subst n. reflexivity.
    - assert (Empty = t) as <- by (cbn in E; congruence). cbn in EI. assert (n = n') as <- by congruence. subst n. destruct f; reflexivity.
  Qed.

  (** *** What ends up in the maps *)

  Definition is_val (e : nibbles * val_or_hash) : bool := match snd e with Val _ => true | VHash _ => false end.

  Lemma filter_pfx p l : filter is_val (map (pfx p) l) = map (pfx p) (filter is_val l).
  Proof. induction l as [|[k [x|x]] l IH]; cbn; [auto| |auto]. now rewrite IH. Qed.

  Lemma acct_keys w : forall t path, state_trie w = Some t ->
    map fst (acct_storages path w) = map fst (filter is_val (map (pfx path) (ents t))).
  Proof.
    induction w as [h|k v|k nn b c|k nn b s c _|k c IH|cs IH|c| ] using wnode_ind'; intros t path E; try discriminate.
    - assert (Hash h = t) as <- by (cbn in E; congruence). reflexivity.
    - cbn [state_trie storage_of option_map] in E. injection E as <-. reflexivity.
    - cbn [state_trie storage_of option_map] in E. destruct (storage_trie s) as [st|] eqn:Est; [|discriminate]. cbn [option_map] in E. injection E as <-.
      cbn [acct_storages storage_of]. rewrite Est. reflexivity.
    - cbn [state_trie] in E. destruct (state_trie c) as [tc|]; [|discriminate]. assert (Ext k tc = t) as <- by (cbn in E; congruence).
      cbn [ents acct_storages] in *. rewrite map_pfx_app. now apply IH.
    - rewrite state_trie_branch in E. destruct (state_tries cs) as [ch|] eqn:Ech; [|discriminate].
      assert (Branch ch [] = t) as <- by (cbn in E; congruence). rewrite acct_storages_branch, ents_branch. cbn [value_ents]. rewrite app_nil_r.
      clear E. generalize 0 as ix. revert ch Ech. induction cs as [|[c|] cs IHc]; intros ch Ech ix; cbn [state_tries accts_storages] in *.
      + assert ([] = ch) as <- by congruence. reflexivity.
      + destruct (state_trie c) as [tc|] eqn:Ec; [|discriminate]. destruct (state_tries cs) as [r|]; [|discriminate].
        assert (tc :: r = ch) as <- by congruence. cbn [ents_from]. rewrite !map_app, filter_app, map_app, map_pfx_app.
        rewrite (IH c (or_introl eq_refl) tc _ Ec). f_equal. apply IHc; auto. intros c' Hc'. apply IH. now right.
      + destruct (state_tries cs) as [r|]; [|discriminate]. assert (Empty :: r = ch) as <- by (cbn in Ech; congruence).
        cbn [ents_from ents map app]. apply IHc; auto. intros c' Hc'. apply IH. now right.
    - assert (Empty = t) as <- by (cbn in E; congruence). reflexivity.
    - assert (Empty = t) as <- by (cbn in E; congruence). reflexivity.
  Qed.

  Lemma nodup_filter (f : nibbles * val_or_hash -> bool) l : NoDup (map fst l) -> NoDup (map fst (filter f l)).
  Proof.
    induction l as [|e l IH]; cbn; [auto|]. inversion 1 as [|? ? Hn ND]; subst. destruct (f e); cbn; auto. constructor; auto.
    intros Hin. apply Hn. apply in_map_iff in Hin as (e' & E & Hin). apply filter_In in Hin as [Hin _]. apply in_map_iff. eauto.
  Qed.

  Lemma acct_in w : forall path q st, In (q, st) (acct_storages path w) <->
    exists p n b s c, q = path ++ p /\ account_at w p n b s c /\ storage_of s = Some st.
  Proof.
    induction w as [h|k v|k nn b c|k nn b s c _|k c IH|cs IH|c| ] using wnode_ind'; intros path q st.
    - cbn. split; [easy|]. intros (p & n0 & b0 & s0 & c0 & _ & A & _). inversion A.
    - cbn. split; [easy|]. intros (p & n0 & b0 & s0 & c0 & _ & A & _). inversion A.
    - cbn. split.
      + intros [H|[]]. injection H as <- <-. exists k, nn, b, None, c. repeat split. constructor.
      + intros (p & n0 & b0 & s0 & c0 & -> & A & Es). inversion A; subst. cbn in Es. left. congruence.
    - cbn [acct_storages]. destruct (storage_of (Some s)) as [st'|] eqn:Est; split.
      + intros [H|[]]. injection H as <- <-. exists k, nn, b, (Some s), c. repeat split; auto. constructor.
      + intros (p & n0 & b0 & s0 & c0 & -> & A & Es). inversion A; subst. left. congruence.
      + easy.
      + intros (p & n0 & b0 & s0 & c0 & -> & A & Es). inversion A; subst. congruence.
    - cbn [acct_storages]. rewrite IH. split.
      + intros (p & n0 & b0 & s0 & c0 & -> & A & Es). exists (k ++ p), n0, b0, s0, c0. rewrite <- app_assoc. repeat split; auto. now constructor.
      + intros (p & n0 & b0 & s0 & c0 & -> & A & Es). inversion A; subst. exists p0, n0, b0, s0, c0. rewrite <- app_assoc. auto.
    - rewrite acct_storages_branch.
      assert (G : forall ix, In (q, st) (accts_storages path cs ix) <->
         exists i w p n b s c, nth_error cs i = Some (Some w) /\ q = path ++ (ix + i) :: p /\ account_at w p n b s c /\ storage_of s = Some st).
      { induction cs as [|[c|] cs IHc]; intros ix; cbn [accts_storages].
        - split; [easy|]. intros (i & w & p & n0 & b0 & s0 & c0 & Hn & _). destruct i; discriminate.
        - rewrite in_app_iff, (IH c (or_introl eq_refl)), IHc by (intros; apply IH; now right). split.
          + intros [(p & n0 & b0 & s0 & c0 & -> & A & Es)|(i & w & p & n0 & b0 & s0 & c0 & Hn & -> & A & Es)].
            * exists 0, c, p, n0, b0, s0, c0. rewrite Nat.add_0_r, <- app_assoc. auto.
            * exists (S i), w, p, n0, b0, s0, c0. rewrite <- plus_n_Sm. auto.
          + intros (i & w & p & n0 & b0 & s0 & c0 & Hn & -> & A & Es). destruct i as [|i].
            * cbn in Hn. assert (c = w) as <- by congruence. left. exists p, n0, b0, s0, c0. rewrite Nat.add_0_r, <- app_assoc. auto.
            * right. exists i, w, p, n0, b0, s0, c0. rewrite <- plus_n_Sm. auto.
        - rewrite IHc by (intros; apply IH; now right). split.
          + intros (i & w & p & n0 & b0 & s0 & c0 & Hn & -> & A & Es). exists (S i), w, p, n0, b0, s0, c0. rewrite <- plus_n_Sm. auto.
          + intros (i & w & p & n0 & b0 & s0 & c0 & Hn & -> & A & Es). destruct i as [|i]; [discriminate|].
            exists i, w, p, n0, b0, s0, c0. rewrite <- plus_n_Sm. auto. }
      rewrite G. split.
      + intros (i & w & p & n0 & b0 & s0 & c0 & Hn & -> & A & Es). exists (i :: p), n0, b0, s0, c0. repeat split; auto. now apply (aa_branch cs i w).
      + intros (p & n0 & b0 & s0 & c0 & -> & A & Es). inversion A; subst. exists i, w, p0, n0, b0, s0, c0. auto.
    - cbn. split; [easy|]. intros (p & n0 & b0 & s0 & c0 & _ & A & _). inversion A.
    - cbn. split; [easy|]. intros (p & n0 & b0 & s0 & c0 & _ & A & _). inversion A.
  Qed.

  Lemma codes_in w : forall c, In c (codes w) <-> code_in w c.
  Proof.
    induction w as [h|k v|k nn b c|k nn b s c _|k c IH|cs IH|c| ] using wnode_ind'; intros c'; cbn [codes].
    - split; [easy|]. intros X; inversion X.
    - split; [easy|]. intros X; inversion X.
    - destruct c as [[h|cc]|]; (split; [try easy|intros X; inversion X; subst; now left]). intros [<-|[]]. constructor.
    - destruct c as [[h|cc]|]; (split; [try easy|intros X; inversion X; subst; now left]). intros [<-|[]]. constructor.
    - rewrite IH. split; [now constructor|]. intros X; inversion X; subst; auto.
    - rewrite in_flat_map. split.
      + intros ([w|] & Hw & Hc); [|easy]. apply (ci_branch cs w); auto. now apply IH.
      + intros X; inversion X; subst. exists (Some w). split; [auto|]. now apply IH.
    - split; [intros [<-|[]]; constructor|]. intros X; inversion X; subst. now left.
    - split; [easy|]. intros X; inversion X.
  Qed.

  Lemma account_stored w : forall t p n b s c, state_trie w = Some t -> account_at w p n b s c ->
    exists st, storage_of s = Some st /\ look t p = Some (Val (account_rlp n b (hash_trie keccak st) (code_hash c))).
  Proof.
    intros t p n b s c E A. revert t E. induction A as [k n b s c|k w p n b s c A IH|cs i w p n b s c Hn A IH]; intros t E.
    - cbn [state_trie] in E. destruct (storage_of s) as [st|]; [|discriminate]. cbn [option_map] in E. injection E as <-.
      exists st. split; [auto|]. cbn [look]. now rewrite nibbles_eqb_refl.
    - cbn [state_trie] in E. destruct (state_trie w) as [tc|]; [|discriminate]. injection E as <-. rewrite look_ext_app. now apply IH.
    - rewrite state_trie_branch in E. destruct (state_tries cs) as [ch|] eqn:Ech; [|discriminate]. injection E as <-.
      rewrite look_branch. clear A. revert i ch Hn Ech. induction cs as [|o cs IHc]; intros i ch Hn Ech; [destruct i; discriminate|].
      destruct i as [|i]; cbn [nth_error] in Hn.
      + assert (o = Some w) as -> by congruence. cbn [state_tries] in Ech. destruct (state_trie w) as [tc|]; [|discriminate].
        destruct (state_tries cs) as [r|]; [|discriminate]. assert (tc :: r = ch) as <- by congruence. cbn. now apply IH.
      + destruct o as [x|]; cbn [state_tries] in Ech.
        * destruct (state_trie x) as [tc|]; [|discriminate]. destruct (state_tries cs) as [r|] eqn:Er; [|discriminate].
          assert (tc :: r = ch) as <- by congruence. cbn. eapply IHc; eauto.
        * destruct (state_tries cs) as [r|] eqn:Er; [|discriminate]. assert (Empty :: r = ch) as <- by (cbn in Ech; congruence). cbn. eapply IHc; eauto.
  Qed.

  Lemma storage_find_in m k t : NoDup (map fst m) -> (storage_find m k = Some t <-> In (k, t) m).
  Proof.
    induction m as [|[k' t'] m IH]; cbn; intros ND; [split; [discriminate|easy]|]. inversion ND as [|? ? Hn ND']; subst.
    destruct (nibbles_eqb k' k) eqn:E.
    - apply nibbles_eqb_eq in E as ->. split; [intros H; left; congruence|]. intros [H|H]; [congruence|].
      exfalso. apply Hn. apply in_map_iff. exists (k, t). auto.
    - apply nibbles_eqb_neq in E. rewrite IH by auto. split; [auto|]. intros [H|H]; [congruence|auto].
  Qed.

  (** The serialization of a witness that stands for a canonical state trie, with
      values at depth 64 and proper storage tries, is accepted; the state is
      that trie, so it has its root; there is one storage trie for each account
      of the witness and its root is the one in the account; the codes are those
      of the witness. *)
  Theorem C57_frontend : forall w l t,
    builds w l -> root_ok w -> state_trie w = Some t -> canon t ->
    (forall k x, stored t k x -> match x with Val _ => length k = 64 | VHash _ => length k <= 64 end) ->
    storages_proper w ->
    exists f, frontend keccak l = Done f /\ f_state f = t /\
      (forall p st, storage_find (f_storage f) p = Some st <-> exists n b s c, account_at w p n b s c /\ storage_of s = Some st) /\
      (forall p n b s c, account_at w p n b s c -> exists st, storage_find (f_storage f) p = Some st /\
         stored (f_state f) p (Val (account_rlp n b (hash_trie keccak st) (code_hash c)))) /\
      (forall c, In c (f_code f) <-> code_in w c).
  Proof.
    intros w l t B R E C D SP. unfold frontend, execute.
    rewrite (serial_run [w] l (serial_one w l R B) []). cbn [app].
    assert (ND : NoDup (map fst (acct_storages [] w))).
    { rewrite (acct_keys w t [] E), map_pfx_nil. apply nodup_filter. now apply ents_nodup. }
    erewrite (visit_ents w t Empty t); eauto.
    2:{ rewrite map_pfx_nil. apply Forall_forall. intros [k x] Hin. apply in_ents_look in Hin. apply look_stored in Hin. apply D in Hin. exact Hin. }
    2:{ rewrite map_pfx_nil. now apply rebuild. }
    eexists. split; [reflexivity|]. cbn [f_state f_storage f_code]. rewrite !app_nil_r. split; [reflexivity|].
    assert (NDr : NoDup (map fst (rev (acct_storages [] w)))) by (rewrite map_rev; now apply NoDup_rev).
    assert (G : forall p st, storage_find (rev (acct_storages [] w)) p = Some st <-> exists n b s c, account_at w p n b s c /\ storage_of s = Some st).
    { intros p st. rewrite storage_find_in by auto. rewrite <- in_rev, acct_in. split.
      - intros (p' & n & b & s & c & -> & A & Es). exists n, b, s, c. auto.
      - intros (n & b & s & c & A & Es). exists p, n, b, s, c. auto. }
    split; [exact G|]. split.
    - intros p n b s c A. destruct (account_stored w t p n b s c E A) as (st & Es & L). exists st. split; [|now apply look_stored].
      apply G. eauto 6.
    - intros c. rewrite <- in_rev. apply codes_in.
  Qed.
End State.
Print Assumptions C57_storage.
Print Assumptions C57_frontend.

(** ** A witness meeting the hypotheses *)
Module Type1Demo.
  Definition kec (l : list N) : list N := map (fun i => (fold_left N.add l 7 + N.of_nat i) mod 256)%N (seq 0 32).
  Definition storage : wnode := WBranch (Some (WHash (repeat 3%N 32)) :: repeat None 14 ++ [Some (WValue (repeat 1 63) [5%N])]).
  Definition acct1 : wnode := WAccount (repeat 2 63) 5 300 (Some storage) (Some (inr [96%N; 0%N])).
  Definition acct2 : wnode := WAccount (repeat 4 63) 0 0 None None.
  Definition tree : wnode := WBranch ([None; Some acct1; Some (WHash (repeat 9%N 32))] ++ repeat None 12 ++ [Some acct2]).
  Definition stream : list instruction :=
    [ICode [96%N; 0%N]; IHash (repeat 3%N 32); ILeaf (repeat 1 63) [5%N]; IBranch 0x8001; IAccountLeaf (repeat 2 63) (Some 5%N) (Some 300%N) true true;
     IHash (repeat 9%N 32); IAccountLeaf (repeat 4 63) None None false false; IBranch 0x8006].

  (** Decision procedures for the hypotheses. *)
  Fixpoint canonb (n : node) : bool :=
    match n with
    | Empty | Hash _ => true
    | Leaf ns _ => forallb (fun x => x <? 16) ns
    | Ext ns c => negb (nibbles_eqb ns []) && forallb (fun x => x <? 16) ns && canonb c &&
                  match c with Branch _ _ | Hash _ => true | _ => false end
    | Branch ch v => (length ch =? 16) && forallb canonb ch && (2 <=? length (filter (fun c => negb (node_is_empty c)) ch)) &&
                     match v with [] => true | _ => false end
    end.

  Lemma forallb_nibs ns : forallb (fun x => x <? 16) ns = true -> nibs_ok ns.
  Proof. intros H. apply Forall_forall. rewrite forallb_forall in H. intros x Hx. apply H in Hx. lia. Qed.

  Lemma filter_two (ch : list node) : 2 <= length (filter (fun c => negb (node_is_empty c)) ch) ->
    exists i j ci cj, i <> j /\ nth_error ch i = Some ci /\ nth_error ch j = Some cj /\ ci <> Empty /\ cj <> Empty.
  Proof.
    assert (One : forall l : list node, 1 <= length (filter (fun c => negb (node_is_empty c)) l) -> exists i c, nth_error l i = Some c /\ c <> Empty).
    { induction l as [|c l IH]; cbn; [lia|]. destruct (negb (node_is_empty c)) eqn:E.
      - intros _. exists 0, c. split; [auto|]. destruct c; try discriminate. 
      - intros H. destruct (IH H) as (i & x & Hx & Nx). exists (S i), x. auto. }
    induction ch as [|c ch IH]; cbn; [lia|]. destruct (negb (node_is_empty c)) eqn:E; cbn [length].
    - intros H. destruct (One ch) as (i & x & Hx & Nx); [lia|]. exists 0, (S i), c, x. repeat split; auto. destruct c; discriminate.
    - intros H. destruct (IH H) as (i & j & ci & cj & N & Hi & Hj & Ni & Nj). exists (S i), (S j), ci, cj. repeat split; auto.
  Qed.

  Lemma canonb_canon n : canonb n = true -> canon n.
  Proof.
    induction n as [ | h | ch v IH | ns c IH | ns v ] using node_ind'; cbn [canonb]; intros H.
    - constructor.
    - constructor.
    - apply andb_prop in H as [H H4]. apply andb_prop in H as [H H3]. apply andb_prop in H as [H1 H2].
      destruct v; [|discriminate]. constructor.
      + lia.
      + intros i c Hc. eapply IH; eauto. rewrite forallb_forall in H2. apply H2. eapply nth_error_In; eauto.
      + apply filter_two. lia.
    - apply andb_prop in H as [H H4]. apply andb_prop in H as [H H3]. apply andb_prop in H as [H1 H2]. constructor.
      + intros ->. discriminate.
      + now apply forallb_nibs.
      + destruct c; easy.
      + auto.
    - constructor. now apply forallb_nibs.
  Qed.

  Lemma entries_ok t (P : nibbles -> val_or_hash -> bool) : forallb (fun e => P (fst e) (snd e)) (ents t) = true -> forall k x, stored t k x -> P k x = true.
  Proof. intros H k x S. apply look_stored, in_ents_look in S. rewrite forallb_forall in H. exact (H _ S). Qed.

  Definition st : node := match storage_trie storage with Some t => t | None => Empty end.
  Definition t : node := match state_trie kec tree with Some t => t | None => Empty end.

  Lemma storages : storages_proper tree.
  Proof.
    intros p n b s c A.
    assert (In (p, match storage_of s with Some st => st | None => Empty end) (acct_storages [] tree) \/ storage_of s = None) as D.
    { destruct (storage_of s) as [x|] eqn:E; [left|auto]. apply acct_in. exists p, n, b, s, c. auto. }
    assert (P : proper st).
    { split; [apply canonb_canon; vm_compute; reflexivity|]. intros k x S.
      assert (H : (length k <=? 64) = true) by (revert k x S; apply (entries_ok st (fun k _ => length k <=? 64)); vm_compute; reflexivity). lia. }
    assert (PE : proper Empty) by (split; [constructor|]; intros k x S; apply look_stored in S; discriminate).
    inversion A; subst.
    assert (Hw : w = acct1 \/ w = acct2 \/ w = WHash (repeat 9%N 32)).
    { match goal with H : nth_error _ i = _ |- _ => apply nth_error_In in H; cbn in H; rename H into Hin end.
      repeat destruct Hin as [Hin|Hin]; try discriminate; try easy; injection Hin as <-; auto. }
    destruct Hw as [ -> | [ -> | -> ] ]; match goal with H : account_at _ _ _ _ _ _ |- _ => inversion H; subst end.
    - exists st. split; [reflexivity|exact P].
    - exists Empty. split; [reflexivity|exact PE].
  Qed.

  Example C57_example : Forall instr_ok stream /\ builds tree stream /\ root_ok tree /\ state_trie kec tree = Some t /\ canon t /\
    (forall k x, stored t k x -> match x with Val _ => length k = 64 | VHash _ => length k <= 64 end) /\ storages_proper tree /\
    exists f, frontend kec stream = Done f /\ f_state f = t /\ length (f_storage f) = 2 /\ f_code f = [[96%N; 0%N]].
  Proof.
    assert (F : Forall instr_ok stream) by (repeat constructor).
    split; [exact F|]. split.
    { assert (E : execute stream = Some [tree]) by (vm_compute; reflexivity). apply C36_execute in E; [|exact F]. inversion E; subst; [auto|].
      match goal with H : serial [] _ |- _ => inversion H end. }
    split; [exact I|]. split; [vm_compute; reflexivity|]. split; [apply canonb_canon; vm_compute; reflexivity|]. split.
    { intros k x S. assert (H : (match x with Val _ => length k =? 64 | VHash _ => length k <=? 64 end) = true).
      { revert k x S. apply (entries_ok t (fun k x => match x with Val _ => length k =? 64 | VHash _ => length k <=? 64 end)). vm_compute. reflexivity. }
      destruct x; lia. }
    split; [apply storages|]. eexists. split; [vm_compute; reflexivity|]. split; [vm_compute; reflexivity|]. split; vm_compute; reflexivity.
  Qed.

  (** Canonicity is needed: a witness with a branch of one child is accepted, but
      the trie built is another one, with another root. *)
  Theorem C57_noncanonical_refuted : exists w l t f, builds w l /\ state_trie kec w = Some t /\ storages_proper w /\
    frontend kec l = Done f /\ f_state f <> t /\ hash_trie kec (f_state f) <> hash_trie kec t.
  Proof.
    exists (WBranch (Some acct2 :: repeat None 15)), [IAccountLeaf (repeat 4 63) None None false false; IBranch 1].
    assert (B : builds (WBranch (Some acct2 :: repeat None 15)) [IAccountLeaf (repeat 4 63) None None false false; IBranch 1]).
    { assert (E : execute [IAccountLeaf (repeat 4 63) None None false false; IBranch 1] = Some [WBranch (Some acct2 :: repeat None 15)]) by (vm_compute; reflexivity).
      apply C36_execute in E; [|repeat constructor].
      inversion E; subst; [auto|]. match goal with H : serial [] _ |- _ => inversion H end. }
    eexists. eexists. split; [exact B|]. split; [vm_compute; reflexivity|]. split.
    { intros p n b s c A. inversion A; subst. match goal with H : nth_error _ i = _ |- _ => apply nth_error_In in H; cbn in H; rename H into Hin end.
      repeat destruct Hin as [Hin|Hin]; try discriminate; try easy. injection Hin as <-.
      match goal with H : account_at acct2 _ _ _ _ _ |- _ => inversion H; subst end.
      exists Empty. split; [reflexivity|]. split; [constructor|]. intros k x S. apply look_stored in S. discriminate. }
    split; [vm_compute; reflexivity|]. split; vm_compute; discriminate.
  Qed.
  Print Assumptions C57_noncanonical_refuted.
End Type1Demo.
