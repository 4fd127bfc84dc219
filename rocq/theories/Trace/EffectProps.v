(** C93: the effect of traces and withdrawals on accounts.  The specification
    is a reading of balances and nonces of the world that obeys the obvious
    laws. *)

From Coq Require Import List Arith ZArith Lia Bool.
From Verif Require Import Trace.BatchModel.
Import ListNotations.
Local Open Scope Z_scope.

(** What the operations of a world do to the balances and nonces. *)
Record account_laws {W Path Key : Type} (impl : world_impl W Path Key) (bal nonce : W -> Z -> Z) : Prop := {
  l_balance : forall w a f w', update_balance impl w a f = Some w' ->
    f (bal w a) = Some (bal w' a) /\ (forall b, b <> a -> bal w' b = bal w b) /\ (forall b, nonce w' b = nonce w b);
  l_nonce : forall w a f w', update_nonce impl w a f = Some w' ->
    f (nonce w a) = Some (nonce w' a) /\ (forall b, b <> a -> nonce w' b = nonce w b) /\ (forall b, bal w' b = bal w b);
  l_code : forall w a c w', set_code impl w a c = Some w' -> forall b, bal w' b = bal w b /\ nonce w' b = nonce w b;
  l_create : forall w a w', create_storage impl w a = Some w' -> forall b, bal w' b = bal w b /\ nonce w' b = nonce w b;
  l_store : forall w a k v w', store_int impl w a k v = Some w' -> forall b, bal w' b = bal w b /\ nonce w' b = nonce w b;
  l_slot : forall w a k w' r, reporting_destroy_slot impl w a k = Some (w', r) -> forall b, bal w' b = bal w b /\ nonce w' b = nonce w b }.

(** What withdrawals give to an address. *)
Fixpoint credited (ws : list (Z * Z)) (a : Z) : Z :=
  match ws with [] => 0 | (b, amt) :: r => (if b =? a then amt else 0) + credited r a end.

Section Effects.
  Context {W Path Key T : Type}.
  Variable impl : world_impl W Path Key.
  Variable code_hash : bytes -> Z.
  Variable slot_key : Z -> Key.
  Variable map_receipt_bytes : bytes -> option bytes.
  Variable receipt_status : bytes -> option bool.
  Variable fatal : bool.
  Variable bal nonce : W -> Z -> Z.
  Hypothesis laws : account_laws impl bal nonce.
  Local Notation st := (@st W Path Key T).
  Local Notation do_trace := (@do_trace W Path Key T impl code_hash slot_key map_receipt_bytes receipt_status fatal).

  Lemma withdrawals_credit : forall ws (s s' : st), do_withdrawals impl ws s = Some s' ->
    (forall a, bal (s_world s') a = bal (s_world s) a + credited ws a) /\ (forall a, nonce (s_world s') a = nonce (s_world s) a) /\
    s_txns s' = s_txns s /\ s_receipts s' = s_receipts s /\ s_ix s' = s_ix s /\ b_gas s' = b_gas s /\
    b_state_mask s' = b_state_mask s ++ map (path_of_address impl) (map fst ws).
  Proof.
    induction ws as [|[addr amt] ws IH]; intros s s' H; cbn [do_withdrawals] in H.
    - injection H as <-. cbn. rewrite app_nil_r. repeat split. intros; lia.
    - cbn [s_world with_state_mask] in H. destruct (update_balance impl (s_world s) addr _) as [w|] eqn:E; [|discriminate].
      apply IH in H. destruct H as (B & N & R). cbn [with_world with_state_mask s_world s_txns s_receipts s_ix b_gas b_state_mask] in *.
      destruct (l_balance _ _ _ laws _ _ _ _ E) as (B1 & B2 & B3).
      split; [|split; [intros a; rewrite N; apply B3|]].
      + intros a. rewrite B. cbn [credited]. destruct (Z.eqb_spec addr a) as [<-|D]; [|rewrite B2 by congruence; lia].
        unfold u256_add in B1. destruct (bal (s_world s) addr + amt <? 2^256); [injection B1 as B1; lia|discriminate].
      + destruct R as (-> & -> & -> & -> & ->). repeat split. cbn [map fst]. rewrite <- app_assoc. reflexivity.
  Qed.

  Lemma slots_keep addr : forall l (s s' : st), write_slots impl addr l s = Some s' -> forall b, bal (s_world s') b = bal (s_world s) b /\ nonce (s_world s') b = nonce (s_world s) b.
  Proof.
    induction l as [|[k v] l IH]; intros s s' H b; cbn [write_slots] in H; [injection H as <-; split; reflexivity|].
    destruct (v =? 0).
    - destruct (reporting_destroy_slot impl (s_world s) addr k) as [[w r]|] eqn:E; [|discriminate].
      destruct (IH _ _ H b) as [-> ->]. cbn. apply (l_slot _ _ _ laws _ _ _ _ _ E).
    - destruct (store_int impl (s_world s) addr k v) as [w|] eqn:E; [|discriminate].
      destruct (IH _ _ H b) as [-> ->]. cbn. apply (l_store _ _ _ laws _ _ _ _ _ E).
  Qed.
  Lemma code_keep addr u : forall s s' : st, use_code impl code_hash fatal addr u s = Some s' -> forall b, bal (s_world s') b = bal (s_world s) b /\ nonce (s_world s') b = nonce (s_world s) b.
  Proof.
    intros s s' H b. destruct u as [[h|c]|]; cbn [use_code] in H; [| |injection H as <-; split; reflexivity].
    - destruct (s_code s h) as [c|].
      + assert (Q : (match set_code impl (s_world s) addr (inl c) with Some w => Some (with_contract (with_world s w) c) | None => None end) = Some s') by (destruct fatal; exact H).
        destruct (set_code impl (s_world s) addr (inl c)) as [w|] eqn:E; [|discriminate]. injection Q as <-. cbn. apply (l_code _ _ _ laws _ _ _ _ E).
      + destruct fatal; [discriminate|]. destruct (set_code impl (s_world s) addr (inr h)) as [w|] eqn:E; [|discriminate]. injection H as <-. cbn. apply (l_code _ _ _ laws _ _ _ _ E).
    - cbn [with_code s_world] in H. destruct (set_code impl (s_world s) addr (inl c)) as [w|] eqn:E; [|discriminate]. injection H as <-. cbn. apply (l_code _ _ _ laws _ _ _ _ E).
  Qed.

  (** One account of a transaction that does not destroy it. *)
  Lemma trace_effect : forall receipt r addr t ok known (s s' : st), do_trace receipt addr t s = Some s' -> t_self_destructed t = false ->
    map_receipt_bytes receipt = Some r -> receipt_status r = Some ok -> contains impl (s_world s) addr = Some known ->
    (known = false -> ok = false -> create_storage impl (s_world s) addr = Some (s_world s') /\ b_contract_code s' = b_contract_code s) /\
    (known = true \/ ok = true ->
       bal (s_world s') addr = match t_balance t with Some n => n | None => bal (s_world s) addr end /\
       nonce (s_world s') addr = match t_nonce t with Some n => n | None => nonce (s_world s) addr end) /\
    (forall b, b <> addr -> bal (s_world s') b = bal (s_world s) b /\ nonce (s_world s') b = nonce (s_world s) b).
  Proof.
    intros receipt r addr t ok known s s' H HD HR HS HK. unfold BatchModel.do_trace in H. rewrite HR, HS, HK, HD in H.
    destruct (if negb known then _ else Some s) as [s1|] eqn:E1; [|discriminate].
    assert (K1 : (known = false -> create_storage impl (s_world s) addr = Some (s_world s1) /\ b_contract_code s1 = b_contract_code s) /\
      forall b, bal (s_world s1) b = bal (s_world s) b /\ nonce (s_world s1) b = nonce (s_world s) b).
    { destruct known; cbn [negb] in E1; [injection E1 as <-; split; [discriminate|split; reflexivity]|].
      destruct (create_storage impl (s_world s) addr) as [w|] eqn:E; [|discriminate]. injection E1 as <-. cbn. split; [auto|]. apply (l_create _ _ _ laws _ _ _ E). }
    destruct K1 as [K1 K2]. set (s2 := with_storage_mask s1 addr _) in H.
    assert (W2 : s_world s2 = s_world s1) by reflexivity. assert (C2 : b_contract_code s2 = b_contract_code s1) by reflexivity. clearbody s2.
    destruct (negb (is_default t) && (if negb known then ok else true)) eqn:EW.
    - destruct (match t_balance t with Some _ => _ | None => Some s2 end) as [s3|] eqn:E3; [|discriminate].
      destruct (match t_nonce t with Some _ => _ | None => Some s3 end) as [s4|] eqn:E4; [|discriminate].
      destruct (use_code impl code_hash fatal addr (t_code_usage t) s4) as [s5|] eqn:E5; [|discriminate].
      destruct (write_slots impl addr (t_storage_written t) s5) as [s6|] eqn:E6; [|discriminate].
      injection H as <-. cbn [with_state_mask s_world b_contract_code].
      pose proof (slots_keep _ _ _ _ E6) as Q6. pose proof (code_keep _ _ _ _ E5) as Q5.
      assert (Q3 : bal (s_world s3) addr = match t_balance t with Some n => n | None => bal (s_world s) addr end /\ (forall b, nonce (s_world s3) b = nonce (s_world s) b) /\ forall b, b <> addr -> bal (s_world s3) b = bal (s_world s) b).
      { destruct (t_balance t) as [n|].
        - destruct (update_balance impl (s_world s2) addr _) as [w|] eqn:E; [|discriminate]. injection E3 as <-. cbn. rewrite W2 in E.
          destruct (l_balance _ _ _ laws _ _ _ _ E) as (B1 & B2 & B3). split; [congruence|]. split; [intros b; rewrite B3; apply K2|intros b Hb; rewrite B2 by exact Hb; apply K2].
        - injection E3 as <-. rewrite W2. repeat split; intros; apply K2. }
      assert (Q4 : nonce (s_world s4) addr = match t_nonce t with Some n => n | None => nonce (s_world s) addr end /\ (forall b, bal (s_world s4) b = bal (s_world s3) b) /\ forall b, b <> addr -> nonce (s_world s4) b = nonce (s_world s) b).
      { destruct Q3 as (_ & N3 & _). destruct (t_nonce t) as [n|].
        - destruct (update_nonce impl (s_world s3) addr _) as [w|] eqn:E; [|discriminate]. injection E4 as <-. cbn.
          destruct (l_nonce _ _ _ laws _ _ _ _ E) as (B1 & B2 & B3). split; [congruence|]. split; [exact B3|intros b Hb; rewrite B2 by exact Hb; apply N3].
        - injection E4 as <-. repeat split; intros; apply N3. }
      destruct Q3 as (Q3a & Q3b & Q3c). destruct Q4 as (Q4a & Q4b & Q4c).
      split; [intros -> ->; cbn in EW; rewrite andb_false_r in EW; discriminate|].
      split; [intros _; destruct (Q6 addr) as [-> ->]; destruct (Q5 addr) as [-> ->]; rewrite Q4b; split; assumption|].
      intros b Hb. destruct (Q6 b) as [-> ->]. destruct (Q5 b) as [-> ->]. rewrite Q4b. split; [apply Q3c|apply Q4c]; exact Hb.
    - injection H as <-. cbn [with_state_mask s_world b_contract_code]. rewrite W2, C2.
      split; [intros HK' _; apply K1, HK'|]. split; [|intros b _; apply K2].
      intros D. assert (DT : is_default t = true).
      { destruct (is_default t); [reflexivity|]. cbn in EW. destruct known; cbn in EW; [discriminate|]. destruct D as [D|D]; [discriminate|]. congruence. }
      destruct t as [tb tn tr tw tc td]. unfold is_default in DT. destruct tb; [discriminate|]. destruct tn; [discriminate|]. apply K2.
  Qed.
End Effects.

Theorem C93_withdrawals : forall {W Path Key T : Type} (impl : world_impl W Path Key) bal nonce, account_laws impl bal nonce ->
  forall ws (s s' : @st W Path Key T), do_withdrawals impl ws s = Some s' ->
    (forall a, bal (s_world s') a = bal (s_world s) a + credited ws a) /\ (forall a, nonce (s_world s') a = nonce (s_world s) a) /\
    s_txns s' = s_txns s /\ s_receipts s' = s_receipts s /\ s_ix s' = s_ix s /\ b_gas s' = b_gas s /\
    b_state_mask s' = b_state_mask s ++ map (path_of_address impl) (map fst ws).
Proof. intros. eapply withdrawals_credit; eassumption. Qed.

(** Accounts that a failed transaction would have created are not written;
    the others get the balance and the nonce of their trace. *)
Theorem C93_trace : forall {W Path Key T : Type} (impl : world_impl W Path Key) bal nonce, account_laws impl bal nonce ->
  forall code_hash slot_key map_receipt_bytes receipt_status fatal receipt r addr t ok known (s s' : @st W Path Key T),
    do_trace impl code_hash slot_key map_receipt_bytes receipt_status fatal receipt addr t s = Some s' -> t_self_destructed t = false ->
    map_receipt_bytes receipt = Some r -> receipt_status r = Some ok -> contains impl (s_world s) addr = Some known ->
    (known = false -> ok = false -> create_storage impl (s_world s) addr = Some (s_world s') /\ b_contract_code s' = b_contract_code s) /\
    (known = true \/ ok = true ->
       bal (s_world s') addr = match t_balance t with Some n => n | None => bal (s_world s) addr end /\
       nonce (s_world s') addr = match t_nonce t with Some n => n | None => nonce (s_world s) addr end) /\
    (forall b, b <> addr -> bal (s_world s') b = bal (s_world s) b /\ nonce (s_world s') b = nonce (s_world s) b).
Proof. intros. eapply trace_effect; eassumption. Qed.

(** * A world of balances and nonces *)
Definition toy_set (w : Z -> Z * Z) (a : Z) (x : Z * Z) : Z -> Z * Z := fun b => if b =? a then x else w b.
Definition toy : world_impl (Z -> Z * Z) Z Z := {|
  contains := fun w a => Some (negb (snd (w a) =? 0));
  update_balance := fun w a f => match f (fst (w a)) with Some x => Some (toy_set w a (x, snd (w a))) | None => None end;
  update_nonce := fun w a f => match f (snd (w a)) with Some x => Some (toy_set w a (fst (w a), x)) | None => None end;
  set_code := fun w _ _ => Some w;
  reporting_destroy := fun w a => Some (toy_set w a (0, 0), None);
  create_storage := fun w _ => Some w; destroy_storage := fun w _ => Some w; store_int := fun w _ _ _ => Some w;
  reporting_destroy_slot := fun w _ _ => Some (w, None); mask_storage := fun w _ => Some w; mask := fun w _ => Some w;
  root := fun w => fst (w 0); path_of_address := fun a => a |}.
Definition toy_state (w : Z -> Z * Z) : @st (Z -> Z * Z) Z Z nat :=
  {| s_world := w; s_code := fun _ => None; s_txns := 0%nat; s_receipts := 0%nat; s_ix := 0%nat; b_gas := 0; b_byte_code := []; b_contract_code := [[]]; b_storage_masks := []; b_state_mask := [] |}.
Definition toy_trace : txn_trace := {| t_balance := Some 70; t_nonce := None; t_storage_read := []; t_storage_written := [(1, 2)]; t_code_usage := None; t_self_destructed := false |}.

Theorem C93_case :
  account_laws toy (fun w a => fst (w a)) (fun w a => snd (w a)) /\
  (exists s', do_withdrawals toy [(5, 10); (6, 1); (5, 3)] (toy_state (fun a => (a, 1))) = Some s' /\ fst (s_world s' 5) = 18 /\ fst (s_world s' 6) = 7) /\
  (exists s', do_trace toy (fun _ => 0) (fun k => k) Some (fun b => Some (negb (Nat.eqb (length b) 0))) false [] 5 toy_trace (toy_state (fun a => (a, 0))) = Some s' /\ fst (s_world s' 5) = 5) /\
  (exists s', do_trace toy (fun _ => 0) (fun k => k) Some (fun b => Some (negb (Nat.eqb (length b) 0))) false [] 5 toy_trace (toy_state (fun a => (a, 1))) = Some s' /\ fst (s_world s' 5) = 70).
Proof.
  split; [|split; [|split]; eexists; (split; [reflexivity|vm_compute; auto])].
  constructor; cbn; unfold toy_set.
  - intros w a f w' H. destruct (f (fst (w a))) as [x|] eqn:E; [|discriminate]. injection H as <-. rewrite Z.eqb_refl. cbn.
    split; [reflexivity|]. split; intros b; [intros D; apply Z.eqb_neq in D; now rewrite D|destruct (Z.eqb_spec b a) as [->|]; reflexivity].
  - intros w a f w' H. destruct (f (snd (w a))) as [x|] eqn:E; [|discriminate]. injection H as <-. rewrite Z.eqb_refl. cbn.
    split; [reflexivity|]. split; intros b; [intros D; apply Z.eqb_neq in D; now rewrite D|destruct (Z.eqb_spec b a) as [->|]; reflexivity].
  - intros w a c w' H b. injection H as <-. split; reflexivity.
  - intros w a w' H b. injection H as <-. split; reflexivity.
  - intros w a k v w' H b. injection H as <-. split; reflexivity.
  - intros w a k w' r H b. injection H as <- <-. split; reflexivity.
Qed.

Print Assumptions C93_withdrawals. Print Assumptions C93_trace. Print Assumptions C93_case.
