(** C87 to C89: transactions, receipts, addresses and prover inputs. *)
From Coq Require Import List Arith NArith Bool Lia.
From Coq Require Import ZifyN ZifyNat ZifyBool.
From Verif.Mpt Require Import TrieModel TrieFacts NibblesModel NibblesProofs HexPrefixProofs.
From Verif.Generation Require Import LoadModel LoadProps.
Import ListNotations.
Local Open Scope nat_scope.

(** * Slices *)

Lemma at_app : forall s pre c x k, s = pre ++ Some c :: x -> k = length pre -> at_cell s k = LOk c.
Proof. intros s pre c x k -> ->. unfold at_cell. rewrite nth_error_app2, Nat.sub_diag by lia. reflexivity. Qed.
Lemma sub_app : forall s pre (l : list N) x a b, s = pre ++ map Some l ++ x -> a = length pre -> b = a + length l -> sub_slice s a b = LOk (map Some l).
Proof.
  intros s pre l x a b -> -> ->. unfold sub_slice. rewrite !app_length, map_length. replace ((length pre <=? length pre + length l) && (length pre + length l <=? length pre + (length l + length x))) with true by lia.
  rewrite skipn_app, skipn_all, Nat.sub_diag. cbn [app skipn]. replace (length pre + length l - length pre) with (length (map (@Some N) l)) by (rewrite map_length; lia). rewrite firstn_app, firstn_all, Nat.sub_diag, firstn_O, app_nil_r. reflexivity.
Qed.
Lemma bytes_back : forall l, byte_list l -> to_bytes (map Some l) = LOk l.
Proof. induction l as [|b l IH]; intros H; [reflexivity|]. inversion H as [|? ? H1 H2]; subst. unfold is_byte in H1. cbn [map to_bytes cell_val]. unfold u256_to_u8. replace (b <? 256)%N with true by lia. cbn [lbind]. rewrite IH by exact H2. reflexivity. Qed.
Lemma cells_back : forall l s pre x k, s = pre ++ map Some l ++ x -> k = length pre -> read_cells s k (length l) = LOk l.
Proof.
  induction l as [|c l IH]; intros s pre x k E K; [reflexivity|]. cbn [length read_cells map app] in *. rewrite (at_app s pre c (map Some l ++ x) k E K). cbn [lbind]. rewrite (IH s (pre ++ [Some c]) x (S k)); [reflexivity| |rewrite app_length; cbn [length]; lia].
  rewrite E, <- app_assoc. reflexivity.
Qed.

(** * Transactions *)

Lemma txn_readable : forall v, byte_list v -> (N.of_nat (length v) < 2 ^ 64)%N -> readable parse_txn read_txn_rlp_value 0 v.
Proof.
  intros v B L. exists (N.of_nat (length v) :: v). split; [reflexivity|]. intros rest _. unfold read_txn_rlp_value. cbn [map app at_cell nth_error cell_val lbind]. rewrite usize_of by exact L. cbn [lbind].
  rewrite (sub_app _ [Some (N.of_nat (length v))] v rest 1 (length v + 1)) by (reflexivity || (cbn [length]; lia)). cbn [lbind]. apply bytes_back. exact B.
Qed.

(** Bytes, of a length that a [usize] can hold, in every leaf and branch. *)
Inductive txn_trie : nat -> node -> Prop :=
| tt_empty n : txn_trie n Empty
| tt_hash n h : length h = 32 -> byte_list h -> txn_trie n (Hash h)
| tt_branch n ch v : n < 64 -> length ch = 16 -> byte_list v -> (N.of_nat (length v) < 2 ^ 64)%N -> (forall i c, nth_error ch i = Some c -> txn_trie (S n) c) -> txn_trie n (Branch ch v)
| tt_ext n ns c : nibs ns -> n + length ns <= 64 -> txn_trie (n + length ns) c -> txn_trie n (Ext ns c)
| tt_leaf n ns v : nibs ns -> length ns <= 64 -> byte_list v -> (N.of_nat (length v) < 2 ^ 64)%N -> txn_trie n (Leaf ns v).

(** The transactions trie is the one given: loaded after anything, read back
    from any later memory that kept the loaded cells. *)
Theorem C87_transactions : forall t td, txn_trie 0 t -> 0 < length td ->
  exists p td', load_mpt parse_txn t td = LOk (p, td') /\ length td <= length td' /\ (forall i, i < length td -> nth_error td' i = nth_error td i) /\
    forall m fuel, (forall i, length td <= i < length td' -> nth_error m i = nth_error td' i) -> load_cell m 0 = 0%N -> length td' <= length m -> (N.of_nat (length td') < 2 ^ 64)%N -> height t <= fuel ->
      get_trie read_txn_rlp_value m fuel p [] = Some (LOk t).
Proof.
  intros t td W P. assert (G : forall t n, txn_trie n t -> loadable parse_txn read_txn_rlp_value 0 n t).
  { clear. induction t as [|h|ch v IH|ns c IH|ns v] using node_ind'; intros n W; inversion W; subst; constructor; try (right; apply txn_readable); try (apply txn_readable); try assumption; eauto. }
  destruct (C87_load_extract _ _ _ t td (G t 0 W) P) as (p & td' & E & X1 & X2 & H). exists p, td'. repeat (split; [assumption|]). intros m fuel A Z L. apply H; try assumption. lia.
Qed.
Print Assumptions C87_transactions.

(** A trie with a branch, an extension, a hash and two transactions. *)
Definition sample_trie : node :=
  Ext [1; 2] (Branch [Leaf [3] [7; 9]%N; Empty; Hash (repeat 5%N 32); Ext [4] Empty; Leaf [] []; Empty; Empty; Empty; Empty; Empty; Empty; Empty; Empty; Empty; Empty; Leaf [15; 15] [255]%N] [1; 2; 3]%N).
Theorem C87_case : txn_trie 0 sample_trie /\
  match load_mpt parse_txn sample_trie [num 0] with LOk (p, m) => get_trie read_txn_rlp_value m 4 p [] = Some (LOk sample_trie) | _ => False end.
Proof.
  split; [|vm_compute; reflexivity].
  assert (BL : forall l, forallb (fun b => (b <? 256)%N) l = true -> byte_list l) by (intros l H; apply Forall_forall; intros b Hb; rewrite forallb_forall in H; specialize (H b Hb); unfold is_byte; lia).
  assert (NI : forall l, forallb (fun b => b <? 16) l = true -> nibs l) by (intros l H; apply Forall_forall; intros b Hb; rewrite forallb_forall in H; specialize (H b Hb); cbn beta in *; lia).
  constructor; [apply NI; reflexivity|cbn; lia|]. constructor; [cbn; lia|reflexivity|apply BL; reflexivity|reflexivity|]. intros i c H. do 16 (destruct i as [|i]; [injection H as <-; repeat (constructor; try (apply NI; reflexivity); try (apply BL; reflexivity); try reflexivity; try (cbn; lia))|]). destruct i; discriminate H.
Qed.
Print Assumptions C87_case.

(** * C88: receipts *)

Definition valid_log (l : log) : Prop := (l_address l < 2 ^ 160)%N /\ byte_list (l_data l) /\ (N.of_nat (length (l_topics l)) < 2 ^ 64)%N /\ (N.of_nat (length (l_data l)) < 2 ^ 64)%N.
Definition valid_receipt (r : receipt) : Prop := length (r_bloom r) = 256 /\ byte_list (r_bloom r) /\ Forall valid_log (r_logs r) /\ (N.of_nat (length (r_logs r)) < 2 ^ 64)%N.

Lemma h160_small : forall x, (x < 2 ^ 160)%N -> u256_to_h160 x = LOk x.
Proof.
  intros x H. unfold u256_to_h160. assert (S : (N.size x <= 160)%N).
  { destruct (N.eq_dec x 0) as [->|N0]; [cbn; lia|]. rewrite N.size_log2 by exact N0. apply N.le_succ_l. apply N.log2_lt_pow2; lia. }
  replace (20 <? N.size x / 8)%N with false by lia. rewrite N.mod_small by exact H. reflexivity.
Qed.

(** An address of more than twenty bytes is an error, says the comment. *)
Theorem C88_h160_exact : forall x, u256_to_h160 x = if (2 ^ 167 <=? x)%N then LErr IntegerTooLarge else LOk (x mod 2 ^ 160)%N.
Proof.
  intros x. unfold u256_to_h160. destruct (N.leb_spec (2 ^ 167) x) as [L|L].
  - assert (S : (168 <= N.size x)%N). { rewrite N.size_log2 by (intros ->; cbn in L; lia). assert (167 <= N.log2 x)%N by (apply N.log2_le_pow2; lia). lia. } replace (20 <? N.size x / 8)%N with true by lia. reflexivity.
  - assert (S : (N.size x <= 167)%N). { destruct (N.eq_dec x 0) as [->|N0]; [cbn; lia|]. rewrite N.size_log2 by exact N0. apply N.le_succ_l. apply N.log2_lt_pow2; lia. } replace (20 <? N.size x / 8)%N with false by lia. reflexivity.
Qed.
Print Assumptions C88_h160_exact.

Theorem C88_h160_overflow_refuted : exists x y, x <> y /\ (2 ^ 160 <= x)%N /\ u256_to_h160 x = LOk 5%N /\ u256_to_h160 y = LOk 5%N.
Proof. exists (2 ^ 160 + 5)%N, 5%N. repeat split; (discriminate || reflexivity || (vm_compute; discriminate)). Qed.
Print Assumptions C88_h160_overflow_refuted.

Section Layout.
  Variable log_len : log -> N.
  Variable logs_len : list log -> N.

  Lemma logs_back : forall logs s pre x, Forall valid_log logs -> s = pre ++ tl (map Some (flat_map (layout_log log_len) logs)) ++ x -> read_logs (length logs) s (length pre) = LOk logs.
  Proof.
    induction logs as [|l logs IH]; intros s pre x V E; [reflexivity|]. destruct (Forall_inv V) as (V1 & V2 & V3 & V4). pose proof (Forall_inv_tail V) as VL. clear V. cbn [length read_logs].
    set (nt := N.of_nat (length (l_topics l))) in *. set (dl := N.of_nat (length (l_data l))) in *. set (more := map Some (flat_map (layout_log log_len) logs)) in *.
    assert (E0 : s = pre ++ Some (l_address l) :: Some nt :: map Some (l_topics l) ++ Some dl :: map Some (l_data l) ++ more ++ x) by (rewrite E; cbn [flat_map]; unfold layout_log at 1; cbn [app map tl]; unfold more; repeat (progress (rewrite ?map_app, <- ?app_assoc; cbn [map app])); reflexivity). clear E.
    rewrite (at_app s pre _ _ (length pre) E0 eq_refl). cbn [lbind]. rewrite h160_small by exact V1. cbn [lbind].
    rewrite (at_app s (pre ++ [Some (l_address l)]) nt (map Some (l_topics l) ++ Some dl :: map Some (l_data l) ++ more ++ x)) by (try (rewrite E0, <- app_assoc; reflexivity); rewrite app_length; reflexivity). cbn [lbind]. unfold nt at 1. rewrite usize_of by exact V3. cbn [lbind].
    rewrite (cells_back (l_topics l) s (pre ++ [Some (l_address l); Some nt]) (Some dl :: map Some (l_data l) ++ more ++ x)) by (try (rewrite E0, <- app_assoc; reflexivity); rewrite app_length; reflexivity). cbn [lbind].
    rewrite (at_app s (pre ++ [Some (l_address l); Some nt] ++ map Some (l_topics l)) dl (map Some (l_data l) ++ more ++ x)) by (try (rewrite E0, <- !app_assoc; reflexivity); rewrite !app_length, map_length; cbn [length]; lia). cbn [lbind]. unfold dl at 1. rewrite usize_of by exact V4. cbn [lbind].
    rewrite (sub_app s (pre ++ [Some (l_address l); Some nt] ++ map Some (l_topics l) ++ [Some dl]) (l_data l) (more ++ x)) by (solve [rewrite E0; repeat (progress (rewrite <- ?app_assoc; cbn [app])); reflexivity | reflexivity | repeat (progress (rewrite ?app_length, ?map_length; cbn [length])); lia]). cbn [lbind]. rewrite bytes_back by exact V2. cbn [lbind].
    assert (R : read_logs (length logs) s (length pre + 2 + length (l_topics l) + 1 + length (l_data l) + 1) = LOk logs).
    { destruct logs as [|l' logs']; [reflexivity|].
      rewrite <- (IH s (pre ++ [Some (l_address l); Some nt] ++ map Some (l_topics l) ++ [Some dl] ++ map Some (l_data l) ++ [Some (log_len l')]) x VL); [|assert (MM : more = Some (log_len l') :: tl more) by reflexivity; fold more; rewrite E0, MM; clear; repeat (progress (rewrite <- ?app_assoc; cbn [app])); reflexivity].
      f_equal. rewrite !app_length, !map_length. cbn [length]. lia. }
    rewrite R. cbn [lbind]. destruct l; reflexivity.
  Qed.

  (** What the loader wrote for a receipt of type 0, 1 or 2 is read back. *)
  Theorem receipt_back : forall ty len r rest, (ty = 0 /\ len <> 1 /\ len <> 2 \/ ty = 1 \/ ty = 2)%N -> valid_receipt r -> 1 <= length rest ->
    read_receipt_trie_value (map Some (layout_receipt log_len logs_len ty len r) ++ rest) = LOk ((if (ty =? 0)%N then None else Some ty), r).
  Proof.
    intros ty len r rest T (VB & BB & VL & NL) LR. set (body := [if r_status r then 1 else 0; r_gas r]%N ++ r_bloom r ++ [logs_len (r_logs r); N.of_nat (length (r_logs r))] ++ flat_map (layout_log log_len) (r_logs r)).
    assert (HEAD : exists hd, map Some (layout_receipt log_len logs_len ty len r) ++ rest = hd ++ map Some body ++ rest /\
      (let! first := at_cell (map Some (layout_receipt log_len logs_len ty len r) ++ rest) 0 in (if (first =? 1)%N || (first =? 2)%N then let! s := from_index (map Some (layout_receipt log_len logs_len ty len r) ++ rest) 2 in LOk (Some first, s) else let! s := from_index (map Some (layout_receipt log_len logs_len ty len r) ++ rest) 1 in LOk (None, s)))
        = LOk ((if (ty =? 0)%N then None else Some ty), map Some body ++ rest)).
    { unfold layout_receipt. fold body. destruct T as [(-> & N1 & N2)|[-> | ->]].
      - exists [Some len]. cbn [N.eqb app map]. split; [reflexivity|]. cbn [at_cell nth_error cell_val lbind]. replace ((len =? 1)%N || (len =? 2)%N) with false by lia. reflexivity.
      - exists [Some 1%N; Some len]. split; reflexivity.
      - exists [Some 2%N; Some len]. split; reflexivity. }
    destruct HEAD as (hd & _ & HD). unfold read_receipt_trie_value. 
    assert (ASSOC : forall A B C (a : lres A) (f : A -> lres B) (g : B -> lres C), lbind a (fun x => lbind (f x) g) = lbind (lbind a f) g) by (intros A B C [a|e|] f g; reflexivity). rewrite ASSOC, HD. clear HD ASSOC. cbn [lbind].
    set (s := map Some body ++ rest). assert (ES : s = Some (if r_status r then 1%N else 0%N) :: Some (r_gas r) :: map Some (r_bloom r) ++ Some (logs_len (r_logs r)) :: num (length (r_logs r)) :: map Some (flat_map (layout_log log_len) (r_logs r)) ++ rest).
    { unfold s, body. cbn [app map]. rewrite !map_app. cbn [map]. rewrite <- !app_assoc. reflexivity. }
    clearbody s. rewrite (at_app s [] _ _ 0 ES eq_refl). cbn [lbind]. replace (u256_to_bool (if r_status r then 1%N else 0%N)) with (@LOk bool (r_status r)) by (destruct (r_status r); reflexivity). cbn [lbind].
    rewrite (at_app s [Some (if r_status r then 1%N else 0%N)] (r_gas r) (map Some (r_bloom r) ++ Some (logs_len (r_logs r)) :: num (length (r_logs r)) :: map Some (flat_map (layout_log log_len) (r_logs r)) ++ rest) 1 ES eq_refl). cbn [lbind].
    rewrite (sub_app s [Some (if r_status r then 1%N else 0%N); Some (r_gas r)] (r_bloom r) (Some (logs_len (r_logs r)) :: num (length (r_logs r)) :: map Some (flat_map (layout_log log_len) (r_logs r)) ++ rest) 2 (2 + 256) ES eq_refl) by (rewrite VB; reflexivity). cbn [lbind]. rewrite bytes_back by exact BB. cbn [lbind].
    set (pre := [Some (if r_status r then 1%N else 0%N); Some (r_gas r)] ++ map Some (r_bloom r) ++ [Some (logs_len (r_logs r))]). assert (LP : length pre = 259) by (unfold pre; rewrite !app_length, map_length, VB; reflexivity).
    assert (EP : s = pre ++ num (length (r_logs r)) :: map Some (flat_map (layout_log log_len) (r_logs r)) ++ rest) by (rewrite ES; unfold pre; rewrite <- !app_assoc; reflexivity). clearbody pre. clear ES.
    rewrite (at_app s pre (N.of_nat (length (r_logs r))) (map Some (flat_map (layout_log log_len) (r_logs r)) ++ rest) (2 + 256 + 1) EP) by (rewrite LP; reflexivity). cbn [lbind]. rewrite usize_of by exact NL. cbn [lbind].
    assert (SK : from_index s (2 + 256 + 3) = LOk (tl (map Some (flat_map (layout_log log_len) (r_logs r)) ++ rest))).
    { unfold from_index. change (2 + 256 + 3) with 261. assert (LS : 261 <= length s) by (rewrite EP, app_length, LP; cbn [length]; rewrite app_length; lia). replace (261 <=? length s) with true by lia.
      rewrite EP. replace 261 with (length pre + 2) by (rewrite LP; reflexivity). rewrite skipn_app. rewrite skipn_all2 by lia. replace (length pre + 2 - length pre) with 2 by lia. cbn [app skipn]. destruct (map Some _ ++ rest); reflexivity. }
    rewrite SK. cbn [lbind]. destruct (r_logs r) as [|l logs] eqn:EL.
    - cbn [length read_logs lbind]. rewrite <- EL. destruct r; reflexivity.
    - rewrite (logs_back (l :: logs) _ [] rest VL) by (cbn [flat_map]; unfold layout_log; reflexivity). cbn [lbind]. rewrite <- EL. destruct r; reflexivity.
  Qed.
End Layout.

Theorem C88_receipts : forall log_len logs_len ty len r rest, (ty = 0 /\ len <> 1 /\ len <> 2 \/ ty = 1 \/ ty = 2)%N -> valid_receipt r -> 1 <= length rest ->
  read_receipt_trie_value (map Some (layout_receipt log_len logs_len ty len r) ++ rest) = LOk ((if (ty =? 0)%N then None else Some ty), r).
Proof. exact receipt_back. Qed.
Print Assumptions C88_receipts.

Definition sample_log : log := {| l_address := 77; l_topics := [5; 2 ^ 255]%N; l_data := [1; 2; 3]%N |}.
Definition sample_receipt (logs : list log) : receipt := {| r_status := true; r_gas := 21000; r_bloom := repeat 0%N 256; r_logs := logs |}.
Lemma sample_valid : forall logs, Forall valid_log logs -> (N.of_nat (length logs) < 2 ^ 64)%N -> valid_receipt (sample_receipt logs).
Proof. intros logs H L. split; [apply repeat_length|]. split; [apply Forall_forall; intros b Hb; apply repeat_spec in Hb; subst; unfold is_byte; lia|]. split; [exact H|exact L]. Qed.
Theorem C88_case : valid_receipt (sample_receipt [sample_log; sample_log]) /\
  read_receipt_trie_value (map Some (layout_receipt (fun _ => 60%N) (fun _ => 120%N) 2 400 (sample_receipt [sample_log; sample_log])) ++ [None]) = LOk (Some 2%N, sample_receipt [sample_log; sample_log]).
Proof.
  split; [|vm_compute; reflexivity]. apply sample_valid; [|reflexivity]. assert (V : valid_log sample_log) by (split; [reflexivity|]; split; [repeat constructor|split; reflexivity]). repeat constructor; apply V.
Qed.

(** The receipt of a blob transaction, which the loader accepts (type 3), is
    never read back. *)
Theorem C88_blob_receipts_unreadable : forall log_len logs_len len r rest, valid_receipt r -> (2 <= len)%N ->
  read_receipt_trie_value (map Some (layout_receipt log_len logs_len 3 len r) ++ rest) = LErr IntegerTooLarge.
Proof.
  intros log_len logs_len len r rest _ L. unfold layout_receipt, read_receipt_trie_value. cbn [N.eqb app map at_cell nth_error cell_val lbind orb Pos.eqb from_index length Nat.leb skipn]. unfold u256_to_bool. replace (len =? 0)%N with false by lia. replace (len =? 1)%N with false by lia. reflexivity.
Qed.
Print Assumptions C88_blob_receipts_unreadable.
Theorem C88_blob_receipt_refuted : exists r, valid_receipt r /\ read_receipt_trie_value (map Some (layout_receipt (fun _ => 60%N) (fun _ => 60%N) 3 400 r) ++ [None]) <> LOk (Some 3%N, r).
Proof. exists (sample_receipt []). split; [apply sample_valid; [constructor|reflexivity]|]. rewrite C88_blob_receipts_unreadable; [discriminate|apply sample_valid; [constructor|reflexivity]|discriminate]. Qed.
Print Assumptions C88_blob_receipt_refuted.

(** A receipt without logs at the end of the memory makes the reader panic. *)
Theorem C88_last_receipt_refuted : exists r, valid_receipt r /\ read_receipt_trie_value (map Some (layout_receipt (fun _ => 0%N) (fun _ => 0%N) 0 400 r)) = LPanic.
Proof. exists (sample_receipt []). split; [apply sample_valid; [constructor|reflexivity]|vm_compute; reflexivity]. Qed.
Print Assumptions C88_last_receipt_refuted.

(** * C89: transactions as prover inputs *)

(** Specification: the reader takes a length and the words that hold as many bytes. *)
Fixpoint decode_inputs (fuel : nat) (ws : list N) : option (list (list N)) :=
  match fuel, ws with
  | _, [] => Some []
  | 0, _ => None
  | S fuel, n :: ws =>
      let k := (N.to_nat n + 31) / 32 in
      if length ws <? k then None else
      match decode_inputs fuel (skipn k ws) with
      | Some txns => Some (firstn (N.to_nat n) (flat_map (be_bytes 32) (firstn k ws)) :: txns)
      | None => None
      end
  end.

Lemma words_decode : forall fuel b, byte_list b -> length b < fuel -> length (txn_words fuel b) = (length b + 31) / 32 /\ firstn (length b) (flat_map (be_bytes 32) (txn_words fuel b)) = b /\ Forall (fun w => (w < 2 ^ 256)%N) (txn_words fuel b).
Proof.
  induction fuel as [|fuel IH]; intros b B L; [lia|]. cbn [txn_words]. destruct (Nat.ltb_spec (length b) 32) as [S|S].
  - destruct b as [|x b]; [repeat split; constructor|]. set (c := x :: b) in *. assert (C1 : 1 <= length c) by (unfold c; cbn [length]; lia). assert (BL : byte_list (c ++ repeat 0%N (32 - length c))) by (apply Forall_app; split; [exact B|apply Forall_forall; intros y Hy; apply repeat_spec in Hy; subst; unfold is_byte; lia]).
    assert (LL : length (c ++ repeat 0%N (32 - length c)) = 32) by (rewrite app_length, repeat_length; lia). cbn [length flat_map app]. split; [clearbody c; lia|]. split.
    + rewrite app_nil_r, be_bytes_unique by assumption. rewrite firstn_app, firstn_all, Nat.sub_diag, firstn_O, app_nil_r. reflexivity.
    + constructor; [|constructor]. pose proof (from_be_bound _ BL) as X. rewrite LL in X. exact X.
  - assert (BF : byte_list (firstn 32 b) /\ byte_list (skipn 32 b)) by (apply Forall_app; rewrite firstn_skipn; exact B). destruct BF as [BF BS]. assert (LF : length (firstn 32 b) = 32) by (rewrite firstn_length; lia).
    destruct (IH (skipn 32 b) BS) as (I1 & I2 & I3); [rewrite skipn_length; lia|]. cbn [length flat_map]. split; [rewrite I1, skipn_length; clear -S; lia|]. split.
    + rewrite be_bytes_unique by assumption. rewrite firstn_app, LF, firstn_all2 by lia. rewrite skipn_length in I2. rewrite I2. apply firstn_skipn.
    + constructor; [|exact I3]. pose proof (from_be_bound _ BF) as X. rewrite LF in X. exact X.
Qed.

Theorem C89_inputs_decode : forall txns, Forall byte_list txns -> (forall t, In t txns -> (N.of_nat (length t) < 2 ^ 256)%N) ->
  decode_inputs (length txns) (all_rlp_prover_inputs txns) = Some txns /\ rev (all_rlp_prover_inputs_reversed txns) = all_rlp_prover_inputs txns /\ Forall (fun w => (w < 2 ^ 256)%N) (all_rlp_prover_inputs txns).
Proof.
  intros txns B L. split; [|split; [apply rev_involutive|]].
  - clear L. induction B as [|t txns BT _ IH]; [reflexivity|]. unfold all_rlp_prover_inputs in *. cbn [flat_map length app decode_inputs]. rewrite Nat2N.id. destruct (words_decode (S (length t)) t BT ltac:(lia)) as (W1 & W2 & _). rewrite <- W1, app_length.
    set (ws := txn_words (S (length t)) t) in *. replace (length ws + _ <? length ws) with false by lia. rewrite skipn_app, skipn_all, Nat.sub_diag. cbn [app skipn]. rewrite IH. rewrite firstn_app, firstn_all, Nat.sub_diag, firstn_O, app_nil_r, W2. reflexivity.
  - unfold all_rlp_prover_inputs. apply Forall_forall. intros w Hw. apply in_flat_map in Hw. destruct Hw as (t & Ht & [<-|Hw]); [apply L; exact Ht|]. rewrite Forall_forall in B. destruct (words_decode (S (length t)) t (B t Ht) ltac:(lia)) as (_ & _ & W). rewrite Forall_forall in W. apply W. exact Hw.
Qed.
Print Assumptions C89_inputs_decode.

Theorem C89_inputs_injective : forall a b, Forall byte_list a -> Forall byte_list b -> (forall t, In t (a ++ b) -> (N.of_nat (length t) < 2 ^ 256)%N) -> length a = length b -> all_rlp_prover_inputs a = all_rlp_prover_inputs b -> a = b.
Proof.
  intros a b A B L EL E. destruct (C89_inputs_decode a A) as (Da & _); [intros; apply L; apply in_or_app; left; assumption|]. destruct (C89_inputs_decode b B) as (Db & _); [intros; apply L; apply in_or_app; right; assumption|]. rewrite E, EL, Db in Da. injection Da as ->. reflexivity.
Qed.
Print Assumptions C89_inputs_injective.

Theorem C89_case : decode_inputs 3 (all_rlp_prover_inputs [repeat 7%N 33; []; repeat 255%N 64]) = Some [repeat 7%N 33; []; repeat 255%N 64] /\ length (all_rlp_prover_inputs [repeat 7%N 33; []; repeat 255%N 64]) = 7.
Proof. vm_compute. split; reflexivity. Qed.
