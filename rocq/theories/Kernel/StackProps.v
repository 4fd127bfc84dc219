(** The %stack macro: C31. *)
From Coq Require Import ZArith String Ascii List Bool Arith Lia DecimalString DecimalNat.
From Verif Require Import Kernel.OptModel Kernel.OptSpec Kernel.OptSound Kernel.OptRules Kernel.PermModel Kernel.StackModel.
Import ListNotations.
Local Open Scope nat_scope.
Local Open Scope list_scope.

(** * Specification *)

(** [env name] are the words the placeholder [name] stands for, top first. *)
Definition matches (names : list placeholder) (env : string -> list Z) : Prop :=
  Forall (fun p => match p with StackPlaceholder name n => List.length (env name) = n end) names.
Definition named (names : list placeholder) (s : string) : bool := existsb (fun p => match p with StackPlaceholder name _ => String.eqb name s end) names.
Definition top_words (names : list placeholder) (env : string -> list Z) : list Z :=
  flat_map (fun p => match p with StackPlaceholder name _ => env name end) names.
(** What a replacement stands for: a literal, the words of a placeholder, or
    the address of a label. *)
Definition replaced (names : list placeholder) (env : string -> list Z) (address : string -> Z) (r : replacement) : list Z :=
  match r with
  | RLiteral x => [x]
  | RIdentifier s => if named names s then env s else [address s]
  | RLabel l => [address l]
  | _ => []
  end.
(** The instructions the assembler knows (DUP1-16, SWAP1-16; opcodes.rs). *)
Definition assembles (i : item) : Prop :=
  match i with
  | StandardOp op => op = "POP"%string \/ dup_of op <> None \/ swap_of op <> None
  | _ => True
  end.

(** * Equality tests *)

Lemma target_eqb_spec : forall a b, push_target_eqb a b = true -> a = b.
Proof. intros [x|l|l|l|l] [y|m|m|m|m] H; try discriminate; cbn in H; [apply Z.eqb_eq in H|apply String.eqb_eq in H..]; congruence. Qed.
Lemma item_eqb_spec : forall a b, stack_item_eqb a b = true -> a = b.
Proof. intros [s|t] [s'|t'] H; try discriminate; cbn in H; [apply String.eqb_eq in H|apply target_eqb_spec in H]; congruence. Qed.
Lemma stack_eqb_spec : forall a b, stack_eqb a b = true -> a = b.
Proof. induction a as [|x a IH]; intros [|y b] H; try discriminate; [reflexivity|]. cbn in H. apply andb_prop in H. destruct H as [H1 H2]. apply item_eqb_spec in H1. apply IH in H2. congruence. Qed.

(** * The search returns a path *)

Fixpoint apply_all (ops : list stack_op) (s : list stack_item) : option (list stack_item) :=
  match ops with [] => Some s | op :: r => match apply_to op s with Some s' => apply_all r s' | None => None end end.

Definition simple (t : push_target) : Prop := match t with Literal _ | Label _ => True | _ => False end.
Definition simple_target (op : stack_op) : Prop := match op with OpPush t => simple t | _ => True end.

Section Search.
  Variable hash_order : list stack_item -> list stack_item.
  Variable pop : list (list stack_item * nat) -> option ((list stack_item * nat) * list (list stack_item * nat)).
  Variables cpu_columns memory_columns : nat.

  Definition edges (info : node_table) : Prop := Forall (fun e => match snd (snd e) with Some (parent, op) => apply_to op parent = Some (fst e) /\ simple_target op | None => True end) info.

  Lemma look_up_edge : forall info s c parent op, edges info -> look_up info s = Some (c, Some (parent, op)) -> apply_to op parent = Some s /\ simple_target op.
  Proof.
    induction info as [|[k v] info IH]; intros s c parent op H E; [discriminate|]. cbn [look_up] in E. inversion H as [|? ? H1 H2]. subst. destruct (stack_eqb k s) eqn:K; [|eapply IH; eassumption].
    apply stack_eqb_spec in K. subst k. injection E as ->. exact H1.
  Qed.

  Lemma rewind_path : forall fuel info src stack path result dst, edges info -> apply_all path stack = Some dst -> Forall simple_target path -> rewind fuel info src stack path = Found result -> apply_all result src = Some dst /\ Forall simple_target result.
  Proof.
    induction fuel as [|fuel IH]; intros info src stack path result dst H A F E; [discriminate|]. cbn [rewind] in E. destruct (look_up info stack) as [[c [[parent op]|]]|] eqn:L; [|destruct (stack_eqb stack src) eqn:S; [|discriminate]|discriminate].
    - destruct (look_up_edge _ _ _ _ _ H L) as [L1 L2]. eapply IH; [exact H| | |exact E]; [cbn [apply_all]; rewrite L1; exact A|constructor; assumption].
    - apply stack_eqb_spec in S. subst stack. injection E as <-. auto.
  Qed.

  Lemma relax_edges : forall ops node cost queue info, edges info -> Forall simple_target ops -> edges (snd (relax cpu_columns memory_columns ops node cost queue info)).
  Proof.
    induction ops as [|op ops IH]; intros node cost queue info H F; cbn [relax]; [exact H|]. inversion F as [|? ? F1 F2]; subst. destruct (apply_to op node) as [n|] eqn:E; [|apply IH; assumption].
    destruct (match look_up info n with Some (c, _) => c <=? cost + op_cost cpu_columns memory_columns op | None => false end); [apply IH; assumption|]. apply IH; [|exact F2]. constructor; [split; assumption|exact H].
  Qed.

  Lemma next_simple : forall src dst targets ops, Forall simple targets -> next_ops hash_order src dst targets = Some ops -> Forall simple_target ops.
  Proof.
    intros src dst targets ops F E. unfold next_ops in E.
    assert (G : forall a b c, Forall simple_target ([OpPop] ++ map OpPush (filter a targets) ++ map OpDup b ++ map OpSwap c)).
    { intros a b c. apply Forall_app. split; [repeat constructor|]. apply Forall_app. split; [|apply Forall_app; split; apply Forall_forall; intros o O; apply in_map_iff in O; destruct O as (? & <- & _); exact I].
      apply Forall_forall. intros o O. apply in_map_iff in O. destruct O as (t & <- & O). apply filter_In in O. cbn. eapply Forall_forall; [exact F|]. apply O. }
    assert (K : forall o : option (list stack_op), o = Some ops -> match o with Some l => Forall simple_target l | None => True end -> Forall simple_target ops) by (intros o -> H; exact H).
    eapply K; [exact E|]. clear E. destruct (rev src) as [|top r]; [|destruct (existsb (stack_item_eqb top) dst); [|repeat constructor]];
      (destruct (is_permutation stack_item stack_item_eqb src dst); [destruct (get_stack_ops_for_perm stack_item stack_item_eqb (hash_order src) src dst) as [l|]; [|exact I]; destruct (rev l); [exact I|repeat constructor]|apply G]).
  Qed.

  Lemma search_path : forall fuel src dst targets queue info path, edges info -> Forall simple targets -> search hash_order pop cpu_columns memory_columns fuel src dst targets queue info = Found path -> apply_all path src = Some dst /\ Forall simple_target path.
  Proof.
    induction fuel as [|fuel IH]; intros src dst targets queue info path H ST E; [discriminate|]. cbn [search] in E. destruct (pop queue) as [[[stack cost] q]|]; [|discriminate].
    destruct (stack_eqb stack dst) eqn:S; [apply stack_eqb_spec in S; subst stack; exact (rewind_path _ _ _ _ [] _ _ H eq_refl (Forall_nil _) E)|].
    destruct (look_up info stack) as [[best ?]|]; [|discriminate]. destruct (best <? cost); [eapply IH; [exact H|exact ST|exact E]|]. destruct (next_ops hash_order stack dst targets) as [ops|] eqn:NO; [|discriminate].
    destruct (relax cpu_columns memory_columns ops stack cost q info) as [q' info'] eqn:R. eapply IH; [|exact ST|exact E]. pose proof (relax_edges ops stack cost q info H (next_simple _ _ _ _ ST NO)) as H'. rewrite R in H'. exact H'.
  Qed.

  Lemma shortest_path_path : forall fuel src dst targets path, Forall simple targets -> shortest_path hash_order pop cpu_columns memory_columns fuel src dst targets = Found path -> apply_all path src = Some dst /\ Forall simple_target path.
  Proof. intros fuel src dst targets path ST E. eapply search_path; [|exact ST|exact E]. repeat constructor. Qed.
End Search.

(** * Decimal names *)

Lemma decimal_inj : forall n m, decimal n = decimal m -> n = m.
Proof.
  intros n m H. unfold decimal in H. assert (E : Some (Nat.to_uint n) = Some (Nat.to_uint m)) by (rewrite <- !NilEmpty.usu, H; reflexivity).
  apply some_inj in E. rewrite <- (Unsigned.of_to n), <- (Unsigned.of_to m), E. reflexivity.
Qed.
Fixpoint no_dot (s : string) : Prop := match s with EmptyString => True | String c r => c <> "."%char /\ no_dot r end.
Lemma decimal_no_dot : forall n, no_dot (decimal n).
Proof. intros n. unfold decimal. induction (Nat.to_uint n); cbn; try (split; [discriminate|assumption]); exact I. Qed.
Lemma append_inj : forall p s t : string, (p ++ s = p ++ t)%string -> s = t.
Proof. induction p as [|c p IH]; intros s t H; [exact H|]. cbn in H. injection H as H. apply IH. exact H. Qed.
Lemma last_dot : forall s1 s2 d1 d2 : string, no_dot d1 -> no_dot d2 -> (s1 ++ "." ++ d1 = s2 ++ "." ++ d2)%string -> s1 = s2 /\ d1 = d2.
Proof.
  assert (X : forall s2 d1 d2 : string, no_dot d1 -> d1 <> (s2 ++ "." ++ d2)%string).
  { induction s2 as [|c s2 IH]; intros d1 d2 N E; subst d1; cbn in N; destruct N as [N1 N2]; [apply N1; reflexivity|]. eapply IH; [exact N2|reflexivity]. }
  induction s1 as [|c s1 IH]; intros [|c' s2] d1 d2 N1 N2 E; cbn in E.
  - injection E as E. auto.
  - injection E as _ E. exfalso. exact (X _ _ _ N1 E).
  - injection E as _ E. symmetry in E. exfalso. exact (X _ _ _ N2 E).
  - injection E as <- E. destruct (IH _ _ _ N1 N2 E) as [-> ->]. auto.
Qed.
Lemma literal_name_inj : forall a i b j, literal_name a i = literal_name b j -> a = b /\ i = j.
Proof.
  intros a i b j H. unfold literal_name in H. apply append_inj in H. apply last_dot in H; [|apply decimal_no_dot..]. destruct H as [-> H]. apply decimal_inj in H. auto.
Qed.

(** * Operations on concrete stacks *)

Lemma index_nth : forall l s k, index_of s l = Some k -> nth_error l k = Some s.
Proof.
  induction l as [|x l IH]; intros s k H; [discriminate|]. cbn [index_of] in H. destruct (String.eqb_spec s x) as [->|]; [apply some_inj in H; subst k; reflexivity|].
  destruct (index_of s l) as [q|] eqn:E; [|discriminate]. apply some_inj in H. subst k. apply IH. exact E.
Qed.
Lemma numbered : forall p n k, index_of (p ++ decimal n) (map (fun d => p ++ d)%string digits) = Some k -> n = S k.
Proof.
  intros p n k H. apply index_nth in H. rewrite nth_error_map in H. destruct (nth_error digits k) as [d|] eqn:E; [|discriminate]. cbn in H. apply some_inj in H. apply append_inj in H. subst d.
  do 16 (destruct k as [|k]; [cbn in E; apply some_inj in E; apply decimal_inj; symmetry; exact E|]). destruct k; discriminate.
Qed.
Lemma numbered_inv : forall p n, 1 <= n <= 16 -> index_of (p ++ decimal n) (map (fun d => p ++ d)%string digits) = Some (n - 1).
Proof.
  intros p n H.
  assert (G : exists k, index_of (p ++ decimal n) (map (fun d => p ++ d)%string digits) = Some k).
  { assert (I : In (p ++ decimal n)%string (map (fun d => p ++ d)%string digits)).
    { apply (in_map (fun d => p ++ d)%string). do 17 (destruct n as [|n]; [try lia; cbv; tauto|]). lia. }
    revert I. generalize (map (fun d => p ++ d)%string digits). intros l. induction l as [|x l IH]; intros I; [destruct I|]. cbn [index_of]. destruct (String.eqb_spec (p ++ decimal n) x) as [EX|NE]; [eauto|].
    destruct I as [I|I]; [congruence|]. destruct (IH I) as [k ->]. eauto. }
  destruct G as [k E]. rewrite E. apply numbered in E. f_equal. lia.
Qed.

Lemma nth_error_ext_local : forall l l' : list Z, (forall k, nth_error l k = nth_error l' k) -> l = l'.
Proof.
  induction l as [|x l IH]; intros [|y l'] H; [reflexivity|specialize (H 0); discriminate|specialize (H 0); discriminate|]. f_equal; [specialize (H 0); cbn in H; congruence|]. apply IH. intros k. apply (H (S k)).
Qed.
Lemma set_nth_length : forall n v (l : list Z), n < List.length l -> List.length (set_nth n v l) = List.length l.
Proof. intros n v l H. unfold set_nth. rewrite app_length, firstn_length. cbn [List.length]. rewrite skipn_length. lia. Qed.
Lemma nth_error_set_nth : forall n v (l : list Z) k, n < List.length l -> nth_error (set_nth n v l) k = if k =? n then Some v else nth_error l k.
Proof.
  intros n. unfold set_nth. induction n as [|n IH]; intros v [|x l] [|k] H; cbn [List.length] in H; try lia; try reflexivity. cbn [firstn skipn app nth_error Nat.eqb]. apply IH. lia.
Qed.

Section Concrete.
  Variable address : string -> Z.
  Variable rho : stack_item -> Z.
  Hypothesis rho_literal : forall x, rho (Target (Literal x)) = x.
  Hypothesis rho_label : forall l, rho (Target (Label l)) = address l.

  Definition concrete (s : list stack_item) : list Z := map rho (rev s).

  Lemma swap_not_dup : forall s, String.prefix "DUP" ("SWAP" ++ s) = false.
  Proof. reflexivity. Qed.

  Lemma nth_concrete : forall s k x, nth_error s (List.length s - S k) = Some x -> k < List.length s -> nth_error (concrete s) k = Some (rho x).
  Proof.
    intros s k x H L. unfold concrete. rewrite nth_error_map. destruct (nth_error (rev s) k) as [y|] eqn:E; [|apply nth_error_None in E; rewrite rev_length in E; lia].
    cbn. f_equal. f_equal. assert (E' := E). apply (nth_error_nth _ _ y) in E'. rewrite rev_nth in E' by exact L. apply (nth_error_nth _ _ y) in H. congruence.
  Qed.

  Lemma op_concrete : forall op s s' rest, simple_target op -> apply_to op s = Some s' -> assembles (into_item op) ->
    eff1 address (into_item op) (concrete s ++ rest) = Some (concrete s' ++ rest).
  Proof.
    intros [t| |n|n] s s' rest ST E AS; unfold apply_to in E; cbn [into_item].
    - apply some_inj in E. subst s'. unfold concrete. rewrite rev_app_distr. cbn [rev app map]. destruct t; try contradiction; cbn [eff1]; rewrite ?rho_literal, ?rho_label; reflexivity.
    - destruct (List.length s) as [|k] eqn:L; [discriminate|]. apply some_inj in E. subst s'. cbn [eff1 pure_op].
      destruct (exists_last (l := s)) as (s0 & x & ->); [intros ->; discriminate|]. rewrite app_length in L. cbn in L. assert (k = List.length s0) by lia. subst k.
      rewrite firstn_app, Nat.sub_diag, firstn_all, app_nil_r. unfold concrete. rewrite rev_app_distr. cbn [rev app map]. reflexivity.
    - destruct (Nat.leb_spec n (List.length s)) as [L|L]; [|discriminate]. destruct (nth_error s (List.length s - n)) as [x|] eqn:X; [|discriminate]. apply some_inj in E. subst s'.
      assert (NP : n <> 0) by (intros ->; assert (List.length s - 0 < List.length s) by (apply nth_error_Some; congruence); lia).
      assert (D : dup_of ("DUP" ++ decimal n) = Some (n - 1)).
      { destruct (dup_of ("DUP" ++ decimal n)) as [k|] eqn:D; [pose proof (numbered _ _ _ D); f_equal; lia|]. exfalso. destruct AS as [AS|[AS|AS]]; [discriminate|congruence|]. apply AS. reflexivity. }
      assert (P : pure_op ("DUP" ++ decimal n) (concrete s ++ rest) = Result (rho x :: concrete s ++ rest)).
      { unfold pure_op. change (evm_unary ("DUP" ++ decimal n)) with (@None (Z -> Z)). change (evm_binary ("DUP" ++ decimal n)) with (@None (Z -> Z -> Z)). change (("DUP" ++ decimal n =? "POP")%string) with false.
        change (String.prefix "DUP" ("DUP" ++ decimal n)) with (String.prefix "" (decimal n)). replace (String.prefix "" (decimal n)) with true by (destruct (decimal n); reflexivity). rewrite D.
        rewrite nth_error_app1 by (unfold concrete; rewrite map_length, rev_length; lia). rewrite (nth_concrete s (n - 1) x); [reflexivity| |lia]. replace (S (n - 1)) with n by lia. exact X. }
      cbn [eff1]. rewrite P. unfold concrete. rewrite rev_app_distr. reflexivity.
    - destruct (Nat.leb_spec (n + 1) (List.length s)) as [L|L]; [|discriminate]. destruct (nth_error s (List.length s - 1)) as [x|] eqn:X; [|discriminate]. destruct (nth_error s (List.length s - (n + 1))) as [y|] eqn:Y; [|discriminate]. apply some_inj in E.
      assert (D : swap_of ("SWAP" ++ decimal n) = Some (n - 1) /\ n <> 0).
      { destruct (swap_of ("SWAP" ++ decimal n)) as [k|] eqn:D; [pose proof (numbered _ _ _ D); split; [f_equal|]; lia|]. exfalso. destruct AS as [AS|[AS|AS]]; [discriminate|apply AS; reflexivity|congruence]. }
      destruct D as [D NP].
      assert (P : pure_op ("SWAP" ++ decimal n) (concrete s ++ rest) = Result (concrete s' ++ rest)).
      { unfold pure_op. change (evm_unary ("SWAP" ++ decimal n)) with (@None (Z -> Z)). change (evm_binary ("SWAP" ++ decimal n)) with (@None (Z -> Z -> Z)). change (("SWAP" ++ decimal n =? "POP")%string) with false.
        change (String.prefix "DUP" ("SWAP" ++ decimal n)) with false. rewrite D. replace (S (n - 1)) with n by lia.
        assert (LC : List.length (concrete s) = List.length s) by (unfold concrete; rewrite map_length, rev_length; reflexivity).
        assert (CX : nth_error (concrete s) 0 = Some (rho x)) by (apply nth_concrete; [exact X|lia]). assert (CY : nth_error (concrete s) n = Some (rho y)) by (apply nth_concrete; [replace (S n) with (n + 1) by lia; exact Y|lia]).
        assert (CY' : nth_error (concrete s ++ rest) n = Some (rho y)) by (rewrite nth_error_app1 by lia; exact CY).
        destruct (concrete s) as [|c0 c] eqn:EC; [discriminate|]. cbn in CX. apply some_inj in CX. subst c0. cbn [app] in *. rewrite CY'. f_equal.
        assert (LS : List.length s' = List.length s) by (subst s'; rewrite map_length, seq_length; reflexivity).
        assert (SK : forall k, k < List.length s -> nth_error (concrete s') k = Some (if k =? 0 then rho y else if k =? n then rho x else nth k (concrete s) 0%Z)).
        { intros k K. assert (NS : nth_error s' (List.length s' - S k) = Some (if k =? 0 then y else if k =? n then x else nth (List.length s - S k) s x)).
          { rewrite LS. subst s'. rewrite nth_error_map. rewrite (nth_error_nth' _ 0) by (rewrite seq_length; lia). rewrite seq_nth by lia. cbn [option_map Nat.add]. f_equal.
            destruct (Nat.eqb_spec (List.length s - S k) (List.length s - 1)), (Nat.eqb_spec k 0); try lia; [reflexivity|]. destruct (Nat.eqb_spec (List.length s - S k) (List.length s - (n + 1))), (Nat.eqb_spec k n); try lia; reflexivity. }
          rewrite (nth_concrete s' k _ NS) by lia. f_equal. destruct (k =? 0); [reflexivity|]. destruct (k =? n); [reflexivity|]. symmetry. apply nth_error_nth. apply nth_concrete; [|exact K]. apply nth_error_nth'. lia. }
        assert (ES : concrete s' = set_nth n (rho x) (rho y :: c)).
        { apply nth_error_ext_local. intros k. destruct (lt_dec k (List.length s)) as [K|K].
          - rewrite SK by exact K. rewrite nth_error_set_nth by (cbn [List.length] in *; lia). rewrite EC. destruct (Nat.eqb_spec k n) as [->|KN]; [destruct (Nat.eqb_spec n 0); [lia|reflexivity]|].
            destruct k as [|k]; [reflexivity|]. cbn [Nat.eqb nth_error nth]. symmetry. apply nth_error_nth'. cbn [List.length] in LC. lia.
          - transitivity (@None Z); [|symmetry]; apply nth_error_None; [unfold concrete; rewrite map_length, rev_length; lia|]. rewrite set_nth_length by (cbn [List.length] in *; lia). cbn [List.length] in *. lia. }
        rewrite ES. unfold set_nth. change (rho y :: c ++ rest) with ((rho y :: c) ++ rest). cbn [List.length] in LC. rewrite firstn_app, skipn_app. cbn [List.length].
        replace (n - S (List.length c)) with 0 by lia. replace (S n - S (List.length c)) with 0 by lia. cbn [firstn]. rewrite app_nil_r. change (skipn 0 rest) with rest. rewrite <- app_assoc. reflexivity. }
      cbn [eff1]. rewrite P. reflexivity.
  Qed.

  Lemma path_concrete : forall path s s' rest, Forall simple_target path -> apply_all path s = Some s' -> Forall assembles (map into_item path) ->
    eff address (map into_item path) (concrete s ++ rest) = Some (concrete s' ++ rest).
  Proof.
    induction path as [|op path IH]; intros s s' rest F E AS; cbn [apply_all map eff] in *; [apply some_inj in E; subst; reflexivity|]. destruct (apply_to op s) as [s1|] eqn:E1; [|discriminate].
    inversion F as [|? ? F1 F2]. inversion AS as [|? ? A1 A2]. subst. rewrite (op_concrete op s s1 rest F1 E1 A1). apply IH; assumption.
  Qed.
End Concrete.

Lemma path_pure : forall path, Forall assembles (map into_item path) -> Forall pure_item (map into_item path).
Proof.
  induction path as [|op path IH]; intros H; cbn [map] in *; [constructor|]. inversion H as [|? ? H1 H2]. subst. constructor; [|apply IH; exact H2]. destruct op as [t| |n|n]; cbn [into_item].
  - exact I.
  - apply pop_pure.
  - cbn [pure_item]. split; [reflexivity|]. split; [reflexivity|]. intros s. rewrite dup_op by (cbn; destruct (decimal n); reflexivity). destruct (dup_of _) as [k|]; [destruct (nth_error s k)|]; discriminate.
  - cbn [pure_item]. split; [reflexivity|]. split; [reflexivity|]. intros s. unfold pure_op. change (evm_unary ("SWAP" ++ decimal n)) with (@None (Z -> Z)). change (evm_binary ("SWAP" ++ decimal n)) with (@None (Z -> Z -> Z)). change (("SWAP" ++ decimal n =? "POP")%string) with false.
    change (String.prefix "DUP" ("SWAP" ++ decimal n)) with false. destruct (swap_of ("SWAP" ++ decimal n)) as [k|] eqn:D; [destruct s; [|destruct (nth_error (z :: s) (S k))]; discriminate|].
    exfalso. cbn [into_item assembles] in H1. destruct H1 as [K|[K|K]]; [discriminate|apply K; reflexivity|congruence].
Qed.

(** * From the placeholders to the words *)

Section Names.
  Variable names : list placeholder.
  Variable env : string -> list Z.
  Variable address : string -> Z.
  Hypothesis M : matches names env.

  (** The literal names and their values. *)
  Definition table : list (string * Z) :=
    flat_map (fun p => match p with StackPlaceholder name n => map (fun i => (literal_name name i, nth i (env name) 0%Z)) (seq 0 n) end) names.
  Fixpoint value (t : list (string * Z)) (s : string) : Z := match t with [] => 0%Z | (k, v) :: r => if String.eqb k s then v else value r s end.
  Definition rho (x : stack_item) : Z :=
    match x with
    | NamedItem s => value table s
    | Target (Literal n) => n
    | Target (Label l) => address l
    | Target _ => 0%Z
    end.

  Lemma value_ok : forall name n i, In (StackPlaceholder name n) names -> i < n -> value table (literal_name name i) = nth i (env name) 0%Z.
  Proof.
    intros name n i IN LT. assert (G : forall t, (forall k v, In (k, v) t -> k = literal_name name i -> v = nth i (env name) 0%Z) -> In (literal_name name i) (map fst t) -> value t (literal_name name i) = nth i (env name) 0%Z).
    { induction t as [|[k v] t IH]; intros H1 H2; [destruct H2|]. cbn [value]. destruct (String.eqb_spec k (literal_name name i)) as [->|NE]; [eapply H1; [left; reflexivity|reflexivity]|].
      apply IH; [intros k' v' K; apply H1; right; exact K|]. destruct H2 as [H2|H2]; [exfalso; exact (NE H2)|exact H2]. }
    apply G.
    - intros k v K E. unfold table in K. apply in_flat_map in K. destruct K as ([name' n'] & _ & K). apply in_map_iff in K. destruct K as (j & EJ & _). injection EJ as E1 E2. rewrite <- E1 in E. apply literal_name_inj in E. destruct E as [-> ->]. congruence.
    - apply in_map_iff. exists (literal_name name i, nth i (env name) 0%Z). split; [reflexivity|]. unfold table. apply in_flat_map. exists (StackPlaceholder name n). split; [exact IN|]. apply in_map_iff. exists i. split; [reflexivity|]. apply in_seq. lia.
  Qed.

  Lemma block_words : forall name n, In (StackPlaceholder name n) names -> map rho (block name n) = env name.
  Proof.
    intros name n IN. unfold block. rewrite map_map. assert (L : List.length (env name) = n) by (unfold matches in M; rewrite Forall_forall in M; apply (M _ IN)).
    transitivity (map (fun i => nth i (env name) 0%Z) (seq 0 n)).
    - apply map_ext_in. intros i I. apply in_seq in I. cbn [rho]. apply (value_ok name n); [exact IN|lia].
    - rewrite <- L. generalize (env name). induction l as [|x l IH]; [reflexivity|]. cbn [List.length seq map nth]. f_equal. rewrite <- seq_shift, map_map. exact IH.
  Qed.

  Lemma src_words : map rho (expand_src names) = top_words names env.
  Proof.
    assert (G : forall l, incl l names -> map rho (expand_src l) = top_words l env).
    { induction l as [|[name n] l IH]; intros H; [reflexivity|]. cbn [expand_src flat_map top_words]. rewrite map_app. f_equal; [apply block_words; apply H; left; reflexivity|apply IH; intros x X; apply H; right; exact X]. }
    apply G. apply incl_refl.
  Qed.

  Lemma blocks_some : forall l name n, stack_blocks l name = Some n -> In (StackPlaceholder name n) l /\ named l name = true.
  Proof.
    induction l as [|[s k] l IH]; intros name n H; [discriminate|]. cbn [stack_blocks] in H. destruct (stack_blocks l name) as [m|] eqn:E.
    - apply some_inj in H. subst m. destruct (IH _ _ E) as [H1 H2]. split; [right; exact H1|]. cbn [named existsb]. apply orb_true_intro. right. exact H2.
    - destruct (String.eqb_spec s name) as [->|]; [|discriminate]. apply some_inj in H. subst k. split; [left; reflexivity|]. cbn [named existsb]. rewrite String.eqb_refl. reflexivity.
  Qed.
  Lemma blocks_none : forall l name, stack_blocks l name = None -> named l name = false.
  Proof.
    induction l as [|[s k] l IH]; intros name H; [reflexivity|]. cbn [stack_blocks] in H. destruct (stack_blocks l name) as [m|] eqn:E; [discriminate|]. destruct (String.eqb_spec s name) as [->|NE]; [discriminate|].
    cbn [named existsb]. rewrite (proj2 (String.eqb_neq s name) NE). apply IH. exact E.
  Qed.

  Lemma dst_words : forall replacements dst, expand_dst names replacements = Some dst ->
    map rho dst = flat_map (replaced names env address) replacements /\ Forall (fun x => match x with Target t => simple t | _ => True end) dst.
  Proof.
    induction replacements as [|r l IH]; intros dst H; cbn [expand_dst] in H; [apply some_inj in H; subst; split; constructor|]. destruct (expand_dst names l) as [rest|]; [|discriminate]. destruct (IH rest eq_refl) as [E F]. cbn [flat_map].
    destruct r as [x|s|s|s|s|s]; try discriminate; cbn [replaced].
    - apply some_inj in H. subst dst. cbn [map rho app]. rewrite E. split; [reflexivity|]. constructor; [exact I|exact F].
    - destruct (stack_blocks names s) as [n|] eqn:SB; apply some_inj in H; subst dst.
      + destruct (blocks_some _ _ _ SB) as [I1 I2]. rewrite I2, map_app, E, (block_words _ _ I1). split; [reflexivity|]. apply Forall_app. split; [|exact F]. apply Forall_forall. intros y Y. apply in_map_iff in Y. destruct Y as (i & <- & _). exact I.
      + rewrite (blocks_none _ _ SB). cbn [map rho app]. rewrite E. split; [reflexivity|]. constructor; [exact I|exact F].
    - apply some_inj in H. subst dst. cbn [map rho app]. rewrite E. split; [reflexivity|]. constructor; [exact I|exact F].
  Qed.
End Names.

Lemma targets_simple : forall dst, Forall (fun x => match x with Target t => simple t | _ => True end) dst -> Forall simple (push_targets dst).
Proof.
  induction dst as [|x dst IH]; intros H; [constructor|]. inversion H as [|? ? H1 H2]. subst. cbn [push_targets]. destruct x as [s|t]; [apply IH; exact H2|]. constructor; [exact H1|].
  apply Forall_forall. intros u U. apply filter_In in U. eapply Forall_forall; [apply IH; exact H2|]. apply U.
Qed.

(** * C31 *)

(** Whatever the heap pops, the hash map order and the cost constants: if the
    macro expands, and into instructions that exist, then inside any program,
    on any machine, the expansion takes every stack whose top the placeholders
    describe to the stack with the replacements on top, and changes nothing
    else. *)
Theorem C31_stack_macro : forall hash_order pop cpu_columns memory_columns fuel names replacements code,
  expand hash_order pop cpu_columns memory_columns fuel names replacements = Done code -> Forall assembles code ->
  forall world other address before after env w rest k, matches names env ->
    let program := before ++ code ++ after in
    run world other address (List.length code + k) program (List.length before) w (top_words names env ++ rest) =
    run world other address k program (List.length before + List.length code) w (flat_map (replaced names env address) replacements ++ rest).
Proof.
  intros hash_order pop cpu_columns memory_columns fuel names replacements code E AS world other address before after env w rest k M program. unfold expand in E.
  destruct (expand_dst names replacements) as [dst|] eqn:ED; [|discriminate]. destruct (shortest_path hash_order pop cpu_columns memory_columns fuel (rev (expand_src names)) (rev dst) (push_targets (rev dst))) as [| |path] eqn:SP; try discriminate. injection E as <-.
  destruct (dst_words names env address M _ _ ED) as [DW DS].
  assert (DS' : Forall (fun x => match x with Target t => simple t | _ => True end) (rev dst)) by (apply Forall_rev; exact DS).
  destruct (shortest_path_path _ _ _ _ _ _ _ _ _ (targets_simple _ DS') SP) as [AP SI].
  pose proof (path_concrete address (rho names env address) (fun x => eq_refl) (fun l => eq_refl) path _ _ rest SI AP AS) as EF. unfold concrete in EF. rewrite !rev_involutive in EF. rewrite (src_words names env address M), DW in EF.
  pose proof (eff_steps address world other (map into_item path) before after w (top_words names env ++ rest) (path_pure _ AS)) as ST. rewrite EF in ST.
  apply (nsteps_run _ _ _ _ _ _ _ _ _ _ _ ST).
Qed.
Print Assumptions C31_stack_macro.

(** %stack (a, b: 2, c) -> (c, 7, b, a), with a heap that pops the first of the
    cheapest nodes. *)
Fixpoint first_min (q : list (list stack_item * nat)) : option ((list stack_item * nat) * list (list stack_item * nat)) :=
  match q with
  | [] => None
  | x :: r => match first_min r with
              | None => Some (x, [])
              | Some (y, r') => if snd y <? snd x then Some (y, x :: r') else Some (x, y :: r')
              end
  end.
Definition demo_names : list placeholder := [StackPlaceholder "a" 1; StackPlaceholder "b" 2; StackPlaceholder "c" 1].
Definition demo_replacements : list replacement := [RIdentifier "c"; RLiteral 7; RIdentifier "b"; RLabel "f"].
Definition demo_env (s : string) : list Z := if String.eqb s "b" then [20; 21]%Z else if String.eqb s "a" then [10]%Z else [30]%Z.
Example demo_expands : expand (fun l => l) first_min 1 1 100 demo_names demo_replacements =
  Done [StandardOp "POP"; Push (Literal 7); Push (Label "f"); StandardOp "SWAP4"].
Proof. vm_compute. reflexivity. Qed.
Example demo_matches : matches demo_names demo_env /\ top_words demo_names demo_env = [10; 20; 21; 30]%Z.
Proof. split; [repeat constructor|reflexivity]. Qed.
Example demo_run : run unit (fun _ _ _ => Fail unit) (fun _ => 99%Z) 9 [StandardOp "POP"; Push (Literal 7); Push (Label "f"); StandardOp "SWAP4"] 0 tt [10; 20; 21; 30; 1]%Z = Some (Some (tt, [30; 7; 20; 21; 99; 1]%Z)).
Proof. vm_compute. reflexivity. Qed.
