(** Model of the type-1 witness frontend: /repo/trace_decoder/src/type1.rs, on the
    trie model of Mpt/TrieModel.v and the hashing of Mpt/HashModel.v.

    Simplifications: an [H256] account key is represented by its 64 nibbles
    ([MptKey::into_hash] and [MptKey::from_hash] are inverse); the code set is
    the list of inserted codes (newest first); the storage [BTreeMap] is an
    association list; error messages are dropped. *)

From Coq Require Import List Arith NArith Bool.
From Verif.Mpt Require Import NibblesModel TrieModel HashModel.
From Verif.Trace Require Import WireModel.
Import ListNotations.
Local Open Scope nat_scope.

(** type1.rs:167-220 [Hash], [Value], [Account], [Code], [Leaf], [Extension],
    [Branch], [Node].  The code of an account is [inl] of a hash or [inr] of code. *)
Inductive wnode : Type :=
| WHash (raw_hash : list N)
| WValue (key : nibbles) (raw_value : list N)                    (** Leaf, [Either::Left] *)
| WAccount (key : nibbles) (nonce balance : N) (storage : option wnode)
           (code : option (list N + list N))                      (** Leaf, [Either::Right] *)
| WExt (key : nibbles) (child : wnode)
| WBranch (children : list (option wnode))
| WCode (code : list N)
| WEmpty.

(** [unwrap_or_default] of an optional integer. *)
Definition or_zero (o : option N) : N := match o with Some n => n | None => 0%N end.

(** type1.rs:322-332: the loop of the [Branch] arm over the bits of the mask,
    from bit 63 down to bit 0; [bits] is the number of bits left and [acc] the
    children found so far (of the bits above, up to 15). *)
Fixpoint pop_children (mask : N) (bits : nat) (stack : list wnode) (acc : list (option wnode))
  : option (list (option wnode) * list wnode) :=
  match bits with
  | O => Some (acc, stack)
  | S ix =>
      if N.testbit mask (N.of_nat ix) then
        if 16 <=? ix then None
        else match stack with
             | [] => None
             | n :: stack => pop_children mask ix stack (Some n :: acc)
             end
      else pop_children mask ix stack (if 16 <=? ix then acc else None :: acc)
  end.

(** type1.rs:351-366 [finish_stack]: the single node on the stack. *)
Definition finish_stack (stack : list wnode) : option wnode :=
  match stack with
  | [n] => match n with
           | WValue _ _ | WAccount _ _ _ _ _ | WExt _ _ | WBranch _ | WEmpty => Some n
           | WHash _ | WCode _ => None
           end
  | _ => None
  end.

(** type1.rs:242-343: one instruction of [execute] other than [NewTrie].  The
    stack is a list, its top first. *)
Definition exec1 (i : instruction) (stack : list wnode) : option (list wnode) :=
  match i with
  | IEmptyRoot => Some (WEmpty :: stack)
  | IHash raw_hash => Some (WHash raw_hash :: stack)
  | ICode raw_code => Some (WCode raw_code :: stack)
  | ILeaf key value => Some (WValue key value :: stack)
  | IExtension key => match stack with [] => None | child :: stack => Some (WExt key child :: stack) end
  | IAccountLeaf key nonce balance has_code has_storage =>
      let nonce := or_zero nonce in
      let balance := or_zero balance in
      match has_code, has_storage with
      | true, true =>
          match stack with
          | storage :: WHash hash :: stack => Some (WAccount key nonce balance (Some storage) (Some (inl hash)) :: stack)
          | storage :: WCode code :: stack => Some (WAccount key nonce balance (Some storage) (Some (inr code)) :: stack)
          | _ => None
          end
      | false, true =>
          match stack with
          | storage :: stack => Some (WAccount key nonce balance (Some storage) None :: stack)
          | [] => None
          end
      | true, false =>
          match stack with
          | WHash it :: stack => Some (WAccount key nonce balance None (Some (inl it)) :: stack)
          | WCode it :: stack => Some (WAccount key nonce balance None (Some (inr it)) :: stack)
          | _ => None
          end
      | false, false => Some (WAccount key nonce balance None None :: stack)
      end
  | IBranch mask =>
      match pop_children mask 64 stack [] with
      | Some (children, stack) => Some (WBranch children :: stack)
      | None => None
      end
  | INewTrie => None
  | ISmtLeaf _ => None
  end.

(** type1.rs:232-349 [execute]: the list of executions, first one first. *)
Fixpoint execute_from (l : list instruction) (stack : list wnode) (witnesses : list wnode) : option (list wnode) :=
  match l with
  | [] => match finish_stack stack with Some w => Some (witnesses ++ [w]) | None => None end
  | INewTrie :: l =>
      match finish_stack stack with
      | Some w => execute_from l [] (witnesses ++ [w])
      | None => None
      end
  | i :: l => match exec1 i stack with Some stack => execute_from l stack witnesses | None => None end
  end.
Definition execute (l : list instruction) : option (list wnode) := execute_from l [] [].

(** [rlp::encode] of an integer: its big-endian bytes without leading zeros. *)
Definition rlp_uint (n : N) : list N := rlp_bytes (drop_zeros (be_bytes 32 n)).

Section Frontend.
  Variable keccak : list N -> list N.

  (** generation/mpt.rs:26-33 [AccountRlp], derived [RlpEncodable]. *)
  Definition account_rlp (nonce balance : N) (storage_root code_hash : list N) : list N :=
    rlp_list (rlp_uint nonce ++ rlp_uint balance ++ rlp_bytes storage_root ++ rlp_bytes code_hash).

  (** type1.rs:19-24 [Frontend]. *)
  Record frontend_st := {
    f_state : node;
    f_code : list (list N);
    f_storage : list (nibbles * node)
  }.

  (** [MptKey::new] (tries.rs:31-33): at most 64 nibbles. *)
  Definition mpt_key (path : nibbles) : option nibbles := if length path <=? 64 then Some path else None.

  Definition of_res {A} (r : res A) : outcome A :=
    match r with Ok a => Done a | Err _ => Fail | Panic => Crash end.

  (** type1.rs:124-161, the [visit] of [node2storagetrie]. *)
  Fixpoint visit_storage (mpt : node) (path : nibbles) (n : wnode) {struct n} : outcome node :=
    match n with
    | WHash raw_hash =>
        match mpt_key path with
        | None => Fail
        | Some k => of_res (trie_insert mpt k (VHash raw_hash))
        end
    | WValue key raw_value =>
        match mpt_key (path ++ key) with
        | None => Fail
        | Some k => of_res (trie_insert mpt k (Val (rlp_bytes raw_value)))
        end
    | WAccount _ _ _ _ _ => Fail
    | WExt key child => visit_storage mpt (path ++ key) child
    | WBranch children =>
        (fix go (l : list (option wnode)) (ix : nat) (mpt : node) : outcome node :=
           match l with
           | [] => Done mpt
           | None :: l => go l (S ix) mpt
           | Some c :: l => do! mpt <- visit_storage mpt (path ++ [ix]) c; go l (S ix) mpt
           end) children 0 mpt
    | WCode _ => Fail
    | WEmpty => Done mpt
    end.

  (** type1.rs:123-165 [node2storagetrie]. *)
  Definition node2storagetrie (n : wnode) : outcome node := visit_storage Empty [] n.

  Fixpoint storage_find (m : list (nibbles * node)) (k : nibbles) : option node :=
    match m with
    | [] => None
    | (k', t) :: m => if nibbles_eqb k' k then Some t else storage_find m k
    end.

  (** type1.rs:49-121 [visit]. *)
  Fixpoint visit (f : frontend_st) (path : nibbles) (n : wnode) {struct n} : outcome frontend_st :=
    match n with
    | WHash raw_hash =>
        match mpt_key path with
        | None => Fail
        | Some k =>
            do! t <- of_res (trie_insert (f_state f) k (VHash raw_hash));
            Done {| f_state := t; f_code := f_code f; f_storage := f_storage f |}
        end
    | WValue key raw_value => Fail
    | WAccount key nonce balance storage code =>
        let k := path ++ key in
        if length k =? 64 then
          do! st <- node2storagetrie (match storage with Some it => it | None => WEmpty end);
          match storage_find (f_storage f) k with
          | Some _ => Fail
          | None =>
              let code_hash := match code with
                               | Some (inl raw_hash) => raw_hash
                               | Some (inr c) => keccak c
                               | None => keccak []
                               end in
              do! t <- of_res (trie_insert (f_state f) k (Val (account_rlp nonce balance (hash_trie keccak st) code_hash)));
              Done {| f_state := t;
                      f_code := match code with Some (inr c) => c :: f_code f | _ => f_code f end;
                      f_storage := (k, st) :: f_storage f |}
          end
        else Fail
    | WExt key child => visit f (path ++ key) child
    | WBranch children =>
        (fix go (l : list (option wnode)) (ix : nat) (f : frontend_st) : outcome frontend_st :=
           match l with
           | [] => Done f
           | None :: l => go l (S ix) f
           | Some c :: l => do! f <- visit f (path ++ [ix]) c; go l (S ix) f
           end) children 0 f
    | WCode code => Done {| f_state := f_state f; f_code := code :: f_code f; f_storage := f_storage f |}
    | WEmpty => Done f
    end.

  (** type1.rs:26-47 [frontend]. *)
  Definition frontend (l : list instruction) : outcome frontend_st :=
    match execute l with
    | Some [e] => visit {| f_state := Empty; f_code := []; f_storage := [] |} [] e
    | _ => Fail
    end.
End Frontend.
