(** Model of the type-1 world: [Type1World] of
    /repo/evm_arithmetization/src/world.rs over the state and storage tries of
    /repo/evm_arithmetization/src/tries.rs, on the trie model of Mpt/TrieModel.v.

    Simplifications: a hashed address (an [H256]) is represented by its 64
    nibbles, as in Type1Model.v; the storage [BTreeMap] is an association list
    with one entry per key; an address is any byte string; error messages are
    dropped.  A method taking [&mut self] returns the world afterwards together
    with its result, so that what a failing call leaves behind is modelled; a
    panic is [Crash]. *)

From Coq Require Import List Arith NArith Bool.
From Verif.Mpt Require Import NibblesModel TrieModel HashModel HexPrefixProofs RlpProofs SubsetModel QueryModel.
From Verif.Trace Require Import WireModel Type1Model.
Import ListNotations.
Local Open Scope nat_scope.

(** [HashedPartialTrie] (partial_trie.rs:308-317) without its hash cell. *)
Record trie := { t_node : node; t_strategy : strategy }.

(** [HashedPartialTrie::default]: the default strategy is [Reject]
    (partial_trie.rs:325-332, 353-359). *)
Definition empty_trie (s : strategy) : trie := {| t_node := Empty; t_strategy := s |}.
(** tries.rs:295-305 [StateMpt::new]. *)
Definition new_state : trie := empty_trie CollapseToExtension.

(** generation/mpt.rs:24-30 [AccountRlp]. *)
Record account := { a_nonce : N; a_balance : N; a_storage_root : list N; a_code_hash : list N }.
Definition with_balance (a : account) (x : N) : account :=
  {| a_nonce := a_nonce a; a_balance := x; a_storage_root := a_storage_root a; a_code_hash := a_code_hash a |}.
Definition with_nonce (a : account) (x : N) : account :=
  {| a_nonce := x; a_balance := a_balance a; a_storage_root := a_storage_root a; a_code_hash := a_code_hash a |}.
Definition with_code_hash (a : account) (x : list N) : account :=
  {| a_nonce := a_nonce a; a_balance := a_balance a; a_storage_root := a_storage_root a; a_code_hash := x |}.
Definition with_storage_root (a : account) (x : list N) : account :=
  {| a_nonce := a_nonce a; a_balance := a_balance a; a_storage_root := x; a_code_hash := a_code_hash a |}.

(** [rlp::encode] of an [AccountRlp]. *)
Definition enc_account (a : account) : list N := account_rlp (a_nonce a) (a_balance a) (a_storage_root a) (a_code_hash a).

(** [rlp::decode] of a [U256]: a string of at most 32 bytes without a leading
    zero.  [dec] splits off one RLP item; a declared length beyond the input,
    which the crate rejects, cuts the item short here. *)
Definition dec_uint (payload : list N) : option N :=
  match payload with
  | 0%N :: _ => None
  | _ => if length payload <=? 32 then Some (from_be payload) else None
  end.
Definition dec_hash (payload : list N) : option (list N) := if length payload =? 32 then Some payload else None.
Definition decode_uint (b : list N) : option N :=
  match dec b with Some (false, p, _) => dec_uint p | _ => None end.

(** [rlp::decode] of an [AccountRlp] (derived [RlpDecodable]: four items of a list). *)
Definition dec_account (b : list N) : option account :=
  match dec b with
  | Some (true, p, _) =>
      match dec p with
      | Some (false, n, p) =>
          match dec p with
          | Some (false, bal, p) =>
              match dec p with
              | Some (false, sr, p) =>
                  match dec p with
                  | Some (false, ch, _) =>
                      match dec_uint n, dec_uint bal, dec_hash sr, dec_hash ch with
                      | Some n, Some bal, Some sr, Some ch =>
                          Some {| a_nonce := n; a_balance := bal; a_storage_root := sr; a_code_hash := ch |}
                      | _, _, _, _ => None
                      end
                  | _ => None
                  end
              | _ => None
              end
          | _ => None
          end
      | _ => None
      end
  | _ => None
  end.

(** [AsNibbles] ([MptKey::from_hash], tries.rs:34-43): the nibbles of a byte string, high one first. *)
Definition nibbles_of (b : list N) : nibbles :=
  flat_map (fun x => [N.to_nat (x / 16); N.to_nat (x mod 16)]) b.

Definition of_sub {A} (r : sub_res A) : outcome A :=
  match r with SOk a => Done a | SErr => Fail | SPanic => Crash end.

(** The storage map. *)
Fixpoint storage_get (m : list (nibbles * trie)) (k : nibbles) : option trie :=
  match m with
  | [] => None
  | (k', t) :: m => if nibbles_eqb k' k then Some t else storage_get m k
  end.
Definition storage_del (m : list (nibbles * trie)) (k : nibbles) : list (nibbles * trie) :=
  filter (fun e => negb (nibbles_eqb (fst e) k)) m.
Definition storage_set (m : list (nibbles * trie)) (k : nibbles) (t : trie) : list (nibbles * trie) :=
  (k, t) :: storage_del m k.

(** world.rs:119-125 [Type1World]. *)
Record world := { w_state : trie; w_storage : list (nibbles * trie) }.
Definition with_state (w : world) (s : trie) : world := {| w_state := s; w_storage := w_storage w |}.
Definition with_storage (w : world) (m : list (nibbles * trie)) : world := {| w_state := w_state w; w_storage := m |}.

Section World.
  Variable keccak : list N -> list N.

  (** [HashedPartialTrie::hash]. *)
  Definition troot (t : trie) : list N := hash_trie keccak (t_node t).

  (** tries.rs:34-43 [MptKey::from_slot_position], and [MptKey::from_hash] of the
      hash of an address. *)
  Definition hkey (address : list N) : nibbles := nibbles_of (keccak address).
  Definition slot_key (slot : N) : nibbles := nibbles_of (keccak (be_bytes 32 slot)).

  (** generation/mpt.rs:39-48 [AccountRlp::default]. *)
  Definition default_account : account :=
    {| a_nonce := 0; a_balance := 0; a_storage_root := hash_trie keccak Empty; a_code_hash := keccak [] |}.

  (** tries.rs:313-318 [StateMpt::insert]. *)
  Definition state_insert (s : trie) (key : nibbles) (a : account) : outcome trie :=
    do! n <- of_res (trie_insert (t_node s) key (Val (enc_account a)));
    Done {| t_node := n; t_strategy := t_strategy s |}.
  (** tries.rs:290-293, 319-323 [assert_rlp_account], [StateMpt::get]. *)
  Definition state_get (s : trie) (key : nibbles) : outcome (option account) :=
    match trie_get (t_node s) key with
    | Ok None => Done None
    | Ok (Some b) => match dec_account b with Some a => Done (Some a) | None => Crash end
    | Err _ => Fail
    | Panic => Crash
    end.
  (** tries.rs:327-332, 388-390, 413-430 [reporting_remove] of both tries. *)
  Definition trie_reporting_remove (t : trie) (key : nibbles) : outcome (trie * option nibbles) :=
    do! r <- of_res (reporting_remove (t_node t) key (t_strategy t));
    Done ({| t_node := fst r; t_strategy := t_strategy t |}, snd r).
  (** tries.rs:333-340, 394-401 [mask] of both tries: the subset is a new trie,
      with the default strategy. *)
  Definition trie_mask (t : trie) (keys : list nibbles) : outcome trie :=
    do! n <- of_sub (create_trie_subset keccak (t_node t) keys);
    Done {| t_node := n; t_strategy := Reject |}.
  (** tries.rs:374-381 [StorageTrie::insert], [insert_hash]. *)
  Definition trie_put (t : trie) (key : nibbles) (v : val_or_hash) : outcome trie :=
    do! n <- of_res (trie_insert (t_node t) key v);
    Done {| t_node := n; t_strategy := t_strategy t |}.

  (** world.rs:127-143 [Type1World::new]; [items] is what [StateMpt::iter]
      (tries.rs:341-349) goes through, as yielded by the trie's iterator. *)
  Fixpoint init_storage (items : list (nibbles * val_or_hash)) (m : list (nibbles * trie)) : outcome (list (nibbles * trie)) :=
    match items with
    | [] => Done m
    | (_, VHash _) :: r => init_storage r m
    | (key, Val b) :: r =>
        if length key =? 64 then
          match dec_account b with
          | None => Crash
          | Some a =>
              do! m <- match storage_get m key with
                       | Some _ => Done m
                       | None => do! t <- trie_put (empty_trie Reject) [] (VHash (a_storage_root a)); Done (storage_set m key t)
                       end;
              match storage_get m key with
              | Some t => if list_eq_dec N.eq_dec (troot t) (a_storage_root a) then init_storage r m else Fail
              | None => Crash
              end
          end
        else Crash
    end.
  Definition world_new (items : list (nibbles * val_or_hash)) (state : trie) (storage : list (nibbles * trie)) : outcome world :=
    do! m <- init_storage items storage; Done {| w_state := state; w_storage := m |}.

  (** ** The methods *)

  (** world.rs:177-179 *)
  Definition w_contains (w : world) (address : list N) : outcome bool :=
    do! o <- state_get (w_state w) (hkey address);
    Done (match o with Some _ => true | None => false end).

  (** world.rs:180-201: [update_balance], [update_nonce] and [set_code] read the
      account or the default one, change it and write it back. *)
  Definition update_account (w : world) (address : list N) (f : account -> account) : world * outcome unit :=
    let key := hkey address in
    match state_get (w_state w) key with
    | Done o =>
        let a := match o with Some a => a | None => default_account end in
        match state_insert (w_state w) key (f a) with
        | Done s => (with_state w s, Done tt)
        | Fail => (w, Fail)
        | Crash => (w, Crash)
        end
    | Fail => (w, Fail)
    | Crash => (w, Crash)
    end.
  Definition w_update_balance (w : world) (address : list N) (f : N -> N) : world * outcome unit :=
    update_account w address (fun a => with_balance a (f (a_balance a))).
  Definition w_update_nonce (w : world) (address : list N) (f : N -> N) : world * outcome unit :=
    update_account w address (fun a => with_nonce a (f (a_nonce a))).
  (** [inl] is the code, [inr] its hash. *)
  Definition w_set_code (w : world) (address : list N) (code : list N + list N) : world * outcome unit :=
    update_account w address (fun a => with_code_hash a (match code with inl c => keccak c | inr h => h end)).

  (** world.rs:202-204 *)
  Definition w_reporting_destroy (w : world) (address : list N) : world * outcome (option nibbles) :=
    match trie_reporting_remove (w_state w) (hkey address) with
    | Done (s, k) => (with_state w s, Done k)
    | Fail => (w, Fail)
    | Crash => (w, Crash)
    end.
  (** world.rs:205-210 *)
  Definition w_mask (w : world) (keys : list nibbles) : world * outcome unit :=
    match trie_mask (w_state w) keys with
    | Done s => (with_state w s, Done tt)
    | Fail => (w, Fail)
    | Crash => (w, Crash)
    end.
  (** world.rs:211-213 *)
  Definition w_root (w : world) : list N := troot (w_state w).
  (** world.rs:214-220: an existing storage trie is replaced. *)
  Definition w_create_storage (w : world) (address : list N) : world * outcome unit :=
    (with_storage w (storage_set (w_storage w) (hkey address) (empty_trie Reject)), Done tt).
  (** world.rs:221-225 *)
  Definition w_destroy_storage (w : world) (address : list N) : world * outcome unit :=
    match storage_get (w_storage w) (hkey address) with
    | Some _ => (with_storage w (storage_del (w_storage w) (hkey address)), Done tt)
    | None => (w, Fail)
    end.

  (** world.rs:151-170 [on_storage]: the account is read, the storage trie
      changed, and the account written back with the new root.  A failing trie
      operation leaves the trie as it was. *)
  Definition on_storage {A} (w : world) (address : list N) (f : trie -> outcome (trie * A)) : world * outcome A :=
    let key := hkey address in
    match state_get (w_state w) key with
    | Done (Some a) =>
        match storage_get (w_storage w) key with
        | Some t =>
            match f t with
            | Done (t', ret) =>
                let w' := with_storage w (storage_set (w_storage w) key t') in
                match state_insert (w_state w) key (with_storage_root a (troot t')) with
                | Done s => (with_state w' s, Done ret)
                | Fail => (w', Fail)
                | Crash => (w', Crash)
                end
            | Fail => (w, Fail)
            | Crash => (w, Crash)
            end
        | None => (w, Fail)
        end
    | Done None => (w, Fail)
    | Fail => (w, Fail)
    | Crash => (w, Crash)
    end.

  (** world.rs:227-234, 236-240: [alloy::rlp::encode] of a [U256] and of an [H256]. *)
  Definition w_store_int (w : world) (address : list N) (slot value : N) : world * outcome unit :=
    on_storage w address (fun t => do! t <- trie_put t (slot_key slot) (Val (rlp_uint value)); Done (t, tt)).
  Definition w_store_hash (w : world) (address : list N) (hash value : list N) : world * outcome unit :=
    on_storage w address (fun t => do! t <- trie_put t (nibbles_of hash) (Val (rlp_bytes value)); Done (t, tt)).
  (** world.rs:250-259 *)
  Definition w_reporting_destroy_slot (w : world) (address : list N) (slot : N) : world * outcome (option nibbles) :=
    on_storage w address (fun t => trie_reporting_remove t (slot_key slot)).

  (** world.rs:242-248 *)
  Definition w_load_int (w : world) (address : list N) (slot : N) : outcome N :=
    match storage_get (w_storage w) (hkey address) with
    | None => Fail
    | Some t =>
        match trie_get (t_node t) (slot_key slot) with
        | Ok (Some b) => match decode_uint b with Some n => Done n | None => Fail end
        | Ok None => Fail
        | Err _ => Fail
        | Panic => Crash
        end
    end.

  (** world.rs:260-272 [mask_storage].  [masks] is a [BTreeMap]: one entry per address. *)
  Fixpoint mask_tries (masks : list (list N * list nibbles)) (m : list (nibbles * trie)) : list (nibbles * trie) * outcome unit :=
    match masks with
    | [] => (m, Done tt)
    | (addr, keys) :: r =>
        match storage_get m (hkey addr) with
        | None => mask_tries r m
        | Some t =>
            match trie_mask t keys with
            | Done t => mask_tries r (storage_set m (hkey addr) t)
            | Fail => (m, Fail)
            | Crash => (m, Crash)
            end
        end
    end.
  Definition w_mask_storage (w : world) (masks : list (list N * list nibbles)) : world * outcome unit :=
    let keep := map (fun e => hkey (fst e)) masks in
    let m := filter (fun e => existsb (nibbles_eqb (fst e)) keep) (w_storage w) in
    let (m, o) := mask_tries masks m in
    (with_storage w m, o).
End World.
