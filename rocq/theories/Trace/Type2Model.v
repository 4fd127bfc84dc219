(** Model of the type-2 witness frontend, /repo/trace_decoder/src/type2.rs, and of
    [Type2World], /repo/evm_arithmetization/src/world.rs:275-456, on the SMT model of
    Smt/SmtModel.v and the key derivation of Smt/CodeModel.v.

    Simplifications: addresses and 32-byte hashes are lists of bytes, [U256]s are
    integers, an [SmtKey] is its list of bits (root first, at most 256); a
    [BTreeMap] is a list in increasing key order; the code set is a list; error
    messages are dropped, an error is [None].  The limbs of a hash are field
    elements as they are. *)

From Coq Require Import List Arith NArith Bool.
From Verif.Smt Require Import SmtModel SmtSpec CodeModel.
From Verif.Trace Require Import WireModel.
Import ListNotations.
Local Open Scope N_scope.

(** type2.rs:34-41 [Node]; [EitherOrBoth] is spelled out. *)
Inductive snode : Type :=
| SHash (h : list N)
| SLeafN (l : smt_leaf_rec)
| SLeft (l : snode)
| SRight (r : snode)
| SBoth (l r : snode).

(** type2.rs:78-108 [fold1]: [None] is an error, [Some None] no instruction left.
    The iterator is the list of instructions not consumed; the fuel bounds the
    nesting. *)
Fixpoint fold1 (fuel : nat) (l : list instruction) : option (option (snode * list instruction)) :=
  match fuel with
  | O => None
  | S f =>
      let get_child l := match fold1 f l with Some (Some it) => Some it | _ => None end in
      match l with
      | [] => Some None
      | IHash h :: l => Some (Some (SHash h, l))
      | IBranch mask :: l =>
          if mask =? 1 then match get_child l with Some (n, l) => Some (Some (SLeft n, l)) | None => None end
          else if mask =? 2 then match get_child l with Some (n, l) => Some (Some (SRight n, l)) | None => None end
          else if mask =? 3 then
            match get_child l with
            | Some (n, l) => match get_child l with Some (m, l) => Some (Some (SBoth n m, l)) | None => None end
            | None => None
            end
          else None
      | ISmtLeaf it :: l => Some (Some (SLeafN it, l))
      | _ :: _ => None
      end
  end.

(** type2.rs:43-63 [fold]. *)
Definition not_code (i : instruction) : bool := match i with ICode _ => false | _ => true end.
Definition codes_of (l : list instruction) : list (list N) :=
  flat_map (fun i => match i with ICode c => [c] | _ => [] end) l.
Definition fold (l : list instruction) : option (snode * list (list N)) :=
  let rest := filter not_code l in
  match fold1 (S (length rest)) rest with
  | Some (Some (folded, [])) => Some (folded, codes_of l)
  | _ => None
  end.

(** ** Maps *)

(** [BTreeMap::get], [BTreeMap::insert], [BTreeMap::remove]; [cmp] is [Ord::cmp]. *)
Section BTree.
  Context {K V : Type}.
  Variable cmp : K -> K -> comparison.
  Fixpoint bm_get (m : list (K * V)) (k : K) : option V :=
    match m with
    | [] => None
    | (k', v) :: m => match cmp k k' with Lt => None | Eq => Some v | Gt => bm_get m k end
    end.
  Fixpoint bm_insert (m : list (K * V)) (k : K) (v : V) : list (K * V) :=
    match m with
    | [] => [(k, v)]
    | (k', v') :: m' =>
        match cmp k k' with
        | Lt => (k, v) :: m
        | Eq => (k', v) :: m'
        | Gt => (k', v') :: bm_insert m' k v
        end
    end.
  Fixpoint bm_remove (m : list (K * V)) (k : K) : list (K * V) :=
    match m with
    | [] => []
    | (k', v') :: m' =>
        match cmp k k' with
        | Lt => m
        | Eq => m'
        | Gt => (k', v') :: bm_remove m' k
        end
    end.
End BTree.

(** Lexicographic order of slices: [SmtKey] (tries.rs:165-169) and [Address]. *)
Fixpoint lex {A : Type} (cmp : A -> A -> comparison) (a b : list A) : comparison :=
  match a, b with
  | [], [] => Eq
  | [], _ :: _ => Lt
  | _ :: _, [] => Gt
  | x :: a, y :: b => match cmp x y with Eq => lex cmp a b | c => c end
  end.
Definition bool_cmp (a b : bool) : comparison :=
  match a, b with false, true => Lt | true, false => Gt | _, _ => Eq end.
Notation cmp_key := (lex bool_cmp).
Notation cmp_addr := (lex N.compare).

(** ** The world *)

(** world.rs:381-392 [Type2Entry]. *)
Record t2_entry : Type := {
  e_balance : option N; e_nonce : option N; e_code_hash : option N; e_code_length : option N; e_storage : list (N * N) }.
Definition entry_default : t2_entry := {| e_balance := None; e_nonce := None; e_code_hash := None; e_code_length := None; e_storage := [] |}.
Definition with_balance (e : t2_entry) (x : option N) : t2_entry :=
  {| e_balance := x; e_nonce := e_nonce e; e_code_hash := e_code_hash e; e_code_length := e_code_length e; e_storage := e_storage e |}.
Definition with_nonce (e : t2_entry) (x : option N) : t2_entry :=
  {| e_balance := e_balance e; e_nonce := x; e_code_hash := e_code_hash e; e_code_length := e_code_length e; e_storage := e_storage e |}.
Definition with_code_hash (e : t2_entry) (x : option N) : t2_entry :=
  {| e_balance := e_balance e; e_nonce := e_nonce e; e_code_hash := x; e_code_length := e_code_length e; e_storage := e_storage e |}.
Definition with_code_length (e : t2_entry) (x : option N) : t2_entry :=
  {| e_balance := e_balance e; e_nonce := e_nonce e; e_code_hash := e_code_hash e; e_code_length := x; e_storage := e_storage e |}.
Definition with_storage (e : t2_entry) (x : list (N * N)) : t2_entry :=
  {| e_balance := e_balance e; e_nonce := e_nonce e; e_code_hash := e_code_hash e; e_code_length := e_code_length e; e_storage := x |}.

(** world.rs:394-399 [Type2World]. *)
Record type2_world : Type := { w_accounts : list (list N * t2_entry); w_hashed_out : list (list bool * list N) }.

(** [U256::from_big_endian], [into_uint] of a hash. *)
Definition from_be (l : list N) : N := fold_left (fun acc b => acc * 256 + b) l 0.

(** [SmtKey::new], tries.rs:135-148. *)
Definition smt_key (path : list bool) : option (list bool) := if (length path <=? 256)%nat then Some path else None.

(** [entry(address).or_default()]. *)
Definition get_or_default (leaves : list (list N * t2_entry)) (address : list N) : t2_entry :=
  match bm_get cmp_addr leaves address with Some e => e | None => entry_default end.

Definition is_none {A : Type} (o : option A) : bool := match o with None => true | Some _ => false end.

(** type2.rs:141-183: the leaf arm of [visit]. *)
Definition visit_leaf (leaves : list (list N * t2_entry)) (l : smt_leaf_rec) : option (list (list N * t2_entry)) :=
  if (length (l_address l) =? 20)%nat then
    let address := l_address l in
    let collated := get_or_default leaves address in
    if (length (l_value l) <=? 32)%nat then
      let value := from_be (l_value l) in
      let write (ok : bool) (e : t2_entry) := if ok then Some (bm_insert cmp_addr leaves address e) else None in
      match l_node_type l with
      | SBalance => write (is_none (e_balance collated)) (with_balance collated (Some value))
      | SNonce => write (is_none (e_nonce collated)) (with_nonce collated (Some value))
      | SCode => write (is_none (e_code_hash collated)) (with_code_hash collated (Some value))
      | SStorage slot =>
          if (length slot <=? 32)%nat then
            let slot := from_be slot in
            write (is_none (bm_get N.compare (e_storage collated) slot))
                  (with_storage collated (bm_insert N.compare (e_storage collated) slot value))
          else None
      | SCodeLength => write (is_none (e_code_length collated)) (with_code_length collated (Some value))
      end
    else None
  else None.

(** type2.rs:117-186 [visit]. *)
Fixpoint visit2 (hashes : list (list bool * list N)) (leaves : list (list N * t2_entry)) (path : list bool) (n : snode)
  : option (list (list bool * list N) * list (list N * t2_entry)) :=
  match n with
  | SLeft l => visit2 hashes leaves (path ++ [false]) l
  | SRight r => visit2 hashes leaves (path ++ [true]) r
  | SBoth l r =>
      match visit2 hashes leaves (path ++ [false]) l with
      | Some (hashes, leaves) => visit2 hashes leaves (path ++ [true]) r
      | None => None
      end
  | SHash hash =>
      match smt_key path with
      | Some k => Some (bm_insert cmp_key hashes k hash, leaves)
      | None => None
      end
  | SLeafN l => match visit_leaf leaves l with Some leaves => Some (hashes, leaves) | None => None end
  end.

(** type2.rs:110-115 [node2world], 27-32 [frontend]. *)
Definition node2world (n : snode) : option type2_world :=
  match visit2 [] [] [] n with
  | Some (hashes, leaves) => Some {| w_accounts := leaves; w_hashed_out := hashes |}
  | None => None
  end.
Definition frontend2 (l : list instruction) : option (type2_world * list (list N)) :=
  match fold l with
  | Some (n, code) => match node2world n with Some w => Some (w, code) | None => None end
  | None => None
  end.

Section Poseidon.
  Variable pos : node -> quad.

  (** world.rs:408-416: the hash as a [HashOut], least significant limb first. *)
  Definition hash_quad (h : list N) : quad := u2k (from_be h).

  (** world.rs:418-446: the [set] calls of an account. *)
  Definition opt_call (key : quad) (x : option N) : list call := match x with Some v => [(key, v)] | None => [] end.
  Definition account_calls (a : list N * t2_entry) : list call :=
    let '(addr, e) := a in
    opt_call (key_balance pos addr) (e_balance e) ++ opt_call (key_nonce pos addr) (e_nonce e) ++
    opt_call (key_code pos addr) (e_code_hash e) ++ opt_call (key_code_length pos addr) (e_code_length e) ++
    map (fun sv => (key_storage pos addr (fst sv), snd sv)) (e_storage e).
  Definition hash_calls (w : type2_world) : list (list bool * quad) :=
    map (fun kh => (fst kh, hash_quad (snd kh))) (w_hashed_out w).
  Definition set_calls (w : type2_world) : list call := flat_map account_calls (w_accounts w).

  (** world.rs:402-448 [as_smt]; [None] is a panic. *)
  Definition as_smt (w : type2_world) : option smt :=
    match hash_run pos smt_default (hash_calls w) with
    | Some s => smt_run pos s (set_calls w)
    | None => None
    end.

  (** world.rs:372-375 [root], as an integer ([hashout2u]). *)
  Definition root2 (w : type2_world) : option N := option_map (fun s => key2u (root s)) (as_smt w).
End Poseidon.

(** ** The [World] operations, world.rs:275-376 *)

Definition set_account (w : type2_world) (address : list N) (e : t2_entry) : type2_world :=
  {| w_accounts := bm_insert cmp_addr (w_accounts w) address e; w_hashed_out := w_hashed_out w |}.
Definition account (w : type2_world) (address : list N) : t2_entry := get_or_default (w_accounts w) address.
Definition or_default (o : option N) : N := match o with Some x => x | None => 0 end.

Definition contains2 (w : type2_world) (address : list N) : bool :=
  match bm_get cmp_addr (w_accounts w) address with Some _ => true | None => false end.
Definition update_balance2 (w : type2_world) (address : list N) (f : N -> N) : type2_world :=
  let e := account w address in set_account w address (with_balance e (Some (f (or_default (e_balance e))))).
Definition update_nonce2 (w : type2_world) (address : list N) (f : N -> N) : type2_world :=
  let e := account w address in set_account w address (with_nonce e (Some (f (or_default (e_nonce e))))).
(** [code_hash] is [PoseidonHash::hash] followed by [into_uint]; the code is
    [inl], a hash [inr]. *)
Definition set_code2 (code_hash : list N -> N) (w : type2_world) (address : list N) (code : list N + N) : type2_world :=
  let e := account w address in
  set_account w address
    match code with
    | inl bytes =>
        let e := with_code_length e (Some (N.of_nat (length bytes))) in
        with_code_hash e (match bytes with [] => None | _ => Some (code_hash bytes) end)
    | inr hash => with_code_hash e (Some hash)
    end.
Definition destroy2 (w : type2_world) (address : list N) : type2_world :=
  {| w_accounts := bm_remove cmp_addr (w_accounts w) address; w_hashed_out := w_hashed_out w |}.
(** [entry(address).and_modify(..)] *)
Definition modify2 (w : type2_world) (address : list N) (f : t2_entry -> t2_entry) : type2_world :=
  match bm_get cmp_addr (w_accounts w) address with
  | Some e => set_account w address (f e)
  | None => w
  end.
Definition destroy_storage2 (w : type2_world) (address : list N) : type2_world :=
  modify2 w address (fun e => with_storage e []).
Definition store_int2 (w : type2_world) (address : list N) (slot value : N) : type2_world :=
  let e := account w address in set_account w address (with_storage e (bm_insert N.compare (e_storage e) slot value)).
Definition load_int2 (w : type2_world) (address : list N) (slot : N) : option N :=
  match bm_get cmp_addr (w_accounts w) address with
  | Some e => Some (or_default (bm_get N.compare (e_storage e) slot))
  | None => None
  end.
Definition destroy_slot2 (w : type2_world) (address : list N) (slot : N) : type2_world :=
  modify2 w address (fun e => with_storage e (bm_remove N.compare (e_storage e) slot)).
