(** Model of hash caching in [HashedPartialTrie]
    (/repo/mpt_trie/src/partial_trie.rs:305-478).

    Every [HashedPartialTrie] value holds an [Arc<RwLock<Option<H256>>>]; cloning
    a value clones the [Arc], so the clone uses the same cell.  Cells are numbers,
    the heap maps a cell to its contents.  A child of a node is a pair of its
    cell and its node.

    Simplification: the trie operations ([insert], [delete]) only read the old
    node and build a new one out of old children (shared [Arc]s, same cells) and
    nodes made by [N::new] (new empty cells).  Instead of threading an allocator
    through them, a step may produce any node which erases to what TrieModel.v
    computes and whose children are old ones or have new, empty cells
    ([derived]).  Locking is dropped (calls are atomic). *)

From Coq Require Import List Arith NArith Bool.
From Verif.Mpt Require Import TrieModel HashModel HexPrefixProofs SubsetModel.
Import ListNotations.
Local Open Scope nat_scope.

(** partial_trie.rs:124-160 [Node] with the cells of the wrapped children. *)
Inductive cnode : Type :=
| CEmpty
| CHash (h : bytes)
| CBranch (children : list (nat * cnode)) (value : bytes)
| CExt (ns : nibbles) (child : nat * cnode)
| CLeaf (ns : nibbles) (value : bytes).

Fixpoint erase (n : cnode) : node :=
  match n with
  | CEmpty => Empty
  | CHash h => Hash h
  | CBranch ch v => Branch (map (fun p => erase (snd p)) ch) v
  | CExt ns (_, c) => Ext ns (erase c)
  | CLeaf ns v => Leaf ns v
  end.

Definition heap := nat -> option bytes.

(** partial_trie.rs:347-349 [set_hash]. *)
Definition set_hash (h : heap) (c : nat) (x : option bytes) : heap :=
  fun c' => if Nat.eqb c' c then x else h c'.

Section Keccak.
Variable keccak : list N -> list N.

(** partial_trie.rs:431-446 [hash_intern] on a value with cell [c], given the
    result of encoding its node. *)
Definition cached (c : nat) (h : heap) (compute : heap -> encoded * heap) : encoded * heap :=
  match h c with
  | Some x => (Hashed x, h)
  | None =>
      let (e, h1) := compute h in
      (e, match e with Hashed x => set_hash h1 c (Some x) | Raw _ => h1 end)
  end.

(** trie_hashing.rs:36-73 [rlp_encode_and_hash_node] on a node whose children
    are caching tries. *)
Fixpoint encode_node (n : cnode) (h : heap) : encoded * heap :=
  match n with
  | CEmpty => (Raw [128%N], h)
  | CHash x => (Hashed x, h)
  | CBranch children value =>
      let (payload, h1) :=
        (fix go (l : list (nat * cnode)) (h : heap) : list N * heap :=
           match l with
           | [] => ([], h)
           | (c, m) :: r =>
               let (e, h1) := cached c h (encode_node m) in
               let (rest, h2) := go r h1 in
               (append_to_stream e ++ rest, h2)
           end) children h in
      (hash_bytes_if_large_enough keccak (rlp_list (payload ++ rlp_bytes value)), h1)
  | CExt ns (c, m) =>
      let (e, h1) := cached c h (encode_node m) in
      (hash_bytes_if_large_enough keccak (rlp_list (rlp_bytes (hp_spec false ns) ++ append_to_stream e)), h1)
  | CLeaf ns value =>
      (hash_bytes_if_large_enough keccak (rlp_list (rlp_bytes (hp_spec true ns) ++ rlp_bytes value)), h)
  end.

Definition hash_intern (p : nat * cnode) (h : heap) : encoded * heap :=
  cached (fst p) h (encode_node (snd p)).

(** partial_trie.rs:338-345, 418-420 [hash], [get_hash]. *)
Definition trie_hash (p : nat * cnode) (h : heap) : bytes * heap :=
  match h (fst p) with
  | Some x => (x, h)
  | None =>
      let (e, h1) := encode_node (snd p) h in
      (match e with Raw b => keccak b | Hashed x => x end, h1)
  end.

(** ** A system of live trie handles *)
Record state := { handles : list (nat * cnode); cells : heap; next : nat }.

(** All children with their cells, at any depth. *)
Fixpoint kids (n : cnode) : list (nat * cnode) :=
  match n with
  | CBranch ch _ => flat_map (fun p => p :: kids (snd p)) ch
  | CExt _ (c, m) => (c, m) :: kids m
  | _ => []
  end.

(** [new] was built from [old] without changing any old child. *)
Definition derived (s : state) (old new : cnode) (next' : nat) : Prop :=
  next s <= next' /\
  (forall p, In p (kids new) -> In p (kids old) \/ (next s <= fst p /\ fst p < next')) /\
  (forall p q, In p (kids new) -> In q (kids new) -> fst p = fst q -> next s <= fst p -> erase (snd p) = erase (snd q)).

Definition set_handle (l : list (nat * cnode)) (i : nat) (p : nat * cnode) : list (nat * cnode) :=
  firstn i l ++ p :: skipn (S i) l.

(** Calls on a handle. *)
Inductive call : Type :=
| New                        (** [HashedPartialTrie::new(Node::Empty)] / [default] *)
| Clone (i : nat)
| Insert (i : nat) (k : nibbles) (v : val_or_hash)
| Extend (i : nat) (kvs : list (nibbles * val_or_hash))
| Delete (i : nat) (k : nibbles) (s : strategy)
| GetHash (i : nat)          (** [hash()] *)
| Subset (i : nat) (ks : list nibbles).  (** [create_trie_subset(&t, ks)] *)

(** [TrackedNodeInfo::touched] of a tracked node. *)
Definition touched (t : tracked) : bool :=
  match t with TEmpty _ b | THash _ b | TBranch _ _ b | TExt _ _ b | TLeaf _ b => b end.

Fixpoint intern_all (l : list (nat * cnode)) (h : heap) : heap :=
  match l with
  | [] => h
  | p :: r => intern_all r (snd (hash_intern p h))
  end.

(** One call.  Failing inserts leave everything as it was (the [?] returns before
    [set_hash]); a failing [extend] keeps the inserts done so far and does not
    reset the cell (partial_trie.rs:381-391); [delete] always resets it
    (partial_trie.rs:400-410). *)
Inductive step : state -> call -> state -> Prop :=
| st_new s :
    step s New {| handles := handles s ++ [(next s, CEmpty)]; cells := set_hash (cells s) (next s) None; next := S (next s) |}
| st_clone s i p : nth_error (handles s) i = Some p ->
    step s (Clone i) {| handles := handles s ++ [p]; cells := cells s; next := next s |}
| st_insert s i k v c n n' t nx : nth_error (handles s) i = Some (c, n) ->
    trie_insert (erase n) k v = Ok t -> erase n' = t -> derived s n n' nx ->
    step s (Insert i k v) {| handles := set_handle (handles s) i (c, n'); cells := set_hash (cells s) c None; next := nx |}
| st_insert_err s i k v c n e : nth_error (handles s) i = Some (c, n) ->
    trie_insert (erase n) k v = Err e -> step s (Insert i k v) s
| st_extend s i kvs c n n' t nx : nth_error (handles s) i = Some (c, n) ->
    trie_extend (erase n) kvs = (t, Ok tt) -> erase n' = t -> derived s n n' nx ->
    step s (Extend i kvs) {| handles := set_handle (handles s) i (c, n'); cells := set_hash (cells s) c None; next := nx |}
| st_extend_err s i kvs c n n' t e nx : nth_error (handles s) i = Some (c, n) ->
    trie_extend (erase n) kvs = (t, Err e) -> erase n' = t -> derived s n n' nx ->
    step s (Extend i kvs) {| handles := set_handle (handles s) i (c, n'); cells := cells s; next := nx |}
| st_delete s i k st c n n' t o nx : nth_error (handles s) i = Some (c, n) ->
    trie_delete (erase n) k st = Ok (t, o) -> erase n' = t -> derived s n n' nx ->
    step s (Delete i k st) {| handles := set_handle (handles s) i (c, n'); cells := set_hash (cells s) c None; next := nx |}
| st_delete_err s i k st c n e : nth_error (handles s) i = Some (c, n) ->
    trie_delete (erase n) k st = Err e ->
    step s (Delete i k st) {| handles := handles s; cells := set_hash (cells s) c None; next := next s |}
| st_hash s i p : nth_error (handles s) i = Some p ->
    step s (GetHash i) {| handles := handles s; cells := snd (trie_hash p (cells s)); next := next s |}
| st_subset s i ks p t l n' nx : nth_error (handles s) i = Some p ->
    (* trie_subsets.rs:342-352: [hash_intern] is called on (clones of) untouched
       nodes: on the root if it is untouched, and on some of the children; the
       result is a new trie made of new nodes *)
    mark_all (track (erase (snd p))) ks = SOk t ->
    incl l (kids (snd p)) ->
    erase n' = extract keccak t -> derived s CEmpty n' nx ->
    step s (Subset i ks)
      {| handles := handles s ++ [(nx, n')];
         cells := set_hash (intern_all l (if touched t then cells s else snd (hash_intern p (cells s)))) nx None;
         next := S nx |}.

(** Sequences of calls each satisfying a side condition [Q]. *)
Inductive run (Q : state -> call -> Prop) : state -> list call -> state -> Prop :=
| run_nil s : run Q s [] s
| run_cons s c s1 l s2 : Q s c -> step s c s1 -> run Q s1 l s2 -> run Q s (c :: l) s2.

Definition initial : state := {| handles := []; cells := fun _ => None; next := 0 |}.

(** What [hash()] on handle [i] returns in state [s]. *)
Definition observed_hash (s : state) (i : nat) : option bytes :=
  option_map (fun p => fst (trie_hash p (cells s))) (nth_error (handles s) i).

(** The hash of the handle's current contents, computed from scratch. *)
Definition true_hash (s : state) (i : nat) : option bytes :=
  option_map (fun p => hash_trie keccak (erase (snd p))) (nth_error (handles s) i).

End Keccak.
