(** Model of how tries enter and leave the prover's memory.

    Sources in /repo/evm_arithmetization/src: generation/mpt.rs,
    generation/linked_list.rs, generation/trie_extractor.rs, generation/rlp.rs,
    util.rs, cpu/kernel/constants/trie_type.rs.

    Simplifications:
    - tries are those of TrieModel.v: a [Nibbles] is the list of its nibbles, so
      a [count] with surplus high bits in [packed] does not exist here;
    - a memory segment is the list of its cells, [None] for a cell never written;
      [usize] values are unbounded, but conversions from [U256] are checked;
    - after an error the half-written memory is not returned. *)

From Coq Require Import List Arith NArith Bool.
From Verif.Mpt Require Import TrieModel NibblesModel NibblesProofs.
Import ListNotations.
Local Open Scope nat_scope.

(** witness/errors.rs [ProgramError], as far as it is raised here. *)
Inductive lerr : Type := IntegerTooLarge | InvalidRlp | InvalidMptInput.
Inductive lres (A : Type) : Type := LOk (a : A) | LErr (e : lerr) | LPanic.
Arguments LOk {A} a.
Arguments LErr {A} e.
Arguments LPanic {A}.
Definition lbind {A B} (r : lres A) (f : A -> lres B) : lres B := match r with LOk a => f a | LErr e => LErr e | LPanic => LPanic end.
Notation "'let!' x := e 'in' f" := (lbind e (fun x => f)) (at level 60, x pattern, e at level 59, right associativity).

Notation cell := (option N) (only parsing).
Definition num (n : nat) : cell := Some (N.of_nat n).

(** util.rs:64-74 [u256_to_usize], [u256_to_u8]. *)
Definition u256_to_usize (x : N) : lres nat := if (x <? 2 ^ 64)%N then LOk (N.to_nat x) else LErr IntegerTooLarge.
Definition u256_to_u8 (x : N) : lres N := if (x <? 256)%N then LOk x else LErr IntegerTooLarge.
(** util.rs:76-84 [u256_to_bool]. *)
Definition u256_to_bool (x : N) : lres bool := if (x =? 0)%N then LOk false else if (x =? 1)%N then LOk true else LErr IntegerTooLarge.
(** util.rs:86-99 [u256_to_h160], as an integer: [bits() / 8 > 20] is the check,
    the low twenty bytes the result. *)
Definition u256_to_h160 (x : N) : lres N := if (20 <? N.size x / 8)%N then LErr IntegerTooLarge else LOk (x mod 2 ^ 160)%N.

(** util.rs:212-214 [h2u]. *)
Definition h2u (h : list N) : N := from_be h.
(** [H256::from_uint]. *)
Definition from_uint (x : N) : list N := be_bytes 32 x.

(** trie_type.rs:7-27. *)
Definition trie_type (t : node) : nat := match t with Empty => 0 | Hash _ => 1 | Branch _ _ => 2 | Ext _ _ => 3 | Leaf _ _ => 4 end.

(** nibbles.rs:191-203: a key that does not fit in 256 bits is an error. *)
Definition nibbles_u256 (ns : list nat) : lres N := if (val ns <? 2 ^ 256)%N then LOk (val ns) else LErr IntegerTooLarge.

Definition set_cell (m : list cell) (i : nat) (v : cell) : list cell := firstn i m ++ v :: skipn (S i) m.

(** * Loading: mpt.rs:144-218 [load_mpt] *)

Section Load.
  Variable parse_value : list N -> lres (list N).

  (** mpt.rs:178-182, the children of a branch in order. *)
  Definition load_children (load : node -> list cell -> lres (nat * list cell)) (first : nat) : list node -> nat -> list cell -> lres (list cell) :=
    fix go ch i td := match ch with
      | [] => LOk td
      | c :: ch => let! (p, td) := load c td in go ch (S i) (set_cell td (first + i) (num p))
      end.

  Fixpoint load_mpt (t : node) (td : list cell) {struct t} : lres (nat * list cell) :=
    let node_ptr := length td in
    let td := if 0 <? trie_type t then td ++ [num (trie_type t)] else td in
    match t with
    | Empty => LOk (0, td)
    | Hash h => LOk (node_ptr, td ++ [Some (h2u h)])
    | Branch ch v =>
        let first := length td in
        let td := td ++ repeat (num 0) 16 in
        let! td := match v with
                   | [] => LOk (td ++ [num 0])
                   | _ => let! vs := parse_value v in LOk (td ++ [num (length td + 1)] ++ map Some vs)
                   end in
        let! td := load_children load_mpt first ch 0 td in
        LOk (node_ptr, td)
    | Ext ns c =>
        let! k := nibbles_u256 ns in
        let td := td ++ [num (length ns); Some k] in
        let td := td ++ [num (length td + 1)] in
        let! (p, td) := load_mpt c td in
        LOk (node_ptr, if p =? 0 then td ++ [num 0] else td)
    | Leaf ns v =>
        let! k := nibbles_u256 ns in
        let td := td ++ [num (length ns); Some k] in
        let td := td ++ [num (length td + 1)] in
        let! vs := parse_value v in
        LOk (node_ptr, td ++ map Some vs)
    end.
End Load.

(** * Extracting: trie_extractor.rs:164-242 [get_trie_helper] *)

(** witness/memory.rs:185-206 with [unwrap_or_default]. *)
Definition load_cell (m : list cell) (i : nat) : N := match nth_error m i with Some (Some v) => v | _ => 0%N end.

(** The nibbles of a count and a packed integer. *)
Fixpoint unpack (count : nat) (x : N) : list nat := match count with 0 => [] | S k => unpack k (x / 16) ++ [N.to_nat (x mod 16)] end.

Section Extract.
  Variable read_value : list cell -> lres (list N).
  Variable m : list cell.

  (** [content[init_offset..]]: panics beyond the end. *)
  Definition slice_from (i : nat) : lres (list cell) := if i <=? length m then LOk (skipn i m) else LPanic.

  Definition nib_panic {A} (r : res A) : lres A := match r with Ok a => LOk a | _ => LPanic end.

  (** Depth of the recursion is bounded by [fuel]; [None] is a deeper one. *)
  Definition obind' {A B} (r : option (lres A)) (f : A -> option (lres B)) : option (lres B) :=
    match r with None => None | Some (LOk a) => f a | Some (LErr e) => Some (LErr e) | Some LPanic => Some LPanic end.

  (** trie_extractor.rs:197-203, the children of a branch in order. *)
  Fixpoint get_children (get : nat -> list nat -> option (lres node)) (ptr_payload : nat) (prefix : list nat) (k i : nat) : option (lres (list node)) :=
    match k with
    | 0 => Some (LOk [])
    | S k =>
        obind' (Some (u256_to_usize (load_cell m (ptr_payload + i)))) (fun cp =>
        obind' (Some (nib_panic (merge_nibble prefix i))) (fun pre =>
        obind' (get cp pre) (fun c =>
        obind' (get_children get ptr_payload prefix k (S i)) (fun cs => Some (LOk (c :: cs))))))
    end.

  Fixpoint get_trie (fuel : nat) (ptr : nat) (prefix : list nat) : option (lres node) :=
    match fuel with
    | 0 => None
    | S fuel =>
      obind' (Some (u256_to_usize (load_cell m ptr))) (fun ty =>
      match ty with
      | 0 => Some (LOk Empty)
      | 1 => Some (LOk (Hash (from_uint (load_cell m (ptr + 1)))))
      | 2 =>
          obind' (get_children (get_trie fuel) (ptr + 1) prefix 16 0) (fun ch =>
          obind' (Some (u256_to_usize (load_cell m (ptr + 1 + 16)))) (fun vp =>
          if vp =? 0 then Some (LOk (Branch ch []))
          else Some (let! s := slice_from vp in let! v := read_value s in LOk (Branch ch v))))
      | 3 =>
          obind' (Some (u256_to_usize (load_cell m (ptr + 1)))) (fun count =>
          let ns := unpack count (load_cell m (ptr + 2)) in
          obind' (Some (u256_to_usize (load_cell m (ptr + 3)))) (fun cp =>
          obind' (Some (nib_panic (merge_nibbles prefix ns))) (fun pre =>
          obind' (get_trie fuel cp pre) (fun c => Some (LOk (Ext ns c))))))
      | 4 =>
          obind' (Some (u256_to_usize (load_cell m (ptr + 1)))) (fun count =>
          let ns := unpack count (load_cell m (ptr + 2)) in
          obind' (Some (u256_to_usize (load_cell m (ptr + 3)))) (fun vp =>
          Some (let! s := slice_from vp in let! v := read_value s in LOk (Leaf ns v))))
      | _ => Some LPanic
      end)
    end.
End Extract.

(** * Values *)

Definition cell_val (c : cell) : N := match c with Some v => v | None => 0%N end.
(** An index into a slice: panics beyond the end. *)
Definition at_cell (s : list cell) (i : nat) : lres N := match nth_error s i with Some c => LOk (cell_val c) | None => LPanic end.
(** [slice[a..b]]. *)
Definition sub_slice (s : list cell) (a b : nat) : lres (list cell) := if (a <=? b) && (b <=? length s) then LOk (firstn (b - a) (skipn a s)) else LPanic.
(** [collect::<Result<_, _>>] of checked bytes. *)
Fixpoint to_bytes (s : list cell) : lres (list N) := match s with [] => LOk [] | c :: s => let! b := u256_to_u8 (cell_val c) in let! bs := to_bytes s in LOk (b :: bs) end.

(** mpt.rs:556-560, the transactions. *)
Definition parse_txn (v : list N) : lres (list N) := LOk (N.of_nat (length v) :: v).
(** trie_extractor.rs:108-117 [read_txn_rlp_value]. *)
Definition read_txn_rlp_value (s : list cell) : lres (list N) :=
  let! l := at_cell s 0 in let! n := u256_to_usize l in let! s := sub_slice s 1 (n + 1) in to_bytes s.

(** mpt.rs:49-63 [LogRlp], [LegacyReceiptRlp]; addresses and topics as integers. *)
Record log := { l_address : N; l_topics : list N; l_data : list N }.
Record receipt := { r_status : bool; r_gas : N; r_bloom : list N; r_logs : list log }.

(** mpt.rs:98-131 [parse_receipts] after [decode_receipt]: [ty] is the
    transaction type, the lengths of the RLP payloads are parameters. *)
Section Receipt.
  Variable log_len : log -> N.
  Variable logs_len : list log -> N.
  Definition layout_log (l : log) : list N :=
    [log_len l; l_address l; N.of_nat (length (l_topics l))] ++ l_topics l ++ [N.of_nat (length (l_data l))] ++ l_data l.
  Definition layout_receipt (ty payload_len : N) (r : receipt) : list N :=
    (if (ty =? 0)%N then [] else [ty]) ++ [payload_len; if r_status r then 1%N else 0%N; r_gas r] ++ r_bloom r ++
    [logs_len (r_logs r); N.of_nat (length (r_logs r))] ++ flat_map layout_log (r_logs r).
End Receipt.

(** trie_extractor.rs:53-90 [read_logs]. *)
Fixpoint read_cells (s : list cell) (offset n : nat) : lres (list N) := match n with 0 => LOk [] | S n => let! x := at_cell s offset in let! xs := read_cells s (S offset) n in LOk (x :: xs) end.
Fixpoint read_logs (num_logs : nat) (s : list cell) (offset : nat) : lres (list log) :=
  match num_logs with
  | 0 => LOk []
  | S k =>
      let! a := at_cell s offset in let! address := u256_to_h160 a in
      let! nt := at_cell s (offset + 1) in let! num_topics := u256_to_usize nt in
      let! topics := read_cells s (offset + 2) num_topics in
      let offset := offset + 2 + num_topics in
      let! dl := at_cell s offset in let! data_len := u256_to_usize dl in
      let offset := offset + 1 in
      let! ds := sub_slice s offset (offset + data_len) in let! data := to_bytes ds in
      let! rest := read_logs k s (offset + data_len + 1) in
      LOk ({| l_address := address; l_topics := topics; l_data := data |} :: rest)
  end.
(** [&slice[n..]]. *)
Definition from_index (s : list cell) (n : nat) : lres (list cell) := if n <=? length s then LOk (skipn n s) else LPanic.
(** trie_extractor.rs:19-51 [read_receipt_trie_value]. *)
Definition read_receipt_trie_value (s : list cell) : lres (option N * receipt) :=
  let! first := at_cell s 0 in
  let! (ty, s) := if (first =? 1)%N || (first =? 2)%N then let! s := from_index s 2 in LOk (Some first, s) else let! s := from_index s 1 in LOk (None, s) in
  let! st := at_cell s 0 in let! status := u256_to_bool st in
  let! gas := at_cell s 1 in
  let! b := sub_slice s 2 (2 + 256) in let! bloom := to_bytes b in
  let! nl := at_cell s (2 + 256 + 1) in let! num_logs := u256_to_usize nl in
  let! ls := from_index s (2 + 256 + 3) in
  let! logs := read_logs num_logs ls 0 in
  LOk (ty, {| r_status := status; r_gas := gas; r_bloom := bloom; r_logs := logs |}).

(** * Prover inputs: rlp.rs *)

(** [chunks_exact(32)] and the padded remainder (rlp.rs:12-22). *)
Fixpoint txn_words (fuel : nat) (b : list N) : list N :=
  match fuel with
  | 0 => []
  | S fuel => if length b <? 32 then match b with [] => [] | _ => [from_be (b ++ repeat 0%N (32 - length b))] end else from_be (firstn 32 b) :: txn_words fuel (skipn 32 b)
  end.
Definition all_rlp_prover_inputs (txns : list (list N)) : list N := flat_map (fun t => N.of_nat (length t) :: txn_words (S (length t)) t) txns.
Definition all_rlp_prover_inputs_reversed (txns : list (list N)) : list N := rev (all_rlp_prover_inputs txns).
