(** * What an accepted proof of a chain ought to mean

    Independent of the circuits: a chain is a list of blocks, a block a list of
    batches, a batch a list of segments, and what has to fit is said about the
    public values of the segments only.  The public values of the aggregation
    proofs do not occur here. *)

From Coq Require Import ZArith List Bool Lia.
Import ListNotations.
Require Import Verif.Recursion.AggregateModel.
Open Scope Z_scope.

(** Consecutive elements are related. *)
Fixpoint linked {A} (R : A -> A -> Prop) (l : list A) : Prop :=
  match l with
  | a :: ((b :: _) as t) => R a b /\ linked R t
  | _ => True
  end.

Definition first {A} (l : list A) : option A := hd_error l.
Definition final {A} (l : list A) : option A := hd_error (rev l).

(** The block metadata without the blob gas used, the excess blob gas and the
    parent beacon root. *)
Definition meta_core (m : metadata) :=
  (block_beneficiary m, block_timestamp m, block_number m, block_difficulty m,
   block_random m, block_gaslimit m, block_chain_id m, block_base_fee m,
   block_gas_used m, block_bloom m).

(** Two segments are about the same batch: the same trie roots before and after,
    the same block hashes, the same counters and the same metadata (but see
    [meta_core]). *)
Definition same_batch (a b : pv) : Prop :=
  trie_roots_before a = trie_roots_before b /\
  trie_roots_after a = trie_roots_after b /\
  block_hashes a = block_hashes b /\
  extra_block_data a = extra_block_data b /\
  meta_core (block_metadata a) = meta_core (block_metadata b).

(** The second segment starts where the first one stops. *)
Definition resumes (a b : pv) : Prop :=
  registers_after a = registers_before b /\ mem_after a = mem_before b.

Section Chain.
  Variable main halt : Z.
  Variable cap empty_trie : list Z.
  (** The segments that have a root proof. *)
  Variable segment : pv -> Prop.

  (** Execution starts at the label [main] of the kernel with an empty stack and
      the initial memory, and stops at [halt] with an empty stack. *)
  Definition starts (s : pv) : Prop :=
    program_counter (registers_before s) = main /\
    is_kernel (registers_before s) = 1 /\
    stack_len (registers_before s) = 0 /\
    context (registers_before s) = 0 /\
    gas_used (registers_before s) = 0 /\
    mem_before s = cap.
  Definition stops (s : pv) : Prop :=
    program_counter (registers_after s) = halt /\
    is_kernel (registers_after s) = 1 /\
    stack_len (registers_after s) = 0 /\
    context (registers_after s) = 0.

  (** A batch: proved segments, one after the other, from [main] to [halt]. *)
  Definition good_batch (b : list pv) : Prop :=
    Forall segment b /\
    linked (fun x y => resumes x y /\ same_batch x y) b /\
    (exists s, first b = Some s /\ starts s) /\
    (exists s, final b = Some s /\ stops s).

  (** Two facts about batches are facts about their first segments. *)
  Definition on_batches (R : pv -> pv -> Prop) (a b : list pv) : Prop :=
    exists x y, first a = Some x /\ first b = Some y /\ R x y.

  (** The second batch continues the first one inside a block. *)
  Definition next_batch (x y : pv) : Prop :=
    trie_roots_after x = trie_roots_before y /\
    txn_number_after (extra_block_data x) = txn_number_before (extra_block_data y) /\
    gas_used_after (extra_block_data x) = gas_used_before (extra_block_data y) /\
    block_metadata x = block_metadata y /\
    block_hashes x = block_hashes y /\
    checkpoint_state_trie_root (extra_block_data x) =
    checkpoint_state_trie_root (extra_block_data y).

  (** The first segment of the first, and of the last, batch of a block. *)
  Definition opening (b : list (list pv)) : option pv :=
    match first b with Some x => first x | None => None end.
  Definition closing (b : list (list pv)) : option pv :=
    match final b with Some x => first x | None => None end.

  (** A block: batches one after the other, starting with no transaction, no gas
      and empty tries, and using the gas its header says. *)
  Definition good_block (b : list (list pv)) : Prop :=
    Forall good_batch b /\
    linked (on_batches next_batch) b /\
    (exists x, opening b = Some x /\
       txn_number_before (extra_block_data x) = 0 /\
       gas_used_before (extra_block_data x) = 0 /\
       transactions_root (trie_roots_before x) = empty_trie /\
       receipts_root (trie_roots_before x) = empty_trie) /\
    (exists x, closing b = Some x /\
       gas_used_after (extra_block_data x) = block_gas_used (block_metadata x)).

  (** The 256 block hashes of a block, one hash at a time. *)
  Definition prev_hash (i : nat) (h : hashes) : list Z := slice (8 * i) 8 (prev_hashes h).

  (** The second block follows the first one: [x] is the closing segment of the
      first, [y] the opening segment of the second. *)
  Definition next_block (x y : pv) : Prop :=
    state_root (trie_roots_after x) = state_root (trie_roots_before y) /\
    block_number (block_metadata y) = (block_number (block_metadata x) + 1) mod P /\
    (exists d, 0 <= d < 2 ^ 32 /\
       block_timestamp (block_metadata y) = (block_timestamp (block_metadata x) + d) mod P) /\
    (forall i, (i < 255)%nat ->
       prev_hash i (block_hashes y) = prev_hash (S i) (block_hashes x)) /\
    prev_hash 255 (block_hashes y) = cur_hash (block_hashes x) /\
    checkpoint_state_trie_root (extra_block_data x) =
    checkpoint_state_trie_root (extra_block_data y).

  Definition consecutive (a b : list (list pv)) : Prop :=
    exists x y, closing a = Some x /\ opening b = Some y /\ next_block x y.

  (** A chain of blocks from state root [s0] to the last segment [z]. *)
  Definition good_chain (c : list (list (list pv))) (s0 : list Z) (a z : pv) : Prop :=
    Forall good_block c /\
    linked consecutive c /\
    (exists b, first c = Some b /\ opening b = Some a) /\
    (exists b, final c = Some b /\ closing b = Some z) /\
    state_root (trie_roots_before a) = s0.
End Chain.

(** Every aggregation proof in the tree carries the key of its own circuit at
    the end of its public inputs. *)
Fixpoint own_keys (p : proof) : Prop :=
  match p with
  | ForeignP _ _ | RootP _ => True
  | SegmentP i _ _ _ _ _ _ _ lp rp => slot i = VSegment /\ own_keys lp /\ own_keys rp
  | BatchP i _ _ _ _ _ _ lp rp => slot i = VBatch /\ own_keys lp /\ own_keys rp
  | BlockP0 i _ _ ap => slot i = VBlock /\ own_keys ap
  | BlockP i _ _ pp ap => slot i = VBlock /\ own_keys pp /\ own_keys ap
  | WrapperP _ _ bp => own_keys bp
  | TwoToOneP i _ _ _ _ _ _ lp rp => slot i = VTwoToOne /\ own_keys lp /\ own_keys rp
  end.
