(** * The public values that the prover puts into an aggregation proof

    Source: /repo/evm_arithmetization/src/fixed_recursive_verifier.rs 2298-2760
    ([prove_segment_aggregation], [prove_batch_aggregation], [prove_block],
    [prove_block_wrapper]) and 2838-2905 (the targets that are set for the
    candidate that is not verified).

    The functions work on public values in the form of limbs; the conversion from
    numbers and hashes is in [EncodeModel]. *)

From Coq Require Import ZArith List Bool Lia.
Import ListNotations.
Require Import Verif.Recursion.AggregateModel.
Open Scope Z_scope.

(** The public inputs in the order in which the targets are registered
    ([add_virtual_public_values_public_input] and the functions it calls,
    recursive_verifier.rs 677-832). *)
Definition enc_tr (a : trie_roots) : list Z :=
  state_root a ++ transactions_root a ++ receipts_root a.
Definition enc_md (a : metadata) : list Z :=
  block_beneficiary a ++ [block_timestamp a; block_number a; block_difficulty a] ++
  block_random a ++ [block_gaslimit a; block_chain_id a] ++ block_base_fee a ++
  [block_gas_used a] ++ block_blob_gas_used a ++ block_excess_blob_gas a ++
  parent_beacon_block_root a ++ block_bloom a.
Definition enc_bh (a : hashes) : list Z := prev_hashes a ++ cur_hash a.
Definition enc_ed (a : extra) : list Z :=
  checkpoint_state_trie_root a ++ checkpoint_consolidated_hash a ++
  [txn_number_before a; txn_number_after a; gas_used_before a; gas_used_after a].
Definition enc_rd (a : registers) : list Z :=
  [program_counter a; is_kernel a; stack_len a] ++ stack_top a ++ [context a; gas_used a].
Definition enc (a : pv) : list Z :=
  enc_tr (trie_roots_before a) ++ enc_tr (trie_roots_after a) ++ burn_addr a ++
  enc_md (block_metadata a) ++ enc_bh (block_hashes a) ++ enc_ed (extra_block_data a) ++
  enc_rd (registers_before a) ++ enc_rd (registers_after a) ++ mem_before a ++ mem_after a.
Definition enc_final (f : final_pv) : list Z :=
  [chain_id f] ++ f_checkpoint_state_trie_root f ++ new_state_trie_root f ++
  f_checkpoint_consolidated_hash f ++ new_consolidated_hash f.

(** [prove_segment_aggregation], 2334-2366. *)
Definition segment_agg_pv (l r : pv) (rhs_is_dummy : bool) : pv :=
  let real := if rhs_is_dummy then l else r in
  mkPV (trie_roots_before l) (trie_roots_after real) (burn_addr l)
       (block_metadata real) (block_hashes real)
       (mkED (checkpoint_state_trie_root (extra_block_data l))
             (checkpoint_consolidated_hash (extra_block_data l))
             (txn_number_before (extra_block_data l))
             (txn_number_after (extra_block_data real))
             (gas_used_before (extra_block_data l))
             (gas_used_after (extra_block_data real)))
       (registers_before l) (registers_after real) (mem_before l) (mem_after real).

(** [prove_batch_aggregation], 2439-2448. *)
Definition batch_agg_pv (l r : pv) : pv :=
  mkPV (trie_roots_before l) (trie_roots_after r) (burn_addr r)
       (block_metadata r) (block_hashes r)
       (mkED (checkpoint_state_trie_root (extra_block_data r))
             (checkpoint_consolidated_hash (extra_block_data r))
             (txn_number_before (extra_block_data l))
             (txn_number_after (extra_block_data r))
             (gas_used_before (extra_block_data l))
             (gas_used_after (extra_block_data r)))
       (registers_before r) (registers_after r) (mem_before r) (mem_after r).

(** [prove_block], 2678-2685: the roots before come from the parent, if any. *)
Definition block_pv (before : trie_roots) (agg : pv) : pv :=
  mkPV before (trie_roots_after agg) (burn_addr agg)
       (block_metadata agg) (block_hashes agg) (extra_block_data agg)
       (registers_before agg) (registers_after agg) (mem_before agg) (mem_after agg).

(** Writing into the public inputs of the parent that does not exist
    ([nonzero_pis]). *)
Fixpoint set_nth (i : nat) (v : Z) (l : list Z) : list Z :=
  match l, i with
  | [], _ => []
  | _ :: t, 0%nat => v :: t
  | x :: t, S j => x :: set_nth j v t
  end.
Fixpoint write (start : nat) (vs : list Z) (l : list Z) : list Z :=
  match vs with
  | [] => l
  | v :: t => write (S start) t (set_nth start v l)
  end.

(** [prove_block] without a parent, 2549-2664; [cyclic_base_proof] fills all other
    public inputs with zero.  [None] when the pre-state is not the checkpoint
    (an error, 2526-2543) and for block 0 (the subtraction overflows, 2654). *)
Definition dummy_parent (cdk : bool) (agg : pv) : option (list Z) :=
  let o := (BA_SIZE cdk + 2 * TR_SIZE)%nat in
  let number := block_number (block_metadata agg) in
  if negb (forallb (fun xy => fst xy =? snd xy)
             (combine (state_root (trie_roots_before agg))
                      (checkpoint_state_trie_root (extra_block_data agg)))) then None
  else if number =? 0 then None
  else Some
    (write (o + 6) [number - 1]
    (write (o + MD_SIZE + BH_SIZE - 8) (slice 2040 8 (prev_hashes (block_hashes agg)))
    (write (o + MD_SIZE + 8) (slice 0 2040 (prev_hashes (block_hashes agg)))
    (write (o + MD_SIZE + BH_SIZE) (checkpoint_state_trie_root (extra_block_data agg))
    (write (2 * TR_SIZE) (burn_addr agg)
    (write TR_SIZE (state_root (trie_roots_before agg))
    (write 16 (receipts_root (trie_roots_before agg))
    (write 8 (transactions_root (trie_roots_before agg))
    (write 0 (state_root (trie_roots_before agg))
       (repeat 0 (PV_SIZE cdk))))))))))).

(** [From<PublicValues> for FinalPublicValues], proof.rs 201-216.  The target of
    the checkpoint's consolidated hash is not set by
    [set_final_public_value_targets] (recursive_verifier.rs 915-981); it is
    connected, so it has the value of the block proof. *)
Definition final_of_pv (H : list Z -> list Z) (x : pv) : final_pv :=
  mkFV (block_chain_id (block_metadata x))
       (state_root (trie_roots_before x))
       (state_root (trie_roots_after x))
       (checkpoint_consolidated_hash (extra_block_data x))
       (H (skipn 8 (prev_hashes (block_hashes x)) ++ cur_hash (block_hashes x))).

(** [set_dummy_proof_with_cyclic_vk_pis], 2838-2870: the candidate that is not
    verified has zeros and the key. *)
Definition zeros (cdk : bool) (k : vkey) : pis := mkPIs (repeat 0 (PV_SIZE cdk)) k.

(** [set_dummy_if_necessary] (2880-2897): the two candidates of a child. *)
Definition agg_candidate (cdk is_agg : bool) (k : vkey) (p : proof) : pis :=
  if is_agg then inputs_of p else zeros cdk k.
Definition base_candidate (p : proof) : pis := inputs_of p.

(** [prove_segment_aggregation], 2298-2380. *)
Definition prove_segment_aggregation (cdk : bool) (lp rp : proof)
    (l_agg r_agg dummy : bool) : proof :=
  let real := if dummy then lp else rp in
  SegmentP
    (mkPIs (enc (segment_agg_pv (pub cdk (inputs_of lp)) (pub cdk (inputs_of rp)) dummy)) VSegment)
    l_agg r_agg dummy
    (agg_candidate cdk l_agg VSegment lp) (base_candidate lp)
    (agg_candidate cdk r_agg VSegment real) (base_candidate real)
    lp real.

(** [prove_batch_aggregation], 2405-2466. *)
Definition prove_batch_aggregation (cdk : bool) (lp rp : proof) (l_agg r_agg : bool) : proof :=
  BatchP
    (mkPIs (enc (batch_agg_pv (pub cdk (inputs_of lp)) (pub cdk (inputs_of rp)))) VBatch)
    l_agg r_agg
    (agg_candidate cdk l_agg VBatch lp) (base_candidate lp)
    (agg_candidate cdk r_agg VBatch rp) (base_candidate rp)
    lp rp.

(** [prove_block], 2513-2701. *)
Definition prove_first_block (cdk : bool) (ap : proof) : option proof :=
  let agg := pub cdk (inputs_of ap) in
  match dummy_parent cdk agg with
  | None => None
  | Some parent =>
      Some (BlockP0 (mkPIs (enc (block_pv (trie_roots_before agg) agg)) VBlock)
                    (mkPIs parent VBlock) (inputs_of ap) ap)
  end.
Definition prove_next_block (cdk : bool) (pp ap : proof) : proof :=
  let agg := pub cdk (inputs_of ap) in
  BlockP (mkPIs (enc (block_pv (trie_roots_before (pub cdk (inputs_of pp))) agg)) VBlock)
         (inputs_of pp) (inputs_of ap) pp ap.

(** [prove_block_wrapper], 2725-2758; the key of the wrapper circuit itself is
    put into the slot. *)
Definition prove_block_wrapper (cdk : bool) (H : list Z -> list Z) (bp : proof) : proof :=
  WrapperP (mkPIs (enc_final (final_of_pv H (pub cdk (inputs_of bp)))) VWrapper)
           (inputs_of bp) bp.
