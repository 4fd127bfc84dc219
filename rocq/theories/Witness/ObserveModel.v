(** The observations of [jump_to]: generation/state.rs:485-542 of
    evm_arithmetization/src.  The offsets of the kernel labels
    observe_new_address and observe_new_contract are parameters.  Debug
    assertions are off, as in a release build. *)
From Coq Require Import ZArith List Bool.
From Verif Require Import Witness.MemoryModel Witness.MachineModel.
Import ListNotations.
Local Open Scope Z_scope.

(** The parts of [GenerationState] that the observations change:
    [state_key_to_address] and [inputs.contract_code], the newest entry
    first. *)
Record observed : Type := mk_observed { o_addresses : list (Z * Z); o_code : list (Z * list Z) }.

(** cpu/kernel/constants/context_metadata.rs:10-40 *)
Definition CTX_RETURNDATA_SIZE : Z := 3.
(** memory/segments.rs:22 *)
Definition SEG_RETURNDATA : Z := 4.

Section Observe.
  Variable keccak : list Z -> Z.
  (** The twenty bytes of an address. *)
  Variable address_bytes : Z -> list Z.
  Variables observe_new_address observe_new_contract : Z.

  (** 513-516; [H160::from(H256)] keeps the low 160 bits. *)
  Definition observe_address (tip : Z) (o : observed) : observed :=
    let address := tip mod 2^160 in
    mk_observed ((keccak (address_bytes address), address) :: o_addresses o) (o_code o).

  (** 521-542.  The slice of the return data panics when it is too short. *)
  Definition observe_contract (codehash : Z) (r : registers) (m : mem_state) (o : observed) : option (perror + observed) :=
    if existsb (fun p => fst p =? codehash) (o_code o) then Some (inr o)
    else
      let size := mread m (mk_maddr (context r) SEG_CONTEXT_METADATA CTX_RETURNDATA_SIZE) in
      if 2^64 <=? size then Some (inl IntegerTooLarge)
      else match nth_error (m_contexts m) (Z.to_nat (context r)) with
           | None => None
           | Some c => match nth_error c (Z.to_nat SEG_RETURNDATA) with
                       | None => None
                       | Some content =>
                           if Z.of_nat (length content) <? size then None
                           else let code := map (fun x => match x with Some v => v mod 256 | None => 0 end) (firstn (Z.to_nat size) content) in
                                Some (inr (mk_observed (o_addresses o) ((codehash, code) :: o_code o)))
                       end
           end.

  (** 497-508; the stack is not empty here. *)
  Definition observe_at (dst : Z) (r : registers) (m : mem_state) (o : observed) : option (perror + observed) :=
    if dst =? observe_new_address then Some (inr (observe_address (stack_top r) o))
    else if dst =? observe_new_contract then observe_contract (stack_top r) r m o
    else Some (inr o).
End Observe.
