(** Model of the witness wire format: /repo/trace_decoder/src/wire.rs.

    The CBOR decoder ([ciborium::from_reader]) is a parameter: one function per
    type it is used at ([u64], [Vec<u8>]/[NonEmpty<Vec<u8>>]), returning the value and
    the bytes not consumed.  Error messages, offsets and tracing are dropped.
    Bytes are [N] below 256, nibbles are [nat] below 16 as in Mpt/TrieModel.v,
    integers are [N]. *)

From Coq Require Import List Arith NArith Bool.
Import ListNotations.
Local Open Scope N_scope.

Notation byte := N (only parsing).
Notation nib := nat (only parsing).

(** [Ok], [Err] and a panic. *)
Inductive outcome (A : Type) : Type :=
| Done (a : A)
| Fail
| Crash.
Arguments Done {A} a.
Arguments Fail {A}.
Arguments Crash {A}.

Definition obind {A B} (r : outcome A) (f : A -> outcome B) : outcome B :=
  match r with Done a => f a | Fail => Fail | Crash => Crash end.
Notation "'do!' x <- e ; f" := (obind e (fun x => f)) (at level 200, x pattern, e at level 100, f at level 200).

(** wire.rs:90-96 [SmtLeafType], wire.rs:83-87 [SmtLeaf]. *)
Inductive smt_leaf_type : Type :=
| SBalance | SNonce | SCode | SStorage (slot : list byte) | SCodeLength.

Record smt_leaf_rec := { l_node_type : smt_leaf_type; l_address : list byte; l_value : list byte }.

(** wire.rs:49-80 [Instruction].  [NonEmpty<Vec<_>>] is a list. *)
Inductive instruction : Type :=
| ILeaf (key : list nib) (value : list byte)
| IExtension (key : list nib)
| IBranch (mask : N)
| IHash (raw_hash : list byte)
| ICode (raw_code : list byte)
| IAccountLeaf (key : list nib) (nonce balance : option N) (has_code has_storage : bool)
| ISmtLeaf (l : smt_leaf_rec)
| IEmptyRoot
| INewTrie.

(** [U4x2::left], [U4x2::right]: high and low nibble. *)
Definition left_nibble (b : byte) : nib := N.to_nat (b / 16).
Definition right_nibble (b : byte) : nib := N.to_nat (b mod 16).

(** [u8::rotate_right(4)]. *)
Definition rotate4 (b : byte) : byte := (b mod 16) * 16 + b / 16.

(** [U4::new]. *)
Definition u4_new (b : byte) : option nib := if b <? 16 then Some (N.to_nat b) else None.

(** [<[T]>::split_last]. *)
Fixpoint split_last (l : list byte) : option (byte * list byte) :=
  match l with
  | [] => None
  | x :: t => match split_last t with
              | None => Some (x, [])
              | Some (y, r) => Some (y, x :: r)
              end
  end.

(** wire.rs:233-291 [decode_key]: [None] on an error.  The input is not empty
    ([NonEmpty]); on an empty one the model answers [None]. *)
Definition decode_key (bytes : list byte) : option (list nib) :=
  match bytes with
  | [] => None
  | [only] => match u4_new only with Some n => Some [n] | None => None end
  | flags :: rest =>
      if flags <? 4 then
        let odd := N.testbit flags 0 in
        let '(last, rest) := match split_last rest with
                             | Some (last, rest) => (Some last, rest)
                             | None => (None, [])
                             end in
        match (match last, odd with
               | None, true => None
               | None, false => Some []
               | Some packed, true => match u4_new (rotate4 packed) with Some n => Some [n] | None => None end
               | Some packed, false => Some [left_nibble packed; right_nibble packed]
               end) with
        | None => None
        | Some tail => Some (flat_map (fun b => [left_nibble b; right_nibble b]) rest ++ tail)
        end
      else None
  end.

(** [U256::from_big_endian]: panics beyond 32 bytes. *)
Definition be_value (l : list byte) : N := fold_left (fun a b => a * 256 + b) l 0.
Definition from_big_endian (l : list byte) : outcome N :=
  if (length l <=? 32)%nat then Done (be_value l) else Crash.

Section Cbor.
  (** [ciborium::from_reader] at [u64] and at [Vec<u8>]; [NonEmpty<Vec<u8>>] also
      rejects the empty sequence. *)
  Variable cbor_u64 : list byte -> option (N * list byte).
  Variable cbor_bytes : list byte -> option (list byte * list byte).

  Definition of_opt {A} (o : option A) : outcome A := match o with Some a => Done a | None => Fail end.

  Definition p_u64 (i : list byte) : outcome (N * list byte) := of_opt (cbor_u64 i).
  Definition p_vec (i : list byte) : outcome (list byte * list byte) := of_opt (cbor_bytes i).
  Definition p_nonempty (i : list byte) : outcome (list byte * list byte) :=
    match cbor_bytes i with
    | Some ([], _) | None => Fail
    | Some (v, r) => Done (v, r)
    end.

  (** [winnow::token::any]. *)
  Definition p_any (i : list byte) : outcome (byte * list byte) :=
    match i with [] => Fail | b :: r => Done (b, r) end.

  (** wire.rs:208-210 [key]. *)
  Definition p_key (i : list byte) : outcome (list nib * list byte) :=
    do! (v, r) <- p_nonempty i;
    match decode_key v with Some k => Done (k, r) | None => Fail end.

  (** wire.rs:293-297 [array] for 32 bytes. *)
  Definition p_hash (i : list byte) : outcome (list byte * list byte) :=
    if (length i <? 32)%nat then Fail else Done (firstn 32 i, skipn 32 i).

  (** wire.rs:137-185 [account_leaf]. *)
  Definition p_account_leaf (i : list byte) : outcome (instruction * list byte) :=
    do! (key, i) <- p_key i;
    do! (flags, i) <- p_any i;
    if flags <? 16 then
      do! (nonce, i) <- (if N.testbit flags 2 then do! (n, i) <- p_u64 i; Done (Some n, i) else Done (None, i));
      do! (balance, i) <- (if N.testbit flags 3
                           then do! (bytes, i) <- p_vec i;
                                do! b <- from_big_endian bytes; Done (Some b, i)
                           else Done (None, i));
      let has_storage := N.testbit flags 1 in
      let has_code := N.testbit flags 0 in
      do! i <- (if has_code then do! (_, i) <- p_u64 i; Done i else Done i);
      Done (IAccountLeaf key nonce balance has_code has_storage, i)
    else Fail.

  (** wire.rs:187-206 [smt_leaf]. *)
  Definition p_smt_leaf (i : list byte) : outcome (instruction * list byte) :=
    do! (node_type, i) <- p_any i;
    do! (address, i) <- p_nonempty i;
    do! (t, i) <- (if node_type =? 0 then Done (SBalance, i)
                   else if node_type =? 1 then Done (SNonce, i)
                   else if node_type =? 2 then Done (SCode, i)
                   else if node_type =? 3 then do! (s, i) <- p_nonempty i; Done (SStorage s, i)
                   else if node_type =? 4 then Done (SCodeLength, i)
                   else Fail);
    do! (value, i) <- p_nonempty i;
    Done (ISmtLeaf {| l_node_type := t; l_address := address; l_value := value |}, i).

  (** wire.rs:101-131 [instruction]. *)
  Definition p_instruction (i : list byte) : outcome (instruction * list byte) :=
    do! (opcode, i) <- p_any i;
    if opcode =? 0x00 then do! (k, i) <- p_key i; do! (v, i) <- p_nonempty i; Done (ILeaf k v, i)
    else if opcode =? 0x01 then do! (k, i) <- p_key i; Done (IExtension k, i)
    else if opcode =? 0x02 then do! (m, i) <- p_u64 i; Done (IBranch m, i)
    else if opcode =? 0x03 then do! (h, i) <- p_hash i; Done (IHash h, i)
    else if opcode =? 0x04 then do! (c, i) <- p_nonempty i; Done (ICode c, i)
    else if opcode =? 0x05 then p_account_leaf i
    else if opcode =? 0x06 then Done (IEmptyRoot, i)
    else if opcode =? 0x07 then p_smt_leaf i
    else if opcode =? 0xBB then Done (INewTrie, i)
    else Fail.

  (** [winnow::combinator::repeat_till(1.., instruction, eof)]: one instruction,
      then instructions until the end of the input.  Every instruction takes at
      least its opcode, so [fuel] the length of the input suffices. *)
  Fixpoint p_till (fuel : nat) (i : list byte) : outcome (list instruction) :=
    match i with
    | [] => Done []
    | _ => match fuel with
           | O => Fail
           | S f => do! (x, i) <- p_instruction i; do! xs <- p_till f i; Done (x :: xs)
           end
    end.

  (** wire.rs:27-39 [parse]. *)
  Definition parse (input : list byte) : outcome (list instruction) :=
    match input with
    | h :: i =>
        if (h =? 0) || (h =? 1) then
          do! (x, i) <- p_instruction i; do! xs <- p_till (length i) i; Done (x :: xs)
        else Fail
    | [] => Fail
    end.
End Cbor.
