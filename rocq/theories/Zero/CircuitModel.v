(** The circuit configuration, its digest, and the circuits kept on disk:
    zero/src/prover_state/{circuit,persistence,mod}.rs, without the
    feature cdk_erigon.

    Circuits are abstract values made from the ranges and the test flag.
    Serialisation is taken to be exact: a file holds the resource itself.
    Errors of the file system other than a missing file are not modelled. *)
From Coq Require Import ZArith List Bool Ascii String.
From Verif Require Import Zero.IntervalModel.
Import ListNotations.
Local Open Scope Z_scope.

Definition chars (s : string) : list Z := map (fun c => Z.of_nat (nat_of_ascii c)) (list_ascii_of_string s).

(** circuit.rs:125-139; the short name of the i-th circuit *)
Definition short_names : list string := ["a"; "bp"; "c"; "k"; "ks"; "l"; "m"; "m_b"; "m_a"]%string.
Definition NUM_TABLES : nat := 9.
Definition short_str (i : nat) : list Z := chars (nth i short_names ""%string).

(** circuit.rs:164-168 *)
Record circuit_config : Type := mk_config { circuits : list (Z * Z); use_test_config : bool }.

(** circuit.rs:185-203 *)
Definition default_config : circuit_config :=
  mk_config [(16, 23); (9, 21); (12, 25); (14, 20); (9, 15); (12, 18); (17, 28); (7, 23); (7, 27)] false.
(** circuit.rs:221-224 *)
Fixpoint set_nth {A} (n : nat) (x : A) (l : list A) : list A :=
  match l, n with [], _ => [] | _ :: l, O => x :: l | y :: l, S n => y :: set_nth n x l end.
Definition set_circuit_size (key : nat) (size : Z * Z) (c : circuit_config) : circuit_config := mk_config (set_nth key size (circuits c)) (use_test_config c).
(** cli.rs:94-116: the options given replace the defaults *)
Definition into_circuit_config (options : list (option (Z * Z))) (test : bool) : circuit_config :=
  let c := fold_left (fun c p => match snd p with Some size => set_circuit_size (fst p) size c | None => c end) (combine (seq 0 NUM_TABLES) options) default_config in
  mk_config (circuits c) test.

(** circuit.rs:231-245 *)
Definition range_digest (i : nat) (r : Z * Z) : list Z := short_str i ++ chars "_" ++ display (fst r) ++ chars "-" ++ display (snd r).
Definition configuration_digest (c : circuit_config) : list Z :=
  fold_left (fun acc s => (if match acc with [] => true | _ => false end then acc else acc ++ chars "_") ++ s)
    (map (fun p => range_digest (fst p) (snd p)) (combine (seq 0 (List.length (circuits c))) (circuits c))) [].

(** * The files *)
Section Disk.
  Variable dir : list Z.          (* [circuit_dir()] *)
  Variable kernel_hash : list Z.  (* KERNEL_HASH: eight hexadecimal digits *)
  (** persistence.rs:125-133, 160-168, 196-204, 239-246 *)
  Definition base_path (c : circuit_config) : list Z := dir ++ chars "/prover_state_base_" ++ kernel_hash ++ chars "_" ++ configuration_digest c.
  Definition monolithic_path (c : circuit_config) : list Z := dir ++ chars "/prover_state_monolithic_" ++ kernel_hash ++ chars "_" ++ configuration_digest c.
  Definition table_path (i : nat) (size : Z) : list Z := dir ++ chars "/prover_state_" ++ kernel_hash ++ chars "_" ++ short_str i ++ chars "_" ++ display size.
  Definition verifier_path (c : circuit_config) : list Z := dir ++ chars "/verifier_state_" ++ kernel_hash ++ chars "_" ++ configuration_digest c.

  (** The circuits, their upper part, the circuits of one table and size, the
      verifier data. *)
  Variables Circuits Table Verifier : Type.
  (** circuit.rs:248-264 *)
  Variable build : list (Z * Z) -> bool -> Circuits.
  Variable upper : Circuits -> Circuits.
  Variable table : Circuits -> nat -> Z -> Table.
  Variable final_verifier_data : Circuits -> Verifier.
  Definition as_all_recursive_circuits (c : circuit_config) : Circuits := build (circuits c) (use_test_config c).

  Inductive file : Type := FileCircuits (x : Circuits) | FileTable (t : Table) | FileVerifier (v : Verifier).
  Definition disk : Type := list (list Z * file).
  Definition path_eqb (a b : list Z) : bool := if list_eq_dec Z.eq_dec a b then true else false.
  Fixpoint read (d : disk) (p : list Z) : option file :=
    match d with [] => None | (q, f) :: d => if path_eqb q p then Some f else read d p end.
  Definition write (p : list Z) (f : file) (d : disk) : disk := (p, f) :: d.

  (** persistence.rs:308-328; every table has the circuits of its range *)
  Definition prover_to_disk (c : circuit_config) (x : Circuits) (d : disk) : disk :=
    let d := write (base_path c) (FileCircuits (upper x)) d in
    let d := write (monolithic_path c) (FileCircuits x) d in
    fold_left (fun d p => fold_left (fun d size => write (table_path (fst p) size) (FileTable (table x (fst p) size)) d) (range (fst (snd p)) (snd (snd p))) d)
      (combine (seq 0 (List.length (circuits c))) (circuits c)) d.
  (** persistence.rs:262-270 *)
  Definition persist_all_to_disk (x : Circuits) (c : circuit_config) (d : disk) : disk :=
    write (verifier_path c) (FileVerifier (final_verifier_data x)) (prover_to_disk c x d).

  (** mod.rs:127-150 *)
  Inductive persistence : Type := NoDisk | OnDemand | Monolithic.

  (** mod.rs:311-372: the circuits of the prover and the files.  A file that
      does not hold circuits does not deserialise. *)
  Definition initialize (p : persistence) (c : circuit_config) (d : disk) : Circuits * disk :=
    let fresh := let x := as_all_recursive_circuits c in (x, persist_all_to_disk x c d) in
    match p with
    | NoDisk => (as_all_recursive_circuits c, d)
    | OnDemand => match read d (base_path c) with Some (FileCircuits x) => (x, d) | _ => fresh end
    | Monolithic => match read d (monolithic_path c) with Some (FileCircuits x) => (x, d) | _ => fresh end
    end.
  (** mod.rs:375-408 *)
  Definition verifier (p : persistence) (c : circuit_config) (d : disk) : Verifier * disk :=
    match p with
    | NoDisk => (final_verifier_data (as_all_recursive_circuits c), d)
    | _ => match read d (verifier_path c) with
           | Some (FileVerifier v) => (v, d)
           | _ => let v := final_verifier_data (as_all_recursive_circuits c) in (v, write (verifier_path c) (FileVerifier v) d)
           end
    end.
  (** mod.rs:176-206 for one circuit: the table and its offset, [None] if the
      table is not there.  The offset is cast to u8. *)
  Definition load_table_circuit (c : circuit_config) (i : nat) (size : Z) (d : disk) : res (option (Table * Z)) :=
    match read d (table_path i size) with
    | Some (FileTable t) => let first := fst (nth i (circuits c) (0, 0)) in if size <? first then Panics else Fine (Some (t, (size - first) mod 256))
    | _ => Fine None
    end.
End Disk.
