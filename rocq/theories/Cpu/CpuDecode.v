(** Decoding: which instruction a row of the CPU table runs. *)
From Coq Require Import ZArith Znumtheory List Bool Arith Lia.
From Verif Require Import Stark.Field Stark.ArithModel Cpu.CpuModel Cpu.CpuSpec Cpu.CpuFacts.
Import ListNotations.
Local Open Scope Z_scope.

(** The flag under which an instruction runs (documentation of the columns in
    cpu/columns/ops.rs:9-53). *)
Definition flag_of (i : instr) : nat :=
  match i with
  | Binary => BINARY_OP | Ternary => TERNARY_OP | Fp254 => FP254_OP | Logic => LOGIC_OP | Shift => SHIFT
  | Eq | IsZero => EQ_ISZERO
  | Not | Pop => NOT_POP
  | Jumpdest | Keccak => JUMPDEST_KECCAK_GENERAL
  | Jump | Jumpi => JUMPS
  | Pc | Push0 => PC_PUSH0
  | Push _ | ProverInput => PUSH_PROVER_INPUT
  | Dup _ | Swap _ => DUP_SWAP
  | GetContext | SetContext => CONTEXT_OP
  | Mload32 | Mstore32 _ => M_OP_32BYTES
  | MloadGeneral | MstoreGeneral => M_OP_GENERAL
  | ExitKernel => EXIT_KERNEL
  | Syscall _ => SYSCALL
  | Exception _ => EXCEPTION
  end.

Definition runs (r : row) (i : instr) : Prop :=
  valid i /\ r (flag_of i) = 1 /\ (forall o, opcode i = Some o -> opcode_of r = o) /\
  (forall c, i = Exception c -> exc_code_of r = c).

Definition padding (r : row) : Prop := forall f, In f OP_FLAGS -> r f = 0.

Definition row_ok (k : labels) (lv nv : row) : Prop :=
  Forall ok_all (eval_cpu k lv nv) /\ (forall c, canonical (lv c)).

Lemma pair_row : forall k lv nv, pair_ok k lv nv -> row_ok k lv nv.
Proof. intros k lv nv (H & C & _). split; [apply ok_weaken; exact H|exact C]. Qed.

Lemma some_inj : forall a b : Z, Some a = Some b -> a = b.
Proof. intros a b E. congruence. Qed.

Lemma bool_cell : forall e, canonical e -> (e * (e - 1)) mod P = 0 -> e = 0 \/ e = 1.
Proof. intros e C H. apply bool_of_constraint; [exact C|]. exact H. Qed.

Section Row.
  Variables (k : labels) (lv nv : row).
  Hypothesis OK : row_ok k lv nv.

  Let H : Forall ok_all (eval_cpu k lv nv) := proj1 OK.
  Let C : forall c, canonical (lv c) := proj2 OK.

  Lemma flag_bool : forall f, In f OP_FLAGS -> lv f = 0 \/ lv f = 1.
  Proof.
    intros f I. apply bool_cell; [apply C|].
    pose proof (m_decode k lv nv _ H) as D. pose proof (m_syscalls k lv nv _ H) as S.
    unfold eval_decode, OPCODES, COMBINED_OPCODES in D. cbn [map seq opcodes_flag snd app] in D.
    unfold boolean in D. unfold eval_syscalls_exceptions in S. rewrite !Forall_app in S. destruct S as (S & _).
    unfold boolean in S. opened D. opened S.
    cbn [In OP_FLAGS] in I.
    repeat (destruct I as [<-|I]; [assumption|]). contradiction.
  Qed.

  Lemma bit_bool : forall i, (i < 8)%nat -> bit lv i = 0 \/ bit lv i = 1.
  Proof.
    intros i I. apply bool_cell; [apply C|].
    pose proof (m_decode k lv nv _ H) as D. unfold eval_decode in D. rewrite !Forall_app in D. destruct D as (_ & D & _).
    rewrite Forall_forall in D. apply use_all. apply D. apply (in_map (fun i => boolean (bit lv i))). apply in_seq. lia.
  Qed.

  Lemma kernel_bool : lv IS_KERNEL_MODE = 0 \/ lv IS_KERNEL_MODE = 1.
  Proof.
    apply bool_cell; [apply C|].
    pose proof (m_decode k lv nv _ H) as D. unfold eval_decode in D. rewrite !Forall_app in D. destruct D as (D & _).
    opened D. assumption.
  Qed.

  Lemma cycle_bool : cpu_cycle lv = 0 \/ cpu_cycle lv = 1.
  Proof.
    pose proof (m_halt k lv nv _ H) as D. unfold eval_halt in D. rewrite !Forall_app in D. destruct D as (D & _).
    unfold boolean in D. opened D.
    assert (B : 0 <= cpu_cycle lv <= 18).
    { pose proof flag_bool as F. unfold cpu_cycle. 
      assert (G : forall l, (forall f, In f l -> lv f = 0 \/ lv f = 1) -> 0 <= sum (map lv l) <= Z.of_nat (length l)).
      { induction l as [|f l IH]; intros Hl; [cbn; lia|]. cbn [map sum length fold_right]. 
        specialize (IH (fun g Hg => Hl g (or_intror Hg))). specialize (Hl f (or_introl eq_refl)).
        rewrite Nat2Z.inj_succ. unfold sum in *. cbn [fold_right]. lia. }
      apply (G OP_FLAGS F). }
    match goal with X : ((1 - ?e) * (1 - ?e - 1)) mod P = 0 |- _ => destruct (field_integral _ _ X) as [A|A] end;
      apply small_zero in A; unfold P in *; lia.
  Qed.

  Lemma sum_zero : forall l, (forall f, In f l -> lv f = 0 \/ lv f = 1) -> sum (map lv l) = 0 -> forall f, In f l -> lv f = 0.
  Proof.
    induction l as [|g l IH]; intros B S f I; [contradiction|].
    assert (N : 0 <= sum (map lv l)).
    { clear - B. induction l as [|h l IH]; [cbn; lia|]. cbn [map]. unfold sum in *. cbn [fold_right].
      specialize (IH (fun x Hx => B x (match Hx with or_introl e => or_introl e | or_intror y => or_intror (or_intror y) end))).
      destruct (B h (or_intror (or_introl eq_refl))); lia. }
    cbn [map] in S. unfold sum in *. cbn [fold_right] in S. destruct (B g (or_introl eq_refl)) as [G|G]; [|lia].
    destruct I as [<-|I]; [exact G|]. apply IH; [intros x Hx; apply B; right; exact Hx|lia|exact I].
  Qed.

  (** Exactly one flag is set in a row that is not padding. *)
  Lemma one_flag : padding lv /\ cpu_cycle lv = 0 \/
    cpu_cycle lv = 1 /\ exists f, In f OP_FLAGS /\ lv f = 1 /\ forall g, In g OP_FLAGS -> g <> f -> lv g = 0.
  Proof.
    destruct cycle_bool as [Z|Z].
    - left. split; [|exact Z]. intros f I. exact (sum_zero OP_FLAGS flag_bool Z f I).
    - right. split; [exact Z|].
      assert (G : forall l, (forall f, In f l -> lv f = 0 \/ lv f = 1) -> sum (map lv l) = 1 ->
                exists f, In f l /\ lv f = 1 /\ forall g, In g l -> g <> f -> lv g = 0).
      { induction l as [|h l IH]; intros B S; [discriminate S|].
        cbn [map] in S. unfold sum in S. cbn [fold_right] in S. fold (sum (map lv l)) in S.
        assert (Bl : forall f, In f l -> lv f = 0 \/ lv f = 1) by (intros x Hx; apply B; right; exact Hx).
        destruct (B h (or_introl eq_refl)) as [Hh|Hh].
        - destruct (IH Bl ltac:(lia)) as (f & If & F1 & F0). exists f. split; [right; exact If|]. split; [exact F1|].
          intros g [<-|Ig] N; [exact Hh|apply F0; assumption].
        - exists h. split; [left; reflexivity|]. split; [exact Hh|]. intros g [<-|Ig] N; [contradiction|].
          apply (sum_zero l Bl); [lia|exact Ig]. }
      exact (G OP_FLAGS flag_bool Z).
  Qed.

  Lemma only_flag : forall f g, In f OP_FLAGS -> In g OP_FLAGS -> lv f = 1 -> f <> g -> lv g = 0.
  Proof.
    intros f g If Ig F N. destruct one_flag as [[Pd _]|(_ & h & Ih & H1 & H0)].
    - rewrite (Pd f If) in F. discriminate.
    - destruct (Nat.eq_dec f h) as [->|E]; [apply H0; [exact Ig|congruence]|]. rewrite (H0 f If E) in F. discriminate.
  Qed.

  Lemma opcode_range : 0 <= opcode_of lv < 256.
  Proof.
    unfold opcode_of, bits8. cbn [map seq le_bits].
    pose proof (bit_bool 0 ltac:(lia)). pose proof (bit_bool 1 ltac:(lia)). pose proof (bit_bool 2 ltac:(lia)).
    pose proof (bit_bool 3 ltac:(lia)). pose proof (bit_bool 4 ltac:(lia)). pose proof (bit_bool 5 ltac:(lia)).
    pose proof (bit_bool 6 ltac:(lia)). pose proof (bit_bool 7 ltac:(lia)).
    change (2^0) with 1; change (2^(0+1)) with 2; change (2^(0+1+1)) with 4; change (2^(0+1+1+1)) with 8;
    change (2^(0+1+1+1+1)) with 16; change (2^(0+1+1+1+1+1)) with 32; change (2^(0+1+1+1+1+1+1)) with 64;
    change (2^(0+1+1+1+1+1+1+1)) with 128. lia.
  Qed.

  Lemma opcode_eq : opcode_of lv = bit lv 0 + 2 * bit lv 1 + 4 * bit lv 2 + 8 * bit lv 3 + 16 * bit lv 4 + 32 * bit lv 5 + 64 * bit lv 6 + 128 * bit lv 7.
  Proof.
    unfold opcode_of, bits8. cbn [map seq le_bits].
    change (2^0) with 1; change (2^(0+1)) with 2; change (2^(0+1+1)) with 4; change (2^(0+1+1+1)) with 8;
    change (2^(0+1+1+1+1)) with 16; change (2^(0+1+1+1+1+1)) with 32; change (2^(0+1+1+1+1+1+1)) with 64;
    change (2^(0+1+1+1+1+1+1+1)) with 128. ring.
  Qed.

  Lemma high8_eq : opcode_high_bits lv 8 = opcode_of lv.
  Proof.
    rewrite opcode_eq. unfold opcode_high_bits. cbn [map seq Nat.sub]. unfold sum. cbn [fold_right].
    change (2 ^ Z.of_nat 0) with 1; change (2 ^ Z.of_nat 1) with 2; change (2 ^ Z.of_nat 2) with 4; change (2 ^ Z.of_nat 3) with 8; change (2 ^ Z.of_nat 4) with 16; change (2 ^ Z.of_nat 5) with 32; change (2 ^ Z.of_nat 6) with 64; change (2 ^ Z.of_nat 7) with 128. ring.
  Qed.
  Lemma high3_eq : opcode_high_bits lv 3 = 32 * bit lv 5 + 64 * bit lv 6 + 128 * bit lv 7.
  Proof.
    unfold opcode_high_bits. cbn [map seq Nat.sub]. unfold sum. cbn [fold_right].
    change (2 ^ Z.of_nat 5) with 32; change (2 ^ Z.of_nat 6) with 64; change (2 ^ Z.of_nat 7) with 128. ring.
  Qed.

  Lemma bits_range : (forall i, (i < 8)%nat -> 0 <= bit lv i <= 1).
  Proof. intros i I. destruct (bit_bool i I); lia. Qed.
End Row.

Ltac use_bits OK :=
  pose proof (bits_range _ _ _ OK 0%nat ltac:(lia)); pose proof (bits_range _ _ _ OK 1%nat ltac:(lia));
  pose proof (bits_range _ _ _ OK 2%nat ltac:(lia)); pose proof (bits_range _ _ _ OK 3%nat ltac:(lia));
  pose proof (bits_range _ _ _ OK 4%nat ltac:(lia)); pose proof (bits_range _ _ _ OK 5%nat ltac:(lia));
  pose proof (bits_range _ _ _ OK 6%nat ltac:(lia)); pose proof (bits_range _ _ _ OK 7%nat ltac:(lia)).

(** What the constraints of decode.rs say, flag by flag. *)
Section Decode.
  Variables (k : labels) (lv nv : row).
  Hypothesis OK : row_ok k lv nv.
  Notation o := (opcode_of lv).
  Notation kernel := (lv IS_KERNEL_MODE).

  Let D := m_decode k lv nv _ (proj1 OK).

  (** The blocks of opcodes. *)
  Lemma block : forall oc n ko f, In (oc, n, ko, f) OPCODES -> lv f = 1 ->
    ((if ko : bool then 1 - kernel else 0) + opcode_mismatch lv oc n) mod P = 0.
  Proof.
    intros oc n ko f I F. pose proof D as E. unfold eval_decode in E. rewrite !Forall_app in E.
    destruct E as (_ & _ & _ & _ & _ & E & _). rewrite Forall_forall in E.
    specialize (E _ (in_map _ _ _ I)). cbn beta iota in E. apply use_all in E. rewrite F, Z.mul_1_l in E. exact E.
  Qed.

  Lemma rest : Forall ok_all
    [all ((kernel - 1) * lv FP254_OP);
     all (lv TERNARY_OP * bit lv 1 * (kernel - 1));
     all ((kernel - 1) * lv M_OP_GENERAL);
     all ((o - 0xfb) * (o - 0xfc) * lv M_OP_GENERAL);
     all ((kernel - 1) * lv JUMPDEST_KECCAK_GENERAL * (1 - bit lv 1));
     all ((o - 0x21) * (o - 0x5b) * lv JUMPDEST_KECCAK_GENERAL);
     all ((o - 0x58) * (o - 0x5f) * lv PC_PUSH0);
     all ((o - 0x19) * (o - 0x50) * lv NOT_POP);
     all ((kernel - 1) * lv M_OP_32BYTES);
     all (((32 * bit lv 5 + 64 * bit lv 6 + 128 * bit lv 7) - 0xc0) * (o - 0xf8) * lv M_OP_32BYTES);
     all ((o - 0xee) * ((32 * bit lv 5 + 64 * bit lv 6 + 128 * bit lv 7) - 0x60) * lv PUSH_PROVER_INPUT);
     all (lv PUSH_PROVER_INPUT * bit lv 7 * (kernel - 1))].
  Proof.
    pose proof D as E. unfold eval_decode in E. cbv zeta in E. rewrite high8_eq, high3_eq in E.
    rewrite !Forall_app in E. destruct E as (_ & _ & _ & _ & _ & _ & E). exact E.
  Qed.

  Lemma kernel_one : (kernel - 1) mod P = 0 -> kernel = 1.
  Proof. intros E. apply eq_const in E; [exact E|apply (proj2 OK)|unfold P; lia]. Qed.

  Lemma pick2 : forall a b f, (a * b * f) mod P = 0 -> f = 1 -> -256 <= a <= 256 -> -256 <= b <= 256 -> a = 0 \/ b = 0.
  Proof.
    intros a b f E -> A B. rewrite Z.mul_1_r in E. destruct (field_integral _ _ E) as [Z|Z]; apply small_zero in Z; unfold P; lia.
  Qed.

  Ltac start F := pose proof rest as E; opened E; use_bits OK; pose proof (opcode_range _ _ _ OK); pose proof (opcode_eq lv) as OE;
    pose proof (kernel_bool _ _ _ OK) as KB.
  Ltac two e f := match goal with X : (e * _ * lv f) mod P = 0, F : lv f = 1 |- _ => destruct (pick2 _ _ _ X F ltac:(lia) ltac:(lia)) end.
  Ltac kern := match goal with
    | X : ((kernel - 1) * ?f) mod P = 0, F : ?f = 1 |- kernel = 1 => rewrite F, Z.mul_1_r in X; apply kernel_one; exact X end.

  Lemma d_mgeneral : lv M_OP_GENERAL = 1 -> (o = 0xfb \/ o = 0xfc) /\ kernel = 1.
  Proof. intros F. start F. split; [two (o - 0xfb) M_OP_GENERAL; lia|kern]. Qed.
  Lemma d_jumpdest : lv JUMPDEST_KECCAK_GENERAL = 1 -> o = 0x5b \/ o = 0x21 /\ kernel = 1.
  Proof.
    intros F. start F. two (o - 0x21) JUMPDEST_KECCAK_GENERAL; [|left; lia]. right. split; [lia|].
    match goal with X : ((kernel - 1) * lv JUMPDEST_KECCAK_GENERAL * (1 - bit lv 1)) mod P = 0 |- _ =>
      rewrite F in X; replace (bit lv 1) with 0 in X by lia; apply kernel_one; rewrite Z.mul_1_r, Z.mul_1_r in X; exact X end.
  Qed.
  Lemma d_pcpush0 : lv PC_PUSH0 = 1 -> o = 0x58 \/ o = 0x5f.
  Proof. intros F. start F. two (o - 0x58) PC_PUSH0; lia. Qed.
  Lemma d_notpop : lv NOT_POP = 1 -> o = 0x19 \/ o = 0x50.
  Proof. intros F. start F. two (o - 0x19) NOT_POP; lia. Qed.
  Lemma d_m32 : lv M_OP_32BYTES = 1 -> (o = 0xf8 \/ 0xc0 <= o <= 0xdf) /\ kernel = 1.
  Proof. intros F. start F. split; [two (32 * bit lv 5 + 64 * bit lv 6 + 128 * bit lv 7 - 0xc0) M_OP_32BYTES; lia|kern]. Qed.
  Lemma d_push : lv PUSH_PROVER_INPUT = 1 -> 0x60 <= o <= 0x7f \/ o = 0xee /\ kernel = 1.
  Proof.
    intros F. start F. two (o - 0xee) PUSH_PROVER_INPUT; [right|left; lia]. split; [lia|].
    match goal with X : (lv PUSH_PROVER_INPUT * bit lv 7 * (kernel - 1)) mod P = 0 |- _ =>
      rewrite F in X; replace (bit lv 7) with 1 in X by lia; rewrite !Z.mul_1_l in X; apply kernel_one; exact X end.
  Qed.
  Lemma d_fp254 : lv FP254_OP = 1 -> kernel = 1.
  Proof. intros F. start F. kern. Qed.

  Ltac blk I F := let B := fresh "B" in pose proof (block _ _ _ _ I F) as B; use_bits OK; pose proof (opcode_eq lv) as OE;
    pose proof (kernel_bool _ _ _ OK) as KB;
    unfold opcode_mismatch in B; cbn [map seq Nat.sub Z.of_nat Pos.of_succ_nat Pos.succ Z.testbit Pos.testbit Pos.pred_N Pos.pred_double N.pred N.testbit Z.odd] in B;
    unfold sum in B; cbn [fold_right] in B;
    apply small_zero in B; [|unfold P; lia].

  Lemma d_eqiszero : lv EQ_ISZERO = 1 -> o = 0x14 \/ o = 0x15.
  Proof. intros F. blk (ltac:(cbn; tauto) : In (0x14, 1%nat, false, EQ_ISZERO) OPCODES) F. lia. Qed.
  Lemma d_jumps : lv JUMPS = 1 -> o = 0x56 \/ o = 0x57.
  Proof. intros F. blk (ltac:(cbn; tauto) : In (0x56, 1%nat, false, JUMPS) OPCODES) F. lia. Qed.
  Lemma d_dupswap : lv DUP_SWAP = 1 -> 0x80 <= o <= 0x9f.
  Proof. intros F. blk (ltac:(cbn; tauto) : In (0x80, 5%nat, false, DUP_SWAP) OPCODES) F. lia. Qed.
  Lemma d_context : lv CONTEXT_OP = 1 -> (o = 0xf6 \/ o = 0xf7) /\ kernel = 1.
  Proof. intros F. blk (ltac:(cbn; tauto) : In (0xf6, 1%nat, true, CONTEXT_OP) OPCODES) F. lia. Qed.
  Lemma d_exit : lv EXIT_KERNEL = 1 -> o = 0xf9 /\ kernel = 1.
  Proof. intros F. blk (ltac:(cbn; tauto) : In (0xf9, 0%nat, true, EXIT_KERNEL) OPCODES) F. lia. Qed.

  (** Exceptions: the code is made of bits; only exc_stop may be raised in the kernel. *)
  Lemma d_exception : lv EXCEPTION = 1 -> 0 <= exc_code_of lv < 8 /\ (kernel = 1 -> exc_code_of lv = 6) /\
    forall i, (i < 3)%nat -> lv (EXC_CODE_BITS + i)%nat = 0 \/ lv (EXC_CODE_BITS + i)%nat = 1.
  Proof.
    intros F. pose proof (m_syscalls k lv nv _ (proj1 OK)) as S. unfold eval_syscalls_exceptions in S. cbv zeta in S.
    rewrite !Forall_app in S. destruct S as (S1 & S2 & _). cbn [map seq] in S2. opened S1. opened S2. rewrite F in *.
    assert (B : forall i, (i < 3)%nat -> lv (EXC_CODE_BITS + i)%nat = 0 \/ lv (EXC_CODE_BITS + i)%nat = 1).
    { intros i I. apply bool_cell; [apply (proj2 OK)|].
      destruct i as [|[|[|]]]; [| | |lia];
        match goal with X : (1 * ?e * ?g) mod P = 0 |- (?e * ?g) mod P = 0 => rewrite Z.mul_1_l in X; exact X end. }
    assert (R : 0 <= exc_code_of lv < 8).
    { unfold exc_code_of. cbn [map seq le_bits]. change (2^0) with 1; change (2^(0+1)) with 2; change (2^(0+1+1)) with 4.
      pose proof (B 0%nat ltac:(lia)). pose proof (B 1%nat ltac:(lia)). pose proof (B 2%nat ltac:(lia)). lia. }
    split; [exact R|]. split; [|exact B]. intros K. rewrite K in *.
    match goal with X : (1 * (exc_code_of lv - EXC_STOP_CODE) * 1) mod P = 0 |- _ =>
      rewrite Z.mul_1_r, Z.mul_1_l in X; apply small_zero in X; unfold EXC_STOP_CODE, P in *; lia end.
  Qed.

  (** Every row is padding or runs exactly one instruction; a privileged one
      only in kernel mode. *)
  Lemma decode : padding lv \/
    exists i, runs lv i /\ (privileged i -> kernel = 1) /\ (forall j, runs lv j -> j = i).
  Proof.
    destruct (one_flag _ _ _ OK) as [[Pd _]|(_ & f & I & F & N)]; [left; exact Pd|right].
    assert (U : forall i, runs lv i -> flag_of i = f).
    { intros i (_ & Fi & _). destruct (Nat.eq_dec (flag_of i) f) as [E|E]; [exact E|].
      rewrite (N (flag_of i)) in Fi; [discriminate| |exact E].
      destruct i; cbn [flag_of OP_FLAGS In]; tauto. }
    assert (G : forall i, flag_of i = f -> valid i -> (forall x, opcode i = Some x -> opcode_of lv = x) ->
              (forall c, i = Exception c -> exc_code_of lv = c) -> (privileged i -> kernel = 1) ->
              exists i, runs lv i /\ (privileged i -> kernel = 1) /\ (forall j, runs lv j -> j = i)).
    { intros i Fi V Op Ex Pr. exists i. split; [repeat split; try assumption; rewrite Fi; exact F|]. split; [exact Pr|].
      intros j Rj. pose proof (U j Rj) as Fj. destruct Rj as (Vj & _ & Oj & Ej). rewrite <- Fi in Fj.
      destruct i, j; try discriminate Fj; try reflexivity; cbn [opcode valid] in *;
        try (specialize (Op _ eq_refl); specialize (Oj _ eq_refl); try lia; try (f_equal; lia));
        try (specialize (Ex _ eq_refl); specialize (Ej _ eq_refl); f_equal; lia). }
    Ltac choose_instr G i := apply (G i); [reflexivity|cbn [valid]; lia || exact I
      |intros ?x [= <-]; lia|discriminate|cbn [privileged]; tauto].
    cbn [OP_FLAGS In] in I. repeat (destruct I as [<-|I]); [..|contradiction].
    - apply (G Binary); try reflexivity; cbn; try tauto; discriminate.
    - apply (G Ternary); try reflexivity; cbn; try tauto; discriminate.
    - apply (G Fp254); try reflexivity; try (cbn; tauto); try discriminate. intros _. apply d_fp254; exact F.
    - destruct (d_eqiszero F) as [E|E]; [apply (G Eq)|apply (G IsZero)]; try reflexivity; try (cbn; tauto); try discriminate; intros x [= <-]; exact E.
    - apply (G Logic); try reflexivity; cbn; try tauto; discriminate.
    - destruct (d_notpop F) as [E|E]; [apply (G Not)|apply (G Pop)]; try reflexivity; try (cbn; tauto); try discriminate; intros x [= <-]; exact E.
    - apply (G Shift); try reflexivity; cbn; try tauto; discriminate.
    - destruct (d_jumpdest F) as [E|[E K]]; [apply (G Jumpdest)|apply (G Keccak)]; try reflexivity; try (cbn; tauto); try discriminate; intros x [= <-]; exact E.
    - destruct (d_jumps F) as [E|E]; [apply (G Jump)|apply (G Jumpi)]; try reflexivity; try (cbn; tauto); try discriminate; intros x [= <-]; exact E.
    - destruct (d_push F) as [E|[E K]]; [apply (G (Push (o - 0x5f)))|apply (G ProverInput)]; try reflexivity; try (cbn; tauto); try discriminate;
        [cbn [valid]; lia|cbn [opcode]; intros x EX; apply some_inj in EX; lia|intros x [= <-]; exact E].
    - pose proof (d_dupswap F) as E. destruct (Z_lt_le_dec o 0x90) as [L|L]; [apply (G (Dup (o - 0x7f)))|apply (G (Swap (o - 0x8f)))];
        try reflexivity; try (cbn; tauto); try discriminate; try (cbn [valid]; lia); cbn [opcode]; intros x EX; apply some_inj in EX; lia.
    - destruct (d_context F) as [[E|E] K]; [apply (G GetContext)|apply (G SetContext)]; try reflexivity; try (cbn; tauto); try discriminate; intros x [= <-]; exact E.
    - destruct (d_m32 F) as [[E|E] K]; [apply (G Mload32)|apply (G (Mstore32 (o - 0xbf)))]; try reflexivity; try (cbn; tauto); try discriminate;
        [intros x [= <-]; exact E|cbn [valid]; lia|cbn [opcode]; intros x EX; apply some_inj in EX; lia].
    - destruct (d_exit F) as [E K]. apply (G ExitKernel); try reflexivity; try (cbn; tauto); try discriminate; intros x [= <-]; exact E.
    - destruct (d_mgeneral F) as [[E|E] K]; [apply (G MloadGeneral)|apply (G MstoreGeneral)]; try reflexivity; try (cbn; tauto); try discriminate; intros x [= <-]; exact E.
    - destruct (d_pcpush0 F) as [E|E]; [apply (G Pc)|apply (G Push0)]; try reflexivity; try (cbn; tauto); try discriminate; intros x [= <-]; exact E.
    - apply (G (Syscall o)); try reflexivity; try (cbn; tauto); try discriminate; [apply (opcode_range _ _ _ OK)|cbn [opcode]; intros x EX; congruence].
    - destruct (d_exception F) as (R & _). apply (G (Exception (exc_code_of lv))); try reflexivity; try (cbn; tauto); try discriminate;
        first [exact R|intros c EC; congruence].
  Qed.
End Decode.
