(** The instructions of MachineModel.v that only compute on the stack do what
    EvmSpec.v says. *)
From Coq Require Import ZArith List Bool Lia ZifyBool.
From Verif Require Import Stark.ArithModel Stark.LogicModel Witness.MemoryModel Witness.MachineModel Witness.MemoryProps Witness.MachineSpec
  Witness.MachineLemmas Witness.MachineLog Witness.MachineStep Witness.MachineRun Witness.EvmSpec.
Import ListNotations.
Local Open Scope Z_scope.

(** * The stack as a list *)
Lemma slots_pos : forall f c n, 0 < n -> slots f c (Z.to_nat n) = f (mk_maddr c 1 (n - 1)) :: slots f c (Z.to_nat (n - 1)).
Proof.
  intros f c n H. replace (Z.to_nat n) with (S (Z.to_nat (n - 1))) by lia. cbn [slots]. rewrite Z2Nat.id by lia. reflexivity.
Qed.
Lemma slots_length : forall f c n, length (slots f c n) = n.
Proof. intros f c n. induction n as [|n IH]; [reflexivity|]. cbn [slots length]. rewrite IH. reflexivity. Qed.
Lemma slots_ext : forall f g c n, (forall i, 0 <= i < Z.of_nat n -> f (mk_maddr c 1 i) = g (mk_maddr c 1 i)) -> slots f c n = slots g c n.
Proof.
  intros f g c n. induction n as [|n IH]; intros H; [reflexivity|]. cbn [slots]. f_equal; [apply H; lia|]. apply IH. intros. apply H. lia.
Qed.
Lemma slots_nth : forall f c n i, (i < n)%nat -> nth_error (slots f c n) i = Some (f (mk_maddr c 1 (Z.of_nat n - 1 - Z.of_nat i))).
Proof.
  intros f c n. induction n as [|n IH]; intros i H; [lia|]. destruct i as [|i]; cbn [slots nth_error].
  - do 3 f_equal. lia.
  - rewrite IH by lia. do 3 f_equal. lia.
Qed.
Lemma slots_nth_none : forall f c n i, (n <= i)%nat -> nth_error (slots f c n) i = None.
Proof. intros. apply nth_error_None. rewrite slots_length. assumption. Qed.
Lemma slots_put : forall f c n i x, (i < n)%nat ->
  put i x (slots f c n) = slots (upd f (mk_maddr c 1 (Z.of_nat n - 1 - Z.of_nat i)) x) c n.
Proof.
  intros f c n. induction n as [|n IH]; intros i x H; [lia|]. destruct i as [|i]; cbn [slots put].
  - replace (Z.of_nat (S n) - 1 - Z.of_nat 0) with (Z.of_nat n) by lia. rewrite upd_same. f_equal. apply slots_ext. intros j J.
    symmetry. apply upd_other. intros E. assert (j = Z.of_nat n) by congruence. lia.
  - f_equal.
    + symmetry. apply upd_other. intros E. assert (Z.of_nat n = Z.of_nat (S n) - 1 - Z.of_nat (S i)) by congruence. lia.
    + rewrite IH by lia. replace (Z.of_nat (S n) - 1 - Z.of_nat (S i)) with (Z.of_nat n - 1 - Z.of_nat i) by lia. reflexivity.
Qed.
Lemma slots_upd_above : forall f c n i x, n <= i -> slots (upd f (mk_maddr c 1 i) x) c (Z.to_nat n) = slots f c (Z.to_nat n).
Proof.
  intros. apply slots_ext. intros j J. apply upd_other. intros E. assert (j = i) by congruence. lia.
Qed.
Lemma stack_list_length : forall f c len top, 0 <= len -> Z.of_nat (length (stack_list f c len top)) = len.
Proof.
  intros. unfold stack_list. destruct (Z.eqb_spec len 0); [subst; reflexivity|]. cbn [length]. rewrite slots_length. lia.
Qed.
Lemma stack_list_pos : forall f c len top, 0 < len -> stack_list f c len top = top :: slots f c (Z.to_nat (len - 1)).
Proof. intros. unfold stack_list. destruct (Z.eqb_spec len 0); [lia|reflexivity]. Qed.
Lemma stack_list_two : forall f c len top, 2 <= len -> stack_list f c len top = top :: f (mk_maddr c 1 (len - 1 - 1)) :: slots f c (Z.to_nat (len - 2)).
Proof. intros. rewrite stack_list_pos, slots_pos by lia. replace (len - 1 - 1) with (len - 2) by lia. reflexivity. Qed.
Lemma stack_list_three : forall f c len top, 3 <= len ->
  stack_list f c len top = top :: f (mk_maddr c 1 (len - 1 - 1)) :: f (mk_maddr c 1 (len - 1 - 2)) :: slots f c (Z.to_nat (len - 3)).
Proof. intros. rewrite stack_list_two, slots_pos by lia. replace (len - 1 - 2) with (len - 3) by lia. replace (len - 2 - 1) with (len - 3) by lia. reflexivity. Qed.
Lemma pop1_none : forall h f c len top, 0 <= len -> len < 1 -> pop1 h (stack_list f c len top) = None.
Proof. intros. unfold stack_list. destruct (Z.eqb_spec len 0); [reflexivity|lia]. Qed.
Lemma pop2_none : forall h f c len top, 0 <= len -> len < 2 -> pop2 h (stack_list f c len top) = None.
Proof. intros. unfold stack_list. destruct (Z.eqb_spec len 0); [reflexivity|]. replace len with 1 by lia. reflexivity. Qed.
Lemma pop3_none : forall h f c len top, 0 <= len -> len < 3 -> pop3 h (stack_list f c len top) = None.
Proof.
  intros. unfold stack_list. destruct (Z.eqb_spec len 0); [reflexivity|]. destruct (Z.eqb_spec len 1); [subst; reflexivity|].
  replace len with 2 by lia. reflexivity.
Qed.
Lemma pop1_some : forall h f c len top, 1 <= len -> pop1 h (stack_list f c len top) = Some (stack_list f c len (h top)).
Proof. intros. rewrite !stack_list_pos by lia. reflexivity. Qed.
Lemma pop2_some : forall h f c len top, 2 <= len ->
  pop2 h (stack_list f c len top) = Some (stack_list f c (len - 1) (h top (f (mk_maddr c 1 (len - 1 - 1))))).
Proof. intros. rewrite stack_list_two, stack_list_pos by lia. cbn [pop2]. replace (len - 1 - 1) with (len - 2) by lia. reflexivity. Qed.
Lemma pop3_some : forall h f c len top, 3 <= len ->
  pop3 h (stack_list f c len top) = Some (stack_list f c (len - 2) (h top (f (mk_maddr c 1 (len - 1 - 1))) (f (mk_maddr c 1 (len - 1 - 2))))).
Proof. intros. rewrite stack_list_three, stack_list_pos by lia. cbn [pop3]. replace (len - 2 - 1) with (len - 3) by lia. reflexivity. Qed.
Lemma push_list : forall f c len top x, 0 < len ->
  x :: stack_list f c len top = stack_list (upd f (mk_maddr c 1 (len - 1 - 0)) top) c (len + 1) x.
Proof.
  intros. rewrite !stack_list_pos by lia. f_equal. replace (len + 1 - 1) with len by lia. rewrite (slots_pos _ _ len) by lia.
  replace (len - 1 - 0) with (len - 1) by lia. rewrite upd_same, slots_upd_above by lia. reflexivity.
Qed.
Lemma push_nil : forall f c top x, x :: stack_list f c 0 top = stack_list f c (0 + 1) x.
Proof. reflexivity. Qed.

(** * Arithmetic *)
Lemma modulus_pow : modulus = 2^256.
Proof. reflexivity. Qed.
Lemma bn254_base : bn254 = BN_BASE.
Proof. reflexivity. Qed.
Lemma flag_b2z : forall b, flag b = b2z b.
Proof. intros []; reflexivity. Qed.
Lemma submod_spec : forall x y m, 0 < m -> submod x y m = (x - y) mod m.
Proof.
  intros x y m M. unfold submod. destruct (Z.eqb_spec m 0); [lia|]. cbv zeta. destruct (x <? y); [|reflexivity].
  replace (x + m * ((y - x + m - 1) / m) - y) with (x - y + ((y - x + m - 1) / m) * m) by ring. apply Z.mod_add. lia.
Qed.
Lemma number_cells : forall m c n i, 0 <= i -> i + Z.of_nat n < 2^64 ->
  bytes_at m (mk_maddr c SEG_CODE i) n -> (forall a, valid_addr a -> 0 <= contents m a) -> 0 <= c ->
  from_big_endian (map (fun a => as_byte (mread m a)) (cells (mk_maddr c SEG_CODE i) n)) = number (fun j => contents m (mk_maddr c SEG_CODE j)) i n.
Proof.
  intros m c n i I B BY POS C. unfold from_big_endian.
  assert (CE : forall n i, 0 <= i -> i + Z.of_nat n < 2^64 -> cells (mk_maddr c SEG_CODE i) n = map (fun k => mk_maddr c SEG_CODE (i + Z.of_nat k)) (seq 0 n)).
  { clear. induction n as [|n IH]; intros i I B; [reflexivity|]. cbn [cells seq map]. f_equal; [f_equal; lia|].
    unfold increment. cbn [a_context a_segment a_virt]. replace (Z.min (i + 1) (2^64 - 1)) with (i + 1) by lia. rewrite IH by lia.
    rewrite <- seq_shift, map_map. apply map_ext. intros k. f_equal. lia. }
  unfold bytes_at in BY. rewrite CE in * by lia. rewrite map_map. clear CE. 
  induction n as [|n IH]; [reflexivity|]. rewrite seq_S, !map_app in *. cbn [map plus] in *. apply Forall_app in BY. destruct BY as [BY1 BY2].
  rewrite fold_left_app, IH by (try lia; assumption). cbn [fold_left number]. change (2^8) with 256. f_equal. inversion BY2; subst. 
  rewrite mread_contents. apply as_byte_id. unfold byte. split; [|assumption]. apply POS. unfold valid_addr, SEG_CODE. cbn [a_context a_segment a_virt]. lia.
Qed.

(** * Opcodes *)
Definition arith_byte (o : binary_operator) : Z :=
  match o with Add => 1 | Mul => 2 | Sub => 3 | Div => 4 | Mod => 6 | AddFp254 => 12 | MulFp254 => 13 | SubFp254 => 14
  | Lt => 16 | Gt => 17 | Byte => 26 | Shl => 27 | Shr => 28 end.
Definition pure_op (op : minstr) : option Z :=
  match op with
  | Iszero => Some 21 | Not => Some 25 | Eq => Some 20
  | BinaryLogic LAnd => Some 22 | BinaryLogic LOr => Some 23 | BinaryLogic LXor => Some 24
  | BinaryArithmetic o => Some (arith_byte o)
  | TernaryArithmetic AddMod => Some 8 | TernaryArithmetic MulMod => Some 9 | TernaryArithmetic SubMod => Some 15
  | Pop => Some 80 | Pc => Some 88 | Jumpdest => Some 91
  | Push n => Some (95 + n) | Dup n => Some (128 + n) | Swap n => Some (144 + n)
  | GetContext => Some 246
  | _ => None
  end.
Definition in_range (op : minstr) : bool :=
  match op with Push n => (0 <=? n) && (n <=? 32) | Dup n | Swap n => (0 <=? n) && (n <=? 15) | _ => true end.
Lemma pure_decode : forall e k c, 0 <= c < 256 -> pure_byte k c = true -> exists op, decode e k c = inr op /\ pure_op op = Some c /\ in_range op = true /\
  gas_to_charge op = cost c /\ pc_increment op = width c.
Proof.
  intros e k c B H.
  pose proof (decode_all (fun e k c => if pure_byte k c then match decode e k c with
    | inr op => match pure_op op with Some d => (d =? c) && in_range op && (gas_to_charge op =? cost c) && (pc_increment op =? width c) | None => false end
    | inl _ => false end else true) ltac:(vm_compute; reflexivity) e k c B) as D. cbv beta in D. rewrite H in D.
  destruct (decode e k c) as [?|op]; [discriminate D|]. exists op. split; [reflexivity|]. destruct (pure_op op); [|discriminate D].
  rewrite !andb_true_iff in D. destruct D as (((D1 & D2) & D3) & D4). apply Z.eqb_eq in D1, D3, D4. subst. auto.
Qed.

(** * One instruction *)
Section Sem.
  Context {O : Type}.
  Notation gstate := (gstate O).
  Variable keccakf : list Z -> list Z.
  Variables syscall_jumptable exception_jumptable max_code_size : Z.
  Variable eth_mainnet : bool.
  Variable keccak : list Z -> Z.
  Variable prover_input : registers -> mem_state -> O -> option (perror + Z * mem_state * O).
  Variable observe : Z -> registers -> mem_state -> O -> option (perror + O).
  Hypothesis keccak_word : forall l, word (keccak l).
  Hypothesis syscall_jumptable_pos : 0 <= syscall_jumptable.
  Hypothesis exception_jumptable_pos : 0 <= exception_jumptable.

  Notation perform_op := (perform_op O keccakf syscall_jumptable max_code_size keccak prover_input observe).
  Notation perform_state_op := (perform_state_op O keccakf syscall_jumptable max_code_size keccak prover_input observe).
  Notation try_perform_instruction := (try_perform_instruction O keccakf syscall_jumptable max_code_size eth_mainnet keccak prover_input observe).
  Notation transition := (transition O keccakf syscall_jumptable exception_jumptable max_code_size eth_mainnet keccak prover_input observe).
  Notation log := (@log O). Notation clock := (@clock O). Notation opcode := (@opcode O).

  Definition stack (g : gstate) : list Z :=
    stack_list (contents (g_mem g)) (context (g_regs g)) (stack_len (g_regs g)) (stack_top (g_regs g)).
  Definition code_byte (g : gstate) (i : Z) : Z := contents (g_mem g) (mk_maddr (code_context (g_regs g)) SEG_CODE i).

  (** The user may not push beyond 1024 elements. *)
  Definition overflows (g : gstate) (s' : list Z) : bool :=
    negb (is_kernel (g_regs g)) && (length (stack g) <? length s')%nat && (1024 <? length s')%nat.
  Definition fails (p : gstate) (r : outcome O unit) (e : perror) : Prop :=
    exists g1, r = Err e g1 /\ is_kernel (g_regs g1) = is_kernel (g_regs p).
  Definition done (p : gstate) (r : outcome O unit) (s' : list Z) : Prop :=
    exists g2 ops, r = Ok tt g2 /\ g_mem g2 = g_mem p /\ log g2 = log p ++ ops /\ clock g2 = S (clock p) /\ g_oracle g2 = g_oracle p /\ g_stale g2 = g_stale p /\
      Forall (fun o => valid_addr (mo_address o) /\ (mo_kind o = MWrite -> a_segment (mo_address o) = SEG_STACK /\ a_context (mo_address o) = context (g_regs p))) ops /\
      stack_list (after (contents (g_mem p)) ops) (context (g_regs p)) (stack_len (g_regs g2)) (stack_top (g_regs g2)) = s' /\
      program_counter (g_regs g2) = program_counter (g_regs p) /\ is_kernel (g_regs g2) = is_kernel (g_regs p) /\
      context (g_regs g2) = context (g_regs p) /\ gas_used (g_regs g2) = gas_used (g_regs p).
  Definition conforms (p : gstate) (c : Z) (r : outcome O unit) : Prop :=
    match effect (code_byte p) (context (g_regs p)) (program_counter (g_regs p)) c (stack p) with
    | None => fails p r StackUnderflow
    | Some s' => if overflows p s' then fails p r StackOverflow else done p r s'
    end.

  Ltac mcbv := cbv beta iota zeta delta [
    bind ret fail panic gets guard assert get_regs set_regs set_pc set_stack set_top_read set_check_overflow MachineModel.set_context set_mode
    on_traces push_cpu push_logic push_logics push_arithmetic push_memory push_memories push_byte_packing push_sponge
    u256_to_usize bundle new_op mem_read_with_log mem_write_log push_no_write push_with_write pop_prologue pop_epilogue
    stack_pop1 stack_pop2 stack_pop3 keccak_sponge_log byte_unpacking_log read_bytes
    base_row fill_stack_fields
    program_counter is_kernel stack_len stack_top is_stack_top_read check_overflow context gas_used
    g_regs g_mem g_traces g_stale g_oracle t_arithmetic t_byte_packing t_clock t_logic t_memory t_sponge
    fst snd
    stack_addr code_context MachineStep.clock MachineStep.log stack code_byte overflows code_log top_log add_log flagged prepared MachineStep.opcode code_addr].
  Tactic Notation "mcbv" "in" hyp(H) := cbv beta iota zeta delta [
    bind ret fail panic gets guard assert get_regs set_regs set_pc set_stack set_top_read set_check_overflow MachineModel.set_context set_mode
    on_traces push_cpu push_logic push_logics push_arithmetic push_memory push_memories push_byte_packing push_sponge
    u256_to_usize bundle new_op mem_read_with_log mem_write_log push_no_write push_with_write pop_prologue pop_epilogue
    stack_pop1 stack_pop2 stack_pop3 keccak_sponge_log byte_unpacking_log read_bytes
    base_row fill_stack_fields
    program_counter is_kernel stack_len stack_top is_stack_top_read check_overflow context gas_used
    g_regs g_mem g_traces g_stale g_oracle t_arithmetic t_byte_packing t_clock t_logic t_memory t_sponge
    fst snd
    stack_addr code_context MachineStep.clock MachineStep.log stack code_byte overflows code_log top_log add_log flagged prepared MachineStep.opcode code_addr] in H.


  Ltac addr := unfold valid_addr, stack_addr, SEG_STACK, SEG_CODE, SEG_CONTEXT_METADATA, SEG_SHIFT_TABLE, SEG_JUMPDEST_BITS, CTX_STACK_SIZE in *;
    cbn [mo_address a_context a_segment a_virt stack_len context] in *; lia.
  Ltac open p RD :=
      destruct p as [[pc k len top tr co ctx gas] m [ta tb tc tl tm ts] st o];
      destruct RD as [RPC RLEN RCTX RGAS RTOP RMEM RWORDS RREAD];
      mcbv in RPC; mcbv in RLEN; mcbv in RCTX; mcbv in RGAS; mcbv in RTOP; mcbv in RMEM; mcbv in RWORDS; mcbv in RREAD;
      cbn [special_length] in RREAD; subst tr.

  Lemma no_growth : forall k len n (s s' : list Z), Z.of_nat (length s) = len -> Z.of_nat (length s') = n -> n <= len ->
    negb k && (length s <? length s')%nat && (1024 <? length s')%nat = false.
  Proof. intros. destruct k; lia. Qed.

  Ltac unf := cbv beta iota zeta delta [MachineModel.perform_op
      generate_binary_logic_op generate_binary_arithmetic_op generate_ternary_arithmetic_op generate_keccak_general generate_pop generate_pc
      generate_jumpdest generate_get_context generate_set_context generate_push generate_dup generate_swap generate_not generate_iszero
      generate_shl generate_shr append_shift generate_syscall enter_kernel generate_eq generate_exit_kernel generate_mload_general generate_mload_32bytes
      generate_mstore_general generate_mstore_32bytes generate_jump generate_jumpi jump_to]; mcbv.
  Ltac under := eexists; split; [reflexivity|reflexivity].
  Ltac fall := repeat (apply Forall_cons; [|]); try apply Forall_nil.
  Ltac ok ops := eexists _, ops; split; [reflexivity|]; split; [reflexivity|]; split; [mcbv; rewrite <- ?app_assoc, ?app_nil_r; reflexivity|];
    split; [reflexivity|]; split; [reflexivity|]; split; [reflexivity|];
    split; [fall; (split; [addr|cbn [mo_kind mo_address a_segment a_context]; intros; (discriminate || (split; reflexivity))])
           |split; [|split; [reflexivity|split; [reflexivity|split; reflexivity]]]].
  Ltac nogrow := erewrite no_growth; [|apply stack_list_length; lia|apply stack_list_length; lia|lia].

  Lemma effect_binary : forall op, exists h, (forall f ctx pc s, effect f ctx pc (arith_byte op) s = pop2 h s) /\
    forall a b, word a -> word b -> h a b = binary_result op a b.
  Proof.
    intros op. destruct op; (eexists; split; [intros; reflexivity|]); intros a b A B; cbn [binary_result]; try reflexivity;
      unfold addmod, mulmod; rewrite <- ?bn254_base.
    - symmetry. apply submod_spec. reflexivity.
    - rewrite Z.leb_antisym. destruct (Z.ltb_spec a 32); cbn [negb]; [|reflexivity]. change 256 with (2^8). rewrite <- Z.pow_mul_r by lia. reflexivity.
    - destruct (Z.ltb_spec a 256); [|reflexivity]. rewrite Z.shiftl_mul_pow2 by apply A. reflexivity.
    - destruct (Z.ltb_spec a 256); [|reflexivity]. rewrite Z.shiftr_div_pow2 by apply A. reflexivity.
  Qed.
  Ltac two f := match goal with |- done {| g_regs := {| context := ?ctx |}; g_traces := {| t_clock := ?tc |} |} _ (stack_list (contents ?m) _ (?len - 1) _) =>
        ok [mk_mop (stamp (ChGP 1) tc) (mk_maddr ctx 1 (len - 1 - 1)) MRead (contents m (mk_maddr ctx 1 (len - 1 - 1)))] end;
        cbn [after mo_kind]; mcbv; f_equal; f.
  Lemma shift_value : forall (a x y : Z), (if 255 <? a then x else y) = (if a <? 256 then y else x).
  Proof. intros. destruct (Z.ltb_spec 255 a), (Z.ltb_spec a 256); (reflexivity || lia). Qed.
  Lemma sem_binary : forall p op, ready p (BinaryArithmetic op) -> conforms p (arith_byte op) (perform_op (BinaryArithmetic op) p).
  Proof.
    intros p op RD. destruct (effect_binary op) as (h & EF & HE). unfold conforms. open p RD. mcbv. rewrite EF. clear EF.
    destruct (Z.leb_spec 2 len) as [L|L].
    - rewrite pop2_some by lia. rewrite HE by (try assumption; apply RWORDS; addr). clear HE. nogrow.
      assert (LE : (2 <=? len) = true) by lia.
      assert (LOW : 0 <= low_u32 top) by (apply Z.mod_pos_bound; reflexivity).
      assert (SH : op = Shl \/ op = Shr \/ (op <> Shl /\ op <> Shr)) by (destruct op; (left; reflexivity) || (right; left; reflexivity) || (right; right; split; discriminate)).
      destruct SH as [->|[->|[N1 N2]]].
      + unf; rewrite LE; unf; destruct (len =? 2) eqn:L2; unf; (destruct (top <? 2^32); unf; [|two ltac:(first [lia|apply shift_value])]);
        ok [mk_mop (stamp (ChGP 2) tc) (mk_maddr 0 SEG_SHIFT_TABLE (low_u32 top)) MRead (contents m (mk_maddr 0 SEG_SHIFT_TABLE (low_u32 top)));
            mk_mop (stamp (ChGP 1) tc) (mk_maddr ctx 1 (len - 1 - 1)) MRead (contents m (mk_maddr ctx 1 (len - 1 - 1)))];
        cbn [after mo_kind]; mcbv; (f_equal; [lia|apply shift_value]).
      + unf; rewrite LE; unf; destruct (len =? 2) eqn:L2; unf; (destruct (top <? 2^32); unf; [|two ltac:(first [lia|apply shift_value])]);
        ok [mk_mop (stamp (ChGP 2) tc) (mk_maddr 0 SEG_SHIFT_TABLE (low_u32 top)) MRead (contents m (mk_maddr 0 SEG_SHIFT_TABLE (low_u32 top)));
            mk_mop (stamp (ChGP 1) tc) (mk_maddr ctx 1 (len - 1 - 1)) MRead (contents m (mk_maddr ctx 1 (len - 1 - 1)))];
        cbn [after mo_kind]; mcbv; (f_equal; [lia|apply shift_value]).
      + destruct op; try congruence; unf; rewrite LE; unf; destruct (len =? 2) eqn:L2; unf; two lia.
    - rewrite pop2_none by lia. assert (LE : (2 <=? len) = false) by lia. destruct op; unf; rewrite LE; unf; under.
  Qed.
  Lemma sem_logic : forall p op, ready p (BinaryLogic op) -> forall c, pure_op (BinaryLogic op) = Some c -> conforms p c (perform_op (BinaryLogic op) p).
  Proof.
    intros p op RD c PC. assert (EF : forall f ctx pc s, effect f ctx pc c s = pop2 (logic_result op) s) by (destruct op; injection PC as <-; reflexivity).
    unfold conforms. open p RD. mcbv. rewrite EF. clear EF. destruct (Z.leb_spec 2 len) as [L|L].
    - rewrite pop2_some by lia. nogrow. assert (LE : (2 <=? len) = true) by lia.
      unf; rewrite LE; unf; destruct (len =? 2) eqn:L2; unf; two lia.
    - rewrite pop2_none by lia. assert (LE : (2 <=? len) = false) by lia. unf; rewrite LE; unf; under.
  Qed.
  Lemma sem_eq : forall p, ready p Eq -> conforms p 20 (perform_op Eq p).
  Proof.
    intros p RD. assert (EF : forall f ctx pc s, effect f ctx pc 20 s = pop2 (fun a b => flag (a =? b)) s) by reflexivity.
    unfold conforms. open p RD. mcbv. rewrite EF. clear EF. destruct (Z.leb_spec 2 len) as [L|L].
    - rewrite pop2_some by lia. nogrow. assert (LE : (2 <=? len) = true) by lia.
      unf; rewrite LE; unf; destruct (len =? 2) eqn:L2; unf; two lia.
    - rewrite pop2_none by lia. assert (LE : (2 <=? len) = false) by lia. unf; rewrite LE; unf; under.
  Qed.
  Lemma effect_ternary : forall op c, pure_op (TernaryArithmetic op) = Some c -> exists h, (forall f ctx pc s, effect f ctx pc c s = pop3 h s) /\
    forall x y z, word x -> word y -> word z -> h x y z = ternary_result op x y z.
  Proof.
    intros op c PC. destruct op; injection PC as <-; (eexists; split; [intros; reflexivity|]); intros x y z X Y Z0; cbn [ternary_result];
      unfold addmod, mulmod; try (destruct (Z.eqb_spec z 0); [symmetry; assumption|reflexivity]).
    destruct (Z.eqb_spec z 0) as [->|]; [reflexivity|]. symmetry. apply submod_spec. destruct Z0. lia.
  Qed.
  Lemma sem_ternary : forall p op, ready p (TernaryArithmetic op) -> forall c, pure_op (TernaryArithmetic op) = Some c -> conforms p c (perform_op (TernaryArithmetic op) p).
  Proof.
    intros p op RD c PC. destruct (effect_ternary op c PC) as (h & EF & HE).
    unfold conforms. open p RD. mcbv. rewrite EF. clear EF. destruct (Z.leb_spec 3 len) as [L|L].
    - rewrite pop3_some by lia. rewrite HE by (try assumption; apply RWORDS; addr). nogrow. assert (LE : (3 <=? len) = true) by lia.
      unf; rewrite LE; unf; destruct (len =? 3) eqn:L2; unf;
      ok [mk_mop (stamp (ChGP 1) tc) (mk_maddr ctx 1 (len - 1 - 1)) MRead (contents m (mk_maddr ctx 1 (len - 1 - 1)));
          mk_mop (stamp (ChGP 2) tc) (mk_maddr ctx 1 (len - 1 - 2)) MRead (contents m (mk_maddr ctx 1 (len - 1 - 2)))];
      cbn [after mo_kind]; mcbv; f_equal; lia.
    - rewrite pop3_none by lia. assert (LE : (3 <=? len) = false) by lia. unf; rewrite LE; unf; under.
  Qed.
  Lemma sem_unary : forall p op, op = Not \/ op = Iszero -> ready p op -> forall c, pure_op op = Some c -> conforms p c (perform_op op p).
  Proof.
    intros p op OP RD c PC.
    assert (EF : forall f ctx pc s, effect f ctx pc c s = pop1 (if c =? 25 then (fun a => modulus - 1 - a) else (fun a => flag (a =? 0))) s) by (destruct OP as [->| ->]; injection PC as <-; reflexivity).
    unfold conforms. destruct OP as [->| ->]; injection PC as <-; open p RD; mcbv; rewrite EF; clear EF; cbn [Z.eqb Pos.eqb]; (destruct (Z.leb_spec 1 len) as [L|L];
    [ rewrite pop1_some by lia; nogrow; assert (LE : (1 <=? len) = true) by lia;
      unf; rewrite LE; unf; destruct (len =? 1) eqn:L2; unf; ok (@nil mop); cbn [after]; mcbv; f_equal; lia
    | rewrite pop1_none by lia; assert (LE : (1 <=? len) = false) by lia; unf; rewrite LE; unf; under ]).
  Qed.
  Lemma sem_pop : forall p, ready p Pop -> conforms p 80 (perform_op Pop p).
  Proof.
    intros p RD. assert (EF : forall f ctx pc s, effect f ctx pc 80 s = match s with _ :: s => Some s | [] => None end) by reflexivity.
    unfold conforms. open p RD. mcbv. rewrite EF. clear EF. unfold stack_list at 1. destruct (Z.eqb_spec len 0) as [->|L].
    - unf. under.
    - erewrite no_growth; [|apply stack_list_length; lia|rewrite slots_length; reflexivity|lia].
      assert (LE : (1 <=? len) = true) by lia.
      unf; rewrite LE; unf; destruct (len =? 1) eqn:L2; unf; ok (@nil mop); cbn [after]; mcbv.
      + assert (len = 1) as -> by lia. reflexivity.
      + rewrite stack_list_pos by lia. rewrite (slots_pos _ _ (len - 1)) by lia. reflexivity.
  Qed.
  Lemma sem_jumpdest : forall p, ready p Jumpdest -> conforms p 91 (perform_op Jumpdest p).
  Proof.
    intros p RD. assert (EF : forall f ctx pc s, effect f ctx pc 91 s = Some s) by reflexivity.
    unfold conforms. open p RD. mcbv. rewrite EF. clear EF. nogrow. unf. ok (@nil mop). reflexivity.
  Qed.
  (** Pushing a value. *)
  Lemma growth : forall k len (s : list Z) x, Z.of_nat (length s) = len ->
    negb k && (length s <? length (x :: s))%nat && (1024 <? length (x :: s))%nat = negb (k || (len <? MAX_USER_STACK_SIZE)).
  Proof. intros. cbn [length]. unfold MAX_USER_STACK_SIZE. destruct k; lia. Qed.
  Lemma sem_pc : forall p, ready p Pc -> conforms p 88 (perform_op Pc p).
  Proof.
    intros p RD. assert (EF : forall f ctx pc s, effect f ctx pc 88 s = Some (pc :: s)) by reflexivity.
    unfold conforms. open p RD. mcbv. rewrite EF. clear EF. rewrite (growth k len) by (apply stack_list_length; lia).
    unf. destruct (k || (len <? MAX_USER_STACK_SIZE)); cbn [negb]; unf; [|under]. destruct (Z.eqb_spec len 0) as [->|N]; unf.
    - ok (@nil mop). reflexivity.
    - ok [mk_mop (stamp ChPartial tc) (mk_maddr ctx SEG_STACK (len - 1 - 0)) MWrite top]. cbn [after mo_kind mo_address mo_value]. mcbv. symmetry. apply push_list. lia.
  Qed.
  Lemma sem_get_context : forall p, is_kernel (g_regs p) = true -> ready p GetContext -> conforms p 246 (perform_op GetContext p).
  Proof.
    intros p K RD. assert (EF : forall f ctx pc s, effect f ctx pc 246 s = Some (ctx * 2^64 :: s)) by reflexivity.
    unfold conforms. open p RD. mcbv in K. subst k. mcbv. rewrite EF. clear EF. rewrite (growth true len) by (apply stack_list_length; lia).
    cbn [orb negb]. unf. destruct (Z.eqb_spec len 0) as [->|N]; unf.
    - ok (@nil mop). reflexivity.
    - ok [mk_mop (stamp (ChGP 2) tc) (mk_maddr ctx SEG_STACK (len - 1 - 0)) MWrite top]. cbn [after mo_kind mo_address mo_value]. mcbv. symmetry. apply push_list. lia.
  Qed.
  Lemma sem_push : forall p n, ready p (Push n) -> 0 <= n <= 32 -> program_counter (g_regs p) + 33 < 2^64 ->
    bytes_at (g_mem p) (mk_maddr (code_context (g_regs p)) SEG_CODE (program_counter (g_regs p) + 1)) (Z.to_nat n) ->
    conforms p (95 + n) (perform_op (Push n) p).
  Proof.
    intros p n RD N PCB BY. assert (EF : forall f ctx pc s, effect f ctx pc (95 + n) s = Some (number f (pc + 1) (Z.to_nat n) :: s)).
    { intros. unfold effect. replace ((95 <=? 95 + n) && (95 + n <=? 127)) with true by lia. do 4 f_equal. lia. }
    unfold conforms. open p RD. mcbv. rewrite EF. clear EF. mcbv in BY. mcbv in PCB. rewrite (growth k len) by (apply stack_list_length; lia).
    assert (CC : 0 <= (if k then 0 else ctx)) by (destruct k; lia).
    assert (NU := number_cells m (if k then 0 else ctx) (Z.to_nat n) (pc + 1) ltac:(lia) ltac:(lia) BY ltac:(intros a V; apply (RWORDS a V)) CC).
    rewrite <- NU. clear NU. unf. replace (n <=? 32) with true by lia. unf.
    set (bytes := map (fun a => as_byte (mread m a)) (cells _ _)).
    assert (LB : cells (mk_maddr (if k then 0 else ctx) SEG_CODE (pc + 1)) (length bytes) = cells (mk_maddr (if k then 0 else ctx) SEG_CODE (pc + 1)) (Z.to_nat n)).
    { subst bytes. rewrite map_length, cells_length. reflexivity. }
    assert (BO : Forall (fun o => valid_addr (mo_address o) /\ (mo_kind o = MWrite -> a_segment (mo_address o) = SEG_STACK /\ a_context (mo_address o) = ctx))
      (byte_ops MRead tc (mk_maddr (if k then 0 else ctx) SEG_CODE (pc + 1)) bytes)).
    { apply Forall_forall. intros x I. destruct (in_byte_ops _ _ _ _ _ I) as (_ & K & A & _). split; [|congruence].
      apply cells_in in A; [apply A|]. destruct k; addr. }
    destruct (k || (len <? MAX_USER_STACK_SIZE)); cbn [negb]; unf; [|under].
    destruct (Z.eqb_spec len 0) as [->|NZ]; unf; (destruct ((if k then 0 else ctx) =? 0); unf; [|rewrite packing_equation; unf]).
    - ok (@nil mop). reflexivity.
    - eexists _, (byte_ops MRead tc (mk_maddr (if k then 0 else ctx) SEG_CODE (pc + 1)) bytes). mcbv. split; [reflexivity|].
      repeat (split; [reflexivity|]). split; [exact BO|]. split; [|repeat split; reflexivity]. rewrite after_bytes_read. reflexivity.
    - ok [mk_mop (stamp ChPartial tc) (mk_maddr ctx SEG_STACK (len - 1 - 0)) MWrite top]. cbn [after mo_kind mo_address mo_value]. mcbv. symmetry. apply push_list. lia.
    - eexists _, (mk_mop (stamp ChPartial tc) (mk_maddr ctx SEG_STACK (len - 1 - 0)) MWrite top :: byte_ops MRead tc (mk_maddr (if k then 0 else ctx) SEG_CODE (pc + 1)) bytes).
      mcbv. split; [reflexivity|]. split; [reflexivity|]. split; [rewrite <- app_assoc; reflexivity|]. repeat (split; [reflexivity|]).
      split; [apply Forall_cons; [split; [addr|split; reflexivity]|exact BO]|]. split; [|repeat split; reflexivity].
      cbn [after mo_kind mo_address mo_value]. rewrite after_bytes_read. symmetry. apply push_list. lia.
  Qed.
  Lemma sem_dup : forall p n, ready p (Dup n) -> 0 <= n <= 15 -> conforms p (128 + n) (perform_op (Dup n) p).
  Proof.
    intros p n RD N. assert (EF : forall f ctx pc s, effect f ctx pc (128 + n) s = match nth_error s (Z.to_nat n) with Some x => Some (x :: s) | None => None end).
    { intros. unfold effect. replace ((95 <=? 128 + n) && (128 + n <=? 127)) with false by lia. replace ((128 <=? 128 + n) && (128 + n <=? 143)) with true by lia.
      replace (128 + n - 128) with n by lia. reflexivity. }
    unfold conforms. open p RD. mcbv. rewrite EF. clear EF.
    destruct (Z.ltb_spec n len) as [L|L].
    - assert (NT : nth_error (stack_list (contents m) ctx len top) (Z.to_nat n) = Some (if n =? 0 then top else contents m (mk_maddr ctx SEG_STACK (len - 1 - n)))).
      { rewrite stack_list_pos by lia. destruct (Z.eqb_spec n 0) as [->|NZ]; [reflexivity|]. replace (Z.to_nat n) with (S (Z.to_nat (n - 1))) by lia. cbn [nth_error].
        rewrite slots_nth by lia. do 3 f_equal. lia. }
      rewrite NT. rewrite (growth k len) by (apply stack_list_length; lia). unf.
      destruct (k || (len <? MAX_USER_STACK_SIZE)); cbn [negb]; unf; [|under]. replace (n <? len) with true by lia. unf.
      destruct (n =? 0) eqn:N0; unf.
      + ok [mk_mop (stamp (ChGP 1) tc) (mk_maddr ctx SEG_STACK (len - 1 - 0)) MWrite top; mk_mop (stamp (ChGP 2) tc) (mk_maddr ctx SEG_STACK (len - 1 - n)) MRead top].
        cbn [after mo_kind mo_address mo_value]. mcbv. symmetry. apply push_list. lia.
      + ok [mk_mop (stamp (ChGP 1) tc) (mk_maddr ctx SEG_STACK (len - 1 - 0)) MWrite top;
            mk_mop (stamp (ChGP 2) tc) (mk_maddr ctx SEG_STACK (len - 1 - n)) MRead (contents m (mk_maddr ctx SEG_STACK (len - 1 - n)))].
        cbn [after mo_kind mo_address mo_value]. mcbv. symmetry. apply push_list. lia.
    - assert (NT : nth_error (stack_list (contents m) ctx len top) (Z.to_nat n) = None).
      { apply nth_error_None. pose proof (stack_list_length (contents m) ctx len top ltac:(lia)). lia. }
      rewrite NT. unf. replace (k || (len <? MAX_USER_STACK_SIZE)) with true by (unfold MAX_USER_STACK_SIZE; lia). unf. replace (n <? len) with false by lia. unf. under.
  Qed.
  Lemma sem_swap : forall p n, ready p (Swap n) -> 0 <= n <= 15 -> conforms p (144 + n) (perform_op (Swap n) p).
  Proof.
    intros p n RD N.
    assert (EF : forall f ctx pc s, effect f ctx pc (144 + n) s = match s with
      | x :: s => match nth_error s (Z.to_nat n) with Some y => Some (y :: put (Z.to_nat n) x s) | None => None end | [] => None end).
    { intros. unfold effect. replace ((95 <=? 144 + n) && (144 + n <=? 127)) with false by lia. replace ((128 <=? 144 + n) && (144 + n <=? 143)) with false by lia.
      replace ((144 <=? 144 + n) && (144 + n <=? 159)) with true by lia. replace (144 + n - 144) with n by lia. reflexivity. }
    unfold conforms. open p RD. mcbv. rewrite EF. clear EF.
    destruct (Z.leb_spec (n + 2) len) as [L|L].
    - rewrite (stack_list_pos (contents m) ctx len top) by lia. rewrite slots_nth, slots_put by lia.
      replace (Z.of_nat (Z.to_nat (len - 1)) - 1 - Z.of_nat (Z.to_nat n)) with (len - (2 + n)) by lia.
      erewrite no_growth; [|cbn [length]; rewrite slots_length; reflexivity|cbn [length]; rewrite slots_length; reflexivity|lia].
      unf. replace (n + 2 <=? len) with true by lia. unf. replace (1 <=? len) with true by lia. unf. destruct (len =? 1) eqn:L1; [lia|]. unf.
      ok [mk_mop (stamp (ChGP 1) tc) (mk_maddr ctx SEG_STACK (len - (2 + n))) MRead (contents m (mk_maddr ctx SEG_STACK (len - (2 + n))));
          mk_mop (stamp (ChGP 2) tc) (mk_maddr ctx SEG_STACK (len - (2 + n))) MWrite top].
      cbn [after mo_kind mo_address mo_value]. mcbv. rewrite stack_list_pos by lia. replace (len - 1 + 1 - 1) with (len - 1) by lia. reflexivity.
    - assert (NT : match stack_list (contents m) ctx len top with
        | x :: s => match nth_error s (Z.to_nat n) with Some y => Some (y :: put (Z.to_nat n) x s) | None => None end | [] => None end = None).
      { unfold stack_list. destruct (Z.eqb_spec len 0); [reflexivity|]. rewrite slots_nth_none by lia. reflexivity. }
      rewrite NT. unf. replace (n + 2 <=? len) with false by lia. unf. under.
  Qed.

  Theorem sem_op : forall (g : gstate) op c, wf g -> bounded g -> program_counter (g_regs g) + 33 < 2^64 ->
    (is_kernel (g_regs g) = false -> op <> GetContext) -> pure_op op = Some c -> in_range op = true -> conforms (prepared g op) c (perform_op op (prepared g op)).
  Proof.
    intros g op c W B PCB KG PO IR. pose proof (ready_prepared g op W B) as RD.
    destruct op as [| |o n b| |lop|aop|top| | | | | | | |n|n|n| | | |n| | |]; try discriminate PO; cbn [in_range] in IR.
    - eapply sem_unary; eauto.
    - eapply sem_unary; eauto.
    - injection PO as <-. apply sem_eq, RD.
    - apply sem_logic; assumption.
    - injection PO as <-. apply sem_binary, RD.
    - apply sem_ternary; assumption.
    - injection PO as <-. apply sem_pop, RD.
    - injection PO as <-. apply sem_pc, RD.
    - injection PO as <-. apply sem_jumpdest, RD.
    - cbn [pure_op] in PO. assert (c = 95 + n) as -> by congruence. apply sem_push; [exact RD|lia|exact PCB|]. (eapply bytes_code with (g := g); try eassumption).
      + unfold code_context. destruct W. cbn. destruct (is_kernel (g_regs g)); lia.
      + destruct W. cbn. lia.
    - cbn [pure_op] in PO. assert (c = 128 + n) as -> by congruence. apply sem_dup; [exact RD|lia].
    - cbn [pure_op] in PO. assert (c = 144 + n) as -> by congruence. apply sem_swap; [exact RD|lia].
    - injection PO as <-. apply sem_get_context; [|exact RD]. cbn. destruct (is_kernel (g_regs g)); [reflexivity|]. exfalso. apply KG; reflexivity.
  Qed.
End Sem.
