(** The arithmetic table: soundness C19-C23, C49, C50; completeness C24.

    A table accepted by the verifier ([table_ok], at most 2^32 rows) is
    arbitrary otherwise: its cells need not come from trace generation. *)
From Coq Require Import ZArith Znumtheory List Lia Bool.
From Coq Require Import ZifyBool ZifyNat.
From Verif Require Import Stark.Field Stark.ArithModel Stark.ArithSpec Stark.PolyProofs Stark.ArithSound Stark.ArithTrace Stark.ArithEmbed Stark.ArithGen Stark.ArithComplete.
Import ListNotations.
Local Open Scope Z_scope.

(** What the theorems talk about: the integers held by the four registers of
    row i. *)
Definition in0 (t : list trow) (i : nat) : Z := reg 16 (row_at t i) INPUT_REGISTER_0.
Definition in1 (t : list trow) (i : nat) : Z := reg 16 (row_at t i) INPUT_REGISTER_1.
Definition in2 (t : list trow) (i : nat) : Z := reg 16 (row_at t i) INPUT_REGISTER_2.
Definition out (t : list trow) (i : nat) : Z := reg 16 (row_at t i) OUTPUT_REGISTER.

(** A table the verifier accepts.  2^32 is the 2-adicity of the field: no
    longer trace can be committed to. *)
Definition accepted (t : list trow) : Prop := table_ok t /\ Z.of_nat (length t) <= 2^32.

Lemma accepted_row : forall t i f, accepted t -> (i < length t)%nat -> In f op_flags -> row_at t i f = 1 ->
  limbs_ok (row_at t i) /\ limbs_ok (row_at t (S i mod length t)) /\ flagged (row_at t i) f /\
  Forall (okr (is_last t i)) (eval_mul (row_at t i)) /\ Forall (okr (is_last t i)) (eval_addcy (row_at t i)) /\
  Forall (okr (is_last t i)) (eval_divmod (row_at t i) (row_at t (S i mod length t))) /\
  Forall (okr (is_last t i)) (eval_modular (row_at t i) (row_at t (S i mod length t))) /\
  Forall (okr (is_last t i)) (eval_byte (row_at t i)) /\ Forall (okr (is_last t i)) (eval_shift (row_at t i) (row_at t (S i mod length t))).
Proof.
  intros t i f [OK L] Hi Hf F. destruct (row_facts t OK i f Hi Hf F) as [FL H].
  split; [apply range_checked; assumption|]. split; [apply range_checked; assumption|]. split; [exact FL|].
  rewrite eval_ops_eq in H.
  apply Forall_app in H. destruct H as [H1 H]. apply Forall_app in H. destruct H as [H2 H].
  apply Forall_app in H. destruct H as [H3 H]. apply Forall_app in H. destruct H as [H4 H].
  apply Forall_app in H. destruct H as [H5 H6]. repeat split; assumption.
Qed.

Ltac in_flags := unfold op_flags; apply in_seq; unfold IS_ADD, IS_MUL, IS_SUB, IS_DIV, IS_MOD, IS_ADDMOD, IS_MULMOD, IS_ADDFP254, IS_MULFP254, IS_SUBFP254, IS_SUBMOD, IS_LT, IS_GT, IS_BYTE, IS_SHL, IS_SHR, IS_RANGE_CHECK; lia.
Ltac start H Hi F :=
  match type of F with row_at ?t ?i ?f = _ =>
    destruct (accepted_row t i f H Hi ltac:(in_flags) F) as (LV & NV & FL & HM & HA & HD & HMo & HB & HS)
  end.

(** Accepted tables with a row for any given operation exist: the non-vacuity
    examples below instantiate this. *)
Lemma shown : forall o opcode a b c res, op_ok o -> expected o = (opcode, (a, b, c), res) ->
  exists t i, accepted t /\ (i < length t)%nat /\ row_at t i (op_flag o) = 1 /\
    ctl_opcode (row_at t i) = opcode /\ in0 t i = a /\ in1 t i = b /\ in2 t i = c /\ out t i = res.
Proof.
  intros o opcode a b c res Ho E. destruct (generation_complete [o] (Forall_cons _ Ho (Forall_nil _)) ltac:(cbn; lia)) as (t & _ & OK & L & _ & M).
  destruct (M o (or_introl eq_refl)) as (i & Hi & F & V). exists t, i. rewrite E in V. unfold visible in V. injection V as V1 V2 V3 V4 V5.
  split; [split; assumption|]. repeat (split; [assumption|]). assumption.
Qed.

Ltac show o := match goal with |- exists t i, _ => idtac end;
  let H := fresh in
  assert (H : op_ok o) by (repeat split; (discriminate || reflexivity));
  let E := eval vm_compute in (expected o) in
  match E with (?opcode, (?a, ?b, ?c), ?res) =>
    exact (shown o opcode a b c res H ltac:(vm_compute; reflexivity))
  end.

(** * C19 *)

(** On every row flagged ADD, SUB, LT or GT the output register holds the EVM
    result on the two input registers. *)
Theorem C19_addcy_sound : forall t i, accepted t -> (i < length t)%nat ->
  (row_at t i IS_ADD = 1 -> out t i = evm_add (in0 t i) (in1 t i)) /\
  (row_at t i IS_SUB = 1 -> out t i = evm_sub (in0 t i) (in1 t i)) /\
  (row_at t i IS_LT = 1 -> out t i = evm_lt (in0 t i) (in1 t i)) /\
  (row_at t i IS_GT = 1 -> out t i = evm_gt (in0 t i) (in1 t i)).
Proof.
  intros t i H Hi. split; [|split; [|split]]; intros F; start H Hi F.
  - exact (add_row _ _ LV F HA).
  - exact (sub_row _ _ LV F HA).
  - exact (lt_row _ _ LV F HA).
  - exact (gt_row _ _ LV F HA).
Qed.
Print Assumptions C19_addcy_sound.

Example C19_example_add : exists t i, accepted t /\ (i < length t)%nat /\ row_at t i IS_ADD = 1 /\ ctl_opcode (row_at t i) = 0x01 /\
  in0 t i = 115792089237316195423570985008687907853269984665640564039457584007913129639935 /\ in1 t i = 5 /\ in2 t i = 0 /\ out t i = 4.
Proof. show (BinaryOperation Add 115792089237316195423570985008687907853269984665640564039457584007913129639935 5). Qed.

Example C19_example_sub : exists t i, accepted t /\ (i < length t)%nat /\ row_at t i IS_SUB = 1 /\ ctl_opcode (row_at t i) = 0x03 /\
  in0 t i = 3 /\ in1 t i = 5 /\ in2 t i = 0 /\ out t i = 115792089237316195423570985008687907853269984665640564039457584007913129639934.
Proof. show (BinaryOperation Sub 3 5). Qed.

Example C19_example_lt : exists t i, accepted t /\ (i < length t)%nat /\ row_at t i IS_LT = 1 /\ ctl_opcode (row_at t i) = 0x10 /\
  in0 t i = 3 /\ in1 t i = 5 /\ in2 t i = 0 /\ out t i = 1.
Proof. show (BinaryOperation Lt 3 5). Qed.

Example C19_example_gt : exists t i, accepted t /\ (i < length t)%nat /\ row_at t i IS_GT = 1 /\ ctl_opcode (row_at t i) = 0x11 /\
  in0 t i = 3 /\ in1 t i = 5 /\ in2 t i = 0 /\ out t i = 0.
Proof. show (BinaryOperation Gt 3 5). Qed.

(** * C20 *)

Theorem C20_mul_sound : forall t i, accepted t -> (i < length t)%nat ->
  row_at t i IS_MUL = 1 -> out t i = evm_mul (in0 t i) (in1 t i).
Proof. intros t i H Hi F. start H Hi F. exact (mul_row _ _ LV F HM). Qed.
Print Assumptions C20_mul_sound.

Example C20_example : exists t i, accepted t /\ (i < length t)%nat /\ row_at t i IS_MUL = 1 /\ ctl_opcode (row_at t i) = 0x02 /\
  in0 t i = 115792089237316195423570985008687907853269984665640564039457584007913129639935 /\ in1 t i = 3 /\ in2 t i = 0 /\ out t i = 115792089237316195423570985008687907853269984665640564039457584007913129639933.
Proof. show (BinaryOperation Mul 115792089237316195423570985008687907853269984665640564039457584007913129639935 3). Qed.

(** * C21 *)

Theorem C21_modular_sound : forall t i, accepted t -> (i < length t)%nat ->
  (row_at t i IS_ADDMOD = 1 -> out t i = evm_addmod (in0 t i) (in1 t i) (in2 t i)) /\
  (row_at t i IS_MULMOD = 1 -> out t i = evm_mulmod (in0 t i) (in1 t i) (in2 t i)) /\
  (row_at t i IS_SUBMOD = 1 -> out t i = kernel_submod (in0 t i) (in1 t i) (in2 t i)) /\
  (row_at t i IS_ADDFP254 = 1 -> out t i = (in0 t i + in1 t i) mod bn254_base) /\
  (row_at t i IS_MULFP254 = 1 -> out t i = (in0 t i * in1 t i) mod bn254_base) /\
  (row_at t i IS_SUBFP254 = 1 -> out t i = (in0 t i - in1 t i) mod bn254_base).
Proof.
  intros t i H Hi.
  assert (BZ : (bn254_base =? 0) = false) by reflexivity.
  split; [|split; [|split; [|split; [|split]]]]; intros F; start H Hi F.
  - exact (add_like _ _ _ LV NV IS_ADDMOD FL (or_introl eq_refl) HMo).
  - exact (mul_like _ _ _ LV NV IS_MULMOD FL (or_introl eq_refl) HMo).
  - exact (sub_like _ _ _ LV NV IS_SUBMOD FL (or_introl eq_refl) HMo).
  - unfold out. rewrite (add_like _ _ _ LV NV IS_ADDFP254 FL (or_intror eq_refl) HMo), (fp_modulus _ _ _ LV IS_ADDFP254 FL (or_introl eq_refl) HMo).
    unfold evm_addmod. rewrite BZ. reflexivity.
  - unfold out. rewrite (mul_like _ _ _ LV NV IS_MULFP254 FL (or_intror eq_refl) HMo), (fp_modulus _ _ _ LV IS_MULFP254 FL (or_intror (or_introl eq_refl)) HMo).
    unfold evm_mulmod. rewrite BZ. reflexivity.
  - unfold out. rewrite (sub_like _ _ _ LV NV IS_SUBFP254 FL (or_intror eq_refl) HMo), (fp_modulus _ _ _ LV IS_SUBFP254 FL (or_intror (or_intror eq_refl)) HMo).
    unfold kernel_submod. rewrite BZ. reflexivity.
Qed.
Print Assumptions C21_modular_sound.

Example C21_example_addmod : exists t i, accepted t /\ (i < length t)%nat /\ row_at t i IS_ADDMOD = 1 /\ ctl_opcode (row_at t i) = 0x08 /\
  in0 t i = 115792089237316195423570985008687907853269984665640564039457584007913129639935 /\ in1 t i = 115792089237316195423570985008687907853269984665640564039457584007913129639935 /\ in2 t i = 10 /\ out t i = 0.
Proof. show (TernaryOperation AddMod 115792089237316195423570985008687907853269984665640564039457584007913129639935 115792089237316195423570985008687907853269984665640564039457584007913129639935 10). Qed.

Example C21_example_mulmod_zero : exists t i, accepted t /\ (i < length t)%nat /\ row_at t i IS_MULMOD = 1 /\ ctl_opcode (row_at t i) = 0x09 /\
  in0 t i = 115792089237316195423570985008687907853269984665640564039457584007913129639935 /\ in1 t i = 7 /\ in2 t i = 0 /\ out t i = 0.
Proof. show (TernaryOperation MulMod 115792089237316195423570985008687907853269984665640564039457584007913129639935 7 0). Qed.

Example C21_example_submod : exists t i, accepted t /\ (i < length t)%nat /\ row_at t i IS_SUBMOD = 1 /\ ctl_opcode (row_at t i) = 0x0f /\
  in0 t i = 3 /\ in1 t i = 115792089237316195423570985008687907853269984665640564039457584007913129639935 /\ in2 t i = 10 /\ out t i = 8.
Proof. show (TernaryOperation SubMod 3 115792089237316195423570985008687907853269984665640564039457584007913129639935 10). Qed.

Example C21_example_subfp : exists t i, accepted t /\ (i < length t)%nat /\ row_at t i IS_SUBFP254 = 1 /\ ctl_opcode (row_at t i) = 0x0e /\
  in0 t i = 3 /\ in1 t i = 5 /\ in2 t i = bn254_base /\ out t i = (bn254_base - 2).
Proof. show (BinaryOperation SubFp254 3 5). Qed.

(** * C22 *)

(** MOD for every denominator, DIV for a non-zero one; SHL by multiplication
    with the third register, SHR by division by a non-zero one.  When the
    third register holds the power of two of the shift amount (that is
    established by the CPU table, through the shift table in memory), SHL and
    SHR are the EVM operations. *)
Theorem C22_divmod_shift_sound : forall t i, accepted t -> (i < length t)%nat ->
  (row_at t i IS_MOD = 1 -> out t i = evm_mod (in0 t i) (in1 t i)) /\
  (row_at t i IS_DIV = 1 -> in1 t i <> 0 -> out t i = evm_div (in0 t i) (in1 t i)) /\
  (row_at t i IS_SHL = 1 -> out t i = evm_mul (in1 t i) (in2 t i)) /\
  (row_at t i IS_SHR = 1 -> in2 t i <> 0 -> out t i = in1 t i / in2 t i).
Proof.
  intros t i H Hi. split; [|split; [|split]]; intros F; start H Hi F.
  - exact (mod_row _ _ _ LV NV FL HD).
  - exact (proj1 (div_row _ _ _ LV NV FL HD)).
  - exact (shl_row _ _ _ LV F HS).
  - exact (proj1 (shr_row _ _ _ LV NV FL HS)).
Qed.
Print Assumptions C22_divmod_shift_sound.

Example C22_example_div : exists t i, accepted t /\ (i < length t)%nat /\ row_at t i IS_DIV = 1 /\ ctl_opcode (row_at t i) = 0x04 /\
  in0 t i = 115792089237316195423570985008687907853269984665640564039457584007913129639935 /\ in1 t i = 7 /\ in2 t i = 0 /\ out t i = 16541727033902313631938712144098272550467140666520080577065369143987589948562.
Proof. show (BinaryOperation Div 115792089237316195423570985008687907853269984665640564039457584007913129639935 7). Qed.

Example C22_example_mod_zero : exists t i, accepted t /\ (i < length t)%nat /\ row_at t i IS_MOD = 1 /\ ctl_opcode (row_at t i) = 0x06 /\
  in0 t i = 115792089237316195423570985008687907853269984665640564039457584007913129639935 /\ in1 t i = 0 /\ in2 t i = 0 /\ out t i = 0.
Proof. show (BinaryOperation Mod 115792089237316195423570985008687907853269984665640564039457584007913129639935 0). Qed.

Theorem C22_shift_evm : forall t i, accepted t -> (i < length t)%nat ->
  (row_at t i IS_SHL = 1 -> in2 t i = (if in0 t i <? 256 then 2 ^ in0 t i else 0) -> out t i = evm_shl (in0 t i) (in1 t i)) /\
  (row_at t i IS_SHR = 1 -> in0 t i < 256 -> in2 t i = 2 ^ in0 t i -> out t i = evm_shr (in0 t i) (in1 t i)).
Proof.
  intros t i H Hi. destruct (C22_divmod_shift_sound t i H Hi) as (_ & _ & HL & HR).
  split; intros F.
  - intros E. rewrite HL, E by exact F. unfold evm_mul, evm_shl. destruct (in0 t i <? 256); [reflexivity|]. rewrite Z.mul_0_r. reflexivity.
  - intros B E. start H Hi F. assert (0 <= in0 t i) by (apply (reg_bounds _ LV); unfold INPUT_REGISTER_0; lia).
    rewrite HR, E; [|exact F|rewrite E; apply Z.pow_nonzero; lia]. unfold evm_shr. rewrite (proj2 (Z.ltb_lt _ _) B). reflexivity.
Qed.
Print Assumptions C22_shift_evm.

Example C22_example_shl : exists t i, accepted t /\ (i < length t)%nat /\ row_at t i IS_SHL = 1 /\ ctl_opcode (row_at t i) = 0x1b /\
  in0 t i = 255 /\ in1 t i = 3 /\ in2 t i = 57896044618658097711785492504343953926634992332820282019728792003956564819968 /\ out t i = 57896044618658097711785492504343953926634992332820282019728792003956564819968.
Proof. show (BinaryOperation Shl 255 3). Qed.

Example C22_example_shr : exists t i, accepted t /\ (i < length t)%nat /\ row_at t i IS_SHR = 1 /\ ctl_opcode (row_at t i) = 0x1c /\
  in0 t i = 200 /\ in1 t i = 115792089237316195423570985008687907853269984665640564039457584007913129639935 /\ in2 t i = 1606938044258990275541962092341162602522202993782792835301376 /\ out t i = 72057594037927935.
Proof. show (BinaryOperation Shr 200 115792089237316195423570985008687907853269984665640564039457584007913129639935). Qed.

(** Division by zero: all that is enforced is quotient + remainder = dividend. *)
Theorem C22_div_by_zero_partial : forall t i, accepted t -> (i < length t)%nat ->
  (row_at t i IS_DIV = 1 -> in1 t i = 0 -> 0 <= out t i <= in0 t i) /\
  (row_at t i IS_SHR = 1 -> in2 t i = 0 -> 0 <= out t i <= in1 t i).
Proof.
  intros t i H Hi. split; intros F E; start H Hi F.
  - pose proof (proj2 (div_row _ _ _ LV NV FL HD) E) as G. fold (out t i) in G. fold (in0 t i) in G.
    pose proof (reg_bounds _ LV AUX_INPUT_REGISTER_0 ltac:(unfold AUX_INPUT_REGISTER_0; lia) ltac:(unfold AUX_INPUT_REGISTER_0; lia)).
    pose proof (reg_bounds _ LV OUTPUT_REGISTER ltac:(unfold OUTPUT_REGISTER; lia) ltac:(unfold OUTPUT_REGISTER; lia)) as B. fold (out t i) in B. lia.
  - pose proof (proj2 (shr_row _ _ _ LV NV FL HS) E) as G. fold (out t i) in G. fold (in1 t i) in G.
    pose proof (reg_bounds _ LV AUX_INPUT_REGISTER_0 ltac:(unfold AUX_INPUT_REGISTER_0; lia) ltac:(unfold AUX_INPUT_REGISTER_0; lia)).
    pose proof (reg_bounds _ LV OUTPUT_REGISTER ltac:(unfold OUTPUT_REGISTER; lia) ltac:(unfold OUTPUT_REGISTER; lia)) as B. fold (out t i) in B. lia.
Qed.
Print Assumptions C22_div_by_zero_partial.

(** * C23 *)

Theorem C23_byte_sound : forall t i, accepted t -> (i < length t)%nat ->
  row_at t i IS_BYTE = 1 -> out t i = evm_byte (in0 t i) (in1 t i).
Proof. intros t i H Hi F. start H Hi F. exact (byte_row _ (row_at t i) _ LV F HB). Qed.
Print Assumptions C23_byte_sound.

Example C23_example : exists t i, accepted t /\ (i < length t)%nat /\ row_at t i IS_BYTE = 1 /\ ctl_opcode (row_at t i) = 0x1a /\
  in0 t i = 31 /\ in1 t i = 115792089237316195423570985008687907853269984665640564039457584007913129639933 /\ in2 t i = 0 /\ out t i = 253.
Proof. show (BinaryOperation Byte 31 115792089237316195423570985008687907853269984665640564039457584007913129639933). Qed.

Example C23_example_large : exists t i, accepted t /\ (i < length t)%nat /\ row_at t i IS_BYTE = 1 /\ ctl_opcode (row_at t i) = 0x1a /\
  in0 t i = 1606938044258990275541962092341162602522202993782792835301376 /\ in1 t i = 77 /\ in2 t i = 0 /\ out t i = 0.
Proof. show (BinaryOperation Byte 1606938044258990275541962092341162602522202993782792835301376 77). Qed.

(** * Checking concrete rows *)

Definition okrb (last : bool) (c : constr) : bool :=
  match fst c with
  | All => snd c mod P =? 0
  | Transition => last || (snd c mod P =? 0)
  | Last => negb last || (snd c mod P =? 0)
  | First => true
  end.

Lemma okrb_ok : forall last l, forallb (okrb last) l = true -> Forall (okr last) l.
Proof.
  intros last l H. rewrite forallb_forall in H. apply Forall_forall. intros [k e] Hin. specialize (H _ Hin).
  unfold okrb, okr, z in *. cbn [fst snd] in *. destruct k; try exact I; try lia; intros E; subst last; cbn [orb negb] in H; lia.
Qed.

(** A row given by its non-zero cells. *)
Definition row_of (l : list (nat * Z)) : row :=
  fun c => match find (fun p => (fst p =? c)%nat) l with Some p => snd p | None => 0 end.

Lemma row_of_cells : forall l, forallb (fun p => (0 <=? snd p) && (snd p <? 65536)) l = true -> cells_ok (row_of l).
Proof.
  intros l H. rewrite forallb_forall in H.
  assert (G : forall c, limb (row_of l c)).
  { intros c. unfold row_of, limb. destruct (find _ l) as [p|] eqn:E; [|lia]. apply find_some in E. specialize (H p (proj1 E)). lia. }
  split; intros c; [apply limb_canonical; apply G|intros _; apply G].
Qed.

Lemma single_off : forall l, forallb (fun p => (17 <? fst p)%nat) l = true -> single_ok (row_of l).
Proof.
  intros l H. apply flags_zero_ok. intros c Hc. unfold row_of. destruct (find _ l) as [p|] eqn:E; [|reflexivity]. apply find_some in E.
  rewrite forallb_forall in H. specialize (H p (proj1 E)). lia.
Qed.

(** * C49 *)

(** 2^20 in the sixteen-bit halves of each auxiliary coefficient. *)
Definition aux_offset : list (nat * Z) := map (fun c => (c, 16)) (seq 66 31).

Definition div0_row : row := row_of [(IS_DIV, 1); (INPUT_REGISTER_0, 5); (OUTPUT_REGISTER, 5)].
Definition div0_next : row := row_of ([(MODULAR_MOD_IS_ZERO, 1); (MODULAR_DIV_DENOM_IS_ZERO, 1)] ++ aux_offset).

Definition shr0_row : row := row_of [(IS_SHR, 1); (S INPUT_REGISTER_0, 1); (INPUT_REGISTER_1, 5); (OUTPUT_REGISTER, 5)].

(** Neither DIV by zero nor SHR by at least 256 (third register 0) are
    determined by the constraints: tables are accepted in which 5 / 0 = 5 and
    5 >> 65536 = 5, and these rows are what the CPU table looks up. *)
Theorem C49_div_by_zero_refuted : exists t i, accepted t /\ (i < length t)%nat /\
  row_at t i IS_DIV = 1 /\ ctl_filter (row_at t i) = 1 /\ ctl_opcode (row_at t i) = 0x04 /\
  in0 t i = 5 /\ in1 t i = 0 /\ out t i = 5 /\ evm_div 5 0 = 0.
Proof.
  assert (R : row_ok false div0_row div0_next).
  { split; apply okrb_ok; vm_compute; reflexivity. }
  assert (B : blocks [div0_row; div0_next]).
  { apply blocks_two; [exact R|apply single_off; reflexivity|apply row_of_cells; reflexivity|apply row_of_cells; reflexivity|constructor]. }
  destruct (embed _ B ltac:(cbn; lia)) as (OK & L & HR). destruct (HR 0%nat ltac:(cbn; lia)) as [H0 E0].
  exists (mk_table (padded [div0_row; div0_next])), 0%nat.
  split; [split; [exact OK|exact L]|]. split; [exact H0|].
  unfold in0, in1, out. rewrite E0. cbn [nth]. repeat split; vm_compute; reflexivity.
Qed.
Print Assumptions C49_div_by_zero_refuted.

Theorem C49_shr_large_refuted : exists t i, accepted t /\ (i < length t)%nat /\
  row_at t i IS_SHR = 1 /\ ctl_filter (row_at t i) = 1 /\ ctl_opcode (row_at t i) = 0x1c /\
  in0 t i = 65536 /\ in1 t i = 5 /\ in2 t i = 0 /\ out t i = 5 /\ evm_shr 65536 5 = 0.
Proof.
  assert (R : row_ok false shr0_row div0_next).
  { split; apply okrb_ok; vm_compute; reflexivity. }
  assert (B : blocks [shr0_row; div0_next]).
  { apply blocks_two; [exact R|apply single_off; reflexivity|apply row_of_cells; reflexivity|apply row_of_cells; reflexivity|constructor]. }
  destruct (embed _ B ltac:(cbn; lia)) as (OK & L & HR). destruct (HR 0%nat ltac:(cbn; lia)) as [H0 E0].
  exists (mk_table (padded [shr0_row; div0_next])), 0%nat.
  split; [split; [exact OK|exact L]|]. split; [exact H0|].
  unfold in0, in1, in2, out. rewrite E0. cbn [nth]. repeat split; vm_compute; reflexivity.
Qed.
Print Assumptions C49_shr_large_refuted.

(** * C50 *)

(** What the opcode of a visible row promises. *)
Definition row_spec (opcode a b c o : Z) : Prop :=
  (opcode = 0x01 -> o = evm_add a b) /\ (opcode = 0x02 -> o = evm_mul a b) /\ (opcode = 0x03 -> o = evm_sub a b) /\
  (opcode = 0x04 -> b <> 0 -> o = evm_div a b) /\ (opcode = 0x06 -> o = evm_mod a b) /\
  (opcode = 0x08 -> o = evm_addmod a b c) /\ (opcode = 0x09 -> o = evm_mulmod a b c) /\
  (opcode = 0x0c -> o = (a + b) mod bn254_base) /\ (opcode = 0x0d -> o = (a * b) mod bn254_base) /\ (opcode = 0x0e -> o = (a - b) mod bn254_base) /\
  (opcode = 0x0f -> o = kernel_submod a b c) /\ (opcode = 0x10 -> o = evm_lt a b) /\ (opcode = 0x11 -> o = evm_gt a b) /\
  (opcode = 0x1a -> o = evm_byte a b) /\ (opcode = 0x1b -> o = evm_mul b c) /\ (opcode = 0x1c -> c <> 0 -> o = b / c).

Lemma ctl_flagged : forall r f, flagged r f -> In f op_flags ->
  ctl_opcode r = sum (map (fun p => if (fst p =? f)%nat then snd p else 0) COMBINED_OPS) + r OPCODE_COL.
Proof.
  intros r f [F1 F2] Hf. unfold ctl_opcode. f_equal. apply sum_map_ext. intros [g v] Hin. cbn [fst snd].
  destruct (Nat.eqb_spec g f) as [->|N]; [rewrite F1; ring|].
  assert (Hg : In g op_flags).
  { assert (A : forallb (fun p : nat * Z => (fst p <? 17)%nat) COMBINED_OPS = true) by reflexivity.
    rewrite forallb_forall in A. specialize (A _ Hin). cbn [fst] in A. in_flags. }
  rewrite F2 by assumption. reflexivity.
Qed.

(** A row the CPU table can look up, and which is not a range check, holds
    the result of the operation named by its opcode. *)
Theorem C50_visible_rows_sound : forall t i, accepted t -> (i < length t)%nat ->
  ctl_filter (row_at t i) mod P = 1 -> row_at t i IS_RANGE_CHECK = 0 ->
  row_spec (ctl_opcode (row_at t i)) (in0 t i) (in1 t i) (in2 t i) (out t i).
Proof.
  intros t i H Hi CF NR. destruct H as [OK L]. destruct (row_constraints t OK i Hi) as [HF _].
  assert (HC := row_canonical t OK i). 
  assert (BOOL : forall f, In f op_flags -> row_at t i f = 0 \/ row_at t i f = 1).
  { intros f Hf. apply (bool_of_constraint (row_at t i f) (HC f)). unfold eval_flags in HF. apply Forall_app in HF. destruct HF as [HF _].
    rewrite map_map, Forall_map, Forall_forall in HF. specialize (HF f Hf). exact HF. }
  assert (EX : exists f, In f op_flags /\ f <> IS_RANGE_CHECK /\ row_at t i f = 1).
  { destruct (existsb (fun f => row_at t i f =? 1) (seq 0 16)) eqn:E.
    - apply existsb_exists in E. destruct E as (f & Hf & E). apply in_seq in Hf. exists f. split; [in_flags|]. unfold IS_RANGE_CHECK. split; lia.
    - exfalso. assert (Z0 : forall f, (f < 16)%nat -> row_at t i f = 0).
      { intros f Hf. destruct (BOOL f ltac:(in_flags)) as [G|G]; [exact G|]. exfalso.
        assert (existsb (fun f => row_at t i f =? 1) (seq 0 16) = true); [|congruence].
        apply existsb_exists. exists f. split; [apply in_seq; lia|lia]. }
      unfold ctl_filter in CF. rewrite NR in CF.
      assert (S0 : sum (map (fun p : nat * Z => row_at t i (fst p)) COMBINED_OPS) = 0).
      { cbn. rewrite !Z0 by (unfold IS_ADD, IS_MUL, IS_SUB, IS_DIV, IS_MOD, IS_ADDMOD, IS_MULMOD, IS_ADDFP254, IS_MULFP254, IS_SUBFP254, IS_SUBMOD, IS_LT, IS_GT, IS_BYTE, IS_SHL, IS_SHR; lia). reflexivity. }
      rewrite S0 in CF. discriminate. }
  destruct EX as (f & Hf & Nf & F). assert (H : accepted t) by (split; assumption).
  destruct (row_facts t OK i f Hi Hf F) as [FL _].
  assert (OP : row_at t i OPCODE_COL = 0).
  { unfold eval_flags in HF. apply Forall_app in HF. destruct HF as [_ HF]. apply Forall_cons_iff in HF. destruct HF as [_ HF].
    apply Forall_cons_iff in HF. destruct HF as [HF _]. unfold okr in HF. cbn [fst snd] in HF. rewrite NR in HF. unfold z in HF.
    replace ((1 - 0) * row_at t i OPCODE_COL) with (row_at t i OPCODE_COL) in HF by ring. apply canonical_zero; [apply HC|exact HF]. }
  pose proof (ctl_flagged _ _ FL Hf) as EO. rewrite OP in EO.
  destruct (C19_addcy_sound t i H Hi) as (A1 & A2 & A3 & A4). pose proof (C20_mul_sound t i H Hi) as A5.
  destruct (C21_modular_sound t i H Hi) as (B1 & B2 & B3 & B4 & B5 & B6). destruct (C22_divmod_shift_sound t i H Hi) as (D1 & D2 & D3 & D4).
  pose proof (C23_byte_sound t i H Hi) as D5.
  unfold op_flags in Hf. apply in_seq in Hf. unfold IS_ADD, IS_RANGE_CHECK in *.
  set (op := ctl_opcode (row_at t i)) in *. clearbody op. unfold row_spec.
  destruct f as [|f]; [vm_compute in EO; specialize (A1 F); subst op; repeat split; intros E; try discriminate E; exact A1|].
  destruct f as [|f]; [vm_compute in EO; specialize (A5 F); subst op; repeat split; intros E; try discriminate E; exact A5|].
  destruct f as [|f]; [vm_compute in EO; specialize (A2 F); subst op; repeat split; intros E; try discriminate E; exact A2|].
  destruct f as [|f]; [vm_compute in EO; specialize (D2 F); subst op; repeat split; intros E; try discriminate E; exact D2|].
  destruct f as [|f]; [vm_compute in EO; specialize (D1 F); subst op; repeat split; intros E; try discriminate E; exact D1|].
  destruct f as [|f]; [vm_compute in EO; specialize (B1 F); subst op; repeat split; intros E; try discriminate E; exact B1|].
  destruct f as [|f]; [vm_compute in EO; specialize (B2 F); subst op; repeat split; intros E; try discriminate E; exact B2|].
  destruct f as [|f]; [vm_compute in EO; specialize (B4 F); subst op; repeat split; intros E; try discriminate E; exact B4|].
  destruct f as [|f]; [vm_compute in EO; specialize (B5 F); subst op; repeat split; intros E; try discriminate E; exact B5|].
  destruct f as [|f]; [vm_compute in EO; specialize (B6 F); subst op; repeat split; intros E; try discriminate E; exact B6|].
  destruct f as [|f]; [vm_compute in EO; specialize (B3 F); subst op; repeat split; intros E; try discriminate E; exact B3|].
  destruct f as [|f]; [vm_compute in EO; specialize (A3 F); subst op; repeat split; intros E; try discriminate E; exact A3|].
  destruct f as [|f]; [vm_compute in EO; specialize (A4 F); subst op; repeat split; intros E; try discriminate E; exact A4|].
  destruct f as [|f]; [vm_compute in EO; specialize (D5 F); subst op; repeat split; intros E; try discriminate E; exact D5|].
  destruct f as [|f]; [vm_compute in EO; specialize (D3 F); subst op; repeat split; intros E; try discriminate E; exact D3|].
  destruct f as [|f]; [vm_compute in EO; specialize (D4 F); subst op; repeat split; intros E; try discriminate E; exact D4|].
  exfalso. clear -Hf Nf. lia.
Qed.
Print Assumptions C50_visible_rows_sound.

(** Without the exclusion of range-check rows the statement is false: a range
    check may carry the opcode of ADD (or any other), with no constraint on
    its registers. *)
Definition forged_row : row :=
  row_of [(IS_RANGE_CHECK, 1); (OPCODE_COL, 0x01); (INPUT_REGISTER_0, 1); (INPUT_REGISTER_1, 1); (OUTPUT_REGISTER, 7)].

Theorem C50_range_check_opcode_refuted : exists t i, accepted t /\ (i < length t)%nat /\
  ctl_filter (row_at t i) = 1 /\ ctl_opcode (row_at t i) = 0x01 /\
  in0 t i = 1 /\ in1 t i = 1 /\ in2 t i = 0 /\ out t i = 7 /\ evm_add 1 1 = 2.
Proof.
  assert (S : single_ok forged_row).
  { intros last nv. split; [destruct last; apply okrb_ok; vm_compute; reflexivity|].
    rewrite eval_ops_eq.
    assert (F : forall f, (f < 16)%nat -> forged_row f = 0).
    { intros f Hf. do 16 (destruct f as [|f]; [reflexivity|]). lia. }
    apply Forall_app6; others F. }
  assert (B : blocks [forged_row]) by (apply blocks_one; [exact S|apply row_of_cells; reflexivity|constructor]).
  destruct (embed _ B ltac:(cbn; lia)) as (OK & L & HR). destruct (HR 0%nat ltac:(cbn; lia)) as [H0 E0].
  exists (mk_table (padded [forged_row])), 0%nat.
  split; [split; [exact OK|exact L]|]. split; [exact H0|].
  unfold in0, in1, in2, out. rewrite E0. cbn [nth]. repeat split; vm_compute; reflexivity.
Qed.
Print Assumptions C50_range_check_opcode_refuted.

(** * C24 *)

(** For every list of well-formed operations (at most 2^31 of them) trace
    generation does not panic, its table satisfies every constraint including
    the range check, and the rows looked up by the CPU are exactly the
    operations, in order, with their EVM results. *)
Theorem C24_generation_complete : forall ops, Forall op_ok ops -> 2 * Z.of_nat (length ops) <= 2^32 ->
  exists t, generate_trace ops = Some t /\ accepted t /\
    map visible (filter (fun r => ctl_filter r =? 1) (map cells t)) = map expected ops.
Proof.
  intros ops H L. destruct (generation_complete ops H L) as (t & E & OK & LT & V & _). exists t.
  split; [exact E|]. split; [split; assumption|exact V].
Qed.
Print Assumptions C24_generation_complete.

(** [Operation::result], which the CPU pushes, is the same EVM result. *)
Theorem C24_result : forall o, op_ok o -> op_result o = snd (expected o).
Proof. exact result_spec. Qed.
Print Assumptions C24_result.

Example C24_example : Forall op_ok [BinaryOperation Div (2^256 - 1) 7; TernaryOperation SubMod 1 2 0; BinaryOperation Shr 300 9; BinaryOperation Byte 40 1; RangeCheckOperation 1 2 3 0x20 4] /\
  map expected [BinaryOperation Div (2^256 - 1) 7; TernaryOperation SubMod 1 2 0; BinaryOperation Shr 300 9; BinaryOperation Byte 40 1; RangeCheckOperation 1 2 3 0x20 4]
  = [(4, (2^256 - 1, 7, 0), (2^256 - 1) / 7); (15, (1, 2, 0), 0); (28, (300, 9, 0), 0); (26, (40, 1, 0), 0); (32, (1, 2, 3), 4)].
Proof. split; [|reflexivity]. repeat constructor; (discriminate || reflexivity). Qed.

(** Soundness and completeness are not the same relation: with a zero
    denominator generation gives 0 although other rows would be accepted. *)
Example C24_div_zero : forall a, word a -> expected (BinaryOperation Div a 0) = (4, (a, 0, 0), 0).
Proof. intros a Ha. reflexivity. Qed.
