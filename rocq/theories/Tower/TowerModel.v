(** Model of the towers of extensions over the base fields.

    Source: /repo/evm_arithmetization/src/extension_tower.rs:9-22, 351-1881.

    Simplifications: the operations of the base field are a record; its
    instances are those of the integers modulo p, which [C92_bn_field] and
    [C92_bls_field] prove equal to those of the code on reduced values.  Random sampling is left out. *)

From Coq Require Import ZArith List Bool.
Import ListNotations.
Local Open Scope Z_scope.

(** :9-22 [FieldExt]. *)
Record ops (T : Type) : Type := mk_ops { zero : T; unit : T; add : T -> T -> T; neg : T -> T; sub : T -> T -> T; mul : T -> T -> T; inv : T -> T }.
Arguments zero {T}. Arguments unit {T}. Arguments add {T}. Arguments neg {T}. Arguments sub {T}. Arguments mul {T}. Arguments inv {T}.

(** :351-360 [Fp2], :1336-1345 [Fp6], :1579-1585 [Fp12]. *)
Record fp2 (T : Type) : Type := mk2 { re : T; im : T }.
Arguments mk2 {T}. Arguments re {T}. Arguments im {T}.
Record fp6 (K : Type) : Type := mk6 { t0 : K; t1 : K; t2 : K }.
Arguments mk6 {K}. Arguments t0 {K}. Arguments t1 {K}. Arguments t2 {K}.
Record fp12 (L : Type) : Type := mk12 { z0 : L; z1 : L }.
Arguments mk12 {L}. Arguments z0 {L}. Arguments z1 {L}.

Section Fp2.
  Context {T : Type} (F : ops T).
  (** :370-424 *)
  Definition add2 (a b : fp2 T) : fp2 T := mk2 (add F (re a) (re b)) (add F (im a) (im b)).
  Definition neg2 (a : fp2 T) : fp2 T := mk2 (neg F (re a)) (neg F (im a)).
  Definition sub2 (a b : fp2 T) : fp2 T := mk2 (sub F (re a) (re b)) (sub F (im a) (im b)).
  Definition mul2 (a b : fp2 T) : fp2 T :=
    mk2 (sub F (mul F (re a) (re b)) (mul F (im a) (im b))) (add F (mul F (re a) (im b)) (mul F (im a) (re b))).
  Definition scale2 (a : fp2 T) (c : T) : fp2 T := mk2 (mul F c (re a)) (mul F c (im a)).
  (** :426-443 *)
  Definition conj2 (a : fp2 T) : fp2 T := mk2 (re a) (neg F (im a)).
  Definition norm_sq (a : fp2 T) : T := add F (mul F (re a) (re a)) (mul F (im a) (im a)).
  (** :445-469 *)
  Definition inv2 (a : fp2 T) : fp2 T := scale2 (conj2 a) (inv F (norm_sq a)).
  Definition ops2 : ops (fp2 T) := mk_ops _ (mk2 (zero F) (zero F)) (mk2 (unit F) (zero F)) add2 neg2 sub2 mul2 inv2.
End Fp2.

(** What [Fp6] and [Fp12] use of the elements of [Fp2]: :486-490 [Adj], the
    conjugation, and the inverse of the norm as :1556-1557 uses it. *)
Record adj (K : Type) : Type := mk_adj { mul_adj : K -> K; frob_t1 : nat -> K; frob_t2 : nat -> K; frob_z : nat -> K; conj : K -> K; over_norm : K -> K }.
Arguments mul_adj {K}. Arguments frob_t1 {K}. Arguments frob_t2 {K}. Arguments frob_z {K}. Arguments conj {K}. Arguments over_norm {K}.

Section Fp6.
  Context {K : Type} (F : ops K) (A : adj K).
  Local Notation "a + b" := (add F a b). Local Notation "a * b" := (mul F a b). Local Notation "a - b" := (sub F a b).
  (** :1359-1438 *)
  Definition add6 (a b : fp6 K) : fp6 K := mk6 (t0 a + t0 b) (t1 a + t1 b) (t2 a + t2 b).
  Definition neg6 (a : fp6 K) : fp6 K := mk6 (neg F (t0 a)) (neg F (t1 a)) (neg F (t2 a)).
  Definition sub6 (a b : fp6 K) : fp6 K := mk6 (t0 a - t0 b) (t1 a - t1 b) (t2 a - t2 b).
  Definition mul6 (a b : fp6 K) : fp6 K :=
    mk6 (t0 a * t0 b + mul_adj A (t1 a * t2 b + t2 a * t1 b)) (t0 a * t1 b + t1 a * t0 b + mul_adj A (t2 a * t2 b)) (t0 a * t2 b + t1 a * t1 b + t2 a * t0 b).
  Definition scale6 (a : fp6 K) (c : K) : fp6 K := mk6 (c * t0 a) (c * t1 a) (c * t2 a).
  (** :1440-1476 *)
  Definition sh (a : fp6 K) : fp6 K := mk6 (mul_adj A (t2 a)) (t0 a) (t1 a).
  Definition mul_by_1 (a : fp6 K) (c1 : K) : fp6 K := sh (mk6 (t0 a * c1) (t1 a * c1) (t2 a * c1)).
  Definition mul_by_01 (a : fp6 K) (c0 c1 : K) : fp6 K :=
    let a_a := t0 a * c0 in
    let b_b := t1 a * c1 in
    mk6 (mul_adj A (t2 a * c1) + a_a) ((c0 + c1) * (t0 a + t1 a) - a_a - b_b) (t2 a * c0 + b_b).
  (** :1492-1509 *)
  Definition frob6 (a : fp6 K) (n : nat) : fp6 K :=
    let n := Nat.modulo n 6 in
    if Nat.odd n then mk6 (conj A (t0 a)) (frob_t1 A n * conj A (t1 a)) (frob_t2 A n * conj A (t2 a))
    else mk6 (t0 a) (frob_t1 A n * t1 a) (frob_t2 A n * t2 a).
  (** :1512-1561; [over_norm x] is [x * x.norm_sq().inv()]. *)
  Definition inv6 (a : fp6 K) : fp6 K :=
    let prod_13 := mul6 (frob6 a 1) (frob6 a 3) in
    let prod_135 := t0 (mul6 prod_13 (frob6 a 5)) in
    scale6 (frob6 prod_13 1) (over_norm A prod_135).
  Definition ops6 : ops (fp6 K) := mk_ops _ (mk6 (zero F) (zero F) (zero F)) (mk6 (unit F) (zero F) (zero F)) add6 neg6 sub6 mul6 inv6.

  (** :1645-1735 *)
  Definition add12 (a b : fp12 (fp6 K)) : fp12 (fp6 K) := mk12 (add6 (z0 a) (z0 b)) (add6 (z1 a) (z1 b)).
  Definition neg12 (a : fp12 (fp6 K)) : fp12 (fp6 K) := mk12 (neg6 (z0 a)) (neg6 (z1 a)).
  Definition sub12 (a b : fp12 (fp6 K)) : fp12 (fp6 K) := mk12 (sub6 (z0 a) (z0 b)) (sub6 (z1 a) (z1 b)).
  Definition mul12 (a b : fp12 (fp6 K)) : fp12 (fp6 K) :=
    let h0 := mul6 (z0 a) (z0 b) in
    let h1 := mul6 (z1 a) (z1 b) in
    let h01 := mul6 (add6 (z0 a) (z1 a)) (add6 (z0 b) (z1 b)) in
    mk12 (add6 h0 (sh h1)) (sub6 h01 (add6 h0 h1)).
  Definition scale12 (a : fp12 (fp6 K)) (c : fp6 K) : fp12 (fp6 K) := mk12 (mul6 c (z0 a)) (mul6 c (z1 a)).
  Definition conj12 (a : fp12 (fp6 K)) : fp12 (fp6 K) := mk12 (z0 a) (neg6 (z1 a)).
  (** :1742-1756 *)
  Definition mul_by_014 (a : fp12 (fp6 K)) (c0 c1 c4 : K) : fp12 (fp6 K) :=
    let aa := mul_by_01 (z0 a) c0 c1 in
    let bb := mul_by_1 (z1 a) c4 in
    let o := c1 + c4 in
    let r1 := add6 (z1 a) (z0 a) in
    let r1 := mul_by_01 r1 c0 o in
    let r1 := sub6 (sub6 r1 aa) bb in
    mk12 (add6 (sh bb) aa) r1.
  (** :1763-1769 *)
  Definition frob12 (a : fp12 (fp6 K)) (n : nat) : fp12 (fp6 K) :=
    let n := Nat.modulo n 12 in
    mk12 (frob6 (z0 a) n) (scale6 (frob6 (z1 a) n) (frob_z A n)).
  (** :1621-1630 *)
  Definition inv12 (a : fp12 (fp6 K)) : fp12 (fp6 K) :=
    let prod_17 := z0 (mul12 (frob12 a 1) (frob12 a 7)) in
    let prod_1379 := mul6 prod_17 (frob6 prod_17 2) in
    let prod_odds := t0 (mul6 prod_1379 (frob6 prod_17 4)) in
    let prod_except_six := scale6 (frob6 prod_1379 1) (over_norm A prod_odds) in
    scale12 (conj12 a) prod_except_six.
  Definition ops12 : ops (fp12 (fp6 K)) :=
    mk_ops _ (mk12 (zero ops6) (zero ops6)) (mk12 (unit ops6) (zero ops6)) add12 neg12 sub12 mul12 inv12.
End Fp6.

(** * The two towers *)

Definition BN_P : Z := 21888242871839275222246405745257275088696311157297823662689037894645226208583.
Definition BLS_P : Z := 4002409555221667393417789825735904156556882819939007885332058136124031650490837864442687629129015664037894272559787.

(** The base field; [inv] is the power p - 2 of :95-107 and :324-336. *)
Fixpoint pow_mod (p x : Z) (e : positive) : Z :=
  match e with
  | xH => x mod p
  | xO e => pow_mod p ((x * x) mod p) e
  | xI e => (x * pow_mod p ((x * x) mod p) e) mod p
  end.
Lemma mod_in (p : Z) (Hp : (1 <? p) = true) (x : Z) : (0 <=? x mod p) && (x mod p <? p) = true.
Proof. apply Z.ltb_lt in Hp. pose proof (Z.mod_pos_bound x p) as [A B]; [|apply andb_true_intro; split; [apply Z.leb_le|apply Z.ltb_lt]; assumption]. apply Z.lt_trans with 1; [reflexivity|exact Hp]. Qed.
(** Elements are the integers from 0 to p - 1. *)
Definition zq (p : Z) : Type := {x : Z | (0 <=? x) && (x <? p) = true}.
Definition zmk {p : Z} (Hp : (1 <? p) = true) (x : Z) : zq p := exist _ (x mod p) (mod_in p Hp x).
Definition val {p : Z} (a : zq p) : Z := proj1_sig a.
Definition zp {p : Z} (Hp : (1 <? p) = true) : ops (zq p) :=
  mk_ops _ (zmk Hp 0) (zmk Hp 1) (fun a b => zmk Hp (val a + val b)) (fun a => zmk Hp (- val a)) (fun a b => zmk Hp (val a - val b)) (fun a b => zmk Hp (val a * val b))
    (fun a => zmk Hp (pow_mod p (val a) (Z.to_pos (p - 2)))).

(** :492-499 and :889-895: multiplication by 9 + i and by 1 + i. *)
Definition bn_mul_adj {T} (F : ops T) (nine : T) (a : fp2 T) : fp2 T :=
  mk2 (sub F (mul F nine (re a)) (im a)) (add F (re a) (mul F nine (im a))).
Definition bls_mul_adj {T} (F : ops T) (a : fp2 T) : fp2 T := mk2 (sub F (re a) (im a)) (add F (re a) (im a)).

(** :501-683, [FROB_T[0]] then [FROB_T[1]] *)
Definition BN_FROB_T1 : list (Z * Z) :=
  [(1, 0);
   (21575463638280843010398324269430826099269044274347216827212613867836435027261, 10307601595873709700152284273816112264069230130616436755625194854815875713954);
   (21888242871839275220042445260109153167277707414472061641714758635765020556616, 0);
   (3772000881919853776433695186713858239009073593817195771773381919316419345261, 2236595495967245188281701248203181795121068902605861227855261137820944008926);
   (2203960485148121921418603742825762020974279258880205651966, 0);
   (18429021223477853657660792034369865839114504446431234726392080002137598044644, 9344045779998320333812420223237981029506012124075525679208581902008406485703)].
Definition BN_FROB_T2 : list (Z * Z) :=
  [(1, 0);
   (2581911344467009335267311115468803099551665605076196740867805258568234346338, 19937756971775647987995932169929341994314640652964949448313374472400716661030);
   (2203960485148121921418603742825762020974279258880205651966, 0);
   (5324479202449903542726783395506214481928257762400643279780343368557297135718, 16208900380737693084919495127334387981393726419856888799917914180988844123039);
   (21888242871839275220042445260109153167277707414472061641714758635765020556616, 0);
   (13981852324922362344252311234282257507216387789820983642040889267519694726527, 7629828391165209371577384193250820201684255241773809077146787135900891633097)].
(** :684-886 *)
Definition BN_FROB_Z : list (Z * Z) :=
  [(1, 0);
   (8376118865763821496583973867626364092589906065868298776909617916018768340080, 16469823323077808223889137241176536799009286646108169935659301613961712198316);
   (21888242871839275220042445260109153167277707414472061641714758635765020556617, 0);
   (11697423496358154304825782922584725312912383441159505038794027105778954184319, 303847389135065887422783454877609941456349188919719272345083954437860409601);
   (21888242871839275220042445260109153167277707414472061641714758635765020556616, 0);
   (3321304630594332808241809054958361220322477375291206261884409189760185844239, 5722266937896532885780051958958348231143373700109372999374820235121374419868);
   (21888242871839275222246405745257275088696311157297823662689037894645226208582, 0);
   (13512124006075453725662431877630910996106405091429524885779419978626457868503, 5418419548761466998357268504080738289687024511189653727029736280683514010267);
   (2203960485148121921418603742825762020974279258880205651966, 0);
   (10190819375481120917420622822672549775783927716138318623895010788866272024264, 21584395482704209334823622290379665147239961968378104390343953940207365798982);
   (2203960485148121921418603742825762020974279258880205651967, 0);
   (18566938241244942414004596690298913868373833782006617400804628704885040364344, 16165975933942742336466353786298926857552937457188450663314217659523851788715)].
(** :897-1060 *)
Definition BLS_FROB_T1 : list (Z * Z) :=
  [(1, 0);
   (0, 4002409555221667392624310435006688643935503118305586438271171395842971157480381377015405980053539358417135540939436);
   (793479390729215512621379701633421447060886740281060493010456487427281649075476305620758731620350, 0);
   (0, 1);
   (4002409555221667392624310435006688643935503118305586438271171395842971157480381377015405980053539358417135540939436, 0);
   (0, 793479390729215512621379701633421447060886740281060493010456487427281649075476305620758731620350)].
Definition BLS_FROB_T2 : list (Z * Z) :=
  [(1, 0);
   (4002409555221667392624310435006688643935503118305586438271171395842971157480381377015405980053539358417135540939437, 0);
   (4002409555221667392624310435006688643935503118305586438271171395842971157480381377015405980053539358417135540939436, 0);
   (4002409555221667393417789825735904156556882819939007885332058136124031650490837864442687629129015664037894272559786, 0);
   (793479390729215512621379701633421447060886740281060493010456487427281649075476305620758731620350, 0);
   (793479390729215512621379701633421447060886740281060493010456487427281649075476305620758731620351, 0)].
(** :1061-1330 *)
Definition BLS_FROB_Z : list (Z * Z) :=
  [(1, 0);
   (3850754370037169011952147076051364057158807420970682438676050522613628423219637725072182697113062777891589506424760, 151655185184498381465642749684540099398075398968325446656007613510403227271200139370504932015952886146304766135027);
   (793479390729215512621379701633421447060886740281060493010456487427281649075476305620758731620351, 0);
   (2973677408986561043442465346520108879172042883009249989176415018091420807192182638567116318576472649347015917690530, 1028732146235106349975324479215795277384839936929757896155643118032610843298655225875571310552543014690878354869257);
   (793479390729215512621379701633421447060886740281060493010456487427281649075476305620758731620350, 0);
   (3125332594171059424908108096204648978570118281977575435832422631601824034463382777937621250592425535493320683825557, 877076961050607968509681729531255177986764537961432449499635504522207616027455086505066378536590128544573588734230);
   (4002409555221667393417789825735904156556882819939007885332058136124031650490837864442687629129015664037894272559786, 0);
   (151655185184498381465642749684540099398075398968325446656007613510403227271200139370504932015952886146304766135027, 3850754370037169011952147076051364057158807420970682438676050522613628423219637725072182697113062777891589506424760);
   (4002409555221667392624310435006688643935503118305586438271171395842971157480381377015405980053539358417135540939436, 0);
   (1028732146235106349975324479215795277384839936929757896155643118032610843298655225875571310552543014690878354869257, 2973677408986561043442465346520108879172042883009249989176415018091420807192182638567116318576472649347015917690530);
   (4002409555221667392624310435006688643935503118305586438271171395842971157480381377015405980053539358417135540939437, 0);
   (877076961050607968509681729531255177986764537961432449499635504522207616027455086505066378536590128544573588734230, 3125332594171059424908108096204648978570118281977575435832422631601824034463382777937621250592425535493320683825557)].
Definition const2 {T} (emb : Z -> T) (l : list (Z * Z)) (n : nat) : fp2 T := let c := nth n l (0, 0) in mk2 (emb (fst c)) (emb (snd c)).

Definition bn_adj {T} (F : ops T) (emb : Z -> T) : adj (fp2 T) :=
  mk_adj _ (bn_mul_adj F (emb 9)) (const2 emb BN_FROB_T1) (const2 emb BN_FROB_T2) (const2 emb BN_FROB_Z) (conj2 F)
    (fun q => scale2 F q (inv F (norm_sq F q))).
Definition bls_adj {T} (F : ops T) (emb : Z -> T) : adj (fp2 T) :=
  mk_adj _ (bls_mul_adj F) (const2 emb BLS_FROB_T1) (const2 emb BLS_FROB_T2) (const2 emb BLS_FROB_Z) (conj2 F)
    (fun q => scale2 F q (inv F (norm_sq F q))).

Definition BN_HP : (1 <? BN_P) = true := eq_refl.
Definition BLS_HP : (1 <? BLS_P) = true := eq_refl.
Definition bn2 : ops (fp2 (zq BN_P)) := ops2 (zp BN_HP).
Definition BN_ADJ : adj (fp2 (zq BN_P)) := bn_adj (zp BN_HP) (zmk BN_HP).
Definition bls2 : ops (fp2 (zq BLS_P)) := ops2 (zp BLS_HP).
Definition BLS_ADJ : adj (fp2 (zq BLS_P)) := bls_adj (zp BLS_HP) (zmk BLS_HP).
