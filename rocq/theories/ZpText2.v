(** The unrolled text of buckler/internal/zp110, word by word, continued: Halve, Select, NotEqual,
    FitsOnOneWord, Cmp, BitLen and the helpers of Inverse.  One let per assignment; montReduceSigned
    is cut into its rounds.  The theorems say that the recursions of the model are these texts. *)
From Coq Require Import ZArith.
From mathcomp Require Import all_ssreflect.
From Verif Require Import JindoIntModel ZpModel ElemModel ZpUnrolledTac.
Set Implicit Arguments. Unset Strict Implicit. Unset Printing Implicit Defensive.
Delimit Scope Z_scope with Z.
Section Text.
Variables q0 q1 qInvNeg : Z.
(** element.go 331-333 *)
Definition smaller (z_0 z_1 : Z) : bool := ((z_1 <? q1)%Z || ((z_1 =? q1)%Z && ((z_0 <? q0)%Z))).
(** element.go 204-206 *)
Definition notEqual (z_0 z_1 x_0 x_1 : Z) : Z := (Z.lor (Z.lxor z_1 x_1) (Z.lxor z_0 x_0)).
(** element.go 233-235 *)
Definition fitsOnOneWord (z_0 z_1 : Z) : bool := (z_1 =? 0)%Z.
(** element.go 242-256, from the third line on *)
Definition cmp (z_0 z_1 x_0 x_1 : Z) : Z :=
  if (x_1 <? z_1)%Z then 1%Z else if (z_1 <? x_1)%Z then (-1)%Z else
  if (x_0 <? z_0)%Z then 1%Z else if (z_0 <? x_0)%Z then (-1)%Z else 0%Z.
(** element.go 577-582 *)
Definition bitLen_ (z_0 z_1 : Z) : nat :=
  if ~~ (z_1 =? 0)%Z then (64 + bitLen z_1)%N else bitLen z_0.
(** element.go 424-429; x0 is x, x1 is y *)
Definition select (c : Z) (x_0 x_1 y_0 y_1 : Z) : seq Z :=
  let cC := (Z.shiftr (Z.lor c (toInt64 (- c))) 63 mod W)%Z in
  let z_0 := Z.lxor x_0 (Z.land cC (Z.lxor x_0 y_0)) in
  let z_1 := Z.lxor x_1 (Z.land cC (Z.lxor x_1 y_1)) in
  [:: z_0; z_1].
(** element.go 343-356 *)
Definition halve (z_0 z_1 : Z) : seq Z :=
  let carry := 0%Z in
  let: (z_0, z_1, carry) := if (Z.land z_0 1 =? 1)%Z then
  let: (z_0, carry) := Add64 z_0 q0 0%Z in
  let: (z_1, _) := Add64 z_1 q1 carry in
  (z_0, z_1, carry) else
  (z_0, z_1, carry) in
  let z_0 := Z.lor (Z.shiftr z_0 1) (Z.shiftl z_1 63 mod W)%Z in
  let z_1 := Z.shiftr z_1 1 in
  [:: z_0; z_1].
(** element.go 1514-1522 *)
Definition negl (x_0 x_1 xHi : Z) :=
  let b := 0%Z in
  let: (x_0, b) := Sub64 0%Z x_0 0%Z in
  let: (x_1, b) := Sub64 0%Z x_1 b in
  let: (xHi, _) := Sub64 0%Z xHi b in
  (x_0, x_1, xHi).
(** element.go 1525-1540 *)
Definition mulW (x_0 x_1 y : Z) :=
  let m := Z.shiftr y 63 in
  let w := ((Z.lxor y m - m) mod W)%Z in
  let c := 0%Z in
  let: (c, z_0) := Mul64 x_0 w in
  let: (c, z_1) := madd1 x_1 w c in
  if (y <? 0)%Z then negl z_0 z_1 c else (z_0, z_1, c).
(** element.go 1543-1556; yTimes is u *)
Definition lc (x_0 x_1 xC y_0 y_1 yC : Z) :=
  let: (u_0, u_1, yHi) := mulW y_0 y_1 yC in
  let: (z_0, z_1, xHi) := mulW x_0 x_1 xC in
  let carry := 0%Z in
  let: (z_0, carry) := Add64 z_0 u_0 0%Z in
  let: (z_1, carry) := Add64 z_1 u_1 carry in
  let: (yHi, _) := Add64 xHi yHi carry in
  (z_0, z_1, yHi).
(** element.go 1449-1461 *)
Definition mrs_r0 (x_0 x_1 xHi : Z) :=
  let m := ((x_0 * qInvNeg) mod W)%Z in
  let C := madd0 m q0 x_0 in
  let: (C, t_1) := madd2 m q1 x_1 C in
  let t_2 := ((xHi + C) mod W)%Z in
  (t_1, t_2).
(** element.go 1462-1468 *)
Definition mrs_r1 (t_1 t_2 : Z) :=
  let m := ((t_1 * qInvNeg) mod W)%Z in
  let C := madd0 m q0 t_1 in
  let: (z_1, z_0) := madd2 m q1 t_2 C in
  (z_0, z_1).
(** element.go 1437-1497 *)
Definition mrs (x_0 x_1 xHi : Z) : seq Z :=
  let mustNeg := ~~ (Z.land xHi (2 ^ 63) =? 0)%Z in
  let xHi := (Z.land xHi (2 ^ 63 - 1))%Z in
  let: (t_1, t_2) := mrs_r0 x_0 x_1 xHi in
  let: (z_0, z_1) := mrs_r1 t_1 t_2 in
  let: (z_0, z_1) := if ~~ smaller z_0 z_1 then
  let b := 0%Z in
  let: (z_0, b) := Sub64 z_0 q0 0%Z in
  let: (z_1, _) := Sub64 z_1 q1 b in
  (z_0, z_1) else
  (z_0, z_1) in
  if mustNeg then
  let b := 0%Z in
  let: (z_0, b) := Sub64 z_0 (2 ^ 63)%Z 0%Z in
  let: (z_1, b) := Sub64 z_1 0%Z b in
  if ~~ (b =? 0)%Z then
  let carry := 0%Z in
  let: (z_0, carry) := Add64 z_0 q0 0%Z in
  let: (z_1, _) := Add64 (W - 1)%Z q1 carry in
  [:: z_0; z_1] else
  [:: z_0; z_1] else
  [:: z_0; z_1].
(** element.go 1311-1312 *)
Definition shift_a (a_0 a_1 aHi : Z) : seq Z :=
  let a_0 := Z.lor (Z.shiftr a_0 31) (Z.shiftl a_1 33 mod W)%Z in
  let a_1 := Z.lor (Z.shiftr a_1 31) (Z.shiftl aHi 33 mod W)%Z in
  [:: a_0; a_1].
(** element.go 1324-1325 *)
Definition shift_b (b_0 b_1 bHi : Z) : seq Z :=
  let b_0 := Z.lor (Z.shiftr b_0 31) (Z.shiftl b_1 33 mod W)%Z in
  let b_1 := Z.lor (Z.shiftr b_1 31) (Z.shiftl bHi 33 mod W)%Z in
  [:: b_0; b_1].
End Text.
Ltac unroll2 hless :=
  cbv -[Add64 Sub64 Mul64 madd0 madd1 madd2 Z.mul Z.add Z.sub Z.modulo Z.land Z.lxor Z.shiftr Z.shiftl Z.pow Z.eqb Z.lor W negb less smaller];
  ops; rewrite ?hless; ifs; ops; ifs; reflexivity.
Lemma less2 q0 q1 x0 x1 : less [:: x0; x1] [:: q0; q1] = smaller q0 q1 x0 x1.
Proof. by rewrite /less /smaller /= andbF orbF. Qed.
Theorem text2_NotEqual x0 x1 y0 y1 :
  NotEqual [:: x0; x1] [:: y0; y1] =
  notEqual x0 x1 y0 y1.
Proof. rewrite /NotEqual /notEqual; cbn [zip map foldr fst snd]; by rewrite Z.lor_0_r (Z.lor_comm (Z.lxor x0 _) _). Qed.
Theorem text2_FitsOnOneWord x0 x1 :
  FitsOnOneWord [:: x0; x1] =
  fitsOnOneWord x0 x1.
Proof. rewrite /FitsOnOneWord /fitsOnOneWord; cbn [behead foldr]; by rewrite Z.lor_0_r . Qed.
Theorem text2_cmpLimbs x0 x1 y0 y1 :
  cmpLimbs [:: x0; x1] [:: y0; y1] =
  cmp x0 x1 y0 y1.
Proof. by rewrite /cmpLimbs /cmp; cbn [zip foldl fst snd]. Qed.
Theorem text2_BitLen x0 x1 :
  BitLenWords [:: x0; x1] =
  bitLen_ x0 x1.
Proof. rewrite /BitLenWords /bitLen_; cbn [zip foldl fst snd size iota]; case: (x1 =? 0)%Z; [|by []]; by rewrite /bitLen; case: (x0 =? 0)%Z. Qed.
Theorem text2_Select c x0 x1 y0 y1 :
  Select c [:: x0; x1] [:: y0; y1] =
  select c x0 x1 y0 y1.
Proof. by []. Qed.
Theorem text2_Halve q0 q1 qi r one co k b x0 x1 :
  Halve (Gen [:: q0; q1] qi r one co k false b) [:: x0; x1] =
  halve q0 q1 x0 x1.
Proof. halving. Qed.
Theorem text2_negL x0 x1 h :
  negL [:: x0; x1] h =
  let: (s0, s1, s2) := negl x0 x1 h in ([:: s0; s1], s2).
Proof. unroll2 (@less2). Qed.
Theorem text2_mulWNonModular x0 x1 w :
  mulWNonModular [:: x0; x1] w =
  let: (s0, s1, s2) := mulW x0 x1 w in ([:: s0; s1], s2).
Proof. rewrite /mulWNonModular /mulW /absInt64; cbv zeta; set w' := (_ mod W)%Z; cbv beta iota zeta delta [hd0 nth behead madd1Chain]; case: (Mul64 x0 w') => ? ?; cbv beta iota; rewrite (madd1C x1 w'); case: (madd1 w' x1 _) => ? ?; cbv beta iota;  case: (w <? 0)%Z; [exact: text2_negL|by []]. Qed.
Theorem text2_linearCombNonModular x0 x1 c y0 y1 d :
  linearCombNonModular [:: x0; x1] c [:: y0; y1] d =
  let: (s0, s1, s2) := lc x0 x1 c y0 y1 d in ([:: s0; s1], s2).
Proof. rewrite /linearCombNonModular /lc !text2_mulWNonModular; case: (mulW y0 y1 d) => [[v0 v1] v2]; case: (mulW x0 x1 c) => [[w0 w1] w2]; clear; unroll2 (@less2). Qed.
Lemma mrs_r0E q0 q1 qi r one co k b x0 x1 h rest :
  sosRound (Gen [:: q0; q1] qi r one co k false b) (x0::x1::h::rest) false =
  let: (s0, s1) := mrs_r0 q0 q1 qi x0 x1 h in s0::s1::rest.
Proof. rewrite /mrs_r0; unroll2 (@less2). Qed.
Lemma mrs_r1E q0 q1 qi r one co k b t1 t2 :
  sosRound (Gen [:: q0; q1] qi r one co k false b) (t1::t2::[::]) true =
  let: (s0, s1) := mrs_r1 q0 q1 qi t1 t2 in [:: s0; s1].
Proof. rewrite /mrs_r1; unroll2 (@less2). Qed.
Theorem text2_montReduceSigned q0 q1 qi r one co k b x0 x1 h :
  montReduceSigned (Gen [:: q0; q1] qi r one co k false b) [:: x0; x1] h =
  mrs q0 q1 qi x0 x1 h.
Proof. 
rewrite /montReduceSigned /mrs /Limbs; cbn [iter qs size predn subn subn_rec Nat.sub nseq ncons cat]; cbv zeta.
rewrite mrs_r0E; case: (mrs_r0 _ _ _ _ _ _) => [a0_0 a0_1]; cbv beta iota.
rewrite mrs_r1E; case: (mrs_r1 _ _ _ _ _) => [a1_0 a1_1]; cbv beta iota.
unroll2 (@less2).
 Qed.
Theorem text2_shift_a x0 x1 h :
  shr31 [:: x0; x1] h =
  shift_a x0 x1 h.
Proof. by []. Qed.
Theorem text2_shift_b x0 x1 h :
  shr31 [:: x0; x1] h =
  shift_b x0 x1 h.
Proof. by []. Qed.
