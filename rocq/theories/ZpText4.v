(** The unrolled text of buckler/internal/zp220, word by word, continued: Halve, Select, NotEqual,
    FitsOnOneWord, Cmp, BitLen and the helpers of Inverse.  One let per assignment; montReduceSigned
    is cut into its rounds.  The theorems say that the recursions of the model are these texts. *)
From Coq Require Import ZArith.
From mathcomp Require Import all_ssreflect.
From Verif Require Import JindoIntModel ZpModel ElemModel ZpUnrolledTac.
Set Implicit Arguments. Unset Strict Implicit. Unset Printing Implicit Defensive.
Delimit Scope Z_scope with Z.
Section Text.
Variables q0 q1 q2 q3 qInvNeg : Z.
(** element.go 358-360 *)
Definition smaller (z_0 z_1 z_2 z_3 : Z) : bool := ((z_3 <? q3)%Z || ((z_3 =? q3)%Z && ((z_2 <? q2)%Z || ((z_2 =? q2)%Z && ((z_1 <? q1)%Z || ((z_1 =? q1)%Z && ((z_0 <? q0)%Z))))))).
(** element.go 217-219 *)
Definition notEqual (z_0 z_1 z_2 z_3 x_0 x_1 x_2 x_3 : Z) : Z := (Z.lor (Z.lor (Z.lor (Z.lxor z_3 x_3) (Z.lxor z_2 x_2)) (Z.lxor z_1 x_1)) (Z.lxor z_0 x_0)).
(** element.go 246-248 *)
Definition fitsOnOneWord (z_0 z_1 z_2 z_3 : Z) : bool := ((Z.lor (Z.lor z_3 z_2) z_1) =? 0)%Z.
(** element.go 255-279, from the third line on *)
Definition cmp (z_0 z_1 z_2 z_3 x_0 x_1 x_2 x_3 : Z) : Z :=
  if (x_3 <? z_3)%Z then 1%Z else if (z_3 <? x_3)%Z then (-1)%Z else
  if (x_2 <? z_2)%Z then 1%Z else if (z_2 <? x_2)%Z then (-1)%Z else
  if (x_1 <? z_1)%Z then 1%Z else if (z_1 <? x_1)%Z then (-1)%Z else
  if (x_0 <? z_0)%Z then 1%Z else if (z_0 <? x_0)%Z then (-1)%Z else 0%Z.
(** element.go 708-719 *)
Definition bitLen_ (z_0 z_1 z_2 z_3 : Z) : nat :=
  if ~~ (z_3 =? 0)%Z then (192 + bitLen z_3)%N else
  if ~~ (z_2 =? 0)%Z then (128 + bitLen z_2)%N else
  if ~~ (z_1 =? 0)%Z then (64 + bitLen z_1)%N else bitLen z_0.
(** element.go 469-476; x0 is x, x1 is y *)
Definition select (c : Z) (x_0 x_1 x_2 x_3 y_0 y_1 y_2 y_3 : Z) : seq Z :=
  let cC := (Z.shiftr (Z.lor c (toInt64 (- c))) 63 mod W)%Z in
  let z_0 := Z.lxor x_0 (Z.land cC (Z.lxor x_0 y_0)) in
  let z_1 := Z.lxor x_1 (Z.land cC (Z.lxor x_1 y_1)) in
  let z_2 := Z.lxor x_2 (Z.land cC (Z.lxor x_2 y_2)) in
  let z_3 := Z.lxor x_3 (Z.land cC (Z.lxor x_3 y_3)) in
  [:: z_0; z_1; z_2; z_3].
(** element.go 370-387 *)
Definition halve (z_0 z_1 z_2 z_3 : Z) : seq Z :=
  let carry := 0%Z in
  let: (z_0, z_1, z_2, z_3, carry) := if (Z.land z_0 1 =? 1)%Z then
  let: (z_0, carry) := Add64 z_0 q0 0%Z in
  let: (z_1, carry) := Add64 z_1 q1 carry in
  let: (z_2, carry) := Add64 z_2 q2 carry in
  let: (z_3, _) := Add64 z_3 q3 carry in
  (z_0, z_1, z_2, z_3, carry) else
  (z_0, z_1, z_2, z_3, carry) in
  let z_0 := Z.lor (Z.shiftr z_0 1) (Z.shiftl z_1 63 mod W)%Z in
  let z_1 := Z.lor (Z.shiftr z_1 1) (Z.shiftl z_2 63 mod W)%Z in
  let z_2 := Z.lor (Z.shiftr z_2 1) (Z.shiftl z_3 63 mod W)%Z in
  let z_3 := Z.shiftr z_3 1 in
  [:: z_0; z_1; z_2; z_3].
(** element.go 1713-1723 *)
Definition negl (x_0 x_1 x_2 x_3 xHi : Z) :=
  let b := 0%Z in
  let: (x_0, b) := Sub64 0%Z x_0 0%Z in
  let: (x_1, b) := Sub64 0%Z x_1 b in
  let: (x_2, b) := Sub64 0%Z x_2 b in
  let: (x_3, b) := Sub64 0%Z x_3 b in
  let: (xHi, _) := Sub64 0%Z xHi b in
  (x_0, x_1, x_2, x_3, xHi).
(** element.go 1726-1743 *)
Definition mulW (x_0 x_1 x_2 x_3 y : Z) :=
  let m := Z.shiftr y 63 in
  let w := ((Z.lxor y m - m) mod W)%Z in
  let c := 0%Z in
  let: (c, z_0) := Mul64 x_0 w in
  let: (c, z_1) := madd1 x_1 w c in
  let: (c, z_2) := madd1 x_2 w c in
  let: (c, z_3) := madd1 x_3 w c in
  if (y <? 0)%Z then negl z_0 z_1 z_2 z_3 c else (z_0, z_1, z_2, z_3, c).
(** element.go 1746-1761; yTimes is u *)
Definition lc (x_0 x_1 x_2 x_3 xC y_0 y_1 y_2 y_3 yC : Z) :=
  let: (u_0, u_1, u_2, u_3, yHi) := mulW y_0 y_1 y_2 y_3 yC in
  let: (z_0, z_1, z_2, z_3, xHi) := mulW x_0 x_1 x_2 x_3 xC in
  let carry := 0%Z in
  let: (z_0, carry) := Add64 z_0 u_0 0%Z in
  let: (z_1, carry) := Add64 z_1 u_1 carry in
  let: (z_2, carry) := Add64 z_2 u_2 carry in
  let: (z_3, carry) := Add64 z_3 u_3 carry in
  let: (yHi, _) := Add64 xHi yHi carry in
  (z_0, z_1, z_2, z_3, yHi).
(** element.go 1616-1630 *)
Definition mrs_r0 (x_0 x_1 x_2 x_3 xHi : Z) :=
  let m := ((x_0 * qInvNeg) mod W)%Z in
  let C := madd0 m q0 x_0 in
  let: (C, t_1) := madd2 m q1 x_1 C in
  let: (C, t_2) := madd2 m q2 x_2 C in
  let: (C, t_3) := madd2 m q3 x_3 C in
  let t_4 := ((xHi + C) mod W)%Z in
  (t_1, t_2, t_3, t_4).
(** element.go 1631-1641 *)
Definition mrs_r1 (t_1 t_2 t_3 t_4 t_5 : Z) :=
  let m := ((t_1 * qInvNeg) mod W)%Z in
  let C := madd0 m q0 t_1 in
  let: (C, t_2) := madd2 m q1 t_2 C in
  let: (C, t_3) := madd2 m q2 t_3 C in
  let: (C, t_4) := madd2 m q3 t_4 C in
  let t_5 := ((t_5 + C) mod W)%Z in
  (t_2, t_3, t_4, t_5).
(** element.go 1642-1652 *)
Definition mrs_r2 (t_2 t_3 t_4 t_5 t_6 : Z) :=
  let m := ((t_2 * qInvNeg) mod W)%Z in
  let C := madd0 m q0 t_2 in
  let: (C, t_3) := madd2 m q1 t_3 C in
  let: (C, t_4) := madd2 m q2 t_4 C in
  let: (C, t_5) := madd2 m q3 t_5 C in
  let t_6 := ((t_6 + C) mod W)%Z in
  (t_3, t_4, t_5, t_6).
(** element.go 1653-1661 *)
Definition mrs_r3 (t_3 t_4 t_5 t_6 : Z) :=
  let m := ((t_3 * qInvNeg) mod W)%Z in
  let C := madd0 m q0 t_3 in
  let: (C, z_0) := madd2 m q1 t_4 C in
  let: (C, z_1) := madd2 m q2 t_5 C in
  let: (z_3, z_2) := madd2 m q3 t_6 C in
  (z_0, z_1, z_2, z_3).
(** element.go 1604-1696 *)
Definition mrs (x_0 x_1 x_2 x_3 xHi : Z) : seq Z :=
  let mustNeg := ~~ (Z.land xHi (2 ^ 63) =? 0)%Z in
  let xHi := (Z.land xHi (2 ^ 63 - 1))%Z in
  let: (t_1, t_2, t_3, t_4) := mrs_r0 x_0 x_1 x_2 x_3 xHi in
  let t_5 := 0%Z in
  let: (t_2, t_3, t_4, t_5) := mrs_r1 t_1 t_2 t_3 t_4 t_5 in
  let t_6 := 0%Z in
  let: (t_3, t_4, t_5, t_6) := mrs_r2 t_2 t_3 t_4 t_5 t_6 in
  let: (z_0, z_1, z_2, z_3) := mrs_r3 t_3 t_4 t_5 t_6 in
  let: (z_0, z_1, z_2, z_3) := if ~~ smaller z_0 z_1 z_2 z_3 then
  let b := 0%Z in
  let: (z_0, b) := Sub64 z_0 q0 0%Z in
  let: (z_1, b) := Sub64 z_1 q1 b in
  let: (z_2, b) := Sub64 z_2 q2 b in
  let: (z_3, _) := Sub64 z_3 q3 b in
  (z_0, z_1, z_2, z_3) else
  (z_0, z_1, z_2, z_3) in
  if mustNeg then
  let b := 0%Z in
  let: (z_0, b) := Sub64 z_0 (2 ^ 63)%Z 0%Z in
  let: (z_1, b) := Sub64 z_1 0%Z b in
  let: (z_2, b) := Sub64 z_2 0%Z b in
  let: (z_3, b) := Sub64 z_3 0%Z b in
  if ~~ (b =? 0)%Z then
  let carry := 0%Z in
  let: (z_0, carry) := Add64 z_0 q0 0%Z in
  let: (z_1, carry) := Add64 z_1 q1 carry in
  let: (z_2, carry) := Add64 z_2 q2 carry in
  let: (z_3, _) := Add64 (W - 1)%Z q3 carry in
  [:: z_0; z_1; z_2; z_3] else
  [:: z_0; z_1; z_2; z_3] else
  [:: z_0; z_1; z_2; z_3].
(** element.go 1472-1475 *)
Definition shift_a (a_0 a_1 a_2 a_3 aHi : Z) : seq Z :=
  let a_0 := Z.lor (Z.shiftr a_0 31) (Z.shiftl a_1 33 mod W)%Z in
  let a_1 := Z.lor (Z.shiftr a_1 31) (Z.shiftl a_2 33 mod W)%Z in
  let a_2 := Z.lor (Z.shiftr a_2 31) (Z.shiftl a_3 33 mod W)%Z in
  let a_3 := Z.lor (Z.shiftr a_3 31) (Z.shiftl aHi 33 mod W)%Z in
  [:: a_0; a_1; a_2; a_3].
(** element.go 1487-1490 *)
Definition shift_b (b_0 b_1 b_2 b_3 bHi : Z) : seq Z :=
  let b_0 := Z.lor (Z.shiftr b_0 31) (Z.shiftl b_1 33 mod W)%Z in
  let b_1 := Z.lor (Z.shiftr b_1 31) (Z.shiftl b_2 33 mod W)%Z in
  let b_2 := Z.lor (Z.shiftr b_2 31) (Z.shiftl b_3 33 mod W)%Z in
  let b_3 := Z.lor (Z.shiftr b_3 31) (Z.shiftl bHi 33 mod W)%Z in
  [:: b_0; b_1; b_2; b_3].
End Text.
Ltac unroll2 hless :=
  cbv -[Add64 Sub64 Mul64 madd0 madd1 madd2 Z.mul Z.add Z.sub Z.modulo Z.land Z.lxor Z.shiftr Z.shiftl Z.pow Z.eqb Z.lor W negb less smaller];
  ops; rewrite ?hless; ifs; ops; ifs; reflexivity.
Lemma less4 q0 q1 q2 q3 x0 x1 x2 x3 : less [:: x0; x1; x2; x3] [:: q0; q1; q2; q3] = smaller q0 q1 q2 q3 x0 x1 x2 x3.
Proof. by rewrite /less /smaller /= andbF orbF. Qed.
Theorem text4_NotEqual x0 x1 x2 x3 y0 y1 y2 y3 :
  NotEqual [:: x0; x1; x2; x3] [:: y0; y1; y2; y3] =
  notEqual x0 x1 x2 x3 y0 y1 y2 y3.
Proof. rewrite /NotEqual /notEqual; cbn [zip map foldr fst snd]; by rewrite Z.lor_0_r (Z.lor_comm (Z.lxor x2 _) _) (Z.lor_comm (Z.lxor x1 _) _) (Z.lor_comm (Z.lxor x0 _) _). Qed.
Theorem text4_FitsOnOneWord x0 x1 x2 x3 :
  FitsOnOneWord [:: x0; x1; x2; x3] =
  fitsOnOneWord x0 x1 x2 x3.
Proof. rewrite /FitsOnOneWord /fitsOnOneWord; cbn [behead foldr]; by rewrite Z.lor_0_r (Z.lor_comm x2 _) (Z.lor_comm x1 _). Qed.
Theorem text4_cmpLimbs x0 x1 x2 x3 y0 y1 y2 y3 :
  cmpLimbs [:: x0; x1; x2; x3] [:: y0; y1; y2; y3] =
  cmp x0 x1 x2 x3 y0 y1 y2 y3.
Proof. by rewrite /cmpLimbs /cmp; cbn [zip foldl fst snd]. Qed.
Theorem text4_BitLen x0 x1 x2 x3 :
  BitLenWords [:: x0; x1; x2; x3] =
  bitLen_ x0 x1 x2 x3.
Proof. rewrite /BitLenWords /bitLen_; cbn [zip foldl fst snd size iota]; case: (x3 =? 0)%Z; [|by []]; case: (x2 =? 0)%Z; [|by []]; case: (x1 =? 0)%Z; [|by []]; by rewrite /bitLen; case: (x0 =? 0)%Z. Qed.
Theorem text4_Select c x0 x1 x2 x3 y0 y1 y2 y3 :
  Select c [:: x0; x1; x2; x3] [:: y0; y1; y2; y3] =
  select c x0 x1 x2 x3 y0 y1 y2 y3.
Proof. by []. Qed.
Theorem text4_Halve q0 q1 q2 q3 qi r one co k b x0 x1 x2 x3 :
  Halve (Gen [:: q0; q1; q2; q3] qi r one co k false b) [:: x0; x1; x2; x3] =
  halve q0 q1 q2 q3 x0 x1 x2 x3.
Proof. halving. Qed.
Theorem text4_negL x0 x1 x2 x3 h :
  negL [:: x0; x1; x2; x3] h =
  let: (s0, s1, s2, s3, s4) := negl x0 x1 x2 x3 h in ([:: s0; s1; s2; s3], s4).
Proof. unroll2 (@less4). Qed.
Theorem text4_mulWNonModular x0 x1 x2 x3 w :
  mulWNonModular [:: x0; x1; x2; x3] w =
  let: (s0, s1, s2, s3, s4) := mulW x0 x1 x2 x3 w in ([:: s0; s1; s2; s3], s4).
Proof. rewrite /mulWNonModular /mulW /absInt64; cbv zeta; set w' := (_ mod W)%Z; cbv beta iota zeta delta [hd0 nth behead madd1Chain]; case: (Mul64 x0 w') => ? ?; cbv beta iota; rewrite (madd1C x1 w'); case: (madd1 w' x1 _) => ? ?; cbv beta iota; rewrite (madd1C x2 w'); case: (madd1 w' x2 _) => ? ?; cbv beta iota; rewrite (madd1C x3 w'); case: (madd1 w' x3 _) => ? ?; cbv beta iota;  case: (w <? 0)%Z; [exact: text4_negL|by []]. Qed.
Theorem text4_linearCombNonModular x0 x1 x2 x3 c y0 y1 y2 y3 d :
  linearCombNonModular [:: x0; x1; x2; x3] c [:: y0; y1; y2; y3] d =
  let: (s0, s1, s2, s3, s4) := lc x0 x1 x2 x3 c y0 y1 y2 y3 d in ([:: s0; s1; s2; s3], s4).
Proof. rewrite /linearCombNonModular /lc !text4_mulWNonModular; case: (mulW y0 y1 y2 y3 d) => [[[[v0 v1] v2] v3] v4]; case: (mulW x0 x1 x2 x3 c) => [[[[w0 w1] w2] w3] w4]; clear; unroll2 (@less4). Qed.
Lemma mrs_r0E q0 q1 q2 q3 qi r one co k b x0 x1 x2 x3 h rest :
  sosRound (Gen [:: q0; q1; q2; q3] qi r one co k false b) (x0::x1::x2::x3::h::rest) false =
  let: (s0, s1, s2, s3) := mrs_r0 q0 q1 q2 q3 qi x0 x1 x2 x3 h in s0::s1::s2::s3::rest.
Proof. rewrite /mrs_r0; unroll2 (@less4). Qed.
Lemma mrs_r1E q0 q1 q2 q3 qi r one co k b t1 t2 t3 t4 t5 rest :
  sosRound (Gen [:: q0; q1; q2; q3] qi r one co k false b) (t1::t2::t3::t4::t5::rest) false =
  let: (s0, s1, s2, s3) := mrs_r1 q0 q1 q2 q3 qi t1 t2 t3 t4 t5 in s0::s1::s2::s3::rest.
Proof. rewrite /mrs_r1; unroll2 (@less4). Qed.
Lemma mrs_r2E q0 q1 q2 q3 qi r one co k b t2 t3 t4 t5 t6 rest :
  sosRound (Gen [:: q0; q1; q2; q3] qi r one co k false b) (t2::t3::t4::t5::t6::rest) false =
  let: (s0, s1, s2, s3) := mrs_r2 q0 q1 q2 q3 qi t2 t3 t4 t5 t6 in s0::s1::s2::s3::rest.
Proof. rewrite /mrs_r2; unroll2 (@less4). Qed.
Lemma mrs_r3E q0 q1 q2 q3 qi r one co k b t3 t4 t5 t6 :
  sosRound (Gen [:: q0; q1; q2; q3] qi r one co k false b) (t3::t4::t5::t6::[::]) true =
  let: (s0, s1, s2, s3) := mrs_r3 q0 q1 q2 q3 qi t3 t4 t5 t6 in [:: s0; s1; s2; s3].
Proof. rewrite /mrs_r3; unroll2 (@less4). Qed.
Theorem text4_montReduceSigned q0 q1 q2 q3 qi r one co k b x0 x1 x2 x3 h :
  montReduceSigned (Gen [:: q0; q1; q2; q3] qi r one co k false b) [:: x0; x1; x2; x3] h =
  mrs q0 q1 q2 q3 qi x0 x1 x2 x3 h.
Proof. 
rewrite /montReduceSigned /mrs /Limbs; cbn [iter qs size predn subn subn_rec Nat.sub nseq ncons cat]; cbv zeta.
rewrite mrs_r0E; case: (mrs_r0 _ _ _ _ _ _ _ _ _ _) => [[[a0_0 a0_1] a0_2] a0_3]; cbv beta iota.
rewrite mrs_r1E; case: (mrs_r1 _ _ _ _ _ _ _ _ _ _) => [[[a1_0 a1_1] a1_2] a1_3]; cbv beta iota.
rewrite mrs_r2E; case: (mrs_r2 _ _ _ _ _ _ _ _ _ _) => [[[a2_0 a2_1] a2_2] a2_3]; cbv beta iota.
rewrite mrs_r3E; case: (mrs_r3 _ _ _ _ _ _ _ _ _) => [[[a3_0 a3_1] a3_2] a3_3]; cbv beta iota.
unroll2 (@less4).
 Qed.
Theorem text4_shift_a x0 x1 x2 x3 h :
  shr31 [:: x0; x1; x2; x3] h =
  shift_a x0 x1 x2 x3 h.
Proof. by []. Qed.
Theorem text4_shift_b x0 x1 x2 x3 h :
  shr31 [:: x0; x1; x2; x3] h =
  shift_b x0 x1 x2 x3 h.
Proof. by []. Qed.
