(** The generated text of the field types, word by word: C87, C109.

    Add, Sub, Double, Neg, _mulGeneric, Mul (the text compiled when no assembly is used), Square and
    fromMont of all seven packages; then NotEqual, FitsOnOneWord, Cmp, BitLen, Select, Halve and the
    helpers of Inverse.  The texts are in ZpUnrolled*.v, written by a script from the Go
    files; the recursions are those of ZpModel.v and ElemModel.v.  The texts of jindo/internal/zp and
    examples/bfv/zp are those of buckler/internal/zp220 up to line numbers (compared by the script). *)
From Coq Require Import ZArith.
From mathcomp Require Import all_ssreflect zify ssrZ.
From Verif Require Import JindoIntModel ZpModel ZpConst ZpUnrolled2 ZpUnrolled4 ZpUnrolled7 ZpUnrolled14 ZpUnrolledMult
  ElemModel ZpText2 ZpText4 ZpText7 ZpText14 ZpTextMult.
Set Implicit Arguments. Unset Strict Implicit. Unset Printing Implicit Defensive.
Delimit Scope Z_scope with Z.

(** buckler/internal/zp110 *)
Theorem C87_zp110 g : g = zp110 -> forall x0 x1
  y0 y1,
  let x := [:: x0; x1] in
  let y := [:: y0; y1] in
  let q0 := nth 0%Z (qs g) 0 in
  let q1 := nth 0%Z (qs g) 1 in
  let qi := qInvNeg g in
  [/\ Add g x y = ZpUnrolled2.add q0 q1 x0 x1 y0 y1,
      Sub g x y = ZpUnrolled2.sub q0 q1 x0 x1 y0 y1,
      Double g x = ZpUnrolled2.double q0 q1 x0 x1 &
      Neg g x = ZpUnrolled2.neg q0 q1 x0 x1] /\
  [/\ mulGeneric g x y = ZpUnrolled2.mulG q0 q1 qi x0 x1 y0 y1,
      Mul g x y = ZpUnrolled2.mulP q0 q1 qi x0 x1 y0 y1,
      Square g x = ZpUnrolled2.square q0 q1 qi x0 x1 &
      fromMont g x = ZpUnrolled2.from q0 q1 qi x0 x1].
Proof.
move=> -> *; split; split; [exact: unrolled2_Add|exact: unrolled2_Sub|exact: unrolled2_Double|exact: unrolled2_Neg
  |exact: unrolled2_mulGeneric|exact: unrolled2_Mul|exact: unrolled2_Square|exact: unrolled2_fromMont].
Qed.

(** buckler/internal/zp220, jindo/internal/zp and examples/bfv/zp, whose texts are the same *)
Theorem C87_zp220 g : g = zp220 \/ g = jindoZp \/ g = bfvZp -> forall x0 x1 x2 x3
  y0 y1 y2 y3,
  let x := [:: x0; x1; x2; x3] in
  let y := [:: y0; y1; y2; y3] in
  let q0 := nth 0%Z (qs g) 0 in
  let q1 := nth 0%Z (qs g) 1 in
  let q2 := nth 0%Z (qs g) 2 in
  let q3 := nth 0%Z (qs g) 3 in
  let qi := qInvNeg g in
  [/\ Add g x y = ZpUnrolled4.add q0 q1 q2 q3 x0 x1 x2 x3 y0 y1 y2 y3,
      Sub g x y = ZpUnrolled4.sub q0 q1 q2 q3 x0 x1 x2 x3 y0 y1 y2 y3,
      Double g x = ZpUnrolled4.double q0 q1 q2 q3 x0 x1 x2 x3 &
      Neg g x = ZpUnrolled4.neg q0 q1 q2 q3 x0 x1 x2 x3] /\
  [/\ mulGeneric g x y = ZpUnrolled4.mulG q0 q1 q2 q3 qi x0 x1 x2 x3 y0 y1 y2 y3,
      Mul g x y = ZpUnrolled4.mulP q0 q1 q2 q3 qi x0 x1 x2 x3 y0 y1 y2 y3,
      Square g x = ZpUnrolled4.square q0 q1 q2 q3 qi x0 x1 x2 x3 &
      fromMont g x = ZpUnrolled4.from q0 q1 q2 q3 qi x0 x1 x2 x3].
Proof.
case=> [->|[->|->]] *.
- split; split; [exact: unrolled4_Add|exact: unrolled4_Sub|exact: unrolled4_Double|exact: unrolled4_Neg
  |exact: unrolled4_mulGeneric|exact: unrolled4_Mul|exact: unrolled4_Square|exact: unrolled4_fromMont].
- split; split; [exact: unrolled4_Add|exact: unrolled4_Sub|exact: unrolled4_Double|exact: unrolled4_Neg
  |exact: unrolled4_mulGeneric|exact: unrolled4_Mul|exact: unrolled4_Square|exact: unrolled4_fromMont].
- split; split; [exact: unrolled4_Add|exact: unrolled4_Sub|exact: unrolled4_Double|exact: unrolled4_Neg
  |exact: unrolled4_mulGeneric|exact: unrolled4_Mul|exact: unrolled4_Square|exact: unrolled4_fromMont].
Qed.

(** buckler/internal/zp440 *)
Theorem C87_zp440 g : g = zp440 -> forall x0 x1 x2 x3 x4 x5 x6
  y0 y1 y2 y3 y4 y5 y6,
  let x := [:: x0; x1; x2; x3; x4; x5; x6] in
  let y := [:: y0; y1; y2; y3; y4; y5; y6] in
  let q0 := nth 0%Z (qs g) 0 in
  let q1 := nth 0%Z (qs g) 1 in
  let q2 := nth 0%Z (qs g) 2 in
  let q3 := nth 0%Z (qs g) 3 in
  let q4 := nth 0%Z (qs g) 4 in
  let q5 := nth 0%Z (qs g) 5 in
  let q6 := nth 0%Z (qs g) 6 in
  let qi := qInvNeg g in
  [/\ Add g x y = ZpUnrolled7.add q0 q1 q2 q3 q4 q5 q6 x0 x1 x2 x3 x4 x5 x6 y0 y1 y2 y3 y4 y5 y6,
      Sub g x y = ZpUnrolled7.sub q0 q1 q2 q3 q4 q5 q6 x0 x1 x2 x3 x4 x5 x6 y0 y1 y2 y3 y4 y5 y6,
      Double g x = ZpUnrolled7.double q0 q1 q2 q3 q4 q5 q6 x0 x1 x2 x3 x4 x5 x6 &
      Neg g x = ZpUnrolled7.neg q0 q1 q2 q3 q4 q5 q6 x0 x1 x2 x3 x4 x5 x6] /\
  [/\ mulGeneric g x y = ZpUnrolled7.mulG q0 q1 q2 q3 q4 q5 q6 qi x0 x1 x2 x3 x4 x5 x6 y0 y1 y2 y3 y4 y5 y6,
      Mul g x y = ZpUnrolled7.mulP q0 q1 q2 q3 q4 q5 q6 qi x0 x1 x2 x3 x4 x5 x6 y0 y1 y2 y3 y4 y5 y6,
      Square g x = ZpUnrolled7.square q0 q1 q2 q3 q4 q5 q6 qi x0 x1 x2 x3 x4 x5 x6 &
      fromMont g x = ZpUnrolled7.from q0 q1 q2 q3 q4 q5 q6 qi x0 x1 x2 x3 x4 x5 x6].
Proof.
move=> -> *; split; split; [exact: unrolled7_Add|exact: unrolled7_Sub|exact: unrolled7_Double|exact: unrolled7_Neg
  |exact: unrolled7_mulGeneric|exact: unrolled7_Mul|exact: unrolled7_Square|exact: unrolled7_fromMont].
Qed.

(** buckler/internal/zp880 *)
Theorem C87_zp880 g : g = zp880 -> forall x0 x1 x2 x3 x4 x5 x6 x7 x8 x9 x10 x11 x12 x13
  y0 y1 y2 y3 y4 y5 y6 y7 y8 y9 y10 y11 y12 y13,
  let x := [:: x0; x1; x2; x3; x4; x5; x6; x7; x8; x9; x10; x11; x12; x13] in
  let y := [:: y0; y1; y2; y3; y4; y5; y6; y7; y8; y9; y10; y11; y12; y13] in
  let q0 := nth 0%Z (qs g) 0 in
  let q1 := nth 0%Z (qs g) 1 in
  let q2 := nth 0%Z (qs g) 2 in
  let q3 := nth 0%Z (qs g) 3 in
  let q4 := nth 0%Z (qs g) 4 in
  let q5 := nth 0%Z (qs g) 5 in
  let q6 := nth 0%Z (qs g) 6 in
  let q7 := nth 0%Z (qs g) 7 in
  let q8 := nth 0%Z (qs g) 8 in
  let q9 := nth 0%Z (qs g) 9 in
  let q10 := nth 0%Z (qs g) 10 in
  let q11 := nth 0%Z (qs g) 11 in
  let q12 := nth 0%Z (qs g) 12 in
  let q13 := nth 0%Z (qs g) 13 in
  let qi := qInvNeg g in
  [/\ Add g x y = ZpUnrolled14.add q0 q1 q2 q3 q4 q5 q6 q7 q8 q9 q10 q11 q12 q13 x0 x1 x2 x3 x4 x5 x6 x7 x8 x9 x10 x11 x12 x13 y0 y1 y2 y3 y4 y5 y6 y7 y8 y9 y10 y11 y12 y13,
      Sub g x y = ZpUnrolled14.sub q0 q1 q2 q3 q4 q5 q6 q7 q8 q9 q10 q11 q12 q13 x0 x1 x2 x3 x4 x5 x6 x7 x8 x9 x10 x11 x12 x13 y0 y1 y2 y3 y4 y5 y6 y7 y8 y9 y10 y11 y12 y13,
      Double g x = ZpUnrolled14.double q0 q1 q2 q3 q4 q5 q6 q7 q8 q9 q10 q11 q12 q13 x0 x1 x2 x3 x4 x5 x6 x7 x8 x9 x10 x11 x12 x13 &
      Neg g x = ZpUnrolled14.neg q0 q1 q2 q3 q4 q5 q6 q7 q8 q9 q10 q11 q12 q13 x0 x1 x2 x3 x4 x5 x6 x7 x8 x9 x10 x11 x12 x13] /\
  [/\ mulGeneric g x y = ZpUnrolled14.mulG q0 q1 q2 q3 q4 q5 q6 q7 q8 q9 q10 q11 q12 q13 qi x0 x1 x2 x3 x4 x5 x6 x7 x8 x9 x10 x11 x12 x13 y0 y1 y2 y3 y4 y5 y6 y7 y8 y9 y10 y11 y12 y13,
      Mul g x y = ZpUnrolled14.mulP q0 q1 q2 q3 q4 q5 q6 q7 q8 q9 q10 q11 q12 q13 qi x0 x1 x2 x3 x4 x5 x6 x7 x8 x9 x10 x11 x12 x13 y0 y1 y2 y3 y4 y5 y6 y7 y8 y9 y10 y11 y12 y13,
      Square g x = ZpUnrolled14.square q0 q1 q2 q3 q4 q5 q6 q7 q8 q9 q10 q11 q12 q13 qi x0 x1 x2 x3 x4 x5 x6 x7 x8 x9 x10 x11 x12 x13 &
      fromMont g x = ZpUnrolled14.from q0 q1 q2 q3 q4 q5 q6 q7 q8 q9 q10 q11 q12 q13 qi x0 x1 x2 x3 x4 x5 x6 x7 x8 x9 x10 x11 x12 x13].
Proof.
move=> -> *; split; split; [exact: unrolled14_Add|exact: unrolled14_Sub|exact: unrolled14_Double|exact: unrolled14_Neg
  |exact: unrolled14_mulGeneric|exact: unrolled14_Mul|exact: unrolled14_Square|exact: unrolled14_fromMont].
Qed.

(** examples/mult/zp *)
Theorem C87_multZp g : g = multZp -> forall x0 x1
  y0 y1,
  let x := [:: x0; x1] in
  let y := [:: y0; y1] in
  let q0 := nth 0%Z (qs g) 0 in
  let q1 := nth 0%Z (qs g) 1 in
  let qi := qInvNeg g in
  [/\ Add g x y = ZpUnrolledMult.add q0 q1 x0 x1 y0 y1,
      Sub g x y = ZpUnrolledMult.sub q0 q1 x0 x1 y0 y1,
      Double g x = ZpUnrolledMult.double q0 q1 x0 x1 &
      Neg g x = ZpUnrolledMult.neg q0 q1 x0 x1] /\
  [/\ mulGeneric g x y = ZpUnrolledMult.mulG q0 q1 qi x0 x1 y0 y1,
      Mul g x y = ZpUnrolledMult.mulP q0 q1 qi x0 x1 y0 y1,
      Square g x = ZpUnrolledMult.square q0 q1 qi x0 x1 &
      fromMont g x = ZpUnrolledMult.from q0 q1 qi x0 x1].
Proof.
move=> -> *; split; split; [exact: unrolledMult_Add|exact: unrolledMult_Sub|exact: unrolledMult_Double|exact: unrolledMult_Neg
  |exact: unrolledMult_mulGeneric|exact: unrolledMult_Mul|exact: unrolledMult_Square|exact: unrolledMult_fromMont].
Qed.

(** * C109: the rest of the unrolled statements *)

(** buckler/internal/zp110 *)
Theorem C109_zp110 g : g = zp110 -> forall x0 x1
  y0 y1 h c d,
  let x := [:: x0; x1] in
  let y := [:: y0; y1] in
  let q0 := nth 0%Z (qs g) 0 in
  let q1 := nth 0%Z (qs g) 1 in
  let qi := qInvNeg g in
  [/\ NotEqual x y = ZpText2.notEqual x0 x1 y0 y1,
      FitsOnOneWord x = ZpText2.fitsOnOneWord x0 x1,
      cmpLimbs x y = ZpText2.cmp x0 x1 y0 y1 &
      BitLenWords x = ZpText2.bitLen_ x0 x1] /\
  [/\ Select c x y = ZpText2.select c x0 x1 y0 y1 &
      Halve g x = ZpText2.halve q0 q1 x0 x1] /\
  [/\ negL x h = (let: (s0, s1, s2) := ZpText2.negl x0 x1 h in ([:: s0; s1], s2)),
      mulWNonModular x c = (let: (s0, s1, s2) := ZpText2.mulW x0 x1 c in ([:: s0; s1], s2)) &
      linearCombNonModular x c y d = (let: (s0, s1, s2) := ZpText2.lc x0 x1 c y0 y1 d in ([:: s0; s1], s2))] /\
  [/\ montReduceSigned g x h = ZpText2.mrs q0 q1 qi x0 x1 h,
      shr31 x h = ZpText2.shift_a x0 x1 h & shr31 x h = ZpText2.shift_b x0 x1 h].
Proof.
move=> -> *; split; [split; [exact: text2_NotEqual|exact: text2_FitsOnOneWord|exact: text2_cmpLimbs|exact: text2_BitLen]|].
split; [split; [exact: text2_Select|exact: text2_Halve]|].
split; split; [exact: text2_negL|exact: text2_mulWNonModular|exact: text2_linearCombNonModular
  |exact: text2_montReduceSigned|exact: text2_shift_a|exact: text2_shift_b].
Qed.

(** buckler/internal/zp220, jindo/internal/zp and examples/bfv/zp *)
Theorem C109_zp220 g : g = zp220 \/ g = jindoZp \/ g = bfvZp -> forall x0 x1 x2 x3
  y0 y1 y2 y3 h c d,
  let x := [:: x0; x1; x2; x3] in
  let y := [:: y0; y1; y2; y3] in
  let q0 := nth 0%Z (qs g) 0 in
  let q1 := nth 0%Z (qs g) 1 in
  let q2 := nth 0%Z (qs g) 2 in
  let q3 := nth 0%Z (qs g) 3 in
  let qi := qInvNeg g in
  [/\ NotEqual x y = ZpText4.notEqual x0 x1 x2 x3 y0 y1 y2 y3,
      FitsOnOneWord x = ZpText4.fitsOnOneWord x0 x1 x2 x3,
      cmpLimbs x y = ZpText4.cmp x0 x1 x2 x3 y0 y1 y2 y3 &
      BitLenWords x = ZpText4.bitLen_ x0 x1 x2 x3] /\
  [/\ Select c x y = ZpText4.select c x0 x1 x2 x3 y0 y1 y2 y3 &
      Halve g x = ZpText4.halve q0 q1 q2 q3 x0 x1 x2 x3] /\
  [/\ negL x h = (let: (s0, s1, s2, s3, s4) := ZpText4.negl x0 x1 x2 x3 h in ([:: s0; s1; s2; s3], s4)),
      mulWNonModular x c = (let: (s0, s1, s2, s3, s4) := ZpText4.mulW x0 x1 x2 x3 c in ([:: s0; s1; s2; s3], s4)) &
      linearCombNonModular x c y d = (let: (s0, s1, s2, s3, s4) := ZpText4.lc x0 x1 x2 x3 c y0 y1 y2 y3 d in ([:: s0; s1; s2; s3], s4))] /\
  [/\ montReduceSigned g x h = ZpText4.mrs q0 q1 q2 q3 qi x0 x1 x2 x3 h,
      shr31 x h = ZpText4.shift_a x0 x1 x2 x3 h & shr31 x h = ZpText4.shift_b x0 x1 x2 x3 h].
Proof.
case=> [->|[->|->]] *.
- split; [split; [exact: text4_NotEqual|exact: text4_FitsOnOneWord|exact: text4_cmpLimbs|exact: text4_BitLen]|].
split; [split; [exact: text4_Select|exact: text4_Halve]|].
split; split; [exact: text4_negL|exact: text4_mulWNonModular|exact: text4_linearCombNonModular
  |exact: text4_montReduceSigned|exact: text4_shift_a|exact: text4_shift_b].
- split; [split; [exact: text4_NotEqual|exact: text4_FitsOnOneWord|exact: text4_cmpLimbs|exact: text4_BitLen]|].
split; [split; [exact: text4_Select|exact: text4_Halve]|].
split; split; [exact: text4_negL|exact: text4_mulWNonModular|exact: text4_linearCombNonModular
  |exact: text4_montReduceSigned|exact: text4_shift_a|exact: text4_shift_b].
- split; [split; [exact: text4_NotEqual|exact: text4_FitsOnOneWord|exact: text4_cmpLimbs|exact: text4_BitLen]|].
split; [split; [exact: text4_Select|exact: text4_Halve]|].
split; split; [exact: text4_negL|exact: text4_mulWNonModular|exact: text4_linearCombNonModular
  |exact: text4_montReduceSigned|exact: text4_shift_a|exact: text4_shift_b].
Qed.

(** buckler/internal/zp440 *)
Theorem C109_zp440 g : g = zp440 -> forall x0 x1 x2 x3 x4 x5 x6
  y0 y1 y2 y3 y4 y5 y6 h c d,
  let x := [:: x0; x1; x2; x3; x4; x5; x6] in
  let y := [:: y0; y1; y2; y3; y4; y5; y6] in
  let q0 := nth 0%Z (qs g) 0 in
  let q1 := nth 0%Z (qs g) 1 in
  let q2 := nth 0%Z (qs g) 2 in
  let q3 := nth 0%Z (qs g) 3 in
  let q4 := nth 0%Z (qs g) 4 in
  let q5 := nth 0%Z (qs g) 5 in
  let q6 := nth 0%Z (qs g) 6 in
  let qi := qInvNeg g in
  [/\ NotEqual x y = ZpText7.notEqual x0 x1 x2 x3 x4 x5 x6 y0 y1 y2 y3 y4 y5 y6,
      FitsOnOneWord x = ZpText7.fitsOnOneWord x0 x1 x2 x3 x4 x5 x6,
      cmpLimbs x y = ZpText7.cmp x0 x1 x2 x3 x4 x5 x6 y0 y1 y2 y3 y4 y5 y6 &
      BitLenWords x = ZpText7.bitLen_ x0 x1 x2 x3 x4 x5 x6] /\
  [/\ Select c x y = ZpText7.select c x0 x1 x2 x3 x4 x5 x6 y0 y1 y2 y3 y4 y5 y6 &
      Halve g x = ZpText7.halve q0 q1 q2 q3 q4 q5 q6 x0 x1 x2 x3 x4 x5 x6] /\
  [/\ negL x h = (let: (s0, s1, s2, s3, s4, s5, s6, s7) := ZpText7.negl x0 x1 x2 x3 x4 x5 x6 h in ([:: s0; s1; s2; s3; s4; s5; s6], s7)),
      mulWNonModular x c = (let: (s0, s1, s2, s3, s4, s5, s6, s7) := ZpText7.mulW x0 x1 x2 x3 x4 x5 x6 c in ([:: s0; s1; s2; s3; s4; s5; s6], s7)) &
      linearCombNonModular x c y d = (let: (s0, s1, s2, s3, s4, s5, s6, s7) := ZpText7.lc x0 x1 x2 x3 x4 x5 x6 c y0 y1 y2 y3 y4 y5 y6 d in ([:: s0; s1; s2; s3; s4; s5; s6], s7))] /\
  [/\ montReduceSigned g x h = ZpText7.mrs q0 q1 q2 q3 q4 q5 q6 qi x0 x1 x2 x3 x4 x5 x6 h,
      shr31 x h = ZpText7.shift_a x0 x1 x2 x3 x4 x5 x6 h & shr31 x h = ZpText7.shift_b x0 x1 x2 x3 x4 x5 x6 h].
Proof.
move=> -> *; split; [split; [exact: text7_NotEqual|exact: text7_FitsOnOneWord|exact: text7_cmpLimbs|exact: text7_BitLen]|].
split; [split; [exact: text7_Select|exact: text7_Halve]|].
split; split; [exact: text7_negL|exact: text7_mulWNonModular|exact: text7_linearCombNonModular
  |exact: text7_montReduceSigned|exact: text7_shift_a|exact: text7_shift_b].
Qed.

(** buckler/internal/zp880 *)
Theorem C109_zp880 g : g = zp880 -> forall x0 x1 x2 x3 x4 x5 x6 x7 x8 x9 x10 x11 x12 x13
  y0 y1 y2 y3 y4 y5 y6 y7 y8 y9 y10 y11 y12 y13 h c d,
  let x := [:: x0; x1; x2; x3; x4; x5; x6; x7; x8; x9; x10; x11; x12; x13] in
  let y := [:: y0; y1; y2; y3; y4; y5; y6; y7; y8; y9; y10; y11; y12; y13] in
  let q0 := nth 0%Z (qs g) 0 in
  let q1 := nth 0%Z (qs g) 1 in
  let q2 := nth 0%Z (qs g) 2 in
  let q3 := nth 0%Z (qs g) 3 in
  let q4 := nth 0%Z (qs g) 4 in
  let q5 := nth 0%Z (qs g) 5 in
  let q6 := nth 0%Z (qs g) 6 in
  let q7 := nth 0%Z (qs g) 7 in
  let q8 := nth 0%Z (qs g) 8 in
  let q9 := nth 0%Z (qs g) 9 in
  let q10 := nth 0%Z (qs g) 10 in
  let q11 := nth 0%Z (qs g) 11 in
  let q12 := nth 0%Z (qs g) 12 in
  let q13 := nth 0%Z (qs g) 13 in
  let qi := qInvNeg g in
  [/\ NotEqual x y = ZpText14.notEqual x0 x1 x2 x3 x4 x5 x6 x7 x8 x9 x10 x11 x12 x13 y0 y1 y2 y3 y4 y5 y6 y7 y8 y9 y10 y11 y12 y13,
      FitsOnOneWord x = ZpText14.fitsOnOneWord x0 x1 x2 x3 x4 x5 x6 x7 x8 x9 x10 x11 x12 x13,
      cmpLimbs x y = ZpText14.cmp x0 x1 x2 x3 x4 x5 x6 x7 x8 x9 x10 x11 x12 x13 y0 y1 y2 y3 y4 y5 y6 y7 y8 y9 y10 y11 y12 y13 &
      BitLenWords x = ZpText14.bitLen_ x0 x1 x2 x3 x4 x5 x6 x7 x8 x9 x10 x11 x12 x13] /\
  [/\ Select c x y = ZpText14.select c x0 x1 x2 x3 x4 x5 x6 x7 x8 x9 x10 x11 x12 x13 y0 y1 y2 y3 y4 y5 y6 y7 y8 y9 y10 y11 y12 y13 &
      Halve g x = ZpText14.halve q0 q1 q2 q3 q4 q5 q6 q7 q8 q9 q10 q11 q12 q13 x0 x1 x2 x3 x4 x5 x6 x7 x8 x9 x10 x11 x12 x13] /\
  [/\ negL x h = (let: (s0, s1, s2, s3, s4, s5, s6, s7, s8, s9, s10, s11, s12, s13, s14) := ZpText14.negl x0 x1 x2 x3 x4 x5 x6 x7 x8 x9 x10 x11 x12 x13 h in ([:: s0; s1; s2; s3; s4; s5; s6; s7; s8; s9; s10; s11; s12; s13], s14)),
      mulWNonModular x c = (let: (s0, s1, s2, s3, s4, s5, s6, s7, s8, s9, s10, s11, s12, s13, s14) := ZpText14.mulW x0 x1 x2 x3 x4 x5 x6 x7 x8 x9 x10 x11 x12 x13 c in ([:: s0; s1; s2; s3; s4; s5; s6; s7; s8; s9; s10; s11; s12; s13], s14)) &
      linearCombNonModular x c y d = (let: (s0, s1, s2, s3, s4, s5, s6, s7, s8, s9, s10, s11, s12, s13, s14) := ZpText14.lc x0 x1 x2 x3 x4 x5 x6 x7 x8 x9 x10 x11 x12 x13 c y0 y1 y2 y3 y4 y5 y6 y7 y8 y9 y10 y11 y12 y13 d in ([:: s0; s1; s2; s3; s4; s5; s6; s7; s8; s9; s10; s11; s12; s13], s14))] /\
  [/\ montReduceSigned g x h = ZpText14.mrs q0 q1 q2 q3 q4 q5 q6 q7 q8 q9 q10 q11 q12 q13 qi x0 x1 x2 x3 x4 x5 x6 x7 x8 x9 x10 x11 x12 x13 h,
      shr31 x h = ZpText14.shift_a x0 x1 x2 x3 x4 x5 x6 x7 x8 x9 x10 x11 x12 x13 h & shr31 x h = ZpText14.shift_b x0 x1 x2 x3 x4 x5 x6 x7 x8 x9 x10 x11 x12 x13 h].
Proof.
move=> -> *; split; [split; [exact: text14_NotEqual|exact: text14_FitsOnOneWord|exact: text14_cmpLimbs|exact: text14_BitLen]|].
split; [split; [exact: text14_Select|exact: text14_Halve]|].
split; split; [exact: text14_negL|exact: text14_mulWNonModular|exact: text14_linearCombNonModular
  |exact: text14_montReduceSigned|exact: text14_shift_a|exact: text14_shift_b].
Qed.

(** examples/mult/zp, whose Inverse is inverseExp *)
Theorem C109_multZp g : g = multZp -> forall x0 x1
  y0 y1 c,
  let x := [:: x0; x1] in
  let y := [:: y0; y1] in
  let q0 := nth 0%Z (qs g) 0 in
  let q1 := nth 0%Z (qs g) 1 in
  let qi := qInvNeg g in
  [/\ NotEqual x y = ZpTextMult.notEqual x0 x1 y0 y1,
      FitsOnOneWord x = ZpTextMult.fitsOnOneWord x0 x1,
      cmpLimbs x y = ZpTextMult.cmp x0 x1 y0 y1 &
      BitLenWords x = ZpTextMult.bitLen_ x0 x1] /\
  [/\ Select c x y = ZpTextMult.select c x0 x1 y0 y1 &
      Halve g x = ZpTextMult.halve q0 q1 x0 x1].
Proof.
move=> -> *; split; [split; [exact: textMult_NotEqual|exact: textMult_FitsOnOneWord|exact: textMult_cmpLimbs|exact: textMult_BitLen]|].
split; [exact: textMult_Select|exact: textMult_Halve].
Qed.

(** * Concrete cases *)

(** the texts run: 2 * 3 and 1 / 2 in zp110, on the Montgomery representatives *)
Example ex_text : let q0 := nth 0%Z (qs zp110) 0 in let q1 := nth 0%Z (qs zp110) 1 in
  [/\ ZpUnrolled2.mulP q0 q1 (qInvNeg zp110) 2 0 3 0 = Mul zp110 [:: 2; 0]%Z [:: 3; 0]%Z,
      ZpUnrolled2.mulP q0 q1 (qInvNeg zp110) 2 0 3 0 != [:: 6; 0]%Z,
      ZpText2.halve q0 q1 1 0 = [:: (q0 / 2 + 1 + (q1 mod 2) * 2 ^ 63)%Z; (q1 / 2)%Z] &
      ZpText2.cmp 1 2 2 1 = 1%Z].
Proof. by vm_compute. Qed.
Example ex_text14 : ZpText14.bitLen_ 5 0 0 0 0 0 0 0 0 0 0 0 9 0 = 772 /\
  ZpText14.cmp 5 0 0 0 0 0 0 0 0 0 0 0 9 0 6 0 0 0 0 0 0 0 0 0 0 0 9 0 = (-1)%Z.
Proof. by vm_compute. Qed.

Print Assumptions C87_zp110.
Print Assumptions C87_zp220.
Print Assumptions C87_zp440.
Print Assumptions C87_zp880.
Print Assumptions C87_multZp.
Print Assumptions C109_zp110.
Print Assumptions C109_zp220.
Print Assumptions C109_zp440.
Print Assumptions C109_zp880.
Print Assumptions C109_multZp.
