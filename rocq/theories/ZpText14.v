(** The unrolled text of buckler/internal/zp880, word by word, continued: Halve, Select, NotEqual,
    FitsOnOneWord, Cmp, BitLen and the helpers of Inverse.  One let per assignment; montReduceSigned
    is cut into its rounds.  The theorems say that the recursions of the model are these texts. *)
From Coq Require Import ZArith.
From mathcomp Require Import all_ssreflect.
From Verif Require Import JindoIntModel ZpModel ElemModel ZpUnrolledTac.
Set Implicit Arguments. Unset Strict Implicit. Unset Printing Implicit Defensive.
Delimit Scope Z_scope with Z.
Section Text.
Variables q0 q1 q2 q3 q4 q5 q6 q7 q8 q9 q10 q11 q12 q13 qInvNeg : Z.
(** element.go 475-477 *)
Definition smaller (z_0 z_1 z_2 z_3 z_4 z_5 z_6 z_7 z_8 z_9 z_10 z_11 z_12 z_13 : Z) : bool := ((z_13 <? q13)%Z || ((z_13 =? q13)%Z && ((z_12 <? q12)%Z || ((z_12 =? q12)%Z && ((z_11 <? q11)%Z || ((z_11 =? q11)%Z && ((z_10 <? q10)%Z || ((z_10 =? q10)%Z && ((z_9 <? q9)%Z || ((z_9 =? q9)%Z && ((z_8 <? q8)%Z || ((z_8 =? q8)%Z && ((z_7 <? q7)%Z || ((z_7 =? q7)%Z && ((z_6 <? q6)%Z || ((z_6 =? q6)%Z && ((z_5 <? q5)%Z || ((z_5 =? q5)%Z && ((z_4 <? q4)%Z || ((z_4 =? q4)%Z && ((z_3 <? q3)%Z || ((z_3 =? q3)%Z && ((z_2 <? q2)%Z || ((z_2 =? q2)%Z && ((z_1 <? q1)%Z || ((z_1 =? q1)%Z && ((z_0 <? q0)%Z))))))))))))))))))))))))))).
(** element.go 264-266 *)
Definition notEqual (z_0 z_1 z_2 z_3 z_4 z_5 z_6 z_7 z_8 z_9 z_10 z_11 z_12 z_13 x_0 x_1 x_2 x_3 x_4 x_5 x_6 x_7 x_8 x_9 x_10 x_11 x_12 x_13 : Z) : Z := (Z.lor (Z.lor (Z.lor (Z.lor (Z.lor (Z.lor (Z.lor (Z.lor (Z.lor (Z.lor (Z.lor (Z.lor (Z.lor (Z.lxor z_13 x_13) (Z.lxor z_12 x_12)) (Z.lxor z_11 x_11)) (Z.lxor z_10 x_10)) (Z.lxor z_9 x_9)) (Z.lxor z_8 x_8)) (Z.lxor z_7 x_7)) (Z.lxor z_6 x_6)) (Z.lxor z_5 x_5)) (Z.lxor z_4 x_4)) (Z.lxor z_3 x_3)) (Z.lxor z_2 x_2)) (Z.lxor z_1 x_1)) (Z.lxor z_0 x_0)).
(** element.go 293-295 *)
Definition fitsOnOneWord (z_0 z_1 z_2 z_3 z_4 z_5 z_6 z_7 z_8 z_9 z_10 z_11 z_12 z_13 : Z) : bool := ((Z.lor (Z.lor (Z.lor (Z.lor (Z.lor (Z.lor (Z.lor (Z.lor (Z.lor (Z.lor (Z.lor (Z.lor z_13 z_12) z_11) z_10) z_9) z_8) z_7) z_6) z_5) z_4) z_3) z_2) z_1) =? 0)%Z.
(** element.go 302-376, from the third line on *)
Definition cmp (z_0 z_1 z_2 z_3 z_4 z_5 z_6 z_7 z_8 z_9 z_10 z_11 z_12 z_13 x_0 x_1 x_2 x_3 x_4 x_5 x_6 x_7 x_8 x_9 x_10 x_11 x_12 x_13 : Z) : Z :=
  if (x_13 <? z_13)%Z then 1%Z else if (z_13 <? x_13)%Z then (-1)%Z else
  if (x_12 <? z_12)%Z then 1%Z else if (z_12 <? x_12)%Z then (-1)%Z else
  if (x_11 <? z_11)%Z then 1%Z else if (z_11 <? x_11)%Z then (-1)%Z else
  if (x_10 <? z_10)%Z then 1%Z else if (z_10 <? x_10)%Z then (-1)%Z else
  if (x_9 <? z_9)%Z then 1%Z else if (z_9 <? x_9)%Z then (-1)%Z else
  if (x_8 <? z_8)%Z then 1%Z else if (z_8 <? x_8)%Z then (-1)%Z else
  if (x_7 <? z_7)%Z then 1%Z else if (z_7 <? x_7)%Z then (-1)%Z else
  if (x_6 <? z_6)%Z then 1%Z else if (z_6 <? x_6)%Z then (-1)%Z else
  if (x_5 <? z_5)%Z then 1%Z else if (z_5 <? x_5)%Z then (-1)%Z else
  if (x_4 <? z_4)%Z then 1%Z else if (z_4 <? x_4)%Z then (-1)%Z else
  if (x_3 <? z_3)%Z then 1%Z else if (z_3 <? x_3)%Z then (-1)%Z else
  if (x_2 <? z_2)%Z then 1%Z else if (z_2 <? x_2)%Z then (-1)%Z else
  if (x_1 <? z_1)%Z then 1%Z else if (z_1 <? x_1)%Z then (-1)%Z else
  if (x_0 <? z_0)%Z then 1%Z else if (z_0 <? x_0)%Z then (-1)%Z else 0%Z.
(** element.go 1753-1794 *)
Definition bitLen_ (z_0 z_1 z_2 z_3 z_4 z_5 z_6 z_7 z_8 z_9 z_10 z_11 z_12 z_13 : Z) : nat :=
  if ~~ (z_13 =? 0)%Z then (832 + bitLen z_13)%N else
  if ~~ (z_12 =? 0)%Z then (768 + bitLen z_12)%N else
  if ~~ (z_11 =? 0)%Z then (704 + bitLen z_11)%N else
  if ~~ (z_10 =? 0)%Z then (640 + bitLen z_10)%N else
  if ~~ (z_9 =? 0)%Z then (576 + bitLen z_9)%N else
  if ~~ (z_8 =? 0)%Z then (512 + bitLen z_8)%N else
  if ~~ (z_7 =? 0)%Z then (448 + bitLen z_7)%N else
  if ~~ (z_6 =? 0)%Z then (384 + bitLen z_6)%N else
  if ~~ (z_5 =? 0)%Z then (320 + bitLen z_5)%N else
  if ~~ (z_4 =? 0)%Z then (256 + bitLen z_4)%N else
  if ~~ (z_3 =? 0)%Z then (192 + bitLen z_3)%N else
  if ~~ (z_2 =? 0)%Z then (128 + bitLen z_2)%N else
  if ~~ (z_1 =? 0)%Z then (64 + bitLen z_1)%N else bitLen z_0.
(** element.go 724-741; x0 is x, x1 is y *)
Definition select (c : Z) (x_0 x_1 x_2 x_3 x_4 x_5 x_6 x_7 x_8 x_9 x_10 x_11 x_12 x_13 y_0 y_1 y_2 y_3 y_4 y_5 y_6 y_7 y_8 y_9 y_10 y_11 y_12 y_13 : Z) : seq Z :=
  let cC := (Z.shiftr (Z.lor c (toInt64 (- c))) 63 mod W)%Z in
  let z_0 := Z.lxor x_0 (Z.land cC (Z.lxor x_0 y_0)) in
  let z_1 := Z.lxor x_1 (Z.land cC (Z.lxor x_1 y_1)) in
  let z_2 := Z.lxor x_2 (Z.land cC (Z.lxor x_2 y_2)) in
  let z_3 := Z.lxor x_3 (Z.land cC (Z.lxor x_3 y_3)) in
  let z_4 := Z.lxor x_4 (Z.land cC (Z.lxor x_4 y_4)) in
  let z_5 := Z.lxor x_5 (Z.land cC (Z.lxor x_5 y_5)) in
  let z_6 := Z.lxor x_6 (Z.land cC (Z.lxor x_6 y_6)) in
  let z_7 := Z.lxor x_7 (Z.land cC (Z.lxor x_7 y_7)) in
  let z_8 := Z.lxor x_8 (Z.land cC (Z.lxor x_8 y_8)) in
  let z_9 := Z.lxor x_9 (Z.land cC (Z.lxor x_9 y_9)) in
  let z_10 := Z.lxor x_10 (Z.land cC (Z.lxor x_10 y_10)) in
  let z_11 := Z.lxor x_11 (Z.land cC (Z.lxor x_11 y_11)) in
  let z_12 := Z.lxor x_12 (Z.land cC (Z.lxor x_12 y_12)) in
  let z_13 := Z.lxor x_13 (Z.land cC (Z.lxor x_13 y_13)) in
  [:: z_0; z_1; z_2; z_3; z_4; z_5; z_6; z_7; z_8; z_9; z_10; z_11; z_12; z_13].
(** element.go 487-530 *)
Definition halve (z_0 z_1 z_2 z_3 z_4 z_5 z_6 z_7 z_8 z_9 z_10 z_11 z_12 z_13 : Z) : seq Z :=
  let carry := 0%Z in
  let: (z_0, z_1, z_2, z_3, z_4, z_5, z_6, z_7, z_8, z_9, z_10, z_11, z_12, z_13, carry) := if (Z.land z_0 1 =? 1)%Z then
  let: (z_0, carry) := Add64 z_0 q0 0%Z in
  let: (z_1, carry) := Add64 z_1 q1 carry in
  let: (z_2, carry) := Add64 z_2 q2 carry in
  let: (z_3, carry) := Add64 z_3 q3 carry in
  let: (z_4, carry) := Add64 z_4 q4 carry in
  let: (z_5, carry) := Add64 z_5 q5 carry in
  let: (z_6, carry) := Add64 z_6 q6 carry in
  let: (z_7, carry) := Add64 z_7 q7 carry in
  let: (z_8, carry) := Add64 z_8 q8 carry in
  let: (z_9, carry) := Add64 z_9 q9 carry in
  let: (z_10, carry) := Add64 z_10 q10 carry in
  let: (z_11, carry) := Add64 z_11 q11 carry in
  let: (z_12, carry) := Add64 z_12 q12 carry in
  let: (z_13, carry) := Add64 z_13 q13 carry in
  (z_0, z_1, z_2, z_3, z_4, z_5, z_6, z_7, z_8, z_9, z_10, z_11, z_12, z_13, carry) else
  (z_0, z_1, z_2, z_3, z_4, z_5, z_6, z_7, z_8, z_9, z_10, z_11, z_12, z_13, carry) in
  let z_0 := Z.lor (Z.shiftr z_0 1) (Z.shiftl z_1 63 mod W)%Z in
  let z_1 := Z.lor (Z.shiftr z_1 1) (Z.shiftl z_2 63 mod W)%Z in
  let z_2 := Z.lor (Z.shiftr z_2 1) (Z.shiftl z_3 63 mod W)%Z in
  let z_3 := Z.lor (Z.shiftr z_3 1) (Z.shiftl z_4 63 mod W)%Z in
  let z_4 := Z.lor (Z.shiftr z_4 1) (Z.shiftl z_5 63 mod W)%Z in
  let z_5 := Z.lor (Z.shiftr z_5 1) (Z.shiftl z_6 63 mod W)%Z in
  let z_6 := Z.lor (Z.shiftr z_6 1) (Z.shiftl z_7 63 mod W)%Z in
  let z_7 := Z.lor (Z.shiftr z_7 1) (Z.shiftl z_8 63 mod W)%Z in
  let z_8 := Z.lor (Z.shiftr z_8 1) (Z.shiftl z_9 63 mod W)%Z in
  let z_9 := Z.lor (Z.shiftr z_9 1) (Z.shiftl z_10 63 mod W)%Z in
  let z_10 := Z.lor (Z.shiftr z_10 1) (Z.shiftl z_11 63 mod W)%Z in
  let z_11 := Z.lor (Z.shiftr z_11 1) (Z.shiftl z_12 63 mod W)%Z in
  let z_12 := Z.lor (Z.shiftr z_12 1) (Z.shiftl z_13 63 mod W)%Z in
  let z_13 := Z.shiftr z_13 1 in
  if ~~ (carry =? 0)%Z then
  let z_13 := Z.lor z_13 (2 ^ 63)%Z in
  [:: z_0; z_1; z_2; z_3; z_4; z_5; z_6; z_7; z_8; z_9; z_10; z_11; z_12; z_13] else
  [:: z_0; z_1; z_2; z_3; z_4; z_5; z_6; z_7; z_8; z_9; z_10; z_11; z_12; z_13].
(** element.go 3218-3238 *)
Definition negl (x_0 x_1 x_2 x_3 x_4 x_5 x_6 x_7 x_8 x_9 x_10 x_11 x_12 x_13 xHi : Z) :=
  let b := 0%Z in
  let: (x_0, b) := Sub64 0%Z x_0 0%Z in
  let: (x_1, b) := Sub64 0%Z x_1 b in
  let: (x_2, b) := Sub64 0%Z x_2 b in
  let: (x_3, b) := Sub64 0%Z x_3 b in
  let: (x_4, b) := Sub64 0%Z x_4 b in
  let: (x_5, b) := Sub64 0%Z x_5 b in
  let: (x_6, b) := Sub64 0%Z x_6 b in
  let: (x_7, b) := Sub64 0%Z x_7 b in
  let: (x_8, b) := Sub64 0%Z x_8 b in
  let: (x_9, b) := Sub64 0%Z x_9 b in
  let: (x_10, b) := Sub64 0%Z x_10 b in
  let: (x_11, b) := Sub64 0%Z x_11 b in
  let: (x_12, b) := Sub64 0%Z x_12 b in
  let: (x_13, b) := Sub64 0%Z x_13 b in
  let: (xHi, _) := Sub64 0%Z xHi b in
  (x_0, x_1, x_2, x_3, x_4, x_5, x_6, x_7, x_8, x_9, x_10, x_11, x_12, x_13, xHi).
(** element.go 3241-3268 *)
Definition mulW (x_0 x_1 x_2 x_3 x_4 x_5 x_6 x_7 x_8 x_9 x_10 x_11 x_12 x_13 y : Z) :=
  let m := Z.shiftr y 63 in
  let w := ((Z.lxor y m - m) mod W)%Z in
  let c := 0%Z in
  let: (c, z_0) := Mul64 x_0 w in
  let: (c, z_1) := madd1 x_1 w c in
  let: (c, z_2) := madd1 x_2 w c in
  let: (c, z_3) := madd1 x_3 w c in
  let: (c, z_4) := madd1 x_4 w c in
  let: (c, z_5) := madd1 x_5 w c in
  let: (c, z_6) := madd1 x_6 w c in
  let: (c, z_7) := madd1 x_7 w c in
  let: (c, z_8) := madd1 x_8 w c in
  let: (c, z_9) := madd1 x_9 w c in
  let: (c, z_10) := madd1 x_10 w c in
  let: (c, z_11) := madd1 x_11 w c in
  let: (c, z_12) := madd1 x_12 w c in
  let: (c, z_13) := madd1 x_13 w c in
  if (y <? 0)%Z then negl z_0 z_1 z_2 z_3 z_4 z_5 z_6 z_7 z_8 z_9 z_10 z_11 z_12 z_13 c else (z_0, z_1, z_2, z_3, z_4, z_5, z_6, z_7, z_8, z_9, z_10, z_11, z_12, z_13, c).
(** element.go 3271-3296; yTimes is u *)
Definition lc (x_0 x_1 x_2 x_3 x_4 x_5 x_6 x_7 x_8 x_9 x_10 x_11 x_12 x_13 xC y_0 y_1 y_2 y_3 y_4 y_5 y_6 y_7 y_8 y_9 y_10 y_11 y_12 y_13 yC : Z) :=
  let: (u_0, u_1, u_2, u_3, u_4, u_5, u_6, u_7, u_8, u_9, u_10, u_11, u_12, u_13, yHi) := mulW y_0 y_1 y_2 y_3 y_4 y_5 y_6 y_7 y_8 y_9 y_10 y_11 y_12 y_13 yC in
  let: (z_0, z_1, z_2, z_3, z_4, z_5, z_6, z_7, z_8, z_9, z_10, z_11, z_12, z_13, xHi) := mulW x_0 x_1 x_2 x_3 x_4 x_5 x_6 x_7 x_8 x_9 x_10 x_11 x_12 x_13 xC in
  let carry := 0%Z in
  let: (z_0, carry) := Add64 z_0 u_0 0%Z in
  let: (z_1, carry) := Add64 z_1 u_1 carry in
  let: (z_2, carry) := Add64 z_2 u_2 carry in
  let: (z_3, carry) := Add64 z_3 u_3 carry in
  let: (z_4, carry) := Add64 z_4 u_4 carry in
  let: (z_5, carry) := Add64 z_5 u_5 carry in
  let: (z_6, carry) := Add64 z_6 u_6 carry in
  let: (z_7, carry) := Add64 z_7 u_7 carry in
  let: (z_8, carry) := Add64 z_8 u_8 carry in
  let: (z_9, carry) := Add64 z_9 u_9 carry in
  let: (z_10, carry) := Add64 z_10 u_10 carry in
  let: (z_11, carry) := Add64 z_11 u_11 carry in
  let: (z_12, carry) := Add64 z_12 u_12 carry in
  let: (z_13, carry) := Add64 z_13 u_13 carry in
  let: (yHi, _) := Add64 xHi yHi carry in
  (z_0, z_1, z_2, z_3, z_4, z_5, z_6, z_7, z_8, z_9, z_10, z_11, z_12, z_13, yHi).
(** element.go 2841-2865 *)
Definition mrs_r0 (x_0 x_1 x_2 x_3 x_4 x_5 x_6 x_7 x_8 x_9 x_10 x_11 x_12 x_13 xHi : Z) :=
  let m := ((x_0 * qInvNeg) mod W)%Z in
  let C := madd0 m q0 x_0 in
  let: (C, t_1) := madd2 m q1 x_1 C in
  let: (C, t_2) := madd2 m q2 x_2 C in
  let: (C, t_3) := madd2 m q3 x_3 C in
  let: (C, t_4) := madd2 m q4 x_4 C in
  let: (C, t_5) := madd2 m q5 x_5 C in
  let: (C, t_6) := madd2 m q6 x_6 C in
  let: (C, t_7) := madd2 m q7 x_7 C in
  let: (C, t_8) := madd2 m q8 x_8 C in
  let: (C, t_9) := madd2 m q9 x_9 C in
  let: (C, t_10) := madd2 m q10 x_10 C in
  let: (C, t_11) := madd2 m q11 x_11 C in
  let: (C, t_12) := madd2 m q12 x_12 C in
  let: (C, t_13) := madd2 m q13 x_13 C in
  let t_14 := ((xHi + C) mod W)%Z in
  (t_1, t_2, t_3, t_4, t_5, t_6, t_7, t_8, t_9, t_10, t_11, t_12, t_13, t_14).
(** element.go 2866-2886 *)
Definition mrs_r1 (t_1 t_2 t_3 t_4 t_5 t_6 t_7 t_8 t_9 t_10 t_11 t_12 t_13 t_14 t_15 : Z) :=
  let m := ((t_1 * qInvNeg) mod W)%Z in
  let C := madd0 m q0 t_1 in
  let: (C, t_2) := madd2 m q1 t_2 C in
  let: (C, t_3) := madd2 m q2 t_3 C in
  let: (C, t_4) := madd2 m q3 t_4 C in
  let: (C, t_5) := madd2 m q4 t_5 C in
  let: (C, t_6) := madd2 m q5 t_6 C in
  let: (C, t_7) := madd2 m q6 t_7 C in
  let: (C, t_8) := madd2 m q7 t_8 C in
  let: (C, t_9) := madd2 m q8 t_9 C in
  let: (C, t_10) := madd2 m q9 t_10 C in
  let: (C, t_11) := madd2 m q10 t_11 C in
  let: (C, t_12) := madd2 m q11 t_12 C in
  let: (C, t_13) := madd2 m q12 t_13 C in
  let: (C, t_14) := madd2 m q13 t_14 C in
  let t_15 := ((t_15 + C) mod W)%Z in
  (t_2, t_3, t_4, t_5, t_6, t_7, t_8, t_9, t_10, t_11, t_12, t_13, t_14, t_15).
(** element.go 2887-2907 *)
Definition mrs_r2 (t_2 t_3 t_4 t_5 t_6 t_7 t_8 t_9 t_10 t_11 t_12 t_13 t_14 t_15 t_16 : Z) :=
  let m := ((t_2 * qInvNeg) mod W)%Z in
  let C := madd0 m q0 t_2 in
  let: (C, t_3) := madd2 m q1 t_3 C in
  let: (C, t_4) := madd2 m q2 t_4 C in
  let: (C, t_5) := madd2 m q3 t_5 C in
  let: (C, t_6) := madd2 m q4 t_6 C in
  let: (C, t_7) := madd2 m q5 t_7 C in
  let: (C, t_8) := madd2 m q6 t_8 C in
  let: (C, t_9) := madd2 m q7 t_9 C in
  let: (C, t_10) := madd2 m q8 t_10 C in
  let: (C, t_11) := madd2 m q9 t_11 C in
  let: (C, t_12) := madd2 m q10 t_12 C in
  let: (C, t_13) := madd2 m q11 t_13 C in
  let: (C, t_14) := madd2 m q12 t_14 C in
  let: (C, t_15) := madd2 m q13 t_15 C in
  let t_16 := ((t_16 + C) mod W)%Z in
  (t_3, t_4, t_5, t_6, t_7, t_8, t_9, t_10, t_11, t_12, t_13, t_14, t_15, t_16).
(** element.go 2908-2928 *)
Definition mrs_r3 (t_3 t_4 t_5 t_6 t_7 t_8 t_9 t_10 t_11 t_12 t_13 t_14 t_15 t_16 t_17 : Z) :=
  let m := ((t_3 * qInvNeg) mod W)%Z in
  let C := madd0 m q0 t_3 in
  let: (C, t_4) := madd2 m q1 t_4 C in
  let: (C, t_5) := madd2 m q2 t_5 C in
  let: (C, t_6) := madd2 m q3 t_6 C in
  let: (C, t_7) := madd2 m q4 t_7 C in
  let: (C, t_8) := madd2 m q5 t_8 C in
  let: (C, t_9) := madd2 m q6 t_9 C in
  let: (C, t_10) := madd2 m q7 t_10 C in
  let: (C, t_11) := madd2 m q8 t_11 C in
  let: (C, t_12) := madd2 m q9 t_12 C in
  let: (C, t_13) := madd2 m q10 t_13 C in
  let: (C, t_14) := madd2 m q11 t_14 C in
  let: (C, t_15) := madd2 m q12 t_15 C in
  let: (C, t_16) := madd2 m q13 t_16 C in
  let t_17 := ((t_17 + C) mod W)%Z in
  (t_4, t_5, t_6, t_7, t_8, t_9, t_10, t_11, t_12, t_13, t_14, t_15, t_16, t_17).
(** element.go 2929-2949 *)
Definition mrs_r4 (t_4 t_5 t_6 t_7 t_8 t_9 t_10 t_11 t_12 t_13 t_14 t_15 t_16 t_17 t_18 : Z) :=
  let m := ((t_4 * qInvNeg) mod W)%Z in
  let C := madd0 m q0 t_4 in
  let: (C, t_5) := madd2 m q1 t_5 C in
  let: (C, t_6) := madd2 m q2 t_6 C in
  let: (C, t_7) := madd2 m q3 t_7 C in
  let: (C, t_8) := madd2 m q4 t_8 C in
  let: (C, t_9) := madd2 m q5 t_9 C in
  let: (C, t_10) := madd2 m q6 t_10 C in
  let: (C, t_11) := madd2 m q7 t_11 C in
  let: (C, t_12) := madd2 m q8 t_12 C in
  let: (C, t_13) := madd2 m q9 t_13 C in
  let: (C, t_14) := madd2 m q10 t_14 C in
  let: (C, t_15) := madd2 m q11 t_15 C in
  let: (C, t_16) := madd2 m q12 t_16 C in
  let: (C, t_17) := madd2 m q13 t_17 C in
  let t_18 := ((t_18 + C) mod W)%Z in
  (t_5, t_6, t_7, t_8, t_9, t_10, t_11, t_12, t_13, t_14, t_15, t_16, t_17, t_18).
(** element.go 2950-2970 *)
Definition mrs_r5 (t_5 t_6 t_7 t_8 t_9 t_10 t_11 t_12 t_13 t_14 t_15 t_16 t_17 t_18 t_19 : Z) :=
  let m := ((t_5 * qInvNeg) mod W)%Z in
  let C := madd0 m q0 t_5 in
  let: (C, t_6) := madd2 m q1 t_6 C in
  let: (C, t_7) := madd2 m q2 t_7 C in
  let: (C, t_8) := madd2 m q3 t_8 C in
  let: (C, t_9) := madd2 m q4 t_9 C in
  let: (C, t_10) := madd2 m q5 t_10 C in
  let: (C, t_11) := madd2 m q6 t_11 C in
  let: (C, t_12) := madd2 m q7 t_12 C in
  let: (C, t_13) := madd2 m q8 t_13 C in
  let: (C, t_14) := madd2 m q9 t_14 C in
  let: (C, t_15) := madd2 m q10 t_15 C in
  let: (C, t_16) := madd2 m q11 t_16 C in
  let: (C, t_17) := madd2 m q12 t_17 C in
  let: (C, t_18) := madd2 m q13 t_18 C in
  let t_19 := ((t_19 + C) mod W)%Z in
  (t_6, t_7, t_8, t_9, t_10, t_11, t_12, t_13, t_14, t_15, t_16, t_17, t_18, t_19).
(** element.go 2971-2991 *)
Definition mrs_r6 (t_6 t_7 t_8 t_9 t_10 t_11 t_12 t_13 t_14 t_15 t_16 t_17 t_18 t_19 t_20 : Z) :=
  let m := ((t_6 * qInvNeg) mod W)%Z in
  let C := madd0 m q0 t_6 in
  let: (C, t_7) := madd2 m q1 t_7 C in
  let: (C, t_8) := madd2 m q2 t_8 C in
  let: (C, t_9) := madd2 m q3 t_9 C in
  let: (C, t_10) := madd2 m q4 t_10 C in
  let: (C, t_11) := madd2 m q5 t_11 C in
  let: (C, t_12) := madd2 m q6 t_12 C in
  let: (C, t_13) := madd2 m q7 t_13 C in
  let: (C, t_14) := madd2 m q8 t_14 C in
  let: (C, t_15) := madd2 m q9 t_15 C in
  let: (C, t_16) := madd2 m q10 t_16 C in
  let: (C, t_17) := madd2 m q11 t_17 C in
  let: (C, t_18) := madd2 m q12 t_18 C in
  let: (C, t_19) := madd2 m q13 t_19 C in
  let t_20 := ((t_20 + C) mod W)%Z in
  (t_7, t_8, t_9, t_10, t_11, t_12, t_13, t_14, t_15, t_16, t_17, t_18, t_19, t_20).
(** element.go 2992-3012 *)
Definition mrs_r7 (t_7 t_8 t_9 t_10 t_11 t_12 t_13 t_14 t_15 t_16 t_17 t_18 t_19 t_20 t_21 : Z) :=
  let m := ((t_7 * qInvNeg) mod W)%Z in
  let C := madd0 m q0 t_7 in
  let: (C, t_8) := madd2 m q1 t_8 C in
  let: (C, t_9) := madd2 m q2 t_9 C in
  let: (C, t_10) := madd2 m q3 t_10 C in
  let: (C, t_11) := madd2 m q4 t_11 C in
  let: (C, t_12) := madd2 m q5 t_12 C in
  let: (C, t_13) := madd2 m q6 t_13 C in
  let: (C, t_14) := madd2 m q7 t_14 C in
  let: (C, t_15) := madd2 m q8 t_15 C in
  let: (C, t_16) := madd2 m q9 t_16 C in
  let: (C, t_17) := madd2 m q10 t_17 C in
  let: (C, t_18) := madd2 m q11 t_18 C in
  let: (C, t_19) := madd2 m q12 t_19 C in
  let: (C, t_20) := madd2 m q13 t_20 C in
  let t_21 := ((t_21 + C) mod W)%Z in
  (t_8, t_9, t_10, t_11, t_12, t_13, t_14, t_15, t_16, t_17, t_18, t_19, t_20, t_21).
(** element.go 3013-3033 *)
Definition mrs_r8 (t_8 t_9 t_10 t_11 t_12 t_13 t_14 t_15 t_16 t_17 t_18 t_19 t_20 t_21 t_22 : Z) :=
  let m := ((t_8 * qInvNeg) mod W)%Z in
  let C := madd0 m q0 t_8 in
  let: (C, t_9) := madd2 m q1 t_9 C in
  let: (C, t_10) := madd2 m q2 t_10 C in
  let: (C, t_11) := madd2 m q3 t_11 C in
  let: (C, t_12) := madd2 m q4 t_12 C in
  let: (C, t_13) := madd2 m q5 t_13 C in
  let: (C, t_14) := madd2 m q6 t_14 C in
  let: (C, t_15) := madd2 m q7 t_15 C in
  let: (C, t_16) := madd2 m q8 t_16 C in
  let: (C, t_17) := madd2 m q9 t_17 C in
  let: (C, t_18) := madd2 m q10 t_18 C in
  let: (C, t_19) := madd2 m q11 t_19 C in
  let: (C, t_20) := madd2 m q12 t_20 C in
  let: (C, t_21) := madd2 m q13 t_21 C in
  let t_22 := ((t_22 + C) mod W)%Z in
  (t_9, t_10, t_11, t_12, t_13, t_14, t_15, t_16, t_17, t_18, t_19, t_20, t_21, t_22).
(** element.go 3034-3054 *)
Definition mrs_r9 (t_9 t_10 t_11 t_12 t_13 t_14 t_15 t_16 t_17 t_18 t_19 t_20 t_21 t_22 t_23 : Z) :=
  let m := ((t_9 * qInvNeg) mod W)%Z in
  let C := madd0 m q0 t_9 in
  let: (C, t_10) := madd2 m q1 t_10 C in
  let: (C, t_11) := madd2 m q2 t_11 C in
  let: (C, t_12) := madd2 m q3 t_12 C in
  let: (C, t_13) := madd2 m q4 t_13 C in
  let: (C, t_14) := madd2 m q5 t_14 C in
  let: (C, t_15) := madd2 m q6 t_15 C in
  let: (C, t_16) := madd2 m q7 t_16 C in
  let: (C, t_17) := madd2 m q8 t_17 C in
  let: (C, t_18) := madd2 m q9 t_18 C in
  let: (C, t_19) := madd2 m q10 t_19 C in
  let: (C, t_20) := madd2 m q11 t_20 C in
  let: (C, t_21) := madd2 m q12 t_21 C in
  let: (C, t_22) := madd2 m q13 t_22 C in
  let t_23 := ((t_23 + C) mod W)%Z in
  (t_10, t_11, t_12, t_13, t_14, t_15, t_16, t_17, t_18, t_19, t_20, t_21, t_22, t_23).
(** element.go 3055-3075 *)
Definition mrs_r10 (t_10 t_11 t_12 t_13 t_14 t_15 t_16 t_17 t_18 t_19 t_20 t_21 t_22 t_23 t_24 : Z) :=
  let m := ((t_10 * qInvNeg) mod W)%Z in
  let C := madd0 m q0 t_10 in
  let: (C, t_11) := madd2 m q1 t_11 C in
  let: (C, t_12) := madd2 m q2 t_12 C in
  let: (C, t_13) := madd2 m q3 t_13 C in
  let: (C, t_14) := madd2 m q4 t_14 C in
  let: (C, t_15) := madd2 m q5 t_15 C in
  let: (C, t_16) := madd2 m q6 t_16 C in
  let: (C, t_17) := madd2 m q7 t_17 C in
  let: (C, t_18) := madd2 m q8 t_18 C in
  let: (C, t_19) := madd2 m q9 t_19 C in
  let: (C, t_20) := madd2 m q10 t_20 C in
  let: (C, t_21) := madd2 m q11 t_21 C in
  let: (C, t_22) := madd2 m q12 t_22 C in
  let: (C, t_23) := madd2 m q13 t_23 C in
  let t_24 := ((t_24 + C) mod W)%Z in
  (t_11, t_12, t_13, t_14, t_15, t_16, t_17, t_18, t_19, t_20, t_21, t_22, t_23, t_24).
(** element.go 3076-3096 *)
Definition mrs_r11 (t_11 t_12 t_13 t_14 t_15 t_16 t_17 t_18 t_19 t_20 t_21 t_22 t_23 t_24 t_25 : Z) :=
  let m := ((t_11 * qInvNeg) mod W)%Z in
  let C := madd0 m q0 t_11 in
  let: (C, t_12) := madd2 m q1 t_12 C in
  let: (C, t_13) := madd2 m q2 t_13 C in
  let: (C, t_14) := madd2 m q3 t_14 C in
  let: (C, t_15) := madd2 m q4 t_15 C in
  let: (C, t_16) := madd2 m q5 t_16 C in
  let: (C, t_17) := madd2 m q6 t_17 C in
  let: (C, t_18) := madd2 m q7 t_18 C in
  let: (C, t_19) := madd2 m q8 t_19 C in
  let: (C, t_20) := madd2 m q9 t_20 C in
  let: (C, t_21) := madd2 m q10 t_21 C in
  let: (C, t_22) := madd2 m q11 t_22 C in
  let: (C, t_23) := madd2 m q12 t_23 C in
  let: (C, t_24) := madd2 m q13 t_24 C in
  let t_25 := ((t_25 + C) mod W)%Z in
  (t_12, t_13, t_14, t_15, t_16, t_17, t_18, t_19, t_20, t_21, t_22, t_23, t_24, t_25).
(** element.go 3097-3117 *)
Definition mrs_r12 (t_12 t_13 t_14 t_15 t_16 t_17 t_18 t_19 t_20 t_21 t_22 t_23 t_24 t_25 t_26 : Z) :=
  let m := ((t_12 * qInvNeg) mod W)%Z in
  let C := madd0 m q0 t_12 in
  let: (C, t_13) := madd2 m q1 t_13 C in
  let: (C, t_14) := madd2 m q2 t_14 C in
  let: (C, t_15) := madd2 m q3 t_15 C in
  let: (C, t_16) := madd2 m q4 t_16 C in
  let: (C, t_17) := madd2 m q5 t_17 C in
  let: (C, t_18) := madd2 m q6 t_18 C in
  let: (C, t_19) := madd2 m q7 t_19 C in
  let: (C, t_20) := madd2 m q8 t_20 C in
  let: (C, t_21) := madd2 m q9 t_21 C in
  let: (C, t_22) := madd2 m q10 t_22 C in
  let: (C, t_23) := madd2 m q11 t_23 C in
  let: (C, t_24) := madd2 m q12 t_24 C in
  let: (C, t_25) := madd2 m q13 t_25 C in
  let t_26 := ((t_26 + C) mod W)%Z in
  (t_13, t_14, t_15, t_16, t_17, t_18, t_19, t_20, t_21, t_22, t_23, t_24, t_25, t_26).
(** element.go 3118-3136 *)
Definition mrs_r13 (t_13 t_14 t_15 t_16 t_17 t_18 t_19 t_20 t_21 t_22 t_23 t_24 t_25 t_26 : Z) :=
  let m := ((t_13 * qInvNeg) mod W)%Z in
  let C := madd0 m q0 t_13 in
  let: (C, z_0) := madd2 m q1 t_14 C in
  let: (C, z_1) := madd2 m q2 t_15 C in
  let: (C, z_2) := madd2 m q3 t_16 C in
  let: (C, z_3) := madd2 m q4 t_17 C in
  let: (C, z_4) := madd2 m q5 t_18 C in
  let: (C, z_5) := madd2 m q6 t_19 C in
  let: (C, z_6) := madd2 m q7 t_20 C in
  let: (C, z_7) := madd2 m q8 t_21 C in
  let: (C, z_8) := madd2 m q9 t_22 C in
  let: (C, z_9) := madd2 m q10 t_23 C in
  let: (C, z_10) := madd2 m q11 t_24 C in
  let: (C, z_11) := madd2 m q12 t_25 C in
  let: (z_13, z_12) := madd2 m q13 t_26 C in
  (z_0, z_1, z_2, z_3, z_4, z_5, z_6, z_7, z_8, z_9, z_10, z_11, z_12, z_13).
(** element.go 2829-3201 *)
Definition mrs (x_0 x_1 x_2 x_3 x_4 x_5 x_6 x_7 x_8 x_9 x_10 x_11 x_12 x_13 xHi : Z) : seq Z :=
  let mustNeg := ~~ (Z.land xHi (2 ^ 63) =? 0)%Z in
  let xHi := (Z.land xHi (2 ^ 63 - 1))%Z in
  let: (t_1, t_2, t_3, t_4, t_5, t_6, t_7, t_8, t_9, t_10, t_11, t_12, t_13, t_14) := mrs_r0 x_0 x_1 x_2 x_3 x_4 x_5 x_6 x_7 x_8 x_9 x_10 x_11 x_12 x_13 xHi in
  let t_15 := 0%Z in
  let: (t_2, t_3, t_4, t_5, t_6, t_7, t_8, t_9, t_10, t_11, t_12, t_13, t_14, t_15) := mrs_r1 t_1 t_2 t_3 t_4 t_5 t_6 t_7 t_8 t_9 t_10 t_11 t_12 t_13 t_14 t_15 in
  let t_16 := 0%Z in
  let: (t_3, t_4, t_5, t_6, t_7, t_8, t_9, t_10, t_11, t_12, t_13, t_14, t_15, t_16) := mrs_r2 t_2 t_3 t_4 t_5 t_6 t_7 t_8 t_9 t_10 t_11 t_12 t_13 t_14 t_15 t_16 in
  let t_17 := 0%Z in
  let: (t_4, t_5, t_6, t_7, t_8, t_9, t_10, t_11, t_12, t_13, t_14, t_15, t_16, t_17) := mrs_r3 t_3 t_4 t_5 t_6 t_7 t_8 t_9 t_10 t_11 t_12 t_13 t_14 t_15 t_16 t_17 in
  let t_18 := 0%Z in
  let: (t_5, t_6, t_7, t_8, t_9, t_10, t_11, t_12, t_13, t_14, t_15, t_16, t_17, t_18) := mrs_r4 t_4 t_5 t_6 t_7 t_8 t_9 t_10 t_11 t_12 t_13 t_14 t_15 t_16 t_17 t_18 in
  let t_19 := 0%Z in
  let: (t_6, t_7, t_8, t_9, t_10, t_11, t_12, t_13, t_14, t_15, t_16, t_17, t_18, t_19) := mrs_r5 t_5 t_6 t_7 t_8 t_9 t_10 t_11 t_12 t_13 t_14 t_15 t_16 t_17 t_18 t_19 in
  let t_20 := 0%Z in
  let: (t_7, t_8, t_9, t_10, t_11, t_12, t_13, t_14, t_15, t_16, t_17, t_18, t_19, t_20) := mrs_r6 t_6 t_7 t_8 t_9 t_10 t_11 t_12 t_13 t_14 t_15 t_16 t_17 t_18 t_19 t_20 in
  let t_21 := 0%Z in
  let: (t_8, t_9, t_10, t_11, t_12, t_13, t_14, t_15, t_16, t_17, t_18, t_19, t_20, t_21) := mrs_r7 t_7 t_8 t_9 t_10 t_11 t_12 t_13 t_14 t_15 t_16 t_17 t_18 t_19 t_20 t_21 in
  let t_22 := 0%Z in
  let: (t_9, t_10, t_11, t_12, t_13, t_14, t_15, t_16, t_17, t_18, t_19, t_20, t_21, t_22) := mrs_r8 t_8 t_9 t_10 t_11 t_12 t_13 t_14 t_15 t_16 t_17 t_18 t_19 t_20 t_21 t_22 in
  let t_23 := 0%Z in
  let: (t_10, t_11, t_12, t_13, t_14, t_15, t_16, t_17, t_18, t_19, t_20, t_21, t_22, t_23) := mrs_r9 t_9 t_10 t_11 t_12 t_13 t_14 t_15 t_16 t_17 t_18 t_19 t_20 t_21 t_22 t_23 in
  let t_24 := 0%Z in
  let: (t_11, t_12, t_13, t_14, t_15, t_16, t_17, t_18, t_19, t_20, t_21, t_22, t_23, t_24) := mrs_r10 t_10 t_11 t_12 t_13 t_14 t_15 t_16 t_17 t_18 t_19 t_20 t_21 t_22 t_23 t_24 in
  let t_25 := 0%Z in
  let: (t_12, t_13, t_14, t_15, t_16, t_17, t_18, t_19, t_20, t_21, t_22, t_23, t_24, t_25) := mrs_r11 t_11 t_12 t_13 t_14 t_15 t_16 t_17 t_18 t_19 t_20 t_21 t_22 t_23 t_24 t_25 in
  let t_26 := 0%Z in
  let: (t_13, t_14, t_15, t_16, t_17, t_18, t_19, t_20, t_21, t_22, t_23, t_24, t_25, t_26) := mrs_r12 t_12 t_13 t_14 t_15 t_16 t_17 t_18 t_19 t_20 t_21 t_22 t_23 t_24 t_25 t_26 in
  let: (z_0, z_1, z_2, z_3, z_4, z_5, z_6, z_7, z_8, z_9, z_10, z_11, z_12, z_13) := mrs_r13 t_13 t_14 t_15 t_16 t_17 t_18 t_19 t_20 t_21 t_22 t_23 t_24 t_25 t_26 in
  let: (z_0, z_1, z_2, z_3, z_4, z_5, z_6, z_7, z_8, z_9, z_10, z_11, z_12, z_13) := if ~~ smaller z_0 z_1 z_2 z_3 z_4 z_5 z_6 z_7 z_8 z_9 z_10 z_11 z_12 z_13 then
  let b := 0%Z in
  let: (z_0, b) := Sub64 z_0 q0 0%Z in
  let: (z_1, b) := Sub64 z_1 q1 b in
  let: (z_2, b) := Sub64 z_2 q2 b in
  let: (z_3, b) := Sub64 z_3 q3 b in
  let: (z_4, b) := Sub64 z_4 q4 b in
  let: (z_5, b) := Sub64 z_5 q5 b in
  let: (z_6, b) := Sub64 z_6 q6 b in
  let: (z_7, b) := Sub64 z_7 q7 b in
  let: (z_8, b) := Sub64 z_8 q8 b in
  let: (z_9, b) := Sub64 z_9 q9 b in
  let: (z_10, b) := Sub64 z_10 q10 b in
  let: (z_11, b) := Sub64 z_11 q11 b in
  let: (z_12, b) := Sub64 z_12 q12 b in
  let: (z_13, _) := Sub64 z_13 q13 b in
  (z_0, z_1, z_2, z_3, z_4, z_5, z_6, z_7, z_8, z_9, z_10, z_11, z_12, z_13) else
  (z_0, z_1, z_2, z_3, z_4, z_5, z_6, z_7, z_8, z_9, z_10, z_11, z_12, z_13) in
  if mustNeg then
  let b := 0%Z in
  let: (z_0, b) := Sub64 z_0 (2 ^ 63)%Z 0%Z in
  let: (z_1, b) := Sub64 z_1 0%Z b in
  let: (z_2, b) := Sub64 z_2 0%Z b in
  let: (z_3, b) := Sub64 z_3 0%Z b in
  let: (z_4, b) := Sub64 z_4 0%Z b in
  let: (z_5, b) := Sub64 z_5 0%Z b in
  let: (z_6, b) := Sub64 z_6 0%Z b in
  let: (z_7, b) := Sub64 z_7 0%Z b in
  let: (z_8, b) := Sub64 z_8 0%Z b in
  let: (z_9, b) := Sub64 z_9 0%Z b in
  let: (z_10, b) := Sub64 z_10 0%Z b in
  let: (z_11, b) := Sub64 z_11 0%Z b in
  let: (z_12, b) := Sub64 z_12 0%Z b in
  let: (z_13, b) := Sub64 z_13 0%Z b in
  if ~~ (b =? 0)%Z then
  let carry := 0%Z in
  let: (z_0, carry) := Add64 z_0 q0 0%Z in
  let: (z_1, carry) := Add64 z_1 q1 carry in
  let: (z_2, carry) := Add64 z_2 q2 carry in
  let: (z_3, carry) := Add64 z_3 q3 carry in
  let: (z_4, carry) := Add64 z_4 q4 carry in
  let: (z_5, carry) := Add64 z_5 q5 carry in
  let: (z_6, carry) := Add64 z_6 q6 carry in
  let: (z_7, carry) := Add64 z_7 q7 carry in
  let: (z_8, carry) := Add64 z_8 q8 carry in
  let: (z_9, carry) := Add64 z_9 q9 carry in
  let: (z_10, carry) := Add64 z_10 q10 carry in
  let: (z_11, carry) := Add64 z_11 q11 carry in
  let: (z_12, carry) := Add64 z_12 q12 carry in
  let: (z_13, _) := Add64 (W - 1)%Z q13 carry in
  [:: z_0; z_1; z_2; z_3; z_4; z_5; z_6; z_7; z_8; z_9; z_10; z_11; z_12; z_13] else
  [:: z_0; z_1; z_2; z_3; z_4; z_5; z_6; z_7; z_8; z_9; z_10; z_11; z_12; z_13] else
  [:: z_0; z_1; z_2; z_3; z_4; z_5; z_6; z_7; z_8; z_9; z_10; z_11; z_12; z_13].
(** element.go 2667-2680 *)
Definition shift_a (a_0 a_1 a_2 a_3 a_4 a_5 a_6 a_7 a_8 a_9 a_10 a_11 a_12 a_13 aHi : Z) : seq Z :=
  let a_0 := Z.lor (Z.shiftr a_0 31) (Z.shiftl a_1 33 mod W)%Z in
  let a_1 := Z.lor (Z.shiftr a_1 31) (Z.shiftl a_2 33 mod W)%Z in
  let a_2 := Z.lor (Z.shiftr a_2 31) (Z.shiftl a_3 33 mod W)%Z in
  let a_3 := Z.lor (Z.shiftr a_3 31) (Z.shiftl a_4 33 mod W)%Z in
  let a_4 := Z.lor (Z.shiftr a_4 31) (Z.shiftl a_5 33 mod W)%Z in
  let a_5 := Z.lor (Z.shiftr a_5 31) (Z.shiftl a_6 33 mod W)%Z in
  let a_6 := Z.lor (Z.shiftr a_6 31) (Z.shiftl a_7 33 mod W)%Z in
  let a_7 := Z.lor (Z.shiftr a_7 31) (Z.shiftl a_8 33 mod W)%Z in
  let a_8 := Z.lor (Z.shiftr a_8 31) (Z.shiftl a_9 33 mod W)%Z in
  let a_9 := Z.lor (Z.shiftr a_9 31) (Z.shiftl a_10 33 mod W)%Z in
  let a_10 := Z.lor (Z.shiftr a_10 31) (Z.shiftl a_11 33 mod W)%Z in
  let a_11 := Z.lor (Z.shiftr a_11 31) (Z.shiftl a_12 33 mod W)%Z in
  let a_12 := Z.lor (Z.shiftr a_12 31) (Z.shiftl a_13 33 mod W)%Z in
  let a_13 := Z.lor (Z.shiftr a_13 31) (Z.shiftl aHi 33 mod W)%Z in
  [:: a_0; a_1; a_2; a_3; a_4; a_5; a_6; a_7; a_8; a_9; a_10; a_11; a_12; a_13].
(** element.go 2692-2705 *)
Definition shift_b (b_0 b_1 b_2 b_3 b_4 b_5 b_6 b_7 b_8 b_9 b_10 b_11 b_12 b_13 bHi : Z) : seq Z :=
  let b_0 := Z.lor (Z.shiftr b_0 31) (Z.shiftl b_1 33 mod W)%Z in
  let b_1 := Z.lor (Z.shiftr b_1 31) (Z.shiftl b_2 33 mod W)%Z in
  let b_2 := Z.lor (Z.shiftr b_2 31) (Z.shiftl b_3 33 mod W)%Z in
  let b_3 := Z.lor (Z.shiftr b_3 31) (Z.shiftl b_4 33 mod W)%Z in
  let b_4 := Z.lor (Z.shiftr b_4 31) (Z.shiftl b_5 33 mod W)%Z in
  let b_5 := Z.lor (Z.shiftr b_5 31) (Z.shiftl b_6 33 mod W)%Z in
  let b_6 := Z.lor (Z.shiftr b_6 31) (Z.shiftl b_7 33 mod W)%Z in
  let b_7 := Z.lor (Z.shiftr b_7 31) (Z.shiftl b_8 33 mod W)%Z in
  let b_8 := Z.lor (Z.shiftr b_8 31) (Z.shiftl b_9 33 mod W)%Z in
  let b_9 := Z.lor (Z.shiftr b_9 31) (Z.shiftl b_10 33 mod W)%Z in
  let b_10 := Z.lor (Z.shiftr b_10 31) (Z.shiftl b_11 33 mod W)%Z in
  let b_11 := Z.lor (Z.shiftr b_11 31) (Z.shiftl b_12 33 mod W)%Z in
  let b_12 := Z.lor (Z.shiftr b_12 31) (Z.shiftl b_13 33 mod W)%Z in
  let b_13 := Z.lor (Z.shiftr b_13 31) (Z.shiftl bHi 33 mod W)%Z in
  [:: b_0; b_1; b_2; b_3; b_4; b_5; b_6; b_7; b_8; b_9; b_10; b_11; b_12; b_13].
End Text.
Ltac unroll2 hless :=
  cbv -[Add64 Sub64 Mul64 madd0 madd1 madd2 Z.mul Z.add Z.sub Z.modulo Z.land Z.lxor Z.shiftr Z.shiftl Z.pow Z.eqb Z.lor W negb less smaller];
  ops; rewrite ?hless; ifs; ops; ifs; reflexivity.
Lemma less14 q0 q1 q2 q3 q4 q5 q6 q7 q8 q9 q10 q11 q12 q13 x0 x1 x2 x3 x4 x5 x6 x7 x8 x9 x10 x11 x12 x13 : less [:: x0; x1; x2; x3; x4; x5; x6; x7; x8; x9; x10; x11; x12; x13] [:: q0; q1; q2; q3; q4; q5; q6; q7; q8; q9; q10; q11; q12; q13] = smaller q0 q1 q2 q3 q4 q5 q6 q7 q8 q9 q10 q11 q12 q13 x0 x1 x2 x3 x4 x5 x6 x7 x8 x9 x10 x11 x12 x13.
Proof. by rewrite /less /smaller /= andbF orbF. Qed.
Theorem text14_NotEqual x0 x1 x2 x3 x4 x5 x6 x7 x8 x9 x10 x11 x12 x13 y0 y1 y2 y3 y4 y5 y6 y7 y8 y9 y10 y11 y12 y13 :
  NotEqual [:: x0; x1; x2; x3; x4; x5; x6; x7; x8; x9; x10; x11; x12; x13] [:: y0; y1; y2; y3; y4; y5; y6; y7; y8; y9; y10; y11; y12; y13] =
  notEqual x0 x1 x2 x3 x4 x5 x6 x7 x8 x9 x10 x11 x12 x13 y0 y1 y2 y3 y4 y5 y6 y7 y8 y9 y10 y11 y12 y13.
Proof. rewrite /NotEqual /notEqual; cbn [zip map foldr fst snd]; by rewrite Z.lor_0_r (Z.lor_comm (Z.lxor x12 _) _) (Z.lor_comm (Z.lxor x11 _) _) (Z.lor_comm (Z.lxor x10 _) _) (Z.lor_comm (Z.lxor x9 _) _) (Z.lor_comm (Z.lxor x8 _) _) (Z.lor_comm (Z.lxor x7 _) _) (Z.lor_comm (Z.lxor x6 _) _) (Z.lor_comm (Z.lxor x5 _) _) (Z.lor_comm (Z.lxor x4 _) _) (Z.lor_comm (Z.lxor x3 _) _) (Z.lor_comm (Z.lxor x2 _) _) (Z.lor_comm (Z.lxor x1 _) _) (Z.lor_comm (Z.lxor x0 _) _). Qed.
Theorem text14_FitsOnOneWord x0 x1 x2 x3 x4 x5 x6 x7 x8 x9 x10 x11 x12 x13 :
  FitsOnOneWord [:: x0; x1; x2; x3; x4; x5; x6; x7; x8; x9; x10; x11; x12; x13] =
  fitsOnOneWord x0 x1 x2 x3 x4 x5 x6 x7 x8 x9 x10 x11 x12 x13.
Proof. rewrite /FitsOnOneWord /fitsOnOneWord; cbn [behead foldr]; by rewrite Z.lor_0_r (Z.lor_comm x12 _) (Z.lor_comm x11 _) (Z.lor_comm x10 _) (Z.lor_comm x9 _) (Z.lor_comm x8 _) (Z.lor_comm x7 _) (Z.lor_comm x6 _) (Z.lor_comm x5 _) (Z.lor_comm x4 _) (Z.lor_comm x3 _) (Z.lor_comm x2 _) (Z.lor_comm x1 _). Qed.
Theorem text14_cmpLimbs x0 x1 x2 x3 x4 x5 x6 x7 x8 x9 x10 x11 x12 x13 y0 y1 y2 y3 y4 y5 y6 y7 y8 y9 y10 y11 y12 y13 :
  cmpLimbs [:: x0; x1; x2; x3; x4; x5; x6; x7; x8; x9; x10; x11; x12; x13] [:: y0; y1; y2; y3; y4; y5; y6; y7; y8; y9; y10; y11; y12; y13] =
  cmp x0 x1 x2 x3 x4 x5 x6 x7 x8 x9 x10 x11 x12 x13 y0 y1 y2 y3 y4 y5 y6 y7 y8 y9 y10 y11 y12 y13.
Proof. by rewrite /cmpLimbs /cmp; cbn [zip foldl fst snd]. Qed.
Theorem text14_BitLen x0 x1 x2 x3 x4 x5 x6 x7 x8 x9 x10 x11 x12 x13 :
  BitLenWords [:: x0; x1; x2; x3; x4; x5; x6; x7; x8; x9; x10; x11; x12; x13] =
  bitLen_ x0 x1 x2 x3 x4 x5 x6 x7 x8 x9 x10 x11 x12 x13.
Proof. rewrite /BitLenWords /bitLen_; cbn [zip foldl fst snd size iota]; case: (x13 =? 0)%Z; [|by []]; case: (x12 =? 0)%Z; [|by []]; case: (x11 =? 0)%Z; [|by []]; case: (x10 =? 0)%Z; [|by []]; case: (x9 =? 0)%Z; [|by []]; case: (x8 =? 0)%Z; [|by []]; case: (x7 =? 0)%Z; [|by []]; case: (x6 =? 0)%Z; [|by []]; case: (x5 =? 0)%Z; [|by []]; case: (x4 =? 0)%Z; [|by []]; case: (x3 =? 0)%Z; [|by []]; case: (x2 =? 0)%Z; [|by []]; case: (x1 =? 0)%Z; [|by []]; by rewrite /bitLen; case: (x0 =? 0)%Z. Qed.
Theorem text14_Select c x0 x1 x2 x3 x4 x5 x6 x7 x8 x9 x10 x11 x12 x13 y0 y1 y2 y3 y4 y5 y6 y7 y8 y9 y10 y11 y12 y13 :
  Select c [:: x0; x1; x2; x3; x4; x5; x6; x7; x8; x9; x10; x11; x12; x13] [:: y0; y1; y2; y3; y4; y5; y6; y7; y8; y9; y10; y11; y12; y13] =
  select c x0 x1 x2 x3 x4 x5 x6 x7 x8 x9 x10 x11 x12 x13 y0 y1 y2 y3 y4 y5 y6 y7 y8 y9 y10 y11 y12 y13.
Proof. by []. Qed.
Theorem text14_Halve q0 q1 q2 q3 q4 q5 q6 q7 q8 q9 q10 q11 q12 q13 qi r one co k x0 x1 x2 x3 x4 x5 x6 x7 x8 x9 x10 x11 x12 x13 :
  Halve (Gen [:: q0; q1; q2; q3; q4; q5; q6; q7; q8; q9; q10; q11; q12; q13] qi r one co k true true) [:: x0; x1; x2; x3; x4; x5; x6; x7; x8; x9; x10; x11; x12; x13] =
  halve q0 q1 q2 q3 q4 q5 q6 q7 q8 q9 q10 q11 q12 q13 x0 x1 x2 x3 x4 x5 x6 x7 x8 x9 x10 x11 x12 x13.
Proof. halving. Qed.
Theorem text14_negL x0 x1 x2 x3 x4 x5 x6 x7 x8 x9 x10 x11 x12 x13 h :
  negL [:: x0; x1; x2; x3; x4; x5; x6; x7; x8; x9; x10; x11; x12; x13] h =
  let: (s0, s1, s2, s3, s4, s5, s6, s7, s8, s9, s10, s11, s12, s13, s14) := negl x0 x1 x2 x3 x4 x5 x6 x7 x8 x9 x10 x11 x12 x13 h in ([:: s0; s1; s2; s3; s4; s5; s6; s7; s8; s9; s10; s11; s12; s13], s14).
Proof. unroll2 (@less14). Qed.
Theorem text14_mulWNonModular x0 x1 x2 x3 x4 x5 x6 x7 x8 x9 x10 x11 x12 x13 w :
  mulWNonModular [:: x0; x1; x2; x3; x4; x5; x6; x7; x8; x9; x10; x11; x12; x13] w =
  let: (s0, s1, s2, s3, s4, s5, s6, s7, s8, s9, s10, s11, s12, s13, s14) := mulW x0 x1 x2 x3 x4 x5 x6 x7 x8 x9 x10 x11 x12 x13 w in ([:: s0; s1; s2; s3; s4; s5; s6; s7; s8; s9; s10; s11; s12; s13], s14).
Proof. rewrite /mulWNonModular /mulW /absInt64; cbv zeta; set w' := (_ mod W)%Z; cbv beta iota zeta delta [hd0 nth behead madd1Chain]; case: (Mul64 x0 w') => ? ?; cbv beta iota; rewrite (madd1C x1 w'); case: (madd1 w' x1 _) => ? ?; cbv beta iota; rewrite (madd1C x2 w'); case: (madd1 w' x2 _) => ? ?; cbv beta iota; rewrite (madd1C x3 w'); case: (madd1 w' x3 _) => ? ?; cbv beta iota; rewrite (madd1C x4 w'); case: (madd1 w' x4 _) => ? ?; cbv beta iota; rewrite (madd1C x5 w'); case: (madd1 w' x5 _) => ? ?; cbv beta iota; rewrite (madd1C x6 w'); case: (madd1 w' x6 _) => ? ?; cbv beta iota; rewrite (madd1C x7 w'); case: (madd1 w' x7 _) => ? ?; cbv beta iota; rewrite (madd1C x8 w'); case: (madd1 w' x8 _) => ? ?; cbv beta iota; rewrite (madd1C x9 w'); case: (madd1 w' x9 _) => ? ?; cbv beta iota; rewrite (madd1C x10 w'); case: (madd1 w' x10 _) => ? ?; cbv beta iota; rewrite (madd1C x11 w'); case: (madd1 w' x11 _) => ? ?; cbv beta iota; rewrite (madd1C x12 w'); case: (madd1 w' x12 _) => ? ?; cbv beta iota; rewrite (madd1C x13 w'); case: (madd1 w' x13 _) => ? ?; cbv beta iota;  case: (w <? 0)%Z; [exact: text14_negL|by []]. Qed.
Theorem text14_linearCombNonModular x0 x1 x2 x3 x4 x5 x6 x7 x8 x9 x10 x11 x12 x13 c y0 y1 y2 y3 y4 y5 y6 y7 y8 y9 y10 y11 y12 y13 d :
  linearCombNonModular [:: x0; x1; x2; x3; x4; x5; x6; x7; x8; x9; x10; x11; x12; x13] c [:: y0; y1; y2; y3; y4; y5; y6; y7; y8; y9; y10; y11; y12; y13] d =
  let: (s0, s1, s2, s3, s4, s5, s6, s7, s8, s9, s10, s11, s12, s13, s14) := lc x0 x1 x2 x3 x4 x5 x6 x7 x8 x9 x10 x11 x12 x13 c y0 y1 y2 y3 y4 y5 y6 y7 y8 y9 y10 y11 y12 y13 d in ([:: s0; s1; s2; s3; s4; s5; s6; s7; s8; s9; s10; s11; s12; s13], s14).
Proof. rewrite /linearCombNonModular /lc !text14_mulWNonModular; case: (mulW y0 y1 y2 y3 y4 y5 y6 y7 y8 y9 y10 y11 y12 y13 d) => [[[[[[[[[[[[[[v0 v1] v2] v3] v4] v5] v6] v7] v8] v9] v10] v11] v12] v13] v14]; case: (mulW x0 x1 x2 x3 x4 x5 x6 x7 x8 x9 x10 x11 x12 x13 c) => [[[[[[[[[[[[[[w0 w1] w2] w3] w4] w5] w6] w7] w8] w9] w10] w11] w12] w13] w14]; clear; unroll2 (@less14). Qed.
Lemma mrs_r0E q0 q1 q2 q3 q4 q5 q6 q7 q8 q9 q10 q11 q12 q13 qi r one co k x0 x1 x2 x3 x4 x5 x6 x7 x8 x9 x10 x11 x12 x13 h rest :
  sosRound (Gen [:: q0; q1; q2; q3; q4; q5; q6; q7; q8; q9; q10; q11; q12; q13] qi r one co k true true) (x0::x1::x2::x3::x4::x5::x6::x7::x8::x9::x10::x11::x12::x13::h::rest) false =
  let: (s0, s1, s2, s3, s4, s5, s6, s7, s8, s9, s10, s11, s12, s13) := mrs_r0 q0 q1 q2 q3 q4 q5 q6 q7 q8 q9 q10 q11 q12 q13 qi x0 x1 x2 x3 x4 x5 x6 x7 x8 x9 x10 x11 x12 x13 h in s0::s1::s2::s3::s4::s5::s6::s7::s8::s9::s10::s11::s12::s13::rest.
Proof. rewrite /mrs_r0; unroll2 (@less14). Qed.
Lemma mrs_r1E q0 q1 q2 q3 q4 q5 q6 q7 q8 q9 q10 q11 q12 q13 qi r one co k t1 t2 t3 t4 t5 t6 t7 t8 t9 t10 t11 t12 t13 t14 t15 rest :
  sosRound (Gen [:: q0; q1; q2; q3; q4; q5; q6; q7; q8; q9; q10; q11; q12; q13] qi r one co k true true) (t1::t2::t3::t4::t5::t6::t7::t8::t9::t10::t11::t12::t13::t14::t15::rest) false =
  let: (s0, s1, s2, s3, s4, s5, s6, s7, s8, s9, s10, s11, s12, s13) := mrs_r1 q0 q1 q2 q3 q4 q5 q6 q7 q8 q9 q10 q11 q12 q13 qi t1 t2 t3 t4 t5 t6 t7 t8 t9 t10 t11 t12 t13 t14 t15 in s0::s1::s2::s3::s4::s5::s6::s7::s8::s9::s10::s11::s12::s13::rest.
Proof. rewrite /mrs_r1; unroll2 (@less14). Qed.
Lemma mrs_r2E q0 q1 q2 q3 q4 q5 q6 q7 q8 q9 q10 q11 q12 q13 qi r one co k t2 t3 t4 t5 t6 t7 t8 t9 t10 t11 t12 t13 t14 t15 t16 rest :
  sosRound (Gen [:: q0; q1; q2; q3; q4; q5; q6; q7; q8; q9; q10; q11; q12; q13] qi r one co k true true) (t2::t3::t4::t5::t6::t7::t8::t9::t10::t11::t12::t13::t14::t15::t16::rest) false =
  let: (s0, s1, s2, s3, s4, s5, s6, s7, s8, s9, s10, s11, s12, s13) := mrs_r2 q0 q1 q2 q3 q4 q5 q6 q7 q8 q9 q10 q11 q12 q13 qi t2 t3 t4 t5 t6 t7 t8 t9 t10 t11 t12 t13 t14 t15 t16 in s0::s1::s2::s3::s4::s5::s6::s7::s8::s9::s10::s11::s12::s13::rest.
Proof. rewrite /mrs_r2; unroll2 (@less14). Qed.
Lemma mrs_r3E q0 q1 q2 q3 q4 q5 q6 q7 q8 q9 q10 q11 q12 q13 qi r one co k t3 t4 t5 t6 t7 t8 t9 t10 t11 t12 t13 t14 t15 t16 t17 rest :
  sosRound (Gen [:: q0; q1; q2; q3; q4; q5; q6; q7; q8; q9; q10; q11; q12; q13] qi r one co k true true) (t3::t4::t5::t6::t7::t8::t9::t10::t11::t12::t13::t14::t15::t16::t17::rest) false =
  let: (s0, s1, s2, s3, s4, s5, s6, s7, s8, s9, s10, s11, s12, s13) := mrs_r3 q0 q1 q2 q3 q4 q5 q6 q7 q8 q9 q10 q11 q12 q13 qi t3 t4 t5 t6 t7 t8 t9 t10 t11 t12 t13 t14 t15 t16 t17 in s0::s1::s2::s3::s4::s5::s6::s7::s8::s9::s10::s11::s12::s13::rest.
Proof. rewrite /mrs_r3; unroll2 (@less14). Qed.
Lemma mrs_r4E q0 q1 q2 q3 q4 q5 q6 q7 q8 q9 q10 q11 q12 q13 qi r one co k t4 t5 t6 t7 t8 t9 t10 t11 t12 t13 t14 t15 t16 t17 t18 rest :
  sosRound (Gen [:: q0; q1; q2; q3; q4; q5; q6; q7; q8; q9; q10; q11; q12; q13] qi r one co k true true) (t4::t5::t6::t7::t8::t9::t10::t11::t12::t13::t14::t15::t16::t17::t18::rest) false =
  let: (s0, s1, s2, s3, s4, s5, s6, s7, s8, s9, s10, s11, s12, s13) := mrs_r4 q0 q1 q2 q3 q4 q5 q6 q7 q8 q9 q10 q11 q12 q13 qi t4 t5 t6 t7 t8 t9 t10 t11 t12 t13 t14 t15 t16 t17 t18 in s0::s1::s2::s3::s4::s5::s6::s7::s8::s9::s10::s11::s12::s13::rest.
Proof. rewrite /mrs_r4; unroll2 (@less14). Qed.
Lemma mrs_r5E q0 q1 q2 q3 q4 q5 q6 q7 q8 q9 q10 q11 q12 q13 qi r one co k t5 t6 t7 t8 t9 t10 t11 t12 t13 t14 t15 t16 t17 t18 t19 rest :
  sosRound (Gen [:: q0; q1; q2; q3; q4; q5; q6; q7; q8; q9; q10; q11; q12; q13] qi r one co k true true) (t5::t6::t7::t8::t9::t10::t11::t12::t13::t14::t15::t16::t17::t18::t19::rest) false =
  let: (s0, s1, s2, s3, s4, s5, s6, s7, s8, s9, s10, s11, s12, s13) := mrs_r5 q0 q1 q2 q3 q4 q5 q6 q7 q8 q9 q10 q11 q12 q13 qi t5 t6 t7 t8 t9 t10 t11 t12 t13 t14 t15 t16 t17 t18 t19 in s0::s1::s2::s3::s4::s5::s6::s7::s8::s9::s10::s11::s12::s13::rest.
Proof. rewrite /mrs_r5; unroll2 (@less14). Qed.
Lemma mrs_r6E q0 q1 q2 q3 q4 q5 q6 q7 q8 q9 q10 q11 q12 q13 qi r one co k t6 t7 t8 t9 t10 t11 t12 t13 t14 t15 t16 t17 t18 t19 t20 rest :
  sosRound (Gen [:: q0; q1; q2; q3; q4; q5; q6; q7; q8; q9; q10; q11; q12; q13] qi r one co k true true) (t6::t7::t8::t9::t10::t11::t12::t13::t14::t15::t16::t17::t18::t19::t20::rest) false =
  let: (s0, s1, s2, s3, s4, s5, s6, s7, s8, s9, s10, s11, s12, s13) := mrs_r6 q0 q1 q2 q3 q4 q5 q6 q7 q8 q9 q10 q11 q12 q13 qi t6 t7 t8 t9 t10 t11 t12 t13 t14 t15 t16 t17 t18 t19 t20 in s0::s1::s2::s3::s4::s5::s6::s7::s8::s9::s10::s11::s12::s13::rest.
Proof. rewrite /mrs_r6; unroll2 (@less14). Qed.
Lemma mrs_r7E q0 q1 q2 q3 q4 q5 q6 q7 q8 q9 q10 q11 q12 q13 qi r one co k t7 t8 t9 t10 t11 t12 t13 t14 t15 t16 t17 t18 t19 t20 t21 rest :
  sosRound (Gen [:: q0; q1; q2; q3; q4; q5; q6; q7; q8; q9; q10; q11; q12; q13] qi r one co k true true) (t7::t8::t9::t10::t11::t12::t13::t14::t15::t16::t17::t18::t19::t20::t21::rest) false =
  let: (s0, s1, s2, s3, s4, s5, s6, s7, s8, s9, s10, s11, s12, s13) := mrs_r7 q0 q1 q2 q3 q4 q5 q6 q7 q8 q9 q10 q11 q12 q13 qi t7 t8 t9 t10 t11 t12 t13 t14 t15 t16 t17 t18 t19 t20 t21 in s0::s1::s2::s3::s4::s5::s6::s7::s8::s9::s10::s11::s12::s13::rest.
Proof. rewrite /mrs_r7; unroll2 (@less14). Qed.
Lemma mrs_r8E q0 q1 q2 q3 q4 q5 q6 q7 q8 q9 q10 q11 q12 q13 qi r one co k t8 t9 t10 t11 t12 t13 t14 t15 t16 t17 t18 t19 t20 t21 t22 rest :
  sosRound (Gen [:: q0; q1; q2; q3; q4; q5; q6; q7; q8; q9; q10; q11; q12; q13] qi r one co k true true) (t8::t9::t10::t11::t12::t13::t14::t15::t16::t17::t18::t19::t20::t21::t22::rest) false =
  let: (s0, s1, s2, s3, s4, s5, s6, s7, s8, s9, s10, s11, s12, s13) := mrs_r8 q0 q1 q2 q3 q4 q5 q6 q7 q8 q9 q10 q11 q12 q13 qi t8 t9 t10 t11 t12 t13 t14 t15 t16 t17 t18 t19 t20 t21 t22 in s0::s1::s2::s3::s4::s5::s6::s7::s8::s9::s10::s11::s12::s13::rest.
Proof. rewrite /mrs_r8; unroll2 (@less14). Qed.
Lemma mrs_r9E q0 q1 q2 q3 q4 q5 q6 q7 q8 q9 q10 q11 q12 q13 qi r one co k t9 t10 t11 t12 t13 t14 t15 t16 t17 t18 t19 t20 t21 t22 t23 rest :
  sosRound (Gen [:: q0; q1; q2; q3; q4; q5; q6; q7; q8; q9; q10; q11; q12; q13] qi r one co k true true) (t9::t10::t11::t12::t13::t14::t15::t16::t17::t18::t19::t20::t21::t22::t23::rest) false =
  let: (s0, s1, s2, s3, s4, s5, s6, s7, s8, s9, s10, s11, s12, s13) := mrs_r9 q0 q1 q2 q3 q4 q5 q6 q7 q8 q9 q10 q11 q12 q13 qi t9 t10 t11 t12 t13 t14 t15 t16 t17 t18 t19 t20 t21 t22 t23 in s0::s1::s2::s3::s4::s5::s6::s7::s8::s9::s10::s11::s12::s13::rest.
Proof. rewrite /mrs_r9; unroll2 (@less14). Qed.
Lemma mrs_r10E q0 q1 q2 q3 q4 q5 q6 q7 q8 q9 q10 q11 q12 q13 qi r one co k t10 t11 t12 t13 t14 t15 t16 t17 t18 t19 t20 t21 t22 t23 t24 rest :
  sosRound (Gen [:: q0; q1; q2; q3; q4; q5; q6; q7; q8; q9; q10; q11; q12; q13] qi r one co k true true) (t10::t11::t12::t13::t14::t15::t16::t17::t18::t19::t20::t21::t22::t23::t24::rest) false =
  let: (s0, s1, s2, s3, s4, s5, s6, s7, s8, s9, s10, s11, s12, s13) := mrs_r10 q0 q1 q2 q3 q4 q5 q6 q7 q8 q9 q10 q11 q12 q13 qi t10 t11 t12 t13 t14 t15 t16 t17 t18 t19 t20 t21 t22 t23 t24 in s0::s1::s2::s3::s4::s5::s6::s7::s8::s9::s10::s11::s12::s13::rest.
Proof. rewrite /mrs_r10; unroll2 (@less14). Qed.
Lemma mrs_r11E q0 q1 q2 q3 q4 q5 q6 q7 q8 q9 q10 q11 q12 q13 qi r one co k t11 t12 t13 t14 t15 t16 t17 t18 t19 t20 t21 t22 t23 t24 t25 rest :
  sosRound (Gen [:: q0; q1; q2; q3; q4; q5; q6; q7; q8; q9; q10; q11; q12; q13] qi r one co k true true) (t11::t12::t13::t14::t15::t16::t17::t18::t19::t20::t21::t22::t23::t24::t25::rest) false =
  let: (s0, s1, s2, s3, s4, s5, s6, s7, s8, s9, s10, s11, s12, s13) := mrs_r11 q0 q1 q2 q3 q4 q5 q6 q7 q8 q9 q10 q11 q12 q13 qi t11 t12 t13 t14 t15 t16 t17 t18 t19 t20 t21 t22 t23 t24 t25 in s0::s1::s2::s3::s4::s5::s6::s7::s8::s9::s10::s11::s12::s13::rest.
Proof. rewrite /mrs_r11; unroll2 (@less14). Qed.
Lemma mrs_r12E q0 q1 q2 q3 q4 q5 q6 q7 q8 q9 q10 q11 q12 q13 qi r one co k t12 t13 t14 t15 t16 t17 t18 t19 t20 t21 t22 t23 t24 t25 t26 rest :
  sosRound (Gen [:: q0; q1; q2; q3; q4; q5; q6; q7; q8; q9; q10; q11; q12; q13] qi r one co k true true) (t12::t13::t14::t15::t16::t17::t18::t19::t20::t21::t22::t23::t24::t25::t26::rest) false =
  let: (s0, s1, s2, s3, s4, s5, s6, s7, s8, s9, s10, s11, s12, s13) := mrs_r12 q0 q1 q2 q3 q4 q5 q6 q7 q8 q9 q10 q11 q12 q13 qi t12 t13 t14 t15 t16 t17 t18 t19 t20 t21 t22 t23 t24 t25 t26 in s0::s1::s2::s3::s4::s5::s6::s7::s8::s9::s10::s11::s12::s13::rest.
Proof. rewrite /mrs_r12; unroll2 (@less14). Qed.
Lemma mrs_r13E q0 q1 q2 q3 q4 q5 q6 q7 q8 q9 q10 q11 q12 q13 qi r one co k t13 t14 t15 t16 t17 t18 t19 t20 t21 t22 t23 t24 t25 t26 :
  sosRound (Gen [:: q0; q1; q2; q3; q4; q5; q6; q7; q8; q9; q10; q11; q12; q13] qi r one co k true true) (t13::t14::t15::t16::t17::t18::t19::t20::t21::t22::t23::t24::t25::t26::[::]) true =
  let: (s0, s1, s2, s3, s4, s5, s6, s7, s8, s9, s10, s11, s12, s13) := mrs_r13 q0 q1 q2 q3 q4 q5 q6 q7 q8 q9 q10 q11 q12 q13 qi t13 t14 t15 t16 t17 t18 t19 t20 t21 t22 t23 t24 t25 t26 in [:: s0; s1; s2; s3; s4; s5; s6; s7; s8; s9; s10; s11; s12; s13].
Proof. rewrite /mrs_r13; unroll2 (@less14). Qed.
Theorem text14_montReduceSigned q0 q1 q2 q3 q4 q5 q6 q7 q8 q9 q10 q11 q12 q13 qi r one co k x0 x1 x2 x3 x4 x5 x6 x7 x8 x9 x10 x11 x12 x13 h :
  montReduceSigned (Gen [:: q0; q1; q2; q3; q4; q5; q6; q7; q8; q9; q10; q11; q12; q13] qi r one co k true true) [:: x0; x1; x2; x3; x4; x5; x6; x7; x8; x9; x10; x11; x12; x13] h =
  mrs q0 q1 q2 q3 q4 q5 q6 q7 q8 q9 q10 q11 q12 q13 qi x0 x1 x2 x3 x4 x5 x6 x7 x8 x9 x10 x11 x12 x13 h.
Proof. 
rewrite /montReduceSigned /mrs /Limbs; cbn [iter qs size predn subn subn_rec Nat.sub nseq ncons cat]; cbv zeta.
rewrite mrs_r0E; case: (mrs_r0 _ _ _ _ _ _ _ _ _ _ _ _ _ _ _ _ _ _ _ _ _ _ _ _ _ _ _ _ _ _) => [[[[[[[[[[[[[a0_0 a0_1] a0_2] a0_3] a0_4] a0_5] a0_6] a0_7] a0_8] a0_9] a0_10] a0_11] a0_12] a0_13]; cbv beta iota.
rewrite mrs_r1E; case: (mrs_r1 _ _ _ _ _ _ _ _ _ _ _ _ _ _ _ _ _ _ _ _ _ _ _ _ _ _ _ _ _ _) => [[[[[[[[[[[[[a1_0 a1_1] a1_2] a1_3] a1_4] a1_5] a1_6] a1_7] a1_8] a1_9] a1_10] a1_11] a1_12] a1_13]; cbv beta iota.
rewrite mrs_r2E; case: (mrs_r2 _ _ _ _ _ _ _ _ _ _ _ _ _ _ _ _ _ _ _ _ _ _ _ _ _ _ _ _ _ _) => [[[[[[[[[[[[[a2_0 a2_1] a2_2] a2_3] a2_4] a2_5] a2_6] a2_7] a2_8] a2_9] a2_10] a2_11] a2_12] a2_13]; cbv beta iota.
rewrite mrs_r3E; case: (mrs_r3 _ _ _ _ _ _ _ _ _ _ _ _ _ _ _ _ _ _ _ _ _ _ _ _ _ _ _ _ _ _) => [[[[[[[[[[[[[a3_0 a3_1] a3_2] a3_3] a3_4] a3_5] a3_6] a3_7] a3_8] a3_9] a3_10] a3_11] a3_12] a3_13]; cbv beta iota.
rewrite mrs_r4E; case: (mrs_r4 _ _ _ _ _ _ _ _ _ _ _ _ _ _ _ _ _ _ _ _ _ _ _ _ _ _ _ _ _ _) => [[[[[[[[[[[[[a4_0 a4_1] a4_2] a4_3] a4_4] a4_5] a4_6] a4_7] a4_8] a4_9] a4_10] a4_11] a4_12] a4_13]; cbv beta iota.
rewrite mrs_r5E; case: (mrs_r5 _ _ _ _ _ _ _ _ _ _ _ _ _ _ _ _ _ _ _ _ _ _ _ _ _ _ _ _ _ _) => [[[[[[[[[[[[[a5_0 a5_1] a5_2] a5_3] a5_4] a5_5] a5_6] a5_7] a5_8] a5_9] a5_10] a5_11] a5_12] a5_13]; cbv beta iota.
rewrite mrs_r6E; case: (mrs_r6 _ _ _ _ _ _ _ _ _ _ _ _ _ _ _ _ _ _ _ _ _ _ _ _ _ _ _ _ _ _) => [[[[[[[[[[[[[a6_0 a6_1] a6_2] a6_3] a6_4] a6_5] a6_6] a6_7] a6_8] a6_9] a6_10] a6_11] a6_12] a6_13]; cbv beta iota.
rewrite mrs_r7E; case: (mrs_r7 _ _ _ _ _ _ _ _ _ _ _ _ _ _ _ _ _ _ _ _ _ _ _ _ _ _ _ _ _ _) => [[[[[[[[[[[[[a7_0 a7_1] a7_2] a7_3] a7_4] a7_5] a7_6] a7_7] a7_8] a7_9] a7_10] a7_11] a7_12] a7_13]; cbv beta iota.
rewrite mrs_r8E; case: (mrs_r8 _ _ _ _ _ _ _ _ _ _ _ _ _ _ _ _ _ _ _ _ _ _ _ _ _ _ _ _ _ _) => [[[[[[[[[[[[[a8_0 a8_1] a8_2] a8_3] a8_4] a8_5] a8_6] a8_7] a8_8] a8_9] a8_10] a8_11] a8_12] a8_13]; cbv beta iota.
rewrite mrs_r9E; case: (mrs_r9 _ _ _ _ _ _ _ _ _ _ _ _ _ _ _ _ _ _ _ _ _ _ _ _ _ _ _ _ _ _) => [[[[[[[[[[[[[a9_0 a9_1] a9_2] a9_3] a9_4] a9_5] a9_6] a9_7] a9_8] a9_9] a9_10] a9_11] a9_12] a9_13]; cbv beta iota.
rewrite mrs_r10E; case: (mrs_r10 _ _ _ _ _ _ _ _ _ _ _ _ _ _ _ _ _ _ _ _ _ _ _ _ _ _ _ _ _ _) => [[[[[[[[[[[[[a10_0 a10_1] a10_2] a10_3] a10_4] a10_5] a10_6] a10_7] a10_8] a10_9] a10_10] a10_11] a10_12] a10_13]; cbv beta iota.
rewrite mrs_r11E; case: (mrs_r11 _ _ _ _ _ _ _ _ _ _ _ _ _ _ _ _ _ _ _ _ _ _ _ _ _ _ _ _ _ _) => [[[[[[[[[[[[[a11_0 a11_1] a11_2] a11_3] a11_4] a11_5] a11_6] a11_7] a11_8] a11_9] a11_10] a11_11] a11_12] a11_13]; cbv beta iota.
rewrite mrs_r12E; case: (mrs_r12 _ _ _ _ _ _ _ _ _ _ _ _ _ _ _ _ _ _ _ _ _ _ _ _ _ _ _ _ _ _) => [[[[[[[[[[[[[a12_0 a12_1] a12_2] a12_3] a12_4] a12_5] a12_6] a12_7] a12_8] a12_9] a12_10] a12_11] a12_12] a12_13]; cbv beta iota.
rewrite mrs_r13E; case: (mrs_r13 _ _ _ _ _ _ _ _ _ _ _ _ _ _ _ _ _ _ _ _ _ _ _ _ _ _ _ _ _) => [[[[[[[[[[[[[a13_0 a13_1] a13_2] a13_3] a13_4] a13_5] a13_6] a13_7] a13_8] a13_9] a13_10] a13_11] a13_12] a13_13]; cbv beta iota.
unroll2 (@less14).
 Qed.
Theorem text14_shift_a x0 x1 x2 x3 x4 x5 x6 x7 x8 x9 x10 x11 x12 x13 h :
  shr31 [:: x0; x1; x2; x3; x4; x5; x6; x7; x8; x9; x10; x11; x12; x13] h =
  shift_a x0 x1 x2 x3 x4 x5 x6 x7 x8 x9 x10 x11 x12 x13 h.
Proof. by []. Qed.
Theorem text14_shift_b x0 x1 x2 x3 x4 x5 x6 x7 x8 x9 x10 x11 x12 x13 h :
  shr31 [:: x0; x1; x2; x3; x4; x5; x6; x7; x8; x9; x10; x11; x12; x13] h =
  shift_b x0 x1 x2 x3 x4 x5 x6 x7 x8 x9 x10 x11 x12 x13 h.
Proof. by []. Qed.
