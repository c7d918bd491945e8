(** The unrolled text of buckler/internal/zp440, word by word, continued: Halve, Select, NotEqual,
    FitsOnOneWord, Cmp, BitLen and the helpers of Inverse.  One let per assignment; montReduceSigned
    is cut into its rounds.  The theorems say that the recursions of the model are these texts. *)
From Coq Require Import ZArith.
From mathcomp Require Import all_ssreflect.
From Verif Require Import JindoIntModel ZpModel ElemModel ZpUnrolledTac.
Set Implicit Arguments. Unset Strict Implicit. Unset Printing Implicit Defensive.
Delimit Scope Z_scope with Z.
Section Text.
Variables q0 q1 q2 q3 q4 q5 q6 qInvNeg : Z.
(** element.go 391-393 *)
Definition smaller (z_0 z_1 z_2 z_3 z_4 z_5 z_6 : Z) : bool := ((z_6 <? q6)%Z || ((z_6 =? q6)%Z && ((z_5 <? q5)%Z || ((z_5 =? q5)%Z && ((z_4 <? q4)%Z || ((z_4 =? q4)%Z && ((z_3 <? q3)%Z || ((z_3 =? q3)%Z && ((z_2 <? q2)%Z || ((z_2 =? q2)%Z && ((z_1 <? q1)%Z || ((z_1 =? q1)%Z && ((z_0 <? q0)%Z))))))))))))).
(** element.go 229-231 *)
Definition notEqual (z_0 z_1 z_2 z_3 z_4 z_5 z_6 x_0 x_1 x_2 x_3 x_4 x_5 x_6 : Z) : Z := (Z.lor (Z.lor (Z.lor (Z.lor (Z.lor (Z.lor (Z.lxor z_6 x_6) (Z.lxor z_5 x_5)) (Z.lxor z_4 x_4)) (Z.lxor z_3 x_3)) (Z.lxor z_2 x_2)) (Z.lxor z_1 x_1)) (Z.lxor z_0 x_0)).
(** element.go 258-260 *)
Definition fitsOnOneWord (z_0 z_1 z_2 z_3 z_4 z_5 z_6 : Z) : bool := ((Z.lor (Z.lor (Z.lor (Z.lor (Z.lor z_6 z_5) z_4) z_3) z_2) z_1) =? 0)%Z.
(** element.go 267-306, from the third line on *)
Definition cmp (z_0 z_1 z_2 z_3 z_4 z_5 z_6 x_0 x_1 x_2 x_3 x_4 x_5 x_6 : Z) : Z :=
  if (x_6 <? z_6)%Z then 1%Z else if (z_6 <? x_6)%Z then (-1)%Z else
  if (x_5 <? z_5)%Z then 1%Z else if (z_5 <? x_5)%Z then (-1)%Z else
  if (x_4 <? z_4)%Z then 1%Z else if (z_4 <? x_4)%Z then (-1)%Z else
  if (x_3 <? z_3)%Z then 1%Z else if (z_3 <? x_3)%Z then (-1)%Z else
  if (x_2 <? z_2)%Z then 1%Z else if (z_2 <? x_2)%Z then (-1)%Z else
  if (x_1 <? z_1)%Z then 1%Z else if (z_1 <? x_1)%Z then (-1)%Z else
  if (x_0 <? z_0)%Z then 1%Z else if (z_0 <? x_0)%Z then (-1)%Z else 0%Z.
(** element.go 942-962 *)
Definition bitLen_ (z_0 z_1 z_2 z_3 z_4 z_5 z_6 : Z) : nat :=
  if ~~ (z_6 =? 0)%Z then (384 + bitLen z_6)%N else
  if ~~ (z_5 =? 0)%Z then (320 + bitLen z_5)%N else
  if ~~ (z_4 =? 0)%Z then (256 + bitLen z_4)%N else
  if ~~ (z_3 =? 0)%Z then (192 + bitLen z_3)%N else
  if ~~ (z_2 =? 0)%Z then (128 + bitLen z_2)%N else
  if ~~ (z_1 =? 0)%Z then (64 + bitLen z_1)%N else bitLen z_0.
(** element.go 529-539; x0 is x, x1 is y *)
Definition select (c : Z) (x_0 x_1 x_2 x_3 x_4 x_5 x_6 y_0 y_1 y_2 y_3 y_4 y_5 y_6 : Z) : seq Z :=
  let cC := (Z.shiftr (Z.lor c (toInt64 (- c))) 63 mod W)%Z in
  let z_0 := Z.lxor x_0 (Z.land cC (Z.lxor x_0 y_0)) in
  let z_1 := Z.lxor x_1 (Z.land cC (Z.lxor x_1 y_1)) in
  let z_2 := Z.lxor x_2 (Z.land cC (Z.lxor x_2 y_2)) in
  let z_3 := Z.lxor x_3 (Z.land cC (Z.lxor x_3 y_3)) in
  let z_4 := Z.lxor x_4 (Z.land cC (Z.lxor x_4 y_4)) in
  let z_5 := Z.lxor x_5 (Z.land cC (Z.lxor x_5 y_5)) in
  let z_6 := Z.lxor x_6 (Z.land cC (Z.lxor x_6 y_6)) in
  [:: z_0; z_1; z_2; z_3; z_4; z_5; z_6].
(** element.go 403-426 *)
Definition halve (z_0 z_1 z_2 z_3 z_4 z_5 z_6 : Z) : seq Z :=
  let carry := 0%Z in
  let: (z_0, z_1, z_2, z_3, z_4, z_5, z_6, carry) := if (Z.land z_0 1 =? 1)%Z then
  let: (z_0, carry) := Add64 z_0 q0 0%Z in
  let: (z_1, carry) := Add64 z_1 q1 carry in
  let: (z_2, carry) := Add64 z_2 q2 carry in
  let: (z_3, carry) := Add64 z_3 q3 carry in
  let: (z_4, carry) := Add64 z_4 q4 carry in
  let: (z_5, carry) := Add64 z_5 q5 carry in
  let: (z_6, _) := Add64 z_6 q6 carry in
  (z_0, z_1, z_2, z_3, z_4, z_5, z_6, carry) else
  (z_0, z_1, z_2, z_3, z_4, z_5, z_6, carry) in
  let z_0 := Z.lor (Z.shiftr z_0 1) (Z.shiftl z_1 63 mod W)%Z in
  let z_1 := Z.lor (Z.shiftr z_1 1) (Z.shiftl z_2 63 mod W)%Z in
  let z_2 := Z.lor (Z.shiftr z_2 1) (Z.shiftl z_3 63 mod W)%Z in
  let z_3 := Z.lor (Z.shiftr z_3 1) (Z.shiftl z_4 63 mod W)%Z in
  let z_4 := Z.lor (Z.shiftr z_4 1) (Z.shiftl z_5 63 mod W)%Z in
  let z_5 := Z.lor (Z.shiftr z_5 1) (Z.shiftl z_6 63 mod W)%Z in
  let z_6 := Z.shiftr z_6 1 in
  [:: z_0; z_1; z_2; z_3; z_4; z_5; z_6].
(** element.go 2064-2077 *)
Definition negl (x_0 x_1 x_2 x_3 x_4 x_5 x_6 xHi : Z) :=
  let b := 0%Z in
  let: (x_0, b) := Sub64 0%Z x_0 0%Z in
  let: (x_1, b) := Sub64 0%Z x_1 b in
  let: (x_2, b) := Sub64 0%Z x_2 b in
  let: (x_3, b) := Sub64 0%Z x_3 b in
  let: (x_4, b) := Sub64 0%Z x_4 b in
  let: (x_5, b) := Sub64 0%Z x_5 b in
  let: (x_6, b) := Sub64 0%Z x_6 b in
  let: (xHi, _) := Sub64 0%Z xHi b in
  (x_0, x_1, x_2, x_3, x_4, x_5, x_6, xHi).
(** element.go 2080-2100 *)
Definition mulW (x_0 x_1 x_2 x_3 x_4 x_5 x_6 y : Z) :=
  let m := Z.shiftr y 63 in
  let w := ((Z.lxor y m - m) mod W)%Z in
  let c := 0%Z in
  let: (c, z_0) := Mul64 x_0 w in
  let: (c, z_1) := madd1 x_1 w c in
  let: (c, z_2) := madd1 x_2 w c in
  let: (c, z_3) := madd1 x_3 w c in
  let: (c, z_4) := madd1 x_4 w c in
  let: (c, z_5) := madd1 x_5 w c in
  let: (c, z_6) := madd1 x_6 w c in
  if (y <? 0)%Z then negl z_0 z_1 z_2 z_3 z_4 z_5 z_6 c else (z_0, z_1, z_2, z_3, z_4, z_5, z_6, c).
(** element.go 2103-2121; yTimes is u *)
Definition lc (x_0 x_1 x_2 x_3 x_4 x_5 x_6 xC y_0 y_1 y_2 y_3 y_4 y_5 y_6 yC : Z) :=
  let: (u_0, u_1, u_2, u_3, u_4, u_5, u_6, yHi) := mulW y_0 y_1 y_2 y_3 y_4 y_5 y_6 yC in
  let: (z_0, z_1, z_2, z_3, z_4, z_5, z_6, xHi) := mulW x_0 x_1 x_2 x_3 x_4 x_5 x_6 xC in
  let carry := 0%Z in
  let: (z_0, carry) := Add64 z_0 u_0 0%Z in
  let: (z_1, carry) := Add64 z_1 u_1 carry in
  let: (z_2, carry) := Add64 z_2 u_2 carry in
  let: (z_3, carry) := Add64 z_3 u_3 carry in
  let: (z_4, carry) := Add64 z_4 u_4 carry in
  let: (z_5, carry) := Add64 z_5 u_5 carry in
  let: (z_6, carry) := Add64 z_6 u_6 carry in
  let: (yHi, _) := Add64 xHi yHi carry in
  (z_0, z_1, z_2, z_3, z_4, z_5, z_6, yHi).
(** element.go 1904-1921 *)
Definition mrs_r0 (x_0 x_1 x_2 x_3 x_4 x_5 x_6 xHi : Z) :=
  let m := ((x_0 * qInvNeg) mod W)%Z in
  let C := madd0 m q0 x_0 in
  let: (C, t_1) := madd2 m q1 x_1 C in
  let: (C, t_2) := madd2 m q2 x_2 C in
  let: (C, t_3) := madd2 m q3 x_3 C in
  let: (C, t_4) := madd2 m q4 x_4 C in
  let: (C, t_5) := madd2 m q5 x_5 C in
  let: (C, t_6) := madd2 m q6 x_6 C in
  let t_7 := ((xHi + C) mod W)%Z in
  (t_1, t_2, t_3, t_4, t_5, t_6, t_7).
(** element.go 1922-1935 *)
Definition mrs_r1 (t_1 t_2 t_3 t_4 t_5 t_6 t_7 t_8 : Z) :=
  let m := ((t_1 * qInvNeg) mod W)%Z in
  let C := madd0 m q0 t_1 in
  let: (C, t_2) := madd2 m q1 t_2 C in
  let: (C, t_3) := madd2 m q2 t_3 C in
  let: (C, t_4) := madd2 m q3 t_4 C in
  let: (C, t_5) := madd2 m q4 t_5 C in
  let: (C, t_6) := madd2 m q5 t_6 C in
  let: (C, t_7) := madd2 m q6 t_7 C in
  let t_8 := ((t_8 + C) mod W)%Z in
  (t_2, t_3, t_4, t_5, t_6, t_7, t_8).
(** element.go 1936-1949 *)
Definition mrs_r2 (t_2 t_3 t_4 t_5 t_6 t_7 t_8 t_9 : Z) :=
  let m := ((t_2 * qInvNeg) mod W)%Z in
  let C := madd0 m q0 t_2 in
  let: (C, t_3) := madd2 m q1 t_3 C in
  let: (C, t_4) := madd2 m q2 t_4 C in
  let: (C, t_5) := madd2 m q3 t_5 C in
  let: (C, t_6) := madd2 m q4 t_6 C in
  let: (C, t_7) := madd2 m q5 t_7 C in
  let: (C, t_8) := madd2 m q6 t_8 C in
  let t_9 := ((t_9 + C) mod W)%Z in
  (t_3, t_4, t_5, t_6, t_7, t_8, t_9).
(** element.go 1950-1963 *)
Definition mrs_r3 (t_3 t_4 t_5 t_6 t_7 t_8 t_9 t_10 : Z) :=
  let m := ((t_3 * qInvNeg) mod W)%Z in
  let C := madd0 m q0 t_3 in
  let: (C, t_4) := madd2 m q1 t_4 C in
  let: (C, t_5) := madd2 m q2 t_5 C in
  let: (C, t_6) := madd2 m q3 t_6 C in
  let: (C, t_7) := madd2 m q4 t_7 C in
  let: (C, t_8) := madd2 m q5 t_8 C in
  let: (C, t_9) := madd2 m q6 t_9 C in
  let t_10 := ((t_10 + C) mod W)%Z in
  (t_4, t_5, t_6, t_7, t_8, t_9, t_10).
(** element.go 1964-1977 *)
Definition mrs_r4 (t_4 t_5 t_6 t_7 t_8 t_9 t_10 t_11 : Z) :=
  let m := ((t_4 * qInvNeg) mod W)%Z in
  let C := madd0 m q0 t_4 in
  let: (C, t_5) := madd2 m q1 t_5 C in
  let: (C, t_6) := madd2 m q2 t_6 C in
  let: (C, t_7) := madd2 m q3 t_7 C in
  let: (C, t_8) := madd2 m q4 t_8 C in
  let: (C, t_9) := madd2 m q5 t_9 C in
  let: (C, t_10) := madd2 m q6 t_10 C in
  let t_11 := ((t_11 + C) mod W)%Z in
  (t_5, t_6, t_7, t_8, t_9, t_10, t_11).
(** element.go 1978-1991 *)
Definition mrs_r5 (t_5 t_6 t_7 t_8 t_9 t_10 t_11 t_12 : Z) :=
  let m := ((t_5 * qInvNeg) mod W)%Z in
  let C := madd0 m q0 t_5 in
  let: (C, t_6) := madd2 m q1 t_6 C in
  let: (C, t_7) := madd2 m q2 t_7 C in
  let: (C, t_8) := madd2 m q3 t_8 C in
  let: (C, t_9) := madd2 m q4 t_9 C in
  let: (C, t_10) := madd2 m q5 t_10 C in
  let: (C, t_11) := madd2 m q6 t_11 C in
  let t_12 := ((t_12 + C) mod W)%Z in
  (t_6, t_7, t_8, t_9, t_10, t_11, t_12).
(** element.go 1992-2003 *)
Definition mrs_r6 (t_6 t_7 t_8 t_9 t_10 t_11 t_12 : Z) :=
  let m := ((t_6 * qInvNeg) mod W)%Z in
  let C := madd0 m q0 t_6 in
  let: (C, z_0) := madd2 m q1 t_7 C in
  let: (C, z_1) := madd2 m q2 t_8 C in
  let: (C, z_2) := madd2 m q3 t_9 C in
  let: (C, z_3) := madd2 m q4 t_10 C in
  let: (C, z_4) := madd2 m q5 t_11 C in
  let: (z_6, z_5) := madd2 m q6 t_12 C in
  (z_0, z_1, z_2, z_3, z_4, z_5, z_6).
(** element.go 1892-2047 *)
Definition mrs (x_0 x_1 x_2 x_3 x_4 x_5 x_6 xHi : Z) : seq Z :=
  let mustNeg := ~~ (Z.land xHi (2 ^ 63) =? 0)%Z in
  let xHi := (Z.land xHi (2 ^ 63 - 1))%Z in
  let: (t_1, t_2, t_3, t_4, t_5, t_6, t_7) := mrs_r0 x_0 x_1 x_2 x_3 x_4 x_5 x_6 xHi in
  let t_8 := 0%Z in
  let: (t_2, t_3, t_4, t_5, t_6, t_7, t_8) := mrs_r1 t_1 t_2 t_3 t_4 t_5 t_6 t_7 t_8 in
  let t_9 := 0%Z in
  let: (t_3, t_4, t_5, t_6, t_7, t_8, t_9) := mrs_r2 t_2 t_3 t_4 t_5 t_6 t_7 t_8 t_9 in
  let t_10 := 0%Z in
  let: (t_4, t_5, t_6, t_7, t_8, t_9, t_10) := mrs_r3 t_3 t_4 t_5 t_6 t_7 t_8 t_9 t_10 in
  let t_11 := 0%Z in
  let: (t_5, t_6, t_7, t_8, t_9, t_10, t_11) := mrs_r4 t_4 t_5 t_6 t_7 t_8 t_9 t_10 t_11 in
  let t_12 := 0%Z in
  let: (t_6, t_7, t_8, t_9, t_10, t_11, t_12) := mrs_r5 t_5 t_6 t_7 t_8 t_9 t_10 t_11 t_12 in
  let: (z_0, z_1, z_2, z_3, z_4, z_5, z_6) := mrs_r6 t_6 t_7 t_8 t_9 t_10 t_11 t_12 in
  let: (z_0, z_1, z_2, z_3, z_4, z_5, z_6) := if ~~ smaller z_0 z_1 z_2 z_3 z_4 z_5 z_6 then
  let b := 0%Z in
  let: (z_0, b) := Sub64 z_0 q0 0%Z in
  let: (z_1, b) := Sub64 z_1 q1 b in
  let: (z_2, b) := Sub64 z_2 q2 b in
  let: (z_3, b) := Sub64 z_3 q3 b in
  let: (z_4, b) := Sub64 z_4 q4 b in
  let: (z_5, b) := Sub64 z_5 q5 b in
  let: (z_6, _) := Sub64 z_6 q6 b in
  (z_0, z_1, z_2, z_3, z_4, z_5, z_6) else
  (z_0, z_1, z_2, z_3, z_4, z_5, z_6) in
  if mustNeg then
  let b := 0%Z in
  let: (z_0, b) := Sub64 z_0 (2 ^ 63)%Z 0%Z in
  let: (z_1, b) := Sub64 z_1 0%Z b in
  let: (z_2, b) := Sub64 z_2 0%Z b in
  let: (z_3, b) := Sub64 z_3 0%Z b in
  let: (z_4, b) := Sub64 z_4 0%Z b in
  let: (z_5, b) := Sub64 z_5 0%Z b in
  let: (z_6, b) := Sub64 z_6 0%Z b in
  if ~~ (b =? 0)%Z then
  let carry := 0%Z in
  let: (z_0, carry) := Add64 z_0 q0 0%Z in
  let: (z_1, carry) := Add64 z_1 q1 carry in
  let: (z_2, carry) := Add64 z_2 q2 carry in
  let: (z_3, carry) := Add64 z_3 q3 carry in
  let: (z_4, carry) := Add64 z_4 q4 carry in
  let: (z_5, carry) := Add64 z_5 q5 carry in
  let: (z_6, _) := Add64 (W - 1)%Z q6 carry in
  [:: z_0; z_1; z_2; z_3; z_4; z_5; z_6] else
  [:: z_0; z_1; z_2; z_3; z_4; z_5; z_6] else
  [:: z_0; z_1; z_2; z_3; z_4; z_5; z_6].
(** element.go 1751-1757 *)
Definition shift_a (a_0 a_1 a_2 a_3 a_4 a_5 a_6 aHi : Z) : seq Z :=
  let a_0 := Z.lor (Z.shiftr a_0 31) (Z.shiftl a_1 33 mod W)%Z in
  let a_1 := Z.lor (Z.shiftr a_1 31) (Z.shiftl a_2 33 mod W)%Z in
  let a_2 := Z.lor (Z.shiftr a_2 31) (Z.shiftl a_3 33 mod W)%Z in
  let a_3 := Z.lor (Z.shiftr a_3 31) (Z.shiftl a_4 33 mod W)%Z in
  let a_4 := Z.lor (Z.shiftr a_4 31) (Z.shiftl a_5 33 mod W)%Z in
  let a_5 := Z.lor (Z.shiftr a_5 31) (Z.shiftl a_6 33 mod W)%Z in
  let a_6 := Z.lor (Z.shiftr a_6 31) (Z.shiftl aHi 33 mod W)%Z in
  [:: a_0; a_1; a_2; a_3; a_4; a_5; a_6].
(** element.go 1769-1775 *)
Definition shift_b (b_0 b_1 b_2 b_3 b_4 b_5 b_6 bHi : Z) : seq Z :=
  let b_0 := Z.lor (Z.shiftr b_0 31) (Z.shiftl b_1 33 mod W)%Z in
  let b_1 := Z.lor (Z.shiftr b_1 31) (Z.shiftl b_2 33 mod W)%Z in
  let b_2 := Z.lor (Z.shiftr b_2 31) (Z.shiftl b_3 33 mod W)%Z in
  let b_3 := Z.lor (Z.shiftr b_3 31) (Z.shiftl b_4 33 mod W)%Z in
  let b_4 := Z.lor (Z.shiftr b_4 31) (Z.shiftl b_5 33 mod W)%Z in
  let b_5 := Z.lor (Z.shiftr b_5 31) (Z.shiftl b_6 33 mod W)%Z in
  let b_6 := Z.lor (Z.shiftr b_6 31) (Z.shiftl bHi 33 mod W)%Z in
  [:: b_0; b_1; b_2; b_3; b_4; b_5; b_6].
End Text.
Ltac unroll2 hless :=
  cbv -[Add64 Sub64 Mul64 madd0 madd1 madd2 Z.mul Z.add Z.sub Z.modulo Z.land Z.lxor Z.shiftr Z.shiftl Z.pow Z.eqb Z.lor W negb less smaller];
  ops; rewrite ?hless; ifs; ops; ifs; reflexivity.
Lemma less7 q0 q1 q2 q3 q4 q5 q6 x0 x1 x2 x3 x4 x5 x6 : less [:: x0; x1; x2; x3; x4; x5; x6] [:: q0; q1; q2; q3; q4; q5; q6] = smaller q0 q1 q2 q3 q4 q5 q6 x0 x1 x2 x3 x4 x5 x6.
Proof. by rewrite /less /smaller /= andbF orbF. Qed.
Theorem text7_NotEqual x0 x1 x2 x3 x4 x5 x6 y0 y1 y2 y3 y4 y5 y6 :
  NotEqual [:: x0; x1; x2; x3; x4; x5; x6] [:: y0; y1; y2; y3; y4; y5; y6] =
  notEqual x0 x1 x2 x3 x4 x5 x6 y0 y1 y2 y3 y4 y5 y6.
Proof. rewrite /NotEqual /notEqual; cbn [zip map foldr fst snd]; by rewrite Z.lor_0_r (Z.lor_comm (Z.lxor x5 _) _) (Z.lor_comm (Z.lxor x4 _) _) (Z.lor_comm (Z.lxor x3 _) _) (Z.lor_comm (Z.lxor x2 _) _) (Z.lor_comm (Z.lxor x1 _) _) (Z.lor_comm (Z.lxor x0 _) _). Qed.
Theorem text7_FitsOnOneWord x0 x1 x2 x3 x4 x5 x6 :
  FitsOnOneWord [:: x0; x1; x2; x3; x4; x5; x6] =
  fitsOnOneWord x0 x1 x2 x3 x4 x5 x6.
Proof. rewrite /FitsOnOneWord /fitsOnOneWord; cbn [behead foldr]; by rewrite Z.lor_0_r (Z.lor_comm x5 _) (Z.lor_comm x4 _) (Z.lor_comm x3 _) (Z.lor_comm x2 _) (Z.lor_comm x1 _). Qed.
Theorem text7_cmpLimbs x0 x1 x2 x3 x4 x5 x6 y0 y1 y2 y3 y4 y5 y6 :
  cmpLimbs [:: x0; x1; x2; x3; x4; x5; x6] [:: y0; y1; y2; y3; y4; y5; y6] =
  cmp x0 x1 x2 x3 x4 x5 x6 y0 y1 y2 y3 y4 y5 y6.
Proof. by rewrite /cmpLimbs /cmp; cbn [zip foldl fst snd]. Qed.
Theorem text7_BitLen x0 x1 x2 x3 x4 x5 x6 :
  BitLenWords [:: x0; x1; x2; x3; x4; x5; x6] =
  bitLen_ x0 x1 x2 x3 x4 x5 x6.
Proof. rewrite /BitLenWords /bitLen_; cbn [zip foldl fst snd size iota]; case: (x6 =? 0)%Z; [|by []]; case: (x5 =? 0)%Z; [|by []]; case: (x4 =? 0)%Z; [|by []]; case: (x3 =? 0)%Z; [|by []]; case: (x2 =? 0)%Z; [|by []]; case: (x1 =? 0)%Z; [|by []]; by rewrite /bitLen; case: (x0 =? 0)%Z. Qed.
Theorem text7_Select c x0 x1 x2 x3 x4 x5 x6 y0 y1 y2 y3 y4 y5 y6 :
  Select c [:: x0; x1; x2; x3; x4; x5; x6] [:: y0; y1; y2; y3; y4; y5; y6] =
  select c x0 x1 x2 x3 x4 x5 x6 y0 y1 y2 y3 y4 y5 y6.
Proof. by []. Qed.
Theorem text7_Halve q0 q1 q2 q3 q4 q5 q6 qi r one co k b x0 x1 x2 x3 x4 x5 x6 :
  Halve (Gen [:: q0; q1; q2; q3; q4; q5; q6] qi r one co k false b) [:: x0; x1; x2; x3; x4; x5; x6] =
  halve q0 q1 q2 q3 q4 q5 q6 x0 x1 x2 x3 x4 x5 x6.
Proof. halving. Qed.
Theorem text7_negL x0 x1 x2 x3 x4 x5 x6 h :
  negL [:: x0; x1; x2; x3; x4; x5; x6] h =
  let: (s0, s1, s2, s3, s4, s5, s6, s7) := negl x0 x1 x2 x3 x4 x5 x6 h in ([:: s0; s1; s2; s3; s4; s5; s6], s7).
Proof. unroll2 (@less7). Qed.
Theorem text7_mulWNonModular x0 x1 x2 x3 x4 x5 x6 w :
  mulWNonModular [:: x0; x1; x2; x3; x4; x5; x6] w =
  let: (s0, s1, s2, s3, s4, s5, s6, s7) := mulW x0 x1 x2 x3 x4 x5 x6 w in ([:: s0; s1; s2; s3; s4; s5; s6], s7).
Proof. rewrite /mulWNonModular /mulW /absInt64; cbv zeta; set w' := (_ mod W)%Z; cbv beta iota zeta delta [hd0 nth behead madd1Chain]; case: (Mul64 x0 w') => ? ?; cbv beta iota; rewrite (madd1C x1 w'); case: (madd1 w' x1 _) => ? ?; cbv beta iota; rewrite (madd1C x2 w'); case: (madd1 w' x2 _) => ? ?; cbv beta iota; rewrite (madd1C x3 w'); case: (madd1 w' x3 _) => ? ?; cbv beta iota; rewrite (madd1C x4 w'); case: (madd1 w' x4 _) => ? ?; cbv beta iota; rewrite (madd1C x5 w'); case: (madd1 w' x5 _) => ? ?; cbv beta iota; rewrite (madd1C x6 w'); case: (madd1 w' x6 _) => ? ?; cbv beta iota;  case: (w <? 0)%Z; [exact: text7_negL|by []]. Qed.
Theorem text7_linearCombNonModular x0 x1 x2 x3 x4 x5 x6 c y0 y1 y2 y3 y4 y5 y6 d :
  linearCombNonModular [:: x0; x1; x2; x3; x4; x5; x6] c [:: y0; y1; y2; y3; y4; y5; y6] d =
  let: (s0, s1, s2, s3, s4, s5, s6, s7) := lc x0 x1 x2 x3 x4 x5 x6 c y0 y1 y2 y3 y4 y5 y6 d in ([:: s0; s1; s2; s3; s4; s5; s6], s7).
Proof. rewrite /linearCombNonModular /lc !text7_mulWNonModular; case: (mulW y0 y1 y2 y3 y4 y5 y6 d) => [[[[[[[v0 v1] v2] v3] v4] v5] v6] v7]; case: (mulW x0 x1 x2 x3 x4 x5 x6 c) => [[[[[[[w0 w1] w2] w3] w4] w5] w6] w7]; clear; unroll2 (@less7). Qed.
Lemma mrs_r0E q0 q1 q2 q3 q4 q5 q6 qi r one co k b x0 x1 x2 x3 x4 x5 x6 h rest :
  sosRound (Gen [:: q0; q1; q2; q3; q4; q5; q6] qi r one co k false b) (x0::x1::x2::x3::x4::x5::x6::h::rest) false =
  let: (s0, s1, s2, s3, s4, s5, s6) := mrs_r0 q0 q1 q2 q3 q4 q5 q6 qi x0 x1 x2 x3 x4 x5 x6 h in s0::s1::s2::s3::s4::s5::s6::rest.
Proof. rewrite /mrs_r0; unroll2 (@less7). Qed.
Lemma mrs_r1E q0 q1 q2 q3 q4 q5 q6 qi r one co k b t1 t2 t3 t4 t5 t6 t7 t8 rest :
  sosRound (Gen [:: q0; q1; q2; q3; q4; q5; q6] qi r one co k false b) (t1::t2::t3::t4::t5::t6::t7::t8::rest) false =
  let: (s0, s1, s2, s3, s4, s5, s6) := mrs_r1 q0 q1 q2 q3 q4 q5 q6 qi t1 t2 t3 t4 t5 t6 t7 t8 in s0::s1::s2::s3::s4::s5::s6::rest.
Proof. rewrite /mrs_r1; unroll2 (@less7). Qed.
Lemma mrs_r2E q0 q1 q2 q3 q4 q5 q6 qi r one co k b t2 t3 t4 t5 t6 t7 t8 t9 rest :
  sosRound (Gen [:: q0; q1; q2; q3; q4; q5; q6] qi r one co k false b) (t2::t3::t4::t5::t6::t7::t8::t9::rest) false =
  let: (s0, s1, s2, s3, s4, s5, s6) := mrs_r2 q0 q1 q2 q3 q4 q5 q6 qi t2 t3 t4 t5 t6 t7 t8 t9 in s0::s1::s2::s3::s4::s5::s6::rest.
Proof. rewrite /mrs_r2; unroll2 (@less7). Qed.
Lemma mrs_r3E q0 q1 q2 q3 q4 q5 q6 qi r one co k b t3 t4 t5 t6 t7 t8 t9 t10 rest :
  sosRound (Gen [:: q0; q1; q2; q3; q4; q5; q6] qi r one co k false b) (t3::t4::t5::t6::t7::t8::t9::t10::rest) false =
  let: (s0, s1, s2, s3, s4, s5, s6) := mrs_r3 q0 q1 q2 q3 q4 q5 q6 qi t3 t4 t5 t6 t7 t8 t9 t10 in s0::s1::s2::s3::s4::s5::s6::rest.
Proof. rewrite /mrs_r3; unroll2 (@less7). Qed.
Lemma mrs_r4E q0 q1 q2 q3 q4 q5 q6 qi r one co k b t4 t5 t6 t7 t8 t9 t10 t11 rest :
  sosRound (Gen [:: q0; q1; q2; q3; q4; q5; q6] qi r one co k false b) (t4::t5::t6::t7::t8::t9::t10::t11::rest) false =
  let: (s0, s1, s2, s3, s4, s5, s6) := mrs_r4 q0 q1 q2 q3 q4 q5 q6 qi t4 t5 t6 t7 t8 t9 t10 t11 in s0::s1::s2::s3::s4::s5::s6::rest.
Proof. rewrite /mrs_r4; unroll2 (@less7). Qed.
Lemma mrs_r5E q0 q1 q2 q3 q4 q5 q6 qi r one co k b t5 t6 t7 t8 t9 t10 t11 t12 rest :
  sosRound (Gen [:: q0; q1; q2; q3; q4; q5; q6] qi r one co k false b) (t5::t6::t7::t8::t9::t10::t11::t12::rest) false =
  let: (s0, s1, s2, s3, s4, s5, s6) := mrs_r5 q0 q1 q2 q3 q4 q5 q6 qi t5 t6 t7 t8 t9 t10 t11 t12 in s0::s1::s2::s3::s4::s5::s6::rest.
Proof. rewrite /mrs_r5; unroll2 (@less7). Qed.
Lemma mrs_r6E q0 q1 q2 q3 q4 q5 q6 qi r one co k b t6 t7 t8 t9 t10 t11 t12 :
  sosRound (Gen [:: q0; q1; q2; q3; q4; q5; q6] qi r one co k false b) (t6::t7::t8::t9::t10::t11::t12::[::]) true =
  let: (s0, s1, s2, s3, s4, s5, s6) := mrs_r6 q0 q1 q2 q3 q4 q5 q6 qi t6 t7 t8 t9 t10 t11 t12 in [:: s0; s1; s2; s3; s4; s5; s6].
Proof. rewrite /mrs_r6; unroll2 (@less7). Qed.
Theorem text7_montReduceSigned q0 q1 q2 q3 q4 q5 q6 qi r one co k b x0 x1 x2 x3 x4 x5 x6 h :
  montReduceSigned (Gen [:: q0; q1; q2; q3; q4; q5; q6] qi r one co k false b) [:: x0; x1; x2; x3; x4; x5; x6] h =
  mrs q0 q1 q2 q3 q4 q5 q6 qi x0 x1 x2 x3 x4 x5 x6 h.
Proof. 
rewrite /montReduceSigned /mrs /Limbs; cbn [iter qs size predn subn subn_rec Nat.sub nseq ncons cat]; cbv zeta.
rewrite mrs_r0E; case: (mrs_r0 _ _ _ _ _ _ _ _ _ _ _ _ _ _ _ _) => [[[[[[a0_0 a0_1] a0_2] a0_3] a0_4] a0_5] a0_6]; cbv beta iota.
rewrite mrs_r1E; case: (mrs_r1 _ _ _ _ _ _ _ _ _ _ _ _ _ _ _ _) => [[[[[[a1_0 a1_1] a1_2] a1_3] a1_4] a1_5] a1_6]; cbv beta iota.
rewrite mrs_r2E; case: (mrs_r2 _ _ _ _ _ _ _ _ _ _ _ _ _ _ _ _) => [[[[[[a2_0 a2_1] a2_2] a2_3] a2_4] a2_5] a2_6]; cbv beta iota.
rewrite mrs_r3E; case: (mrs_r3 _ _ _ _ _ _ _ _ _ _ _ _ _ _ _ _) => [[[[[[a3_0 a3_1] a3_2] a3_3] a3_4] a3_5] a3_6]; cbv beta iota.
rewrite mrs_r4E; case: (mrs_r4 _ _ _ _ _ _ _ _ _ _ _ _ _ _ _ _) => [[[[[[a4_0 a4_1] a4_2] a4_3] a4_4] a4_5] a4_6]; cbv beta iota.
rewrite mrs_r5E; case: (mrs_r5 _ _ _ _ _ _ _ _ _ _ _ _ _ _ _ _) => [[[[[[a5_0 a5_1] a5_2] a5_3] a5_4] a5_5] a5_6]; cbv beta iota.
rewrite mrs_r6E; case: (mrs_r6 _ _ _ _ _ _ _ _ _ _ _ _ _ _ _) => [[[[[[a6_0 a6_1] a6_2] a6_3] a6_4] a6_5] a6_6]; cbv beta iota.
unroll2 (@less7).
 Qed.
Theorem text7_shift_a x0 x1 x2 x3 x4 x5 x6 h :
  shr31 [:: x0; x1; x2; x3; x4; x5; x6] h =
  shift_a x0 x1 x2 x3 x4 x5 x6 h.
Proof. by []. Qed.
Theorem text7_shift_b x0 x1 x2 x3 x4 x5 x6 h :
  shr31 [:: x0; x1; x2; x3; x4; x5; x6] h =
  shift_b x0 x1 x2 x3 x4 x5 x6 h.
Proof. by []. Qed.
