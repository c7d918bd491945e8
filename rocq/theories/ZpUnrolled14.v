(** The unrolled text of buckler/internal/zp880, word by word: each definition is the
    sequence of the statements of the Go function, one let per assignment.  The long functions are
    cut into their rounds, one definition each; the variables that live across the cut are passed
    on.  The theorems say that the recursions of ZpModel.v are these texts. *)
From Coq Require Import ZArith.
From mathcomp Require Import all_ssreflect.
From Verif Require Import JindoIntModel ZpModel.
Set Implicit Arguments. Unset Strict Implicit. Unset Printing Implicit Defensive.
Delimit Scope Z_scope with Z.
Section Unrolled14.
Variables q0 q1 q2 q3 q4 q5 q6 q7 q8 q9 q10 q11 q12 q13 qInvNeg : Z.
(** element.go 475-477 *)
Definition smaller (z_0 z_1 z_2 z_3 z_4 z_5 z_6 z_7 z_8 z_9 z_10 z_11 z_12 z_13 : Z) : bool := ((z_13 <? q13)%Z || ((z_13 =? q13)%Z && ((z_12 <? q12)%Z || ((z_12 =? q12)%Z && ((z_11 <? q11)%Z || ((z_11 =? q11)%Z && ((z_10 <? q10)%Z || ((z_10 =? q10)%Z && ((z_9 <? q9)%Z || ((z_9 =? q9)%Z && ((z_8 <? q8)%Z || ((z_8 =? q8)%Z && ((z_7 <? q7)%Z || ((z_7 =? q7)%Z && ((z_6 <? q6)%Z || ((z_6 =? q6)%Z && ((z_5 <? q5)%Z || ((z_5 =? q5)%Z && ((z_4 <? q4)%Z || ((z_4 =? q4)%Z && ((z_3 <? q3)%Z || ((z_3 =? q3)%Z && ((z_2 <? q2)%Z || ((z_2 =? q2)%Z && ((z_1 <? q1)%Z || ((z_1 =? q1)%Z && ((z_0 <? q0)%Z))))))))))))))))))))))))))).
(** element.go 269-271 *)
Definition isZero (z_0 z_1 z_2 z_3 z_4 z_5 z_6 z_7 z_8 z_9 z_10 z_11 z_12 z_13 : Z) : bool := ((Z.lor (Z.lor (Z.lor (Z.lor (Z.lor (Z.lor (Z.lor (Z.lor (Z.lor (Z.lor (Z.lor (Z.lor (Z.lor z_13 z_12) z_11) z_10) z_9) z_8) z_7) z_6) z_5) z_4) z_3) z_2) z_1) z_0) =? 0)%Z.
(** element.go 540-598 *)
Definition add (x_0 x_1 x_2 x_3 x_4 x_5 x_6 x_7 x_8 x_9 x_10 x_11 x_12 x_13 y_0 y_1 y_2 y_3 y_4 y_5 y_6 y_7 y_8 y_9 y_10 y_11 y_12 y_13 : Z) : seq Z :=
  let carry := 0%Z in
  let: (z_0, carry) := Add64 x_0 y_0 0%Z in
  let: (z_1, carry) := Add64 x_1 y_1 carry in
  let: (z_2, carry) := Add64 x_2 y_2 carry in
  let: (z_3, carry) := Add64 x_3 y_3 carry in
  let: (z_4, carry) := Add64 x_4 y_4 carry in
  let: (z_5, carry) := Add64 x_5 y_5 carry in
  let: (z_6, carry) := Add64 x_6 y_6 carry in
  let: (z_7, carry) := Add64 x_7 y_7 carry in
  let: (z_8, carry) := Add64 x_8 y_8 carry in
  let: (z_9, carry) := Add64 x_9 y_9 carry in
  let: (z_10, carry) := Add64 x_10 y_10 carry in
  let: (z_11, carry) := Add64 x_11 y_11 carry in
  let: (z_12, carry) := Add64 x_12 y_12 carry in
  let: (z_13, carry) := Add64 x_13 y_13 carry in
  if ~~ (carry =? 0)%Z then
  let b := 0%Z in
  let: (z_0, b) := Sub64 z_0 q0 0%Z in
  let: (z_1, b) := Sub64 z_1 q1 b in
  let: (z_2, b) := Sub64 z_2 q2 b in
  let: (z_3, b) := Sub64 z_3 q3 b in
  let: (z_4, b) := Sub64 z_4 q4 b in
  let: (z_5, b) := Sub64 z_5 q5 b in
  let: (z_6, b) := Sub64 z_6 q6 b in
  let: (z_7, b) := Sub64 z_7 q7 b in
  let: (z_8, b) := Sub64 z_8 q8 b in
  let: (z_9, b) := Sub64 z_9 q9 b in
  let: (z_10, b) := Sub64 z_10 q10 b in
  let: (z_11, b) := Sub64 z_11 q11 b in
  let: (z_12, b) := Sub64 z_12 q12 b in
  let: (z_13, _) := Sub64 z_13 q13 b in
  [:: z_0; z_1; z_2; z_3; z_4; z_5; z_6; z_7; z_8; z_9; z_10; z_11; z_12; z_13] else
  if ~~ smaller z_0 z_1 z_2 z_3 z_4 z_5 z_6 z_7 z_8 z_9 z_10 z_11 z_12 z_13 then
  let b := 0%Z in
  let: (z_0, b) := Sub64 z_0 q0 0%Z in
  let: (z_1, b) := Sub64 z_1 q1 b in
  let: (z_2, b) := Sub64 z_2 q2 b in
  let: (z_3, b) := Sub64 z_3 q3 b in
  let: (z_4, b) := Sub64 z_4 q4 b in
  let: (z_5, b) := Sub64 z_5 q5 b in
  let: (z_6, b) := Sub64 z_6 q6 b in
  let: (z_7, b) := Sub64 z_7 q7 b in
  let: (z_8, b) := Sub64 z_8 q8 b in
  let: (z_9, b) := Sub64 z_9 q9 b in
  let: (z_10, b) := Sub64 z_10 q10 b in
  let: (z_11, b) := Sub64 z_11 q11 b in
  let: (z_12, b) := Sub64 z_12 q12 b in
  let: (z_13, _) := Sub64 z_13 q13 b in
  [:: z_0; z_1; z_2; z_3; z_4; z_5; z_6; z_7; z_8; z_9; z_10; z_11; z_12; z_13] else
  [:: z_0; z_1; z_2; z_3; z_4; z_5; z_6; z_7; z_8; z_9; z_10; z_11; z_12; z_13].
(** element.go 601-659 *)
Definition double (x_0 x_1 x_2 x_3 x_4 x_5 x_6 x_7 x_8 x_9 x_10 x_11 x_12 x_13 : Z) : seq Z :=
  let carry := 0%Z in
  let: (z_0, carry) := Add64 x_0 x_0 0%Z in
  let: (z_1, carry) := Add64 x_1 x_1 carry in
  let: (z_2, carry) := Add64 x_2 x_2 carry in
  let: (z_3, carry) := Add64 x_3 x_3 carry in
  let: (z_4, carry) := Add64 x_4 x_4 carry in
  let: (z_5, carry) := Add64 x_5 x_5 carry in
  let: (z_6, carry) := Add64 x_6 x_6 carry in
  let: (z_7, carry) := Add64 x_7 x_7 carry in
  let: (z_8, carry) := Add64 x_8 x_8 carry in
  let: (z_9, carry) := Add64 x_9 x_9 carry in
  let: (z_10, carry) := Add64 x_10 x_10 carry in
  let: (z_11, carry) := Add64 x_11 x_11 carry in
  let: (z_12, carry) := Add64 x_12 x_12 carry in
  let: (z_13, carry) := Add64 x_13 x_13 carry in
  if ~~ (carry =? 0)%Z then
  let b := 0%Z in
  let: (z_0, b) := Sub64 z_0 q0 0%Z in
  let: (z_1, b) := Sub64 z_1 q1 b in
  let: (z_2, b) := Sub64 z_2 q2 b in
  let: (z_3, b) := Sub64 z_3 q3 b in
  let: (z_4, b) := Sub64 z_4 q4 b in
  let: (z_5, b) := Sub64 z_5 q5 b in
  let: (z_6, b) := Sub64 z_6 q6 b in
  let: (z_7, b) := Sub64 z_7 q7 b in
  let: (z_8, b) := Sub64 z_8 q8 b in
  let: (z_9, b) := Sub64 z_9 q9 b in
  let: (z_10, b) := Sub64 z_10 q10 b in
  let: (z_11, b) := Sub64 z_11 q11 b in
  let: (z_12, b) := Sub64 z_12 q12 b in
  let: (z_13, _) := Sub64 z_13 q13 b in
  [:: z_0; z_1; z_2; z_3; z_4; z_5; z_6; z_7; z_8; z_9; z_10; z_11; z_12; z_13] else
  if ~~ smaller z_0 z_1 z_2 z_3 z_4 z_5 z_6 z_7 z_8 z_9 z_10 z_11 z_12 z_13 then
  let b := 0%Z in
  let: (z_0, b) := Sub64 z_0 q0 0%Z in
  let: (z_1, b) := Sub64 z_1 q1 b in
  let: (z_2, b) := Sub64 z_2 q2 b in
  let: (z_3, b) := Sub64 z_3 q3 b in
  let: (z_4, b) := Sub64 z_4 q4 b in
  let: (z_5, b) := Sub64 z_5 q5 b in
  let: (z_6, b) := Sub64 z_6 q6 b in
  let: (z_7, b) := Sub64 z_7 q7 b in
  let: (z_8, b) := Sub64 z_8 q8 b in
  let: (z_9, b) := Sub64 z_9 q9 b in
  let: (z_10, b) := Sub64 z_10 q10 b in
  let: (z_11, b) := Sub64 z_11 q11 b in
  let: (z_12, b) := Sub64 z_12 q12 b in
  let: (z_13, _) := Sub64 z_13 q13 b in
  [:: z_0; z_1; z_2; z_3; z_4; z_5; z_6; z_7; z_8; z_9; z_10; z_11; z_12; z_13] else
  [:: z_0; z_1; z_2; z_3; z_4; z_5; z_6; z_7; z_8; z_9; z_10; z_11; z_12; z_13].
(** element.go 662-696 *)
Definition sub (x_0 x_1 x_2 x_3 x_4 x_5 x_6 x_7 x_8 x_9 x_10 x_11 x_12 x_13 y_0 y_1 y_2 y_3 y_4 y_5 y_6 y_7 y_8 y_9 y_10 y_11 y_12 y_13 : Z) : seq Z :=
  let b := 0%Z in
  let: (z_0, b) := Sub64 x_0 y_0 0%Z in
  let: (z_1, b) := Sub64 x_1 y_1 b in
  let: (z_2, b) := Sub64 x_2 y_2 b in
  let: (z_3, b) := Sub64 x_3 y_3 b in
  let: (z_4, b) := Sub64 x_4 y_4 b in
  let: (z_5, b) := Sub64 x_5 y_5 b in
  let: (z_6, b) := Sub64 x_6 y_6 b in
  let: (z_7, b) := Sub64 x_7 y_7 b in
  let: (z_8, b) := Sub64 x_8 y_8 b in
  let: (z_9, b) := Sub64 x_9 y_9 b in
  let: (z_10, b) := Sub64 x_10 y_10 b in
  let: (z_11, b) := Sub64 x_11 y_11 b in
  let: (z_12, b) := Sub64 x_12 y_12 b in
  let: (z_13, b) := Sub64 x_13 y_13 b in
  if ~~ (b =? 0)%Z then
  let c := 0%Z in
  let: (z_0, c) := Add64 z_0 q0 0%Z in
  let: (z_1, c) := Add64 z_1 q1 c in
  let: (z_2, c) := Add64 z_2 q2 c in
  let: (z_3, c) := Add64 z_3 q3 c in
  let: (z_4, c) := Add64 z_4 q4 c in
  let: (z_5, c) := Add64 z_5 q5 c in
  let: (z_6, c) := Add64 z_6 q6 c in
  let: (z_7, c) := Add64 z_7 q7 c in
  let: (z_8, c) := Add64 z_8 q8 c in
  let: (z_9, c) := Add64 z_9 q9 c in
  let: (z_10, c) := Add64 z_10 q10 c in
  let: (z_11, c) := Add64 z_11 q11 c in
  let: (z_12, c) := Add64 z_12 q12 c in
  let: (z_13, _) := Add64 z_13 q13 c in
  [:: z_0; z_1; z_2; z_3; z_4; z_5; z_6; z_7; z_8; z_9; z_10; z_11; z_12; z_13] else
  [:: z_0; z_1; z_2; z_3; z_4; z_5; z_6; z_7; z_8; z_9; z_10; z_11; z_12; z_13].
(** element.go 699-720 *)
Definition neg (x_0 x_1 x_2 x_3 x_4 x_5 x_6 x_7 x_8 x_9 x_10 x_11 x_12 x_13 : Z) : seq Z :=
  if isZero x_0 x_1 x_2 x_3 x_4 x_5 x_6 x_7 x_8 x_9 x_10 x_11 x_12 x_13 then
  let z_0 := 0%Z in
  let z_1 := 0%Z in
  let z_2 := 0%Z in
  let z_3 := 0%Z in
  let z_4 := 0%Z in
  let z_5 := 0%Z in
  let z_6 := 0%Z in
  let z_7 := 0%Z in
  let z_8 := 0%Z in
  let z_9 := 0%Z in
  let z_10 := 0%Z in
  let z_11 := 0%Z in
  let z_12 := 0%Z in
  let z_13 := 0%Z in
  [:: z_0; z_1; z_2; z_3; z_4; z_5; z_6; z_7; z_8; z_9; z_10; z_11; z_12; z_13] else
  let borrow := 0%Z in
  let: (z_0, borrow) := Sub64 q0 x_0 0%Z in
  let: (z_1, borrow) := Sub64 q1 x_1 borrow in
  let: (z_2, borrow) := Sub64 q2 x_2 borrow in
  let: (z_3, borrow) := Sub64 q3 x_3 borrow in
  let: (z_4, borrow) := Sub64 q4 x_4 borrow in
  let: (z_5, borrow) := Sub64 q5 x_5 borrow in
  let: (z_6, borrow) := Sub64 q6 x_6 borrow in
  let: (z_7, borrow) := Sub64 q7 x_7 borrow in
  let: (z_8, borrow) := Sub64 q8 x_8 borrow in
  let: (z_9, borrow) := Sub64 q9 x_9 borrow in
  let: (z_10, borrow) := Sub64 q10 x_10 borrow in
  let: (z_11, borrow) := Sub64 q11 x_11 borrow in
  let: (z_12, borrow) := Sub64 q12 x_12 borrow in
  let: (z_13, _) := Sub64 q13 x_13 borrow in
  [:: z_0; z_1; z_2; z_3; z_4; z_5; z_6; z_7; z_8; z_9; z_10; z_11; z_12; z_13].
(** element.go 755-796 *)
Definition mulG_r0 (x_0 x_1 x_2 x_3 x_4 x_5 x_6 x_7 x_8 x_9 x_10 x_11 x_12 x_13 y_0 t_0 t_1 t_2 t_3 t_4 t_5 t_6 t_7 t_8 t_9 t_10 t_11 t_12 t_13 t_14 : Z) :=
  let: (C, t_0) := Mul64 y_0 x_0 in
  let: (C, t_1) := madd1 y_0 x_1 C in
  let: (C, t_2) := madd1 y_0 x_2 C in
  let: (C, t_3) := madd1 y_0 x_3 C in
  let: (C, t_4) := madd1 y_0 x_4 C in
  let: (C, t_5) := madd1 y_0 x_5 C in
  let: (C, t_6) := madd1 y_0 x_6 C in
  let: (C, t_7) := madd1 y_0 x_7 C in
  let: (C, t_8) := madd1 y_0 x_8 C in
  let: (C, t_9) := madd1 y_0 x_9 C in
  let: (C, t_10) := madd1 y_0 x_10 C in
  let: (C, t_11) := madd1 y_0 x_11 C in
  let: (C, t_12) := madd1 y_0 x_12 C in
  let: (C, t_13) := madd1 y_0 x_13 C in
  let: (t_14, D) := Add64 t_14 C 0%Z in
  let m := ((t_0 * qInvNeg) mod W)%Z in
  let C := madd0 m q0 t_0 in
  let: (C, t_0) := madd2 m q1 t_1 C in
  let: (C, t_1) := madd2 m q2 t_2 C in
  let: (C, t_2) := madd2 m q3 t_3 C in
  let: (C, t_3) := madd2 m q4 t_4 C in
  let: (C, t_4) := madd2 m q5 t_5 C in
  let: (C, t_5) := madd2 m q6 t_6 C in
  let: (C, t_6) := madd2 m q7 t_7 C in
  let: (C, t_7) := madd2 m q8 t_8 C in
  let: (C, t_8) := madd2 m q9 t_9 C in
  let: (C, t_9) := madd2 m q10 t_10 C in
  let: (C, t_10) := madd2 m q11 t_11 C in
  let: (C, t_11) := madd2 m q12 t_12 C in
  let: (C, t_12) := madd2 m q13 t_13 C in
  let: (t_13, C) := Add64 t_14 C 0%Z in
  let: (t_14, _) := Add64 0%Z D C in
  (t_0, t_1, t_2, t_3, t_4, t_5, t_6, t_7, t_8, t_9, t_10, t_11, t_12, t_13, t_14).
(** element.go 797-838 *)
Definition mulG_r1 (x_0 x_1 x_2 x_3 x_4 x_5 x_6 x_7 x_8 x_9 x_10 x_11 x_12 x_13 y_1 t_0 t_1 t_2 t_3 t_4 t_5 t_6 t_7 t_8 t_9 t_10 t_11 t_12 t_13 t_14 : Z) :=
  let: (C, t_0) := madd1 y_1 x_0 t_0 in
  let: (C, t_1) := madd2 y_1 x_1 t_1 C in
  let: (C, t_2) := madd2 y_1 x_2 t_2 C in
  let: (C, t_3) := madd2 y_1 x_3 t_3 C in
  let: (C, t_4) := madd2 y_1 x_4 t_4 C in
  let: (C, t_5) := madd2 y_1 x_5 t_5 C in
  let: (C, t_6) := madd2 y_1 x_6 t_6 C in
  let: (C, t_7) := madd2 y_1 x_7 t_7 C in
  let: (C, t_8) := madd2 y_1 x_8 t_8 C in
  let: (C, t_9) := madd2 y_1 x_9 t_9 C in
  let: (C, t_10) := madd2 y_1 x_10 t_10 C in
  let: (C, t_11) := madd2 y_1 x_11 t_11 C in
  let: (C, t_12) := madd2 y_1 x_12 t_12 C in
  let: (C, t_13) := madd2 y_1 x_13 t_13 C in
  let: (t_14, D) := Add64 t_14 C 0%Z in
  let m := ((t_0 * qInvNeg) mod W)%Z in
  let C := madd0 m q0 t_0 in
  let: (C, t_0) := madd2 m q1 t_1 C in
  let: (C, t_1) := madd2 m q2 t_2 C in
  let: (C, t_2) := madd2 m q3 t_3 C in
  let: (C, t_3) := madd2 m q4 t_4 C in
  let: (C, t_4) := madd2 m q5 t_5 C in
  let: (C, t_5) := madd2 m q6 t_6 C in
  let: (C, t_6) := madd2 m q7 t_7 C in
  let: (C, t_7) := madd2 m q8 t_8 C in
  let: (C, t_8) := madd2 m q9 t_9 C in
  let: (C, t_9) := madd2 m q10 t_10 C in
  let: (C, t_10) := madd2 m q11 t_11 C in
  let: (C, t_11) := madd2 m q12 t_12 C in
  let: (C, t_12) := madd2 m q13 t_13 C in
  let: (t_13, C) := Add64 t_14 C 0%Z in
  let: (t_14, _) := Add64 0%Z D C in
  (t_0, t_1, t_2, t_3, t_4, t_5, t_6, t_7, t_8, t_9, t_10, t_11, t_12, t_13, t_14).
(** element.go 839-880 *)
Definition mulG_r2 (x_0 x_1 x_2 x_3 x_4 x_5 x_6 x_7 x_8 x_9 x_10 x_11 x_12 x_13 y_2 t_0 t_1 t_2 t_3 t_4 t_5 t_6 t_7 t_8 t_9 t_10 t_11 t_12 t_13 t_14 : Z) :=
  let: (C, t_0) := madd1 y_2 x_0 t_0 in
  let: (C, t_1) := madd2 y_2 x_1 t_1 C in
  let: (C, t_2) := madd2 y_2 x_2 t_2 C in
  let: (C, t_3) := madd2 y_2 x_3 t_3 C in
  let: (C, t_4) := madd2 y_2 x_4 t_4 C in
  let: (C, t_5) := madd2 y_2 x_5 t_5 C in
  let: (C, t_6) := madd2 y_2 x_6 t_6 C in
  let: (C, t_7) := madd2 y_2 x_7 t_7 C in
  let: (C, t_8) := madd2 y_2 x_8 t_8 C in
  let: (C, t_9) := madd2 y_2 x_9 t_9 C in
  let: (C, t_10) := madd2 y_2 x_10 t_10 C in
  let: (C, t_11) := madd2 y_2 x_11 t_11 C in
  let: (C, t_12) := madd2 y_2 x_12 t_12 C in
  let: (C, t_13) := madd2 y_2 x_13 t_13 C in
  let: (t_14, D) := Add64 t_14 C 0%Z in
  let m := ((t_0 * qInvNeg) mod W)%Z in
  let C := madd0 m q0 t_0 in
  let: (C, t_0) := madd2 m q1 t_1 C in
  let: (C, t_1) := madd2 m q2 t_2 C in
  let: (C, t_2) := madd2 m q3 t_3 C in
  let: (C, t_3) := madd2 m q4 t_4 C in
  let: (C, t_4) := madd2 m q5 t_5 C in
  let: (C, t_5) := madd2 m q6 t_6 C in
  let: (C, t_6) := madd2 m q7 t_7 C in
  let: (C, t_7) := madd2 m q8 t_8 C in
  let: (C, t_8) := madd2 m q9 t_9 C in
  let: (C, t_9) := madd2 m q10 t_10 C in
  let: (C, t_10) := madd2 m q11 t_11 C in
  let: (C, t_11) := madd2 m q12 t_12 C in
  let: (C, t_12) := madd2 m q13 t_13 C in
  let: (t_13, C) := Add64 t_14 C 0%Z in
  let: (t_14, _) := Add64 0%Z D C in
  (t_0, t_1, t_2, t_3, t_4, t_5, t_6, t_7, t_8, t_9, t_10, t_11, t_12, t_13, t_14).
(** element.go 881-922 *)
Definition mulG_r3 (x_0 x_1 x_2 x_3 x_4 x_5 x_6 x_7 x_8 x_9 x_10 x_11 x_12 x_13 y_3 t_0 t_1 t_2 t_3 t_4 t_5 t_6 t_7 t_8 t_9 t_10 t_11 t_12 t_13 t_14 : Z) :=
  let: (C, t_0) := madd1 y_3 x_0 t_0 in
  let: (C, t_1) := madd2 y_3 x_1 t_1 C in
  let: (C, t_2) := madd2 y_3 x_2 t_2 C in
  let: (C, t_3) := madd2 y_3 x_3 t_3 C in
  let: (C, t_4) := madd2 y_3 x_4 t_4 C in
  let: (C, t_5) := madd2 y_3 x_5 t_5 C in
  let: (C, t_6) := madd2 y_3 x_6 t_6 C in
  let: (C, t_7) := madd2 y_3 x_7 t_7 C in
  let: (C, t_8) := madd2 y_3 x_8 t_8 C in
  let: (C, t_9) := madd2 y_3 x_9 t_9 C in
  let: (C, t_10) := madd2 y_3 x_10 t_10 C in
  let: (C, t_11) := madd2 y_3 x_11 t_11 C in
  let: (C, t_12) := madd2 y_3 x_12 t_12 C in
  let: (C, t_13) := madd2 y_3 x_13 t_13 C in
  let: (t_14, D) := Add64 t_14 C 0%Z in
  let m := ((t_0 * qInvNeg) mod W)%Z in
  let C := madd0 m q0 t_0 in
  let: (C, t_0) := madd2 m q1 t_1 C in
  let: (C, t_1) := madd2 m q2 t_2 C in
  let: (C, t_2) := madd2 m q3 t_3 C in
  let: (C, t_3) := madd2 m q4 t_4 C in
  let: (C, t_4) := madd2 m q5 t_5 C in
  let: (C, t_5) := madd2 m q6 t_6 C in
  let: (C, t_6) := madd2 m q7 t_7 C in
  let: (C, t_7) := madd2 m q8 t_8 C in
  let: (C, t_8) := madd2 m q9 t_9 C in
  let: (C, t_9) := madd2 m q10 t_10 C in
  let: (C, t_10) := madd2 m q11 t_11 C in
  let: (C, t_11) := madd2 m q12 t_12 C in
  let: (C, t_12) := madd2 m q13 t_13 C in
  let: (t_13, C) := Add64 t_14 C 0%Z in
  let: (t_14, _) := Add64 0%Z D C in
  (t_0, t_1, t_2, t_3, t_4, t_5, t_6, t_7, t_8, t_9, t_10, t_11, t_12, t_13, t_14).
(** element.go 923-964 *)
Definition mulG_r4 (x_0 x_1 x_2 x_3 x_4 x_5 x_6 x_7 x_8 x_9 x_10 x_11 x_12 x_13 y_4 t_0 t_1 t_2 t_3 t_4 t_5 t_6 t_7 t_8 t_9 t_10 t_11 t_12 t_13 t_14 : Z) :=
  let: (C, t_0) := madd1 y_4 x_0 t_0 in
  let: (C, t_1) := madd2 y_4 x_1 t_1 C in
  let: (C, t_2) := madd2 y_4 x_2 t_2 C in
  let: (C, t_3) := madd2 y_4 x_3 t_3 C in
  let: (C, t_4) := madd2 y_4 x_4 t_4 C in
  let: (C, t_5) := madd2 y_4 x_5 t_5 C in
  let: (C, t_6) := madd2 y_4 x_6 t_6 C in
  let: (C, t_7) := madd2 y_4 x_7 t_7 C in
  let: (C, t_8) := madd2 y_4 x_8 t_8 C in
  let: (C, t_9) := madd2 y_4 x_9 t_9 C in
  let: (C, t_10) := madd2 y_4 x_10 t_10 C in
  let: (C, t_11) := madd2 y_4 x_11 t_11 C in
  let: (C, t_12) := madd2 y_4 x_12 t_12 C in
  let: (C, t_13) := madd2 y_4 x_13 t_13 C in
  let: (t_14, D) := Add64 t_14 C 0%Z in
  let m := ((t_0 * qInvNeg) mod W)%Z in
  let C := madd0 m q0 t_0 in
  let: (C, t_0) := madd2 m q1 t_1 C in
  let: (C, t_1) := madd2 m q2 t_2 C in
  let: (C, t_2) := madd2 m q3 t_3 C in
  let: (C, t_3) := madd2 m q4 t_4 C in
  let: (C, t_4) := madd2 m q5 t_5 C in
  let: (C, t_5) := madd2 m q6 t_6 C in
  let: (C, t_6) := madd2 m q7 t_7 C in
  let: (C, t_7) := madd2 m q8 t_8 C in
  let: (C, t_8) := madd2 m q9 t_9 C in
  let: (C, t_9) := madd2 m q10 t_10 C in
  let: (C, t_10) := madd2 m q11 t_11 C in
  let: (C, t_11) := madd2 m q12 t_12 C in
  let: (C, t_12) := madd2 m q13 t_13 C in
  let: (t_13, C) := Add64 t_14 C 0%Z in
  let: (t_14, _) := Add64 0%Z D C in
  (t_0, t_1, t_2, t_3, t_4, t_5, t_6, t_7, t_8, t_9, t_10, t_11, t_12, t_13, t_14).
(** element.go 965-1006 *)
Definition mulG_r5 (x_0 x_1 x_2 x_3 x_4 x_5 x_6 x_7 x_8 x_9 x_10 x_11 x_12 x_13 y_5 t_0 t_1 t_2 t_3 t_4 t_5 t_6 t_7 t_8 t_9 t_10 t_11 t_12 t_13 t_14 : Z) :=
  let: (C, t_0) := madd1 y_5 x_0 t_0 in
  let: (C, t_1) := madd2 y_5 x_1 t_1 C in
  let: (C, t_2) := madd2 y_5 x_2 t_2 C in
  let: (C, t_3) := madd2 y_5 x_3 t_3 C in
  let: (C, t_4) := madd2 y_5 x_4 t_4 C in
  let: (C, t_5) := madd2 y_5 x_5 t_5 C in
  let: (C, t_6) := madd2 y_5 x_6 t_6 C in
  let: (C, t_7) := madd2 y_5 x_7 t_7 C in
  let: (C, t_8) := madd2 y_5 x_8 t_8 C in
  let: (C, t_9) := madd2 y_5 x_9 t_9 C in
  let: (C, t_10) := madd2 y_5 x_10 t_10 C in
  let: (C, t_11) := madd2 y_5 x_11 t_11 C in
  let: (C, t_12) := madd2 y_5 x_12 t_12 C in
  let: (C, t_13) := madd2 y_5 x_13 t_13 C in
  let: (t_14, D) := Add64 t_14 C 0%Z in
  let m := ((t_0 * qInvNeg) mod W)%Z in
  let C := madd0 m q0 t_0 in
  let: (C, t_0) := madd2 m q1 t_1 C in
  let: (C, t_1) := madd2 m q2 t_2 C in
  let: (C, t_2) := madd2 m q3 t_3 C in
  let: (C, t_3) := madd2 m q4 t_4 C in
  let: (C, t_4) := madd2 m q5 t_5 C in
  let: (C, t_5) := madd2 m q6 t_6 C in
  let: (C, t_6) := madd2 m q7 t_7 C in
  let: (C, t_7) := madd2 m q8 t_8 C in
  let: (C, t_8) := madd2 m q9 t_9 C in
  let: (C, t_9) := madd2 m q10 t_10 C in
  let: (C, t_10) := madd2 m q11 t_11 C in
  let: (C, t_11) := madd2 m q12 t_12 C in
  let: (C, t_12) := madd2 m q13 t_13 C in
  let: (t_13, C) := Add64 t_14 C 0%Z in
  let: (t_14, _) := Add64 0%Z D C in
  (t_0, t_1, t_2, t_3, t_4, t_5, t_6, t_7, t_8, t_9, t_10, t_11, t_12, t_13, t_14).
(** element.go 1007-1048 *)
Definition mulG_r6 (x_0 x_1 x_2 x_3 x_4 x_5 x_6 x_7 x_8 x_9 x_10 x_11 x_12 x_13 y_6 t_0 t_1 t_2 t_3 t_4 t_5 t_6 t_7 t_8 t_9 t_10 t_11 t_12 t_13 t_14 : Z) :=
  let: (C, t_0) := madd1 y_6 x_0 t_0 in
  let: (C, t_1) := madd2 y_6 x_1 t_1 C in
  let: (C, t_2) := madd2 y_6 x_2 t_2 C in
  let: (C, t_3) := madd2 y_6 x_3 t_3 C in
  let: (C, t_4) := madd2 y_6 x_4 t_4 C in
  let: (C, t_5) := madd2 y_6 x_5 t_5 C in
  let: (C, t_6) := madd2 y_6 x_6 t_6 C in
  let: (C, t_7) := madd2 y_6 x_7 t_7 C in
  let: (C, t_8) := madd2 y_6 x_8 t_8 C in
  let: (C, t_9) := madd2 y_6 x_9 t_9 C in
  let: (C, t_10) := madd2 y_6 x_10 t_10 C in
  let: (C, t_11) := madd2 y_6 x_11 t_11 C in
  let: (C, t_12) := madd2 y_6 x_12 t_12 C in
  let: (C, t_13) := madd2 y_6 x_13 t_13 C in
  let: (t_14, D) := Add64 t_14 C 0%Z in
  let m := ((t_0 * qInvNeg) mod W)%Z in
  let C := madd0 m q0 t_0 in
  let: (C, t_0) := madd2 m q1 t_1 C in
  let: (C, t_1) := madd2 m q2 t_2 C in
  let: (C, t_2) := madd2 m q3 t_3 C in
  let: (C, t_3) := madd2 m q4 t_4 C in
  let: (C, t_4) := madd2 m q5 t_5 C in
  let: (C, t_5) := madd2 m q6 t_6 C in
  let: (C, t_6) := madd2 m q7 t_7 C in
  let: (C, t_7) := madd2 m q8 t_8 C in
  let: (C, t_8) := madd2 m q9 t_9 C in
  let: (C, t_9) := madd2 m q10 t_10 C in
  let: (C, t_10) := madd2 m q11 t_11 C in
  let: (C, t_11) := madd2 m q12 t_12 C in
  let: (C, t_12) := madd2 m q13 t_13 C in
  let: (t_13, C) := Add64 t_14 C 0%Z in
  let: (t_14, _) := Add64 0%Z D C in
  (t_0, t_1, t_2, t_3, t_4, t_5, t_6, t_7, t_8, t_9, t_10, t_11, t_12, t_13, t_14).
(** element.go 1049-1090 *)
Definition mulG_r7 (x_0 x_1 x_2 x_3 x_4 x_5 x_6 x_7 x_8 x_9 x_10 x_11 x_12 x_13 y_7 t_0 t_1 t_2 t_3 t_4 t_5 t_6 t_7 t_8 t_9 t_10 t_11 t_12 t_13 t_14 : Z) :=
  let: (C, t_0) := madd1 y_7 x_0 t_0 in
  let: (C, t_1) := madd2 y_7 x_1 t_1 C in
  let: (C, t_2) := madd2 y_7 x_2 t_2 C in
  let: (C, t_3) := madd2 y_7 x_3 t_3 C in
  let: (C, t_4) := madd2 y_7 x_4 t_4 C in
  let: (C, t_5) := madd2 y_7 x_5 t_5 C in
  let: (C, t_6) := madd2 y_7 x_6 t_6 C in
  let: (C, t_7) := madd2 y_7 x_7 t_7 C in
  let: (C, t_8) := madd2 y_7 x_8 t_8 C in
  let: (C, t_9) := madd2 y_7 x_9 t_9 C in
  let: (C, t_10) := madd2 y_7 x_10 t_10 C in
  let: (C, t_11) := madd2 y_7 x_11 t_11 C in
  let: (C, t_12) := madd2 y_7 x_12 t_12 C in
  let: (C, t_13) := madd2 y_7 x_13 t_13 C in
  let: (t_14, D) := Add64 t_14 C 0%Z in
  let m := ((t_0 * qInvNeg) mod W)%Z in
  let C := madd0 m q0 t_0 in
  let: (C, t_0) := madd2 m q1 t_1 C in
  let: (C, t_1) := madd2 m q2 t_2 C in
  let: (C, t_2) := madd2 m q3 t_3 C in
  let: (C, t_3) := madd2 m q4 t_4 C in
  let: (C, t_4) := madd2 m q5 t_5 C in
  let: (C, t_5) := madd2 m q6 t_6 C in
  let: (C, t_6) := madd2 m q7 t_7 C in
  let: (C, t_7) := madd2 m q8 t_8 C in
  let: (C, t_8) := madd2 m q9 t_9 C in
  let: (C, t_9) := madd2 m q10 t_10 C in
  let: (C, t_10) := madd2 m q11 t_11 C in
  let: (C, t_11) := madd2 m q12 t_12 C in
  let: (C, t_12) := madd2 m q13 t_13 C in
  let: (t_13, C) := Add64 t_14 C 0%Z in
  let: (t_14, _) := Add64 0%Z D C in
  (t_0, t_1, t_2, t_3, t_4, t_5, t_6, t_7, t_8, t_9, t_10, t_11, t_12, t_13, t_14).
(** element.go 1091-1132 *)
Definition mulG_r8 (x_0 x_1 x_2 x_3 x_4 x_5 x_6 x_7 x_8 x_9 x_10 x_11 x_12 x_13 y_8 t_0 t_1 t_2 t_3 t_4 t_5 t_6 t_7 t_8 t_9 t_10 t_11 t_12 t_13 t_14 : Z) :=
  let: (C, t_0) := madd1 y_8 x_0 t_0 in
  let: (C, t_1) := madd2 y_8 x_1 t_1 C in
  let: (C, t_2) := madd2 y_8 x_2 t_2 C in
  let: (C, t_3) := madd2 y_8 x_3 t_3 C in
  let: (C, t_4) := madd2 y_8 x_4 t_4 C in
  let: (C, t_5) := madd2 y_8 x_5 t_5 C in
  let: (C, t_6) := madd2 y_8 x_6 t_6 C in
  let: (C, t_7) := madd2 y_8 x_7 t_7 C in
  let: (C, t_8) := madd2 y_8 x_8 t_8 C in
  let: (C, t_9) := madd2 y_8 x_9 t_9 C in
  let: (C, t_10) := madd2 y_8 x_10 t_10 C in
  let: (C, t_11) := madd2 y_8 x_11 t_11 C in
  let: (C, t_12) := madd2 y_8 x_12 t_12 C in
  let: (C, t_13) := madd2 y_8 x_13 t_13 C in
  let: (t_14, D) := Add64 t_14 C 0%Z in
  let m := ((t_0 * qInvNeg) mod W)%Z in
  let C := madd0 m q0 t_0 in
  let: (C, t_0) := madd2 m q1 t_1 C in
  let: (C, t_1) := madd2 m q2 t_2 C in
  let: (C, t_2) := madd2 m q3 t_3 C in
  let: (C, t_3) := madd2 m q4 t_4 C in
  let: (C, t_4) := madd2 m q5 t_5 C in
  let: (C, t_5) := madd2 m q6 t_6 C in
  let: (C, t_6) := madd2 m q7 t_7 C in
  let: (C, t_7) := madd2 m q8 t_8 C in
  let: (C, t_8) := madd2 m q9 t_9 C in
  let: (C, t_9) := madd2 m q10 t_10 C in
  let: (C, t_10) := madd2 m q11 t_11 C in
  let: (C, t_11) := madd2 m q12 t_12 C in
  let: (C, t_12) := madd2 m q13 t_13 C in
  let: (t_13, C) := Add64 t_14 C 0%Z in
  let: (t_14, _) := Add64 0%Z D C in
  (t_0, t_1, t_2, t_3, t_4, t_5, t_6, t_7, t_8, t_9, t_10, t_11, t_12, t_13, t_14).
(** element.go 1133-1174 *)
Definition mulG_r9 (x_0 x_1 x_2 x_3 x_4 x_5 x_6 x_7 x_8 x_9 x_10 x_11 x_12 x_13 y_9 t_0 t_1 t_2 t_3 t_4 t_5 t_6 t_7 t_8 t_9 t_10 t_11 t_12 t_13 t_14 : Z) :=
  let: (C, t_0) := madd1 y_9 x_0 t_0 in
  let: (C, t_1) := madd2 y_9 x_1 t_1 C in
  let: (C, t_2) := madd2 y_9 x_2 t_2 C in
  let: (C, t_3) := madd2 y_9 x_3 t_3 C in
  let: (C, t_4) := madd2 y_9 x_4 t_4 C in
  let: (C, t_5) := madd2 y_9 x_5 t_5 C in
  let: (C, t_6) := madd2 y_9 x_6 t_6 C in
  let: (C, t_7) := madd2 y_9 x_7 t_7 C in
  let: (C, t_8) := madd2 y_9 x_8 t_8 C in
  let: (C, t_9) := madd2 y_9 x_9 t_9 C in
  let: (C, t_10) := madd2 y_9 x_10 t_10 C in
  let: (C, t_11) := madd2 y_9 x_11 t_11 C in
  let: (C, t_12) := madd2 y_9 x_12 t_12 C in
  let: (C, t_13) := madd2 y_9 x_13 t_13 C in
  let: (t_14, D) := Add64 t_14 C 0%Z in
  let m := ((t_0 * qInvNeg) mod W)%Z in
  let C := madd0 m q0 t_0 in
  let: (C, t_0) := madd2 m q1 t_1 C in
  let: (C, t_1) := madd2 m q2 t_2 C in
  let: (C, t_2) := madd2 m q3 t_3 C in
  let: (C, t_3) := madd2 m q4 t_4 C in
  let: (C, t_4) := madd2 m q5 t_5 C in
  let: (C, t_5) := madd2 m q6 t_6 C in
  let: (C, t_6) := madd2 m q7 t_7 C in
  let: (C, t_7) := madd2 m q8 t_8 C in
  let: (C, t_8) := madd2 m q9 t_9 C in
  let: (C, t_9) := madd2 m q10 t_10 C in
  let: (C, t_10) := madd2 m q11 t_11 C in
  let: (C, t_11) := madd2 m q12 t_12 C in
  let: (C, t_12) := madd2 m q13 t_13 C in
  let: (t_13, C) := Add64 t_14 C 0%Z in
  let: (t_14, _) := Add64 0%Z D C in
  (t_0, t_1, t_2, t_3, t_4, t_5, t_6, t_7, t_8, t_9, t_10, t_11, t_12, t_13, t_14).
(** element.go 1175-1216 *)
Definition mulG_r10 (x_0 x_1 x_2 x_3 x_4 x_5 x_6 x_7 x_8 x_9 x_10 x_11 x_12 x_13 y_10 t_0 t_1 t_2 t_3 t_4 t_5 t_6 t_7 t_8 t_9 t_10 t_11 t_12 t_13 t_14 : Z) :=
  let: (C, t_0) := madd1 y_10 x_0 t_0 in
  let: (C, t_1) := madd2 y_10 x_1 t_1 C in
  let: (C, t_2) := madd2 y_10 x_2 t_2 C in
  let: (C, t_3) := madd2 y_10 x_3 t_3 C in
  let: (C, t_4) := madd2 y_10 x_4 t_4 C in
  let: (C, t_5) := madd2 y_10 x_5 t_5 C in
  let: (C, t_6) := madd2 y_10 x_6 t_6 C in
  let: (C, t_7) := madd2 y_10 x_7 t_7 C in
  let: (C, t_8) := madd2 y_10 x_8 t_8 C in
  let: (C, t_9) := madd2 y_10 x_9 t_9 C in
  let: (C, t_10) := madd2 y_10 x_10 t_10 C in
  let: (C, t_11) := madd2 y_10 x_11 t_11 C in
  let: (C, t_12) := madd2 y_10 x_12 t_12 C in
  let: (C, t_13) := madd2 y_10 x_13 t_13 C in
  let: (t_14, D) := Add64 t_14 C 0%Z in
  let m := ((t_0 * qInvNeg) mod W)%Z in
  let C := madd0 m q0 t_0 in
  let: (C, t_0) := madd2 m q1 t_1 C in
  let: (C, t_1) := madd2 m q2 t_2 C in
  let: (C, t_2) := madd2 m q3 t_3 C in
  let: (C, t_3) := madd2 m q4 t_4 C in
  let: (C, t_4) := madd2 m q5 t_5 C in
  let: (C, t_5) := madd2 m q6 t_6 C in
  let: (C, t_6) := madd2 m q7 t_7 C in
  let: (C, t_7) := madd2 m q8 t_8 C in
  let: (C, t_8) := madd2 m q9 t_9 C in
  let: (C, t_9) := madd2 m q10 t_10 C in
  let: (C, t_10) := madd2 m q11 t_11 C in
  let: (C, t_11) := madd2 m q12 t_12 C in
  let: (C, t_12) := madd2 m q13 t_13 C in
  let: (t_13, C) := Add64 t_14 C 0%Z in
  let: (t_14, _) := Add64 0%Z D C in
  (t_0, t_1, t_2, t_3, t_4, t_5, t_6, t_7, t_8, t_9, t_10, t_11, t_12, t_13, t_14).
(** element.go 1217-1258 *)
Definition mulG_r11 (x_0 x_1 x_2 x_3 x_4 x_5 x_6 x_7 x_8 x_9 x_10 x_11 x_12 x_13 y_11 t_0 t_1 t_2 t_3 t_4 t_5 t_6 t_7 t_8 t_9 t_10 t_11 t_12 t_13 t_14 : Z) :=
  let: (C, t_0) := madd1 y_11 x_0 t_0 in
  let: (C, t_1) := madd2 y_11 x_1 t_1 C in
  let: (C, t_2) := madd2 y_11 x_2 t_2 C in
  let: (C, t_3) := madd2 y_11 x_3 t_3 C in
  let: (C, t_4) := madd2 y_11 x_4 t_4 C in
  let: (C, t_5) := madd2 y_11 x_5 t_5 C in
  let: (C, t_6) := madd2 y_11 x_6 t_6 C in
  let: (C, t_7) := madd2 y_11 x_7 t_7 C in
  let: (C, t_8) := madd2 y_11 x_8 t_8 C in
  let: (C, t_9) := madd2 y_11 x_9 t_9 C in
  let: (C, t_10) := madd2 y_11 x_10 t_10 C in
  let: (C, t_11) := madd2 y_11 x_11 t_11 C in
  let: (C, t_12) := madd2 y_11 x_12 t_12 C in
  let: (C, t_13) := madd2 y_11 x_13 t_13 C in
  let: (t_14, D) := Add64 t_14 C 0%Z in
  let m := ((t_0 * qInvNeg) mod W)%Z in
  let C := madd0 m q0 t_0 in
  let: (C, t_0) := madd2 m q1 t_1 C in
  let: (C, t_1) := madd2 m q2 t_2 C in
  let: (C, t_2) := madd2 m q3 t_3 C in
  let: (C, t_3) := madd2 m q4 t_4 C in
  let: (C, t_4) := madd2 m q5 t_5 C in
  let: (C, t_5) := madd2 m q6 t_6 C in
  let: (C, t_6) := madd2 m q7 t_7 C in
  let: (C, t_7) := madd2 m q8 t_8 C in
  let: (C, t_8) := madd2 m q9 t_9 C in
  let: (C, t_9) := madd2 m q10 t_10 C in
  let: (C, t_10) := madd2 m q11 t_11 C in
  let: (C, t_11) := madd2 m q12 t_12 C in
  let: (C, t_12) := madd2 m q13 t_13 C in
  let: (t_13, C) := Add64 t_14 C 0%Z in
  let: (t_14, _) := Add64 0%Z D C in
  (t_0, t_1, t_2, t_3, t_4, t_5, t_6, t_7, t_8, t_9, t_10, t_11, t_12, t_13, t_14).
(** element.go 1259-1300 *)
Definition mulG_r12 (x_0 x_1 x_2 x_3 x_4 x_5 x_6 x_7 x_8 x_9 x_10 x_11 x_12 x_13 y_12 t_0 t_1 t_2 t_3 t_4 t_5 t_6 t_7 t_8 t_9 t_10 t_11 t_12 t_13 t_14 : Z) :=
  let: (C, t_0) := madd1 y_12 x_0 t_0 in
  let: (C, t_1) := madd2 y_12 x_1 t_1 C in
  let: (C, t_2) := madd2 y_12 x_2 t_2 C in
  let: (C, t_3) := madd2 y_12 x_3 t_3 C in
  let: (C, t_4) := madd2 y_12 x_4 t_4 C in
  let: (C, t_5) := madd2 y_12 x_5 t_5 C in
  let: (C, t_6) := madd2 y_12 x_6 t_6 C in
  let: (C, t_7) := madd2 y_12 x_7 t_7 C in
  let: (C, t_8) := madd2 y_12 x_8 t_8 C in
  let: (C, t_9) := madd2 y_12 x_9 t_9 C in
  let: (C, t_10) := madd2 y_12 x_10 t_10 C in
  let: (C, t_11) := madd2 y_12 x_11 t_11 C in
  let: (C, t_12) := madd2 y_12 x_12 t_12 C in
  let: (C, t_13) := madd2 y_12 x_13 t_13 C in
  let: (t_14, D) := Add64 t_14 C 0%Z in
  let m := ((t_0 * qInvNeg) mod W)%Z in
  let C := madd0 m q0 t_0 in
  let: (C, t_0) := madd2 m q1 t_1 C in
  let: (C, t_1) := madd2 m q2 t_2 C in
  let: (C, t_2) := madd2 m q3 t_3 C in
  let: (C, t_3) := madd2 m q4 t_4 C in
  let: (C, t_4) := madd2 m q5 t_5 C in
  let: (C, t_5) := madd2 m q6 t_6 C in
  let: (C, t_6) := madd2 m q7 t_7 C in
  let: (C, t_7) := madd2 m q8 t_8 C in
  let: (C, t_8) := madd2 m q9 t_9 C in
  let: (C, t_9) := madd2 m q10 t_10 C in
  let: (C, t_10) := madd2 m q11 t_11 C in
  let: (C, t_11) := madd2 m q12 t_12 C in
  let: (C, t_12) := madd2 m q13 t_13 C in
  let: (t_13, C) := Add64 t_14 C 0%Z in
  let: (t_14, _) := Add64 0%Z D C in
  (t_0, t_1, t_2, t_3, t_4, t_5, t_6, t_7, t_8, t_9, t_10, t_11, t_12, t_13, t_14).
(** element.go 1301-1342 *)
Definition mulG_r13 (x_0 x_1 x_2 x_3 x_4 x_5 x_6 x_7 x_8 x_9 x_10 x_11 x_12 x_13 y_13 t_0 t_1 t_2 t_3 t_4 t_5 t_6 t_7 t_8 t_9 t_10 t_11 t_12 t_13 t_14 : Z) :=
  let: (C, t_0) := madd1 y_13 x_0 t_0 in
  let: (C, t_1) := madd2 y_13 x_1 t_1 C in
  let: (C, t_2) := madd2 y_13 x_2 t_2 C in
  let: (C, t_3) := madd2 y_13 x_3 t_3 C in
  let: (C, t_4) := madd2 y_13 x_4 t_4 C in
  let: (C, t_5) := madd2 y_13 x_5 t_5 C in
  let: (C, t_6) := madd2 y_13 x_6 t_6 C in
  let: (C, t_7) := madd2 y_13 x_7 t_7 C in
  let: (C, t_8) := madd2 y_13 x_8 t_8 C in
  let: (C, t_9) := madd2 y_13 x_9 t_9 C in
  let: (C, t_10) := madd2 y_13 x_10 t_10 C in
  let: (C, t_11) := madd2 y_13 x_11 t_11 C in
  let: (C, t_12) := madd2 y_13 x_12 t_12 C in
  let: (C, t_13) := madd2 y_13 x_13 t_13 C in
  let: (t_14, D) := Add64 t_14 C 0%Z in
  let m := ((t_0 * qInvNeg) mod W)%Z in
  let C := madd0 m q0 t_0 in
  let: (C, t_0) := madd2 m q1 t_1 C in
  let: (C, t_1) := madd2 m q2 t_2 C in
  let: (C, t_2) := madd2 m q3 t_3 C in
  let: (C, t_3) := madd2 m q4 t_4 C in
  let: (C, t_4) := madd2 m q5 t_5 C in
  let: (C, t_5) := madd2 m q6 t_6 C in
  let: (C, t_6) := madd2 m q7 t_7 C in
  let: (C, t_7) := madd2 m q8 t_8 C in
  let: (C, t_8) := madd2 m q9 t_9 C in
  let: (C, t_9) := madd2 m q10 t_10 C in
  let: (C, t_10) := madd2 m q11 t_11 C in
  let: (C, t_11) := madd2 m q12 t_12 C in
  let: (C, t_12) := madd2 m q13 t_13 C in
  let: (t_13, C) := Add64 t_14 C 0%Z in
  let: (t_14, _) := Add64 0%Z D C in
  (t_0, t_1, t_2, t_3, t_4, t_5, t_6, t_7, t_8, t_9, t_10, t_11, t_12, t_13, t_14).
(** element.go 746-1397 *)
Definition mulG (x_0 x_1 x_2 x_3 x_4 x_5 x_6 x_7 x_8 x_9 x_10 x_11 x_12 x_13 y_0 y_1 y_2 y_3 y_4 y_5 y_6 y_7 y_8 y_9 y_10 y_11 y_12 y_13 : Z) : seq Z :=
  let t_0 := 0%Z in
  let t_1 := 0%Z in
  let t_2 := 0%Z in
  let t_3 := 0%Z in
  let t_4 := 0%Z in
  let t_5 := 0%Z in
  let t_6 := 0%Z in
  let t_7 := 0%Z in
  let t_8 := 0%Z in
  let t_9 := 0%Z in
  let t_10 := 0%Z in
  let t_11 := 0%Z in
  let t_12 := 0%Z in
  let t_13 := 0%Z in
  let t_14 := 0%Z in
  let D := 0%Z in
  let m := 0%Z in
  let C := 0%Z in
  let: (t_0, t_1, t_2, t_3, t_4, t_5, t_6, t_7, t_8, t_9, t_10, t_11, t_12, t_13, t_14) := mulG_r0 x_0 x_1 x_2 x_3 x_4 x_5 x_6 x_7 x_8 x_9 x_10 x_11 x_12 x_13 y_0 t_0 t_1 t_2 t_3 t_4 t_5 t_6 t_7 t_8 t_9 t_10 t_11 t_12 t_13 t_14 in
  let: (t_0, t_1, t_2, t_3, t_4, t_5, t_6, t_7, t_8, t_9, t_10, t_11, t_12, t_13, t_14) := mulG_r1 x_0 x_1 x_2 x_3 x_4 x_5 x_6 x_7 x_8 x_9 x_10 x_11 x_12 x_13 y_1 t_0 t_1 t_2 t_3 t_4 t_5 t_6 t_7 t_8 t_9 t_10 t_11 t_12 t_13 t_14 in
  let: (t_0, t_1, t_2, t_3, t_4, t_5, t_6, t_7, t_8, t_9, t_10, t_11, t_12, t_13, t_14) := mulG_r2 x_0 x_1 x_2 x_3 x_4 x_5 x_6 x_7 x_8 x_9 x_10 x_11 x_12 x_13 y_2 t_0 t_1 t_2 t_3 t_4 t_5 t_6 t_7 t_8 t_9 t_10 t_11 t_12 t_13 t_14 in
  let: (t_0, t_1, t_2, t_3, t_4, t_5, t_6, t_7, t_8, t_9, t_10, t_11, t_12, t_13, t_14) := mulG_r3 x_0 x_1 x_2 x_3 x_4 x_5 x_6 x_7 x_8 x_9 x_10 x_11 x_12 x_13 y_3 t_0 t_1 t_2 t_3 t_4 t_5 t_6 t_7 t_8 t_9 t_10 t_11 t_12 t_13 t_14 in
  let: (t_0, t_1, t_2, t_3, t_4, t_5, t_6, t_7, t_8, t_9, t_10, t_11, t_12, t_13, t_14) := mulG_r4 x_0 x_1 x_2 x_3 x_4 x_5 x_6 x_7 x_8 x_9 x_10 x_11 x_12 x_13 y_4 t_0 t_1 t_2 t_3 t_4 t_5 t_6 t_7 t_8 t_9 t_10 t_11 t_12 t_13 t_14 in
  let: (t_0, t_1, t_2, t_3, t_4, t_5, t_6, t_7, t_8, t_9, t_10, t_11, t_12, t_13, t_14) := mulG_r5 x_0 x_1 x_2 x_3 x_4 x_5 x_6 x_7 x_8 x_9 x_10 x_11 x_12 x_13 y_5 t_0 t_1 t_2 t_3 t_4 t_5 t_6 t_7 t_8 t_9 t_10 t_11 t_12 t_13 t_14 in
  let: (t_0, t_1, t_2, t_3, t_4, t_5, t_6, t_7, t_8, t_9, t_10, t_11, t_12, t_13, t_14) := mulG_r6 x_0 x_1 x_2 x_3 x_4 x_5 x_6 x_7 x_8 x_9 x_10 x_11 x_12 x_13 y_6 t_0 t_1 t_2 t_3 t_4 t_5 t_6 t_7 t_8 t_9 t_10 t_11 t_12 t_13 t_14 in
  let: (t_0, t_1, t_2, t_3, t_4, t_5, t_6, t_7, t_8, t_9, t_10, t_11, t_12, t_13, t_14) := mulG_r7 x_0 x_1 x_2 x_3 x_4 x_5 x_6 x_7 x_8 x_9 x_10 x_11 x_12 x_13 y_7 t_0 t_1 t_2 t_3 t_4 t_5 t_6 t_7 t_8 t_9 t_10 t_11 t_12 t_13 t_14 in
  let: (t_0, t_1, t_2, t_3, t_4, t_5, t_6, t_7, t_8, t_9, t_10, t_11, t_12, t_13, t_14) := mulG_r8 x_0 x_1 x_2 x_3 x_4 x_5 x_6 x_7 x_8 x_9 x_10 x_11 x_12 x_13 y_8 t_0 t_1 t_2 t_3 t_4 t_5 t_6 t_7 t_8 t_9 t_10 t_11 t_12 t_13 t_14 in
  let: (t_0, t_1, t_2, t_3, t_4, t_5, t_6, t_7, t_8, t_9, t_10, t_11, t_12, t_13, t_14) := mulG_r9 x_0 x_1 x_2 x_3 x_4 x_5 x_6 x_7 x_8 x_9 x_10 x_11 x_12 x_13 y_9 t_0 t_1 t_2 t_3 t_4 t_5 t_6 t_7 t_8 t_9 t_10 t_11 t_12 t_13 t_14 in
  let: (t_0, t_1, t_2, t_3, t_4, t_5, t_6, t_7, t_8, t_9, t_10, t_11, t_12, t_13, t_14) := mulG_r10 x_0 x_1 x_2 x_3 x_4 x_5 x_6 x_7 x_8 x_9 x_10 x_11 x_12 x_13 y_10 t_0 t_1 t_2 t_3 t_4 t_5 t_6 t_7 t_8 t_9 t_10 t_11 t_12 t_13 t_14 in
  let: (t_0, t_1, t_2, t_3, t_4, t_5, t_6, t_7, t_8, t_9, t_10, t_11, t_12, t_13, t_14) := mulG_r11 x_0 x_1 x_2 x_3 x_4 x_5 x_6 x_7 x_8 x_9 x_10 x_11 x_12 x_13 y_11 t_0 t_1 t_2 t_3 t_4 t_5 t_6 t_7 t_8 t_9 t_10 t_11 t_12 t_13 t_14 in
  let: (t_0, t_1, t_2, t_3, t_4, t_5, t_6, t_7, t_8, t_9, t_10, t_11, t_12, t_13, t_14) := mulG_r12 x_0 x_1 x_2 x_3 x_4 x_5 x_6 x_7 x_8 x_9 x_10 x_11 x_12 x_13 y_12 t_0 t_1 t_2 t_3 t_4 t_5 t_6 t_7 t_8 t_9 t_10 t_11 t_12 t_13 t_14 in
  let: (t_0, t_1, t_2, t_3, t_4, t_5, t_6, t_7, t_8, t_9, t_10, t_11, t_12, t_13, t_14) := mulG_r13 x_0 x_1 x_2 x_3 x_4 x_5 x_6 x_7 x_8 x_9 x_10 x_11 x_12 x_13 y_13 t_0 t_1 t_2 t_3 t_4 t_5 t_6 t_7 t_8 t_9 t_10 t_11 t_12 t_13 t_14 in
  if ~~ (t_14 =? 0)%Z then
  let b := 0%Z in
  let: (z_0, b) := Sub64 t_0 q0 0%Z in
  let: (z_1, b) := Sub64 t_1 q1 b in
  let: (z_2, b) := Sub64 t_2 q2 b in
  let: (z_3, b) := Sub64 t_3 q3 b in
  let: (z_4, b) := Sub64 t_4 q4 b in
  let: (z_5, b) := Sub64 t_5 q5 b in
  let: (z_6, b) := Sub64 t_6 q6 b in
  let: (z_7, b) := Sub64 t_7 q7 b in
  let: (z_8, b) := Sub64 t_8 q8 b in
  let: (z_9, b) := Sub64 t_9 q9 b in
  let: (z_10, b) := Sub64 t_10 q10 b in
  let: (z_11, b) := Sub64 t_11 q11 b in
  let: (z_12, b) := Sub64 t_12 q12 b in
  let: (z_13, _) := Sub64 t_13 q13 b in
  [:: z_0; z_1; z_2; z_3; z_4; z_5; z_6; z_7; z_8; z_9; z_10; z_11; z_12; z_13] else
  let z_0 := t_0 in
  let z_1 := t_1 in
  let z_2 := t_2 in
  let z_3 := t_3 in
  let z_4 := t_4 in
  let z_5 := t_5 in
  let z_6 := t_6 in
  let z_7 := t_7 in
  let z_8 := t_8 in
  let z_9 := t_9 in
  let z_10 := t_10 in
  let z_11 := t_11 in
  let z_12 := t_12 in
  let z_13 := t_13 in
  if ~~ smaller z_0 z_1 z_2 z_3 z_4 z_5 z_6 z_7 z_8 z_9 z_10 z_11 z_12 z_13 then
  let b := 0%Z in
  let: (z_0, b) := Sub64 z_0 q0 0%Z in
  let: (z_1, b) := Sub64 z_1 q1 b in
  let: (z_2, b) := Sub64 z_2 q2 b in
  let: (z_3, b) := Sub64 z_3 q3 b in
  let: (z_4, b) := Sub64 z_4 q4 b in
  let: (z_5, b) := Sub64 z_5 q5 b in
  let: (z_6, b) := Sub64 z_6 q6 b in
  let: (z_7, b) := Sub64 z_7 q7 b in
  let: (z_8, b) := Sub64 z_8 q8 b in
  let: (z_9, b) := Sub64 z_9 q9 b in
  let: (z_10, b) := Sub64 z_10 q10 b in
  let: (z_11, b) := Sub64 z_11 q11 b in
  let: (z_12, b) := Sub64 z_12 q12 b in
  let: (z_13, _) := Sub64 z_13 q13 b in
  [:: z_0; z_1; z_2; z_3; z_4; z_5; z_6; z_7; z_8; z_9; z_10; z_11; z_12; z_13] else
  [:: z_0; z_1; z_2; z_3; z_4; z_5; z_6; z_7; z_8; z_9; z_10; z_11; z_12; z_13].
(** element_purego.go 61-102 *)
Definition mulP_r0 (x_0 x_1 x_2 x_3 x_4 x_5 x_6 x_7 x_8 x_9 x_10 x_11 x_12 x_13 y_0 t_0 t_1 t_2 t_3 t_4 t_5 t_6 t_7 t_8 t_9 t_10 t_11 t_12 t_13 t_14 : Z) :=
  let: (C, t_0) := Mul64 y_0 x_0 in
  let: (C, t_1) := madd1 y_0 x_1 C in
  let: (C, t_2) := madd1 y_0 x_2 C in
  let: (C, t_3) := madd1 y_0 x_3 C in
  let: (C, t_4) := madd1 y_0 x_4 C in
  let: (C, t_5) := madd1 y_0 x_5 C in
  let: (C, t_6) := madd1 y_0 x_6 C in
  let: (C, t_7) := madd1 y_0 x_7 C in
  let: (C, t_8) := madd1 y_0 x_8 C in
  let: (C, t_9) := madd1 y_0 x_9 C in
  let: (C, t_10) := madd1 y_0 x_10 C in
  let: (C, t_11) := madd1 y_0 x_11 C in
  let: (C, t_12) := madd1 y_0 x_12 C in
  let: (C, t_13) := madd1 y_0 x_13 C in
  let: (t_14, D) := Add64 t_14 C 0%Z in
  let m := ((t_0 * qInvNeg) mod W)%Z in
  let C := madd0 m q0 t_0 in
  let: (C, t_0) := madd2 m q1 t_1 C in
  let: (C, t_1) := madd2 m q2 t_2 C in
  let: (C, t_2) := madd2 m q3 t_3 C in
  let: (C, t_3) := madd2 m q4 t_4 C in
  let: (C, t_4) := madd2 m q5 t_5 C in
  let: (C, t_5) := madd2 m q6 t_6 C in
  let: (C, t_6) := madd2 m q7 t_7 C in
  let: (C, t_7) := madd2 m q8 t_8 C in
  let: (C, t_8) := madd2 m q9 t_9 C in
  let: (C, t_9) := madd2 m q10 t_10 C in
  let: (C, t_10) := madd2 m q11 t_11 C in
  let: (C, t_11) := madd2 m q12 t_12 C in
  let: (C, t_12) := madd2 m q13 t_13 C in
  let: (t_13, C) := Add64 t_14 C 0%Z in
  let: (t_14, _) := Add64 0%Z D C in
  (t_0, t_1, t_2, t_3, t_4, t_5, t_6, t_7, t_8, t_9, t_10, t_11, t_12, t_13, t_14).
(** element_purego.go 103-144 *)
Definition mulP_r1 (x_0 x_1 x_2 x_3 x_4 x_5 x_6 x_7 x_8 x_9 x_10 x_11 x_12 x_13 y_1 t_0 t_1 t_2 t_3 t_4 t_5 t_6 t_7 t_8 t_9 t_10 t_11 t_12 t_13 t_14 : Z) :=
  let: (C, t_0) := madd1 y_1 x_0 t_0 in
  let: (C, t_1) := madd2 y_1 x_1 t_1 C in
  let: (C, t_2) := madd2 y_1 x_2 t_2 C in
  let: (C, t_3) := madd2 y_1 x_3 t_3 C in
  let: (C, t_4) := madd2 y_1 x_4 t_4 C in
  let: (C, t_5) := madd2 y_1 x_5 t_5 C in
  let: (C, t_6) := madd2 y_1 x_6 t_6 C in
  let: (C, t_7) := madd2 y_1 x_7 t_7 C in
  let: (C, t_8) := madd2 y_1 x_8 t_8 C in
  let: (C, t_9) := madd2 y_1 x_9 t_9 C in
  let: (C, t_10) := madd2 y_1 x_10 t_10 C in
  let: (C, t_11) := madd2 y_1 x_11 t_11 C in
  let: (C, t_12) := madd2 y_1 x_12 t_12 C in
  let: (C, t_13) := madd2 y_1 x_13 t_13 C in
  let: (t_14, D) := Add64 t_14 C 0%Z in
  let m := ((t_0 * qInvNeg) mod W)%Z in
  let C := madd0 m q0 t_0 in
  let: (C, t_0) := madd2 m q1 t_1 C in
  let: (C, t_1) := madd2 m q2 t_2 C in
  let: (C, t_2) := madd2 m q3 t_3 C in
  let: (C, t_3) := madd2 m q4 t_4 C in
  let: (C, t_4) := madd2 m q5 t_5 C in
  let: (C, t_5) := madd2 m q6 t_6 C in
  let: (C, t_6) := madd2 m q7 t_7 C in
  let: (C, t_7) := madd2 m q8 t_8 C in
  let: (C, t_8) := madd2 m q9 t_9 C in
  let: (C, t_9) := madd2 m q10 t_10 C in
  let: (C, t_10) := madd2 m q11 t_11 C in
  let: (C, t_11) := madd2 m q12 t_12 C in
  let: (C, t_12) := madd2 m q13 t_13 C in
  let: (t_13, C) := Add64 t_14 C 0%Z in
  let: (t_14, _) := Add64 0%Z D C in
  (t_0, t_1, t_2, t_3, t_4, t_5, t_6, t_7, t_8, t_9, t_10, t_11, t_12, t_13, t_14).
(** element_purego.go 145-186 *)
Definition mulP_r2 (x_0 x_1 x_2 x_3 x_4 x_5 x_6 x_7 x_8 x_9 x_10 x_11 x_12 x_13 y_2 t_0 t_1 t_2 t_3 t_4 t_5 t_6 t_7 t_8 t_9 t_10 t_11 t_12 t_13 t_14 : Z) :=
  let: (C, t_0) := madd1 y_2 x_0 t_0 in
  let: (C, t_1) := madd2 y_2 x_1 t_1 C in
  let: (C, t_2) := madd2 y_2 x_2 t_2 C in
  let: (C, t_3) := madd2 y_2 x_3 t_3 C in
  let: (C, t_4) := madd2 y_2 x_4 t_4 C in
  let: (C, t_5) := madd2 y_2 x_5 t_5 C in
  let: (C, t_6) := madd2 y_2 x_6 t_6 C in
  let: (C, t_7) := madd2 y_2 x_7 t_7 C in
  let: (C, t_8) := madd2 y_2 x_8 t_8 C in
  let: (C, t_9) := madd2 y_2 x_9 t_9 C in
  let: (C, t_10) := madd2 y_2 x_10 t_10 C in
  let: (C, t_11) := madd2 y_2 x_11 t_11 C in
  let: (C, t_12) := madd2 y_2 x_12 t_12 C in
  let: (C, t_13) := madd2 y_2 x_13 t_13 C in
  let: (t_14, D) := Add64 t_14 C 0%Z in
  let m := ((t_0 * qInvNeg) mod W)%Z in
  let C := madd0 m q0 t_0 in
  let: (C, t_0) := madd2 m q1 t_1 C in
  let: (C, t_1) := madd2 m q2 t_2 C in
  let: (C, t_2) := madd2 m q3 t_3 C in
  let: (C, t_3) := madd2 m q4 t_4 C in
  let: (C, t_4) := madd2 m q5 t_5 C in
  let: (C, t_5) := madd2 m q6 t_6 C in
  let: (C, t_6) := madd2 m q7 t_7 C in
  let: (C, t_7) := madd2 m q8 t_8 C in
  let: (C, t_8) := madd2 m q9 t_9 C in
  let: (C, t_9) := madd2 m q10 t_10 C in
  let: (C, t_10) := madd2 m q11 t_11 C in
  let: (C, t_11) := madd2 m q12 t_12 C in
  let: (C, t_12) := madd2 m q13 t_13 C in
  let: (t_13, C) := Add64 t_14 C 0%Z in
  let: (t_14, _) := Add64 0%Z D C in
  (t_0, t_1, t_2, t_3, t_4, t_5, t_6, t_7, t_8, t_9, t_10, t_11, t_12, t_13, t_14).
(** element_purego.go 187-228 *)
Definition mulP_r3 (x_0 x_1 x_2 x_3 x_4 x_5 x_6 x_7 x_8 x_9 x_10 x_11 x_12 x_13 y_3 t_0 t_1 t_2 t_3 t_4 t_5 t_6 t_7 t_8 t_9 t_10 t_11 t_12 t_13 t_14 : Z) :=
  let: (C, t_0) := madd1 y_3 x_0 t_0 in
  let: (C, t_1) := madd2 y_3 x_1 t_1 C in
  let: (C, t_2) := madd2 y_3 x_2 t_2 C in
  let: (C, t_3) := madd2 y_3 x_3 t_3 C in
  let: (C, t_4) := madd2 y_3 x_4 t_4 C in
  let: (C, t_5) := madd2 y_3 x_5 t_5 C in
  let: (C, t_6) := madd2 y_3 x_6 t_6 C in
  let: (C, t_7) := madd2 y_3 x_7 t_7 C in
  let: (C, t_8) := madd2 y_3 x_8 t_8 C in
  let: (C, t_9) := madd2 y_3 x_9 t_9 C in
  let: (C, t_10) := madd2 y_3 x_10 t_10 C in
  let: (C, t_11) := madd2 y_3 x_11 t_11 C in
  let: (C, t_12) := madd2 y_3 x_12 t_12 C in
  let: (C, t_13) := madd2 y_3 x_13 t_13 C in
  let: (t_14, D) := Add64 t_14 C 0%Z in
  let m := ((t_0 * qInvNeg) mod W)%Z in
  let C := madd0 m q0 t_0 in
  let: (C, t_0) := madd2 m q1 t_1 C in
  let: (C, t_1) := madd2 m q2 t_2 C in
  let: (C, t_2) := madd2 m q3 t_3 C in
  let: (C, t_3) := madd2 m q4 t_4 C in
  let: (C, t_4) := madd2 m q5 t_5 C in
  let: (C, t_5) := madd2 m q6 t_6 C in
  let: (C, t_6) := madd2 m q7 t_7 C in
  let: (C, t_7) := madd2 m q8 t_8 C in
  let: (C, t_8) := madd2 m q9 t_9 C in
  let: (C, t_9) := madd2 m q10 t_10 C in
  let: (C, t_10) := madd2 m q11 t_11 C in
  let: (C, t_11) := madd2 m q12 t_12 C in
  let: (C, t_12) := madd2 m q13 t_13 C in
  let: (t_13, C) := Add64 t_14 C 0%Z in
  let: (t_14, _) := Add64 0%Z D C in
  (t_0, t_1, t_2, t_3, t_4, t_5, t_6, t_7, t_8, t_9, t_10, t_11, t_12, t_13, t_14).
(** element_purego.go 229-270 *)
Definition mulP_r4 (x_0 x_1 x_2 x_3 x_4 x_5 x_6 x_7 x_8 x_9 x_10 x_11 x_12 x_13 y_4 t_0 t_1 t_2 t_3 t_4 t_5 t_6 t_7 t_8 t_9 t_10 t_11 t_12 t_13 t_14 : Z) :=
  let: (C, t_0) := madd1 y_4 x_0 t_0 in
  let: (C, t_1) := madd2 y_4 x_1 t_1 C in
  let: (C, t_2) := madd2 y_4 x_2 t_2 C in
  let: (C, t_3) := madd2 y_4 x_3 t_3 C in
  let: (C, t_4) := madd2 y_4 x_4 t_4 C in
  let: (C, t_5) := madd2 y_4 x_5 t_5 C in
  let: (C, t_6) := madd2 y_4 x_6 t_6 C in
  let: (C, t_7) := madd2 y_4 x_7 t_7 C in
  let: (C, t_8) := madd2 y_4 x_8 t_8 C in
  let: (C, t_9) := madd2 y_4 x_9 t_9 C in
  let: (C, t_10) := madd2 y_4 x_10 t_10 C in
  let: (C, t_11) := madd2 y_4 x_11 t_11 C in
  let: (C, t_12) := madd2 y_4 x_12 t_12 C in
  let: (C, t_13) := madd2 y_4 x_13 t_13 C in
  let: (t_14, D) := Add64 t_14 C 0%Z in
  let m := ((t_0 * qInvNeg) mod W)%Z in
  let C := madd0 m q0 t_0 in
  let: (C, t_0) := madd2 m q1 t_1 C in
  let: (C, t_1) := madd2 m q2 t_2 C in
  let: (C, t_2) := madd2 m q3 t_3 C in
  let: (C, t_3) := madd2 m q4 t_4 C in
  let: (C, t_4) := madd2 m q5 t_5 C in
  let: (C, t_5) := madd2 m q6 t_6 C in
  let: (C, t_6) := madd2 m q7 t_7 C in
  let: (C, t_7) := madd2 m q8 t_8 C in
  let: (C, t_8) := madd2 m q9 t_9 C in
  let: (C, t_9) := madd2 m q10 t_10 C in
  let: (C, t_10) := madd2 m q11 t_11 C in
  let: (C, t_11) := madd2 m q12 t_12 C in
  let: (C, t_12) := madd2 m q13 t_13 C in
  let: (t_13, C) := Add64 t_14 C 0%Z in
  let: (t_14, _) := Add64 0%Z D C in
  (t_0, t_1, t_2, t_3, t_4, t_5, t_6, t_7, t_8, t_9, t_10, t_11, t_12, t_13, t_14).
(** element_purego.go 271-312 *)
Definition mulP_r5 (x_0 x_1 x_2 x_3 x_4 x_5 x_6 x_7 x_8 x_9 x_10 x_11 x_12 x_13 y_5 t_0 t_1 t_2 t_3 t_4 t_5 t_6 t_7 t_8 t_9 t_10 t_11 t_12 t_13 t_14 : Z) :=
  let: (C, t_0) := madd1 y_5 x_0 t_0 in
  let: (C, t_1) := madd2 y_5 x_1 t_1 C in
  let: (C, t_2) := madd2 y_5 x_2 t_2 C in
  let: (C, t_3) := madd2 y_5 x_3 t_3 C in
  let: (C, t_4) := madd2 y_5 x_4 t_4 C in
  let: (C, t_5) := madd2 y_5 x_5 t_5 C in
  let: (C, t_6) := madd2 y_5 x_6 t_6 C in
  let: (C, t_7) := madd2 y_5 x_7 t_7 C in
  let: (C, t_8) := madd2 y_5 x_8 t_8 C in
  let: (C, t_9) := madd2 y_5 x_9 t_9 C in
  let: (C, t_10) := madd2 y_5 x_10 t_10 C in
  let: (C, t_11) := madd2 y_5 x_11 t_11 C in
  let: (C, t_12) := madd2 y_5 x_12 t_12 C in
  let: (C, t_13) := madd2 y_5 x_13 t_13 C in
  let: (t_14, D) := Add64 t_14 C 0%Z in
  let m := ((t_0 * qInvNeg) mod W)%Z in
  let C := madd0 m q0 t_0 in
  let: (C, t_0) := madd2 m q1 t_1 C in
  let: (C, t_1) := madd2 m q2 t_2 C in
  let: (C, t_2) := madd2 m q3 t_3 C in
  let: (C, t_3) := madd2 m q4 t_4 C in
  let: (C, t_4) := madd2 m q5 t_5 C in
  let: (C, t_5) := madd2 m q6 t_6 C in
  let: (C, t_6) := madd2 m q7 t_7 C in
  let: (C, t_7) := madd2 m q8 t_8 C in
  let: (C, t_8) := madd2 m q9 t_9 C in
  let: (C, t_9) := madd2 m q10 t_10 C in
  let: (C, t_10) := madd2 m q11 t_11 C in
  let: (C, t_11) := madd2 m q12 t_12 C in
  let: (C, t_12) := madd2 m q13 t_13 C in
  let: (t_13, C) := Add64 t_14 C 0%Z in
  let: (t_14, _) := Add64 0%Z D C in
  (t_0, t_1, t_2, t_3, t_4, t_5, t_6, t_7, t_8, t_9, t_10, t_11, t_12, t_13, t_14).
(** element_purego.go 313-354 *)
Definition mulP_r6 (x_0 x_1 x_2 x_3 x_4 x_5 x_6 x_7 x_8 x_9 x_10 x_11 x_12 x_13 y_6 t_0 t_1 t_2 t_3 t_4 t_5 t_6 t_7 t_8 t_9 t_10 t_11 t_12 t_13 t_14 : Z) :=
  let: (C, t_0) := madd1 y_6 x_0 t_0 in
  let: (C, t_1) := madd2 y_6 x_1 t_1 C in
  let: (C, t_2) := madd2 y_6 x_2 t_2 C in
  let: (C, t_3) := madd2 y_6 x_3 t_3 C in
  let: (C, t_4) := madd2 y_6 x_4 t_4 C in
  let: (C, t_5) := madd2 y_6 x_5 t_5 C in
  let: (C, t_6) := madd2 y_6 x_6 t_6 C in
  let: (C, t_7) := madd2 y_6 x_7 t_7 C in
  let: (C, t_8) := madd2 y_6 x_8 t_8 C in
  let: (C, t_9) := madd2 y_6 x_9 t_9 C in
  let: (C, t_10) := madd2 y_6 x_10 t_10 C in
  let: (C, t_11) := madd2 y_6 x_11 t_11 C in
  let: (C, t_12) := madd2 y_6 x_12 t_12 C in
  let: (C, t_13) := madd2 y_6 x_13 t_13 C in
  let: (t_14, D) := Add64 t_14 C 0%Z in
  let m := ((t_0 * qInvNeg) mod W)%Z in
  let C := madd0 m q0 t_0 in
  let: (C, t_0) := madd2 m q1 t_1 C in
  let: (C, t_1) := madd2 m q2 t_2 C in
  let: (C, t_2) := madd2 m q3 t_3 C in
  let: (C, t_3) := madd2 m q4 t_4 C in
  let: (C, t_4) := madd2 m q5 t_5 C in
  let: (C, t_5) := madd2 m q6 t_6 C in
  let: (C, t_6) := madd2 m q7 t_7 C in
  let: (C, t_7) := madd2 m q8 t_8 C in
  let: (C, t_8) := madd2 m q9 t_9 C in
  let: (C, t_9) := madd2 m q10 t_10 C in
  let: (C, t_10) := madd2 m q11 t_11 C in
  let: (C, t_11) := madd2 m q12 t_12 C in
  let: (C, t_12) := madd2 m q13 t_13 C in
  let: (t_13, C) := Add64 t_14 C 0%Z in
  let: (t_14, _) := Add64 0%Z D C in
  (t_0, t_1, t_2, t_3, t_4, t_5, t_6, t_7, t_8, t_9, t_10, t_11, t_12, t_13, t_14).
(** element_purego.go 355-396 *)
Definition mulP_r7 (x_0 x_1 x_2 x_3 x_4 x_5 x_6 x_7 x_8 x_9 x_10 x_11 x_12 x_13 y_7 t_0 t_1 t_2 t_3 t_4 t_5 t_6 t_7 t_8 t_9 t_10 t_11 t_12 t_13 t_14 : Z) :=
  let: (C, t_0) := madd1 y_7 x_0 t_0 in
  let: (C, t_1) := madd2 y_7 x_1 t_1 C in
  let: (C, t_2) := madd2 y_7 x_2 t_2 C in
  let: (C, t_3) := madd2 y_7 x_3 t_3 C in
  let: (C, t_4) := madd2 y_7 x_4 t_4 C in
  let: (C, t_5) := madd2 y_7 x_5 t_5 C in
  let: (C, t_6) := madd2 y_7 x_6 t_6 C in
  let: (C, t_7) := madd2 y_7 x_7 t_7 C in
  let: (C, t_8) := madd2 y_7 x_8 t_8 C in
  let: (C, t_9) := madd2 y_7 x_9 t_9 C in
  let: (C, t_10) := madd2 y_7 x_10 t_10 C in
  let: (C, t_11) := madd2 y_7 x_11 t_11 C in
  let: (C, t_12) := madd2 y_7 x_12 t_12 C in
  let: (C, t_13) := madd2 y_7 x_13 t_13 C in
  let: (t_14, D) := Add64 t_14 C 0%Z in
  let m := ((t_0 * qInvNeg) mod W)%Z in
  let C := madd0 m q0 t_0 in
  let: (C, t_0) := madd2 m q1 t_1 C in
  let: (C, t_1) := madd2 m q2 t_2 C in
  let: (C, t_2) := madd2 m q3 t_3 C in
  let: (C, t_3) := madd2 m q4 t_4 C in
  let: (C, t_4) := madd2 m q5 t_5 C in
  let: (C, t_5) := madd2 m q6 t_6 C in
  let: (C, t_6) := madd2 m q7 t_7 C in
  let: (C, t_7) := madd2 m q8 t_8 C in
  let: (C, t_8) := madd2 m q9 t_9 C in
  let: (C, t_9) := madd2 m q10 t_10 C in
  let: (C, t_10) := madd2 m q11 t_11 C in
  let: (C, t_11) := madd2 m q12 t_12 C in
  let: (C, t_12) := madd2 m q13 t_13 C in
  let: (t_13, C) := Add64 t_14 C 0%Z in
  let: (t_14, _) := Add64 0%Z D C in
  (t_0, t_1, t_2, t_3, t_4, t_5, t_6, t_7, t_8, t_9, t_10, t_11, t_12, t_13, t_14).
(** element_purego.go 397-438 *)
Definition mulP_r8 (x_0 x_1 x_2 x_3 x_4 x_5 x_6 x_7 x_8 x_9 x_10 x_11 x_12 x_13 y_8 t_0 t_1 t_2 t_3 t_4 t_5 t_6 t_7 t_8 t_9 t_10 t_11 t_12 t_13 t_14 : Z) :=
  let: (C, t_0) := madd1 y_8 x_0 t_0 in
  let: (C, t_1) := madd2 y_8 x_1 t_1 C in
  let: (C, t_2) := madd2 y_8 x_2 t_2 C in
  let: (C, t_3) := madd2 y_8 x_3 t_3 C in
  let: (C, t_4) := madd2 y_8 x_4 t_4 C in
  let: (C, t_5) := madd2 y_8 x_5 t_5 C in
  let: (C, t_6) := madd2 y_8 x_6 t_6 C in
  let: (C, t_7) := madd2 y_8 x_7 t_7 C in
  let: (C, t_8) := madd2 y_8 x_8 t_8 C in
  let: (C, t_9) := madd2 y_8 x_9 t_9 C in
  let: (C, t_10) := madd2 y_8 x_10 t_10 C in
  let: (C, t_11) := madd2 y_8 x_11 t_11 C in
  let: (C, t_12) := madd2 y_8 x_12 t_12 C in
  let: (C, t_13) := madd2 y_8 x_13 t_13 C in
  let: (t_14, D) := Add64 t_14 C 0%Z in
  let m := ((t_0 * qInvNeg) mod W)%Z in
  let C := madd0 m q0 t_0 in
  let: (C, t_0) := madd2 m q1 t_1 C in
  let: (C, t_1) := madd2 m q2 t_2 C in
  let: (C, t_2) := madd2 m q3 t_3 C in
  let: (C, t_3) := madd2 m q4 t_4 C in
  let: (C, t_4) := madd2 m q5 t_5 C in
  let: (C, t_5) := madd2 m q6 t_6 C in
  let: (C, t_6) := madd2 m q7 t_7 C in
  let: (C, t_7) := madd2 m q8 t_8 C in
  let: (C, t_8) := madd2 m q9 t_9 C in
  let: (C, t_9) := madd2 m q10 t_10 C in
  let: (C, t_10) := madd2 m q11 t_11 C in
  let: (C, t_11) := madd2 m q12 t_12 C in
  let: (C, t_12) := madd2 m q13 t_13 C in
  let: (t_13, C) := Add64 t_14 C 0%Z in
  let: (t_14, _) := Add64 0%Z D C in
  (t_0, t_1, t_2, t_3, t_4, t_5, t_6, t_7, t_8, t_9, t_10, t_11, t_12, t_13, t_14).
(** element_purego.go 439-480 *)
Definition mulP_r9 (x_0 x_1 x_2 x_3 x_4 x_5 x_6 x_7 x_8 x_9 x_10 x_11 x_12 x_13 y_9 t_0 t_1 t_2 t_3 t_4 t_5 t_6 t_7 t_8 t_9 t_10 t_11 t_12 t_13 t_14 : Z) :=
  let: (C, t_0) := madd1 y_9 x_0 t_0 in
  let: (C, t_1) := madd2 y_9 x_1 t_1 C in
  let: (C, t_2) := madd2 y_9 x_2 t_2 C in
  let: (C, t_3) := madd2 y_9 x_3 t_3 C in
  let: (C, t_4) := madd2 y_9 x_4 t_4 C in
  let: (C, t_5) := madd2 y_9 x_5 t_5 C in
  let: (C, t_6) := madd2 y_9 x_6 t_6 C in
  let: (C, t_7) := madd2 y_9 x_7 t_7 C in
  let: (C, t_8) := madd2 y_9 x_8 t_8 C in
  let: (C, t_9) := madd2 y_9 x_9 t_9 C in
  let: (C, t_10) := madd2 y_9 x_10 t_10 C in
  let: (C, t_11) := madd2 y_9 x_11 t_11 C in
  let: (C, t_12) := madd2 y_9 x_12 t_12 C in
  let: (C, t_13) := madd2 y_9 x_13 t_13 C in
  let: (t_14, D) := Add64 t_14 C 0%Z in
  let m := ((t_0 * qInvNeg) mod W)%Z in
  let C := madd0 m q0 t_0 in
  let: (C, t_0) := madd2 m q1 t_1 C in
  let: (C, t_1) := madd2 m q2 t_2 C in
  let: (C, t_2) := madd2 m q3 t_3 C in
  let: (C, t_3) := madd2 m q4 t_4 C in
  let: (C, t_4) := madd2 m q5 t_5 C in
  let: (C, t_5) := madd2 m q6 t_6 C in
  let: (C, t_6) := madd2 m q7 t_7 C in
  let: (C, t_7) := madd2 m q8 t_8 C in
  let: (C, t_8) := madd2 m q9 t_9 C in
  let: (C, t_9) := madd2 m q10 t_10 C in
  let: (C, t_10) := madd2 m q11 t_11 C in
  let: (C, t_11) := madd2 m q12 t_12 C in
  let: (C, t_12) := madd2 m q13 t_13 C in
  let: (t_13, C) := Add64 t_14 C 0%Z in
  let: (t_14, _) := Add64 0%Z D C in
  (t_0, t_1, t_2, t_3, t_4, t_5, t_6, t_7, t_8, t_9, t_10, t_11, t_12, t_13, t_14).
(** element_purego.go 481-522 *)
Definition mulP_r10 (x_0 x_1 x_2 x_3 x_4 x_5 x_6 x_7 x_8 x_9 x_10 x_11 x_12 x_13 y_10 t_0 t_1 t_2 t_3 t_4 t_5 t_6 t_7 t_8 t_9 t_10 t_11 t_12 t_13 t_14 : Z) :=
  let: (C, t_0) := madd1 y_10 x_0 t_0 in
  let: (C, t_1) := madd2 y_10 x_1 t_1 C in
  let: (C, t_2) := madd2 y_10 x_2 t_2 C in
  let: (C, t_3) := madd2 y_10 x_3 t_3 C in
  let: (C, t_4) := madd2 y_10 x_4 t_4 C in
  let: (C, t_5) := madd2 y_10 x_5 t_5 C in
  let: (C, t_6) := madd2 y_10 x_6 t_6 C in
  let: (C, t_7) := madd2 y_10 x_7 t_7 C in
  let: (C, t_8) := madd2 y_10 x_8 t_8 C in
  let: (C, t_9) := madd2 y_10 x_9 t_9 C in
  let: (C, t_10) := madd2 y_10 x_10 t_10 C in
  let: (C, t_11) := madd2 y_10 x_11 t_11 C in
  let: (C, t_12) := madd2 y_10 x_12 t_12 C in
  let: (C, t_13) := madd2 y_10 x_13 t_13 C in
  let: (t_14, D) := Add64 t_14 C 0%Z in
  let m := ((t_0 * qInvNeg) mod W)%Z in
  let C := madd0 m q0 t_0 in
  let: (C, t_0) := madd2 m q1 t_1 C in
  let: (C, t_1) := madd2 m q2 t_2 C in
  let: (C, t_2) := madd2 m q3 t_3 C in
  let: (C, t_3) := madd2 m q4 t_4 C in
  let: (C, t_4) := madd2 m q5 t_5 C in
  let: (C, t_5) := madd2 m q6 t_6 C in
  let: (C, t_6) := madd2 m q7 t_7 C in
  let: (C, t_7) := madd2 m q8 t_8 C in
  let: (C, t_8) := madd2 m q9 t_9 C in
  let: (C, t_9) := madd2 m q10 t_10 C in
  let: (C, t_10) := madd2 m q11 t_11 C in
  let: (C, t_11) := madd2 m q12 t_12 C in
  let: (C, t_12) := madd2 m q13 t_13 C in
  let: (t_13, C) := Add64 t_14 C 0%Z in
  let: (t_14, _) := Add64 0%Z D C in
  (t_0, t_1, t_2, t_3, t_4, t_5, t_6, t_7, t_8, t_9, t_10, t_11, t_12, t_13, t_14).
(** element_purego.go 523-564 *)
Definition mulP_r11 (x_0 x_1 x_2 x_3 x_4 x_5 x_6 x_7 x_8 x_9 x_10 x_11 x_12 x_13 y_11 t_0 t_1 t_2 t_3 t_4 t_5 t_6 t_7 t_8 t_9 t_10 t_11 t_12 t_13 t_14 : Z) :=
  let: (C, t_0) := madd1 y_11 x_0 t_0 in
  let: (C, t_1) := madd2 y_11 x_1 t_1 C in
  let: (C, t_2) := madd2 y_11 x_2 t_2 C in
  let: (C, t_3) := madd2 y_11 x_3 t_3 C in
  let: (C, t_4) := madd2 y_11 x_4 t_4 C in
  let: (C, t_5) := madd2 y_11 x_5 t_5 C in
  let: (C, t_6) := madd2 y_11 x_6 t_6 C in
  let: (C, t_7) := madd2 y_11 x_7 t_7 C in
  let: (C, t_8) := madd2 y_11 x_8 t_8 C in
  let: (C, t_9) := madd2 y_11 x_9 t_9 C in
  let: (C, t_10) := madd2 y_11 x_10 t_10 C in
  let: (C, t_11) := madd2 y_11 x_11 t_11 C in
  let: (C, t_12) := madd2 y_11 x_12 t_12 C in
  let: (C, t_13) := madd2 y_11 x_13 t_13 C in
  let: (t_14, D) := Add64 t_14 C 0%Z in
  let m := ((t_0 * qInvNeg) mod W)%Z in
  let C := madd0 m q0 t_0 in
  let: (C, t_0) := madd2 m q1 t_1 C in
  let: (C, t_1) := madd2 m q2 t_2 C in
  let: (C, t_2) := madd2 m q3 t_3 C in
  let: (C, t_3) := madd2 m q4 t_4 C in
  let: (C, t_4) := madd2 m q5 t_5 C in
  let: (C, t_5) := madd2 m q6 t_6 C in
  let: (C, t_6) := madd2 m q7 t_7 C in
  let: (C, t_7) := madd2 m q8 t_8 C in
  let: (C, t_8) := madd2 m q9 t_9 C in
  let: (C, t_9) := madd2 m q10 t_10 C in
  let: (C, t_10) := madd2 m q11 t_11 C in
  let: (C, t_11) := madd2 m q12 t_12 C in
  let: (C, t_12) := madd2 m q13 t_13 C in
  let: (t_13, C) := Add64 t_14 C 0%Z in
  let: (t_14, _) := Add64 0%Z D C in
  (t_0, t_1, t_2, t_3, t_4, t_5, t_6, t_7, t_8, t_9, t_10, t_11, t_12, t_13, t_14).
(** element_purego.go 565-606 *)
Definition mulP_r12 (x_0 x_1 x_2 x_3 x_4 x_5 x_6 x_7 x_8 x_9 x_10 x_11 x_12 x_13 y_12 t_0 t_1 t_2 t_3 t_4 t_5 t_6 t_7 t_8 t_9 t_10 t_11 t_12 t_13 t_14 : Z) :=
  let: (C, t_0) := madd1 y_12 x_0 t_0 in
  let: (C, t_1) := madd2 y_12 x_1 t_1 C in
  let: (C, t_2) := madd2 y_12 x_2 t_2 C in
  let: (C, t_3) := madd2 y_12 x_3 t_3 C in
  let: (C, t_4) := madd2 y_12 x_4 t_4 C in
  let: (C, t_5) := madd2 y_12 x_5 t_5 C in
  let: (C, t_6) := madd2 y_12 x_6 t_6 C in
  let: (C, t_7) := madd2 y_12 x_7 t_7 C in
  let: (C, t_8) := madd2 y_12 x_8 t_8 C in
  let: (C, t_9) := madd2 y_12 x_9 t_9 C in
  let: (C, t_10) := madd2 y_12 x_10 t_10 C in
  let: (C, t_11) := madd2 y_12 x_11 t_11 C in
  let: (C, t_12) := madd2 y_12 x_12 t_12 C in
  let: (C, t_13) := madd2 y_12 x_13 t_13 C in
  let: (t_14, D) := Add64 t_14 C 0%Z in
  let m := ((t_0 * qInvNeg) mod W)%Z in
  let C := madd0 m q0 t_0 in
  let: (C, t_0) := madd2 m q1 t_1 C in
  let: (C, t_1) := madd2 m q2 t_2 C in
  let: (C, t_2) := madd2 m q3 t_3 C in
  let: (C, t_3) := madd2 m q4 t_4 C in
  let: (C, t_4) := madd2 m q5 t_5 C in
  let: (C, t_5) := madd2 m q6 t_6 C in
  let: (C, t_6) := madd2 m q7 t_7 C in
  let: (C, t_7) := madd2 m q8 t_8 C in
  let: (C, t_8) := madd2 m q9 t_9 C in
  let: (C, t_9) := madd2 m q10 t_10 C in
  let: (C, t_10) := madd2 m q11 t_11 C in
  let: (C, t_11) := madd2 m q12 t_12 C in
  let: (C, t_12) := madd2 m q13 t_13 C in
  let: (t_13, C) := Add64 t_14 C 0%Z in
  let: (t_14, _) := Add64 0%Z D C in
  (t_0, t_1, t_2, t_3, t_4, t_5, t_6, t_7, t_8, t_9, t_10, t_11, t_12, t_13, t_14).
(** element_purego.go 607-648 *)
Definition mulP_r13 (x_0 x_1 x_2 x_3 x_4 x_5 x_6 x_7 x_8 x_9 x_10 x_11 x_12 x_13 y_13 t_0 t_1 t_2 t_3 t_4 t_5 t_6 t_7 t_8 t_9 t_10 t_11 t_12 t_13 t_14 : Z) :=
  let: (C, t_0) := madd1 y_13 x_0 t_0 in
  let: (C, t_1) := madd2 y_13 x_1 t_1 C in
  let: (C, t_2) := madd2 y_13 x_2 t_2 C in
  let: (C, t_3) := madd2 y_13 x_3 t_3 C in
  let: (C, t_4) := madd2 y_13 x_4 t_4 C in
  let: (C, t_5) := madd2 y_13 x_5 t_5 C in
  let: (C, t_6) := madd2 y_13 x_6 t_6 C in
  let: (C, t_7) := madd2 y_13 x_7 t_7 C in
  let: (C, t_8) := madd2 y_13 x_8 t_8 C in
  let: (C, t_9) := madd2 y_13 x_9 t_9 C in
  let: (C, t_10) := madd2 y_13 x_10 t_10 C in
  let: (C, t_11) := madd2 y_13 x_11 t_11 C in
  let: (C, t_12) := madd2 y_13 x_12 t_12 C in
  let: (C, t_13) := madd2 y_13 x_13 t_13 C in
  let: (t_14, D) := Add64 t_14 C 0%Z in
  let m := ((t_0 * qInvNeg) mod W)%Z in
  let C := madd0 m q0 t_0 in
  let: (C, t_0) := madd2 m q1 t_1 C in
  let: (C, t_1) := madd2 m q2 t_2 C in
  let: (C, t_2) := madd2 m q3 t_3 C in
  let: (C, t_3) := madd2 m q4 t_4 C in
  let: (C, t_4) := madd2 m q5 t_5 C in
  let: (C, t_5) := madd2 m q6 t_6 C in
  let: (C, t_6) := madd2 m q7 t_7 C in
  let: (C, t_7) := madd2 m q8 t_8 C in
  let: (C, t_8) := madd2 m q9 t_9 C in
  let: (C, t_9) := madd2 m q10 t_10 C in
  let: (C, t_10) := madd2 m q11 t_11 C in
  let: (C, t_11) := madd2 m q12 t_12 C in
  let: (C, t_12) := madd2 m q13 t_13 C in
  let: (t_13, C) := Add64 t_14 C 0%Z in
  let: (t_14, _) := Add64 0%Z D C in
  (t_0, t_1, t_2, t_3, t_4, t_5, t_6, t_7, t_8, t_9, t_10, t_11, t_12, t_13, t_14).
(** element_purego.go 52-704 *)
Definition mulP (x_0 x_1 x_2 x_3 x_4 x_5 x_6 x_7 x_8 x_9 x_10 x_11 x_12 x_13 y_0 y_1 y_2 y_3 y_4 y_5 y_6 y_7 y_8 y_9 y_10 y_11 y_12 y_13 : Z) : seq Z :=
  let t_0 := 0%Z in
  let t_1 := 0%Z in
  let t_2 := 0%Z in
  let t_3 := 0%Z in
  let t_4 := 0%Z in
  let t_5 := 0%Z in
  let t_6 := 0%Z in
  let t_7 := 0%Z in
  let t_8 := 0%Z in
  let t_9 := 0%Z in
  let t_10 := 0%Z in
  let t_11 := 0%Z in
  let t_12 := 0%Z in
  let t_13 := 0%Z in
  let t_14 := 0%Z in
  let D := 0%Z in
  let m := 0%Z in
  let C := 0%Z in
  let: (t_0, t_1, t_2, t_3, t_4, t_5, t_6, t_7, t_8, t_9, t_10, t_11, t_12, t_13, t_14) := mulP_r0 x_0 x_1 x_2 x_3 x_4 x_5 x_6 x_7 x_8 x_9 x_10 x_11 x_12 x_13 y_0 t_0 t_1 t_2 t_3 t_4 t_5 t_6 t_7 t_8 t_9 t_10 t_11 t_12 t_13 t_14 in
  let: (t_0, t_1, t_2, t_3, t_4, t_5, t_6, t_7, t_8, t_9, t_10, t_11, t_12, t_13, t_14) := mulP_r1 x_0 x_1 x_2 x_3 x_4 x_5 x_6 x_7 x_8 x_9 x_10 x_11 x_12 x_13 y_1 t_0 t_1 t_2 t_3 t_4 t_5 t_6 t_7 t_8 t_9 t_10 t_11 t_12 t_13 t_14 in
  let: (t_0, t_1, t_2, t_3, t_4, t_5, t_6, t_7, t_8, t_9, t_10, t_11, t_12, t_13, t_14) := mulP_r2 x_0 x_1 x_2 x_3 x_4 x_5 x_6 x_7 x_8 x_9 x_10 x_11 x_12 x_13 y_2 t_0 t_1 t_2 t_3 t_4 t_5 t_6 t_7 t_8 t_9 t_10 t_11 t_12 t_13 t_14 in
  let: (t_0, t_1, t_2, t_3, t_4, t_5, t_6, t_7, t_8, t_9, t_10, t_11, t_12, t_13, t_14) := mulP_r3 x_0 x_1 x_2 x_3 x_4 x_5 x_6 x_7 x_8 x_9 x_10 x_11 x_12 x_13 y_3 t_0 t_1 t_2 t_3 t_4 t_5 t_6 t_7 t_8 t_9 t_10 t_11 t_12 t_13 t_14 in
  let: (t_0, t_1, t_2, t_3, t_4, t_5, t_6, t_7, t_8, t_9, t_10, t_11, t_12, t_13, t_14) := mulP_r4 x_0 x_1 x_2 x_3 x_4 x_5 x_6 x_7 x_8 x_9 x_10 x_11 x_12 x_13 y_4 t_0 t_1 t_2 t_3 t_4 t_5 t_6 t_7 t_8 t_9 t_10 t_11 t_12 t_13 t_14 in
  let: (t_0, t_1, t_2, t_3, t_4, t_5, t_6, t_7, t_8, t_9, t_10, t_11, t_12, t_13, t_14) := mulP_r5 x_0 x_1 x_2 x_3 x_4 x_5 x_6 x_7 x_8 x_9 x_10 x_11 x_12 x_13 y_5 t_0 t_1 t_2 t_3 t_4 t_5 t_6 t_7 t_8 t_9 t_10 t_11 t_12 t_13 t_14 in
  let: (t_0, t_1, t_2, t_3, t_4, t_5, t_6, t_7, t_8, t_9, t_10, t_11, t_12, t_13, t_14) := mulP_r6 x_0 x_1 x_2 x_3 x_4 x_5 x_6 x_7 x_8 x_9 x_10 x_11 x_12 x_13 y_6 t_0 t_1 t_2 t_3 t_4 t_5 t_6 t_7 t_8 t_9 t_10 t_11 t_12 t_13 t_14 in
  let: (t_0, t_1, t_2, t_3, t_4, t_5, t_6, t_7, t_8, t_9, t_10, t_11, t_12, t_13, t_14) := mulP_r7 x_0 x_1 x_2 x_3 x_4 x_5 x_6 x_7 x_8 x_9 x_10 x_11 x_12 x_13 y_7 t_0 t_1 t_2 t_3 t_4 t_5 t_6 t_7 t_8 t_9 t_10 t_11 t_12 t_13 t_14 in
  let: (t_0, t_1, t_2, t_3, t_4, t_5, t_6, t_7, t_8, t_9, t_10, t_11, t_12, t_13, t_14) := mulP_r8 x_0 x_1 x_2 x_3 x_4 x_5 x_6 x_7 x_8 x_9 x_10 x_11 x_12 x_13 y_8 t_0 t_1 t_2 t_3 t_4 t_5 t_6 t_7 t_8 t_9 t_10 t_11 t_12 t_13 t_14 in
  let: (t_0, t_1, t_2, t_3, t_4, t_5, t_6, t_7, t_8, t_9, t_10, t_11, t_12, t_13, t_14) := mulP_r9 x_0 x_1 x_2 x_3 x_4 x_5 x_6 x_7 x_8 x_9 x_10 x_11 x_12 x_13 y_9 t_0 t_1 t_2 t_3 t_4 t_5 t_6 t_7 t_8 t_9 t_10 t_11 t_12 t_13 t_14 in
  let: (t_0, t_1, t_2, t_3, t_4, t_5, t_6, t_7, t_8, t_9, t_10, t_11, t_12, t_13, t_14) := mulP_r10 x_0 x_1 x_2 x_3 x_4 x_5 x_6 x_7 x_8 x_9 x_10 x_11 x_12 x_13 y_10 t_0 t_1 t_2 t_3 t_4 t_5 t_6 t_7 t_8 t_9 t_10 t_11 t_12 t_13 t_14 in
  let: (t_0, t_1, t_2, t_3, t_4, t_5, t_6, t_7, t_8, t_9, t_10, t_11, t_12, t_13, t_14) := mulP_r11 x_0 x_1 x_2 x_3 x_4 x_5 x_6 x_7 x_8 x_9 x_10 x_11 x_12 x_13 y_11 t_0 t_1 t_2 t_3 t_4 t_5 t_6 t_7 t_8 t_9 t_10 t_11 t_12 t_13 t_14 in
  let: (t_0, t_1, t_2, t_3, t_4, t_5, t_6, t_7, t_8, t_9, t_10, t_11, t_12, t_13, t_14) := mulP_r12 x_0 x_1 x_2 x_3 x_4 x_5 x_6 x_7 x_8 x_9 x_10 x_11 x_12 x_13 y_12 t_0 t_1 t_2 t_3 t_4 t_5 t_6 t_7 t_8 t_9 t_10 t_11 t_12 t_13 t_14 in
  let: (t_0, t_1, t_2, t_3, t_4, t_5, t_6, t_7, t_8, t_9, t_10, t_11, t_12, t_13, t_14) := mulP_r13 x_0 x_1 x_2 x_3 x_4 x_5 x_6 x_7 x_8 x_9 x_10 x_11 x_12 x_13 y_13 t_0 t_1 t_2 t_3 t_4 t_5 t_6 t_7 t_8 t_9 t_10 t_11 t_12 t_13 t_14 in
  if ~~ (t_14 =? 0)%Z then
  let b := 0%Z in
  let: (z_0, b) := Sub64 t_0 q0 0%Z in
  let: (z_1, b) := Sub64 t_1 q1 b in
  let: (z_2, b) := Sub64 t_2 q2 b in
  let: (z_3, b) := Sub64 t_3 q3 b in
  let: (z_4, b) := Sub64 t_4 q4 b in
  let: (z_5, b) := Sub64 t_5 q5 b in
  let: (z_6, b) := Sub64 t_6 q6 b in
  let: (z_7, b) := Sub64 t_7 q7 b in
  let: (z_8, b) := Sub64 t_8 q8 b in
  let: (z_9, b) := Sub64 t_9 q9 b in
  let: (z_10, b) := Sub64 t_10 q10 b in
  let: (z_11, b) := Sub64 t_11 q11 b in
  let: (z_12, b) := Sub64 t_12 q12 b in
  let: (z_13, _) := Sub64 t_13 q13 b in
  [:: z_0; z_1; z_2; z_3; z_4; z_5; z_6; z_7; z_8; z_9; z_10; z_11; z_12; z_13] else
  let z_0 := t_0 in
  let z_1 := t_1 in
  let z_2 := t_2 in
  let z_3 := t_3 in
  let z_4 := t_4 in
  let z_5 := t_5 in
  let z_6 := t_6 in
  let z_7 := t_7 in
  let z_8 := t_8 in
  let z_9 := t_9 in
  let z_10 := t_10 in
  let z_11 := t_11 in
  let z_12 := t_12 in
  let z_13 := t_13 in
  if ~~ smaller z_0 z_1 z_2 z_3 z_4 z_5 z_6 z_7 z_8 z_9 z_10 z_11 z_12 z_13 then
  let b := 0%Z in
  let: (z_0, b) := Sub64 z_0 q0 0%Z in
  let: (z_1, b) := Sub64 z_1 q1 b in
  let: (z_2, b) := Sub64 z_2 q2 b in
  let: (z_3, b) := Sub64 z_3 q3 b in
  let: (z_4, b) := Sub64 z_4 q4 b in
  let: (z_5, b) := Sub64 z_5 q5 b in
  let: (z_6, b) := Sub64 z_6 q6 b in
  let: (z_7, b) := Sub64 z_7 q7 b in
  let: (z_8, b) := Sub64 z_8 q8 b in
  let: (z_9, b) := Sub64 z_9 q9 b in
  let: (z_10, b) := Sub64 z_10 q10 b in
  let: (z_11, b) := Sub64 z_11 q11 b in
  let: (z_12, b) := Sub64 z_12 q12 b in
  let: (z_13, _) := Sub64 z_13 q13 b in
  [:: z_0; z_1; z_2; z_3; z_4; z_5; z_6; z_7; z_8; z_9; z_10; z_11; z_12; z_13] else
  [:: z_0; z_1; z_2; z_3; z_4; z_5; z_6; z_7; z_8; z_9; z_10; z_11; z_12; z_13].
(** element_purego.go 714-755 *)
Definition square_r0 (x_0 x_1 x_2 x_3 x_4 x_5 x_6 x_7 x_8 x_9 x_10 x_11 x_12 x_13 t_0 t_1 t_2 t_3 t_4 t_5 t_6 t_7 t_8 t_9 t_10 t_11 t_12 t_13 t_14 : Z) :=
  let: (C, t_0) := Mul64 x_0 x_0 in
  let: (C, t_1) := madd1 x_0 x_1 C in
  let: (C, t_2) := madd1 x_0 x_2 C in
  let: (C, t_3) := madd1 x_0 x_3 C in
  let: (C, t_4) := madd1 x_0 x_4 C in
  let: (C, t_5) := madd1 x_0 x_5 C in
  let: (C, t_6) := madd1 x_0 x_6 C in
  let: (C, t_7) := madd1 x_0 x_7 C in
  let: (C, t_8) := madd1 x_0 x_8 C in
  let: (C, t_9) := madd1 x_0 x_9 C in
  let: (C, t_10) := madd1 x_0 x_10 C in
  let: (C, t_11) := madd1 x_0 x_11 C in
  let: (C, t_12) := madd1 x_0 x_12 C in
  let: (C, t_13) := madd1 x_0 x_13 C in
  let: (t_14, D) := Add64 t_14 C 0%Z in
  let m := ((t_0 * qInvNeg) mod W)%Z in
  let C := madd0 m q0 t_0 in
  let: (C, t_0) := madd2 m q1 t_1 C in
  let: (C, t_1) := madd2 m q2 t_2 C in
  let: (C, t_2) := madd2 m q3 t_3 C in
  let: (C, t_3) := madd2 m q4 t_4 C in
  let: (C, t_4) := madd2 m q5 t_5 C in
  let: (C, t_5) := madd2 m q6 t_6 C in
  let: (C, t_6) := madd2 m q7 t_7 C in
  let: (C, t_7) := madd2 m q8 t_8 C in
  let: (C, t_8) := madd2 m q9 t_9 C in
  let: (C, t_9) := madd2 m q10 t_10 C in
  let: (C, t_10) := madd2 m q11 t_11 C in
  let: (C, t_11) := madd2 m q12 t_12 C in
  let: (C, t_12) := madd2 m q13 t_13 C in
  let: (t_13, C) := Add64 t_14 C 0%Z in
  let: (t_14, _) := Add64 0%Z D C in
  (t_0, t_1, t_2, t_3, t_4, t_5, t_6, t_7, t_8, t_9, t_10, t_11, t_12, t_13, t_14).
(** element_purego.go 756-797 *)
Definition square_r1 (x_0 x_1 x_2 x_3 x_4 x_5 x_6 x_7 x_8 x_9 x_10 x_11 x_12 x_13 t_0 t_1 t_2 t_3 t_4 t_5 t_6 t_7 t_8 t_9 t_10 t_11 t_12 t_13 t_14 : Z) :=
  let: (C, t_0) := madd1 x_1 x_0 t_0 in
  let: (C, t_1) := madd2 x_1 x_1 t_1 C in
  let: (C, t_2) := madd2 x_1 x_2 t_2 C in
  let: (C, t_3) := madd2 x_1 x_3 t_3 C in
  let: (C, t_4) := madd2 x_1 x_4 t_4 C in
  let: (C, t_5) := madd2 x_1 x_5 t_5 C in
  let: (C, t_6) := madd2 x_1 x_6 t_6 C in
  let: (C, t_7) := madd2 x_1 x_7 t_7 C in
  let: (C, t_8) := madd2 x_1 x_8 t_8 C in
  let: (C, t_9) := madd2 x_1 x_9 t_9 C in
  let: (C, t_10) := madd2 x_1 x_10 t_10 C in
  let: (C, t_11) := madd2 x_1 x_11 t_11 C in
  let: (C, t_12) := madd2 x_1 x_12 t_12 C in
  let: (C, t_13) := madd2 x_1 x_13 t_13 C in
  let: (t_14, D) := Add64 t_14 C 0%Z in
  let m := ((t_0 * qInvNeg) mod W)%Z in
  let C := madd0 m q0 t_0 in
  let: (C, t_0) := madd2 m q1 t_1 C in
  let: (C, t_1) := madd2 m q2 t_2 C in
  let: (C, t_2) := madd2 m q3 t_3 C in
  let: (C, t_3) := madd2 m q4 t_4 C in
  let: (C, t_4) := madd2 m q5 t_5 C in
  let: (C, t_5) := madd2 m q6 t_6 C in
  let: (C, t_6) := madd2 m q7 t_7 C in
  let: (C, t_7) := madd2 m q8 t_8 C in
  let: (C, t_8) := madd2 m q9 t_9 C in
  let: (C, t_9) := madd2 m q10 t_10 C in
  let: (C, t_10) := madd2 m q11 t_11 C in
  let: (C, t_11) := madd2 m q12 t_12 C in
  let: (C, t_12) := madd2 m q13 t_13 C in
  let: (t_13, C) := Add64 t_14 C 0%Z in
  let: (t_14, _) := Add64 0%Z D C in
  (t_0, t_1, t_2, t_3, t_4, t_5, t_6, t_7, t_8, t_9, t_10, t_11, t_12, t_13, t_14).
(** element_purego.go 798-839 *)
Definition square_r2 (x_0 x_1 x_2 x_3 x_4 x_5 x_6 x_7 x_8 x_9 x_10 x_11 x_12 x_13 t_0 t_1 t_2 t_3 t_4 t_5 t_6 t_7 t_8 t_9 t_10 t_11 t_12 t_13 t_14 : Z) :=
  let: (C, t_0) := madd1 x_2 x_0 t_0 in
  let: (C, t_1) := madd2 x_2 x_1 t_1 C in
  let: (C, t_2) := madd2 x_2 x_2 t_2 C in
  let: (C, t_3) := madd2 x_2 x_3 t_3 C in
  let: (C, t_4) := madd2 x_2 x_4 t_4 C in
  let: (C, t_5) := madd2 x_2 x_5 t_5 C in
  let: (C, t_6) := madd2 x_2 x_6 t_6 C in
  let: (C, t_7) := madd2 x_2 x_7 t_7 C in
  let: (C, t_8) := madd2 x_2 x_8 t_8 C in
  let: (C, t_9) := madd2 x_2 x_9 t_9 C in
  let: (C, t_10) := madd2 x_2 x_10 t_10 C in
  let: (C, t_11) := madd2 x_2 x_11 t_11 C in
  let: (C, t_12) := madd2 x_2 x_12 t_12 C in
  let: (C, t_13) := madd2 x_2 x_13 t_13 C in
  let: (t_14, D) := Add64 t_14 C 0%Z in
  let m := ((t_0 * qInvNeg) mod W)%Z in
  let C := madd0 m q0 t_0 in
  let: (C, t_0) := madd2 m q1 t_1 C in
  let: (C, t_1) := madd2 m q2 t_2 C in
  let: (C, t_2) := madd2 m q3 t_3 C in
  let: (C, t_3) := madd2 m q4 t_4 C in
  let: (C, t_4) := madd2 m q5 t_5 C in
  let: (C, t_5) := madd2 m q6 t_6 C in
  let: (C, t_6) := madd2 m q7 t_7 C in
  let: (C, t_7) := madd2 m q8 t_8 C in
  let: (C, t_8) := madd2 m q9 t_9 C in
  let: (C, t_9) := madd2 m q10 t_10 C in
  let: (C, t_10) := madd2 m q11 t_11 C in
  let: (C, t_11) := madd2 m q12 t_12 C in
  let: (C, t_12) := madd2 m q13 t_13 C in
  let: (t_13, C) := Add64 t_14 C 0%Z in
  let: (t_14, _) := Add64 0%Z D C in
  (t_0, t_1, t_2, t_3, t_4, t_5, t_6, t_7, t_8, t_9, t_10, t_11, t_12, t_13, t_14).
(** element_purego.go 840-881 *)
Definition square_r3 (x_0 x_1 x_2 x_3 x_4 x_5 x_6 x_7 x_8 x_9 x_10 x_11 x_12 x_13 t_0 t_1 t_2 t_3 t_4 t_5 t_6 t_7 t_8 t_9 t_10 t_11 t_12 t_13 t_14 : Z) :=
  let: (C, t_0) := madd1 x_3 x_0 t_0 in
  let: (C, t_1) := madd2 x_3 x_1 t_1 C in
  let: (C, t_2) := madd2 x_3 x_2 t_2 C in
  let: (C, t_3) := madd2 x_3 x_3 t_3 C in
  let: (C, t_4) := madd2 x_3 x_4 t_4 C in
  let: (C, t_5) := madd2 x_3 x_5 t_5 C in
  let: (C, t_6) := madd2 x_3 x_6 t_6 C in
  let: (C, t_7) := madd2 x_3 x_7 t_7 C in
  let: (C, t_8) := madd2 x_3 x_8 t_8 C in
  let: (C, t_9) := madd2 x_3 x_9 t_9 C in
  let: (C, t_10) := madd2 x_3 x_10 t_10 C in
  let: (C, t_11) := madd2 x_3 x_11 t_11 C in
  let: (C, t_12) := madd2 x_3 x_12 t_12 C in
  let: (C, t_13) := madd2 x_3 x_13 t_13 C in
  let: (t_14, D) := Add64 t_14 C 0%Z in
  let m := ((t_0 * qInvNeg) mod W)%Z in
  let C := madd0 m q0 t_0 in
  let: (C, t_0) := madd2 m q1 t_1 C in
  let: (C, t_1) := madd2 m q2 t_2 C in
  let: (C, t_2) := madd2 m q3 t_3 C in
  let: (C, t_3) := madd2 m q4 t_4 C in
  let: (C, t_4) := madd2 m q5 t_5 C in
  let: (C, t_5) := madd2 m q6 t_6 C in
  let: (C, t_6) := madd2 m q7 t_7 C in
  let: (C, t_7) := madd2 m q8 t_8 C in
  let: (C, t_8) := madd2 m q9 t_9 C in
  let: (C, t_9) := madd2 m q10 t_10 C in
  let: (C, t_10) := madd2 m q11 t_11 C in
  let: (C, t_11) := madd2 m q12 t_12 C in
  let: (C, t_12) := madd2 m q13 t_13 C in
  let: (t_13, C) := Add64 t_14 C 0%Z in
  let: (t_14, _) := Add64 0%Z D C in
  (t_0, t_1, t_2, t_3, t_4, t_5, t_6, t_7, t_8, t_9, t_10, t_11, t_12, t_13, t_14).
(** element_purego.go 882-923 *)
Definition square_r4 (x_0 x_1 x_2 x_3 x_4 x_5 x_6 x_7 x_8 x_9 x_10 x_11 x_12 x_13 t_0 t_1 t_2 t_3 t_4 t_5 t_6 t_7 t_8 t_9 t_10 t_11 t_12 t_13 t_14 : Z) :=
  let: (C, t_0) := madd1 x_4 x_0 t_0 in
  let: (C, t_1) := madd2 x_4 x_1 t_1 C in
  let: (C, t_2) := madd2 x_4 x_2 t_2 C in
  let: (C, t_3) := madd2 x_4 x_3 t_3 C in
  let: (C, t_4) := madd2 x_4 x_4 t_4 C in
  let: (C, t_5) := madd2 x_4 x_5 t_5 C in
  let: (C, t_6) := madd2 x_4 x_6 t_6 C in
  let: (C, t_7) := madd2 x_4 x_7 t_7 C in
  let: (C, t_8) := madd2 x_4 x_8 t_8 C in
  let: (C, t_9) := madd2 x_4 x_9 t_9 C in
  let: (C, t_10) := madd2 x_4 x_10 t_10 C in
  let: (C, t_11) := madd2 x_4 x_11 t_11 C in
  let: (C, t_12) := madd2 x_4 x_12 t_12 C in
  let: (C, t_13) := madd2 x_4 x_13 t_13 C in
  let: (t_14, D) := Add64 t_14 C 0%Z in
  let m := ((t_0 * qInvNeg) mod W)%Z in
  let C := madd0 m q0 t_0 in
  let: (C, t_0) := madd2 m q1 t_1 C in
  let: (C, t_1) := madd2 m q2 t_2 C in
  let: (C, t_2) := madd2 m q3 t_3 C in
  let: (C, t_3) := madd2 m q4 t_4 C in
  let: (C, t_4) := madd2 m q5 t_5 C in
  let: (C, t_5) := madd2 m q6 t_6 C in
  let: (C, t_6) := madd2 m q7 t_7 C in
  let: (C, t_7) := madd2 m q8 t_8 C in
  let: (C, t_8) := madd2 m q9 t_9 C in
  let: (C, t_9) := madd2 m q10 t_10 C in
  let: (C, t_10) := madd2 m q11 t_11 C in
  let: (C, t_11) := madd2 m q12 t_12 C in
  let: (C, t_12) := madd2 m q13 t_13 C in
  let: (t_13, C) := Add64 t_14 C 0%Z in
  let: (t_14, _) := Add64 0%Z D C in
  (t_0, t_1, t_2, t_3, t_4, t_5, t_6, t_7, t_8, t_9, t_10, t_11, t_12, t_13, t_14).
(** element_purego.go 924-965 *)
Definition square_r5 (x_0 x_1 x_2 x_3 x_4 x_5 x_6 x_7 x_8 x_9 x_10 x_11 x_12 x_13 t_0 t_1 t_2 t_3 t_4 t_5 t_6 t_7 t_8 t_9 t_10 t_11 t_12 t_13 t_14 : Z) :=
  let: (C, t_0) := madd1 x_5 x_0 t_0 in
  let: (C, t_1) := madd2 x_5 x_1 t_1 C in
  let: (C, t_2) := madd2 x_5 x_2 t_2 C in
  let: (C, t_3) := madd2 x_5 x_3 t_3 C in
  let: (C, t_4) := madd2 x_5 x_4 t_4 C in
  let: (C, t_5) := madd2 x_5 x_5 t_5 C in
  let: (C, t_6) := madd2 x_5 x_6 t_6 C in
  let: (C, t_7) := madd2 x_5 x_7 t_7 C in
  let: (C, t_8) := madd2 x_5 x_8 t_8 C in
  let: (C, t_9) := madd2 x_5 x_9 t_9 C in
  let: (C, t_10) := madd2 x_5 x_10 t_10 C in
  let: (C, t_11) := madd2 x_5 x_11 t_11 C in
  let: (C, t_12) := madd2 x_5 x_12 t_12 C in
  let: (C, t_13) := madd2 x_5 x_13 t_13 C in
  let: (t_14, D) := Add64 t_14 C 0%Z in
  let m := ((t_0 * qInvNeg) mod W)%Z in
  let C := madd0 m q0 t_0 in
  let: (C, t_0) := madd2 m q1 t_1 C in
  let: (C, t_1) := madd2 m q2 t_2 C in
  let: (C, t_2) := madd2 m q3 t_3 C in
  let: (C, t_3) := madd2 m q4 t_4 C in
  let: (C, t_4) := madd2 m q5 t_5 C in
  let: (C, t_5) := madd2 m q6 t_6 C in
  let: (C, t_6) := madd2 m q7 t_7 C in
  let: (C, t_7) := madd2 m q8 t_8 C in
  let: (C, t_8) := madd2 m q9 t_9 C in
  let: (C, t_9) := madd2 m q10 t_10 C in
  let: (C, t_10) := madd2 m q11 t_11 C in
  let: (C, t_11) := madd2 m q12 t_12 C in
  let: (C, t_12) := madd2 m q13 t_13 C in
  let: (t_13, C) := Add64 t_14 C 0%Z in
  let: (t_14, _) := Add64 0%Z D C in
  (t_0, t_1, t_2, t_3, t_4, t_5, t_6, t_7, t_8, t_9, t_10, t_11, t_12, t_13, t_14).
(** element_purego.go 966-1007 *)
Definition square_r6 (x_0 x_1 x_2 x_3 x_4 x_5 x_6 x_7 x_8 x_9 x_10 x_11 x_12 x_13 t_0 t_1 t_2 t_3 t_4 t_5 t_6 t_7 t_8 t_9 t_10 t_11 t_12 t_13 t_14 : Z) :=
  let: (C, t_0) := madd1 x_6 x_0 t_0 in
  let: (C, t_1) := madd2 x_6 x_1 t_1 C in
  let: (C, t_2) := madd2 x_6 x_2 t_2 C in
  let: (C, t_3) := madd2 x_6 x_3 t_3 C in
  let: (C, t_4) := madd2 x_6 x_4 t_4 C in
  let: (C, t_5) := madd2 x_6 x_5 t_5 C in
  let: (C, t_6) := madd2 x_6 x_6 t_6 C in
  let: (C, t_7) := madd2 x_6 x_7 t_7 C in
  let: (C, t_8) := madd2 x_6 x_8 t_8 C in
  let: (C, t_9) := madd2 x_6 x_9 t_9 C in
  let: (C, t_10) := madd2 x_6 x_10 t_10 C in
  let: (C, t_11) := madd2 x_6 x_11 t_11 C in
  let: (C, t_12) := madd2 x_6 x_12 t_12 C in
  let: (C, t_13) := madd2 x_6 x_13 t_13 C in
  let: (t_14, D) := Add64 t_14 C 0%Z in
  let m := ((t_0 * qInvNeg) mod W)%Z in
  let C := madd0 m q0 t_0 in
  let: (C, t_0) := madd2 m q1 t_1 C in
  let: (C, t_1) := madd2 m q2 t_2 C in
  let: (C, t_2) := madd2 m q3 t_3 C in
  let: (C, t_3) := madd2 m q4 t_4 C in
  let: (C, t_4) := madd2 m q5 t_5 C in
  let: (C, t_5) := madd2 m q6 t_6 C in
  let: (C, t_6) := madd2 m q7 t_7 C in
  let: (C, t_7) := madd2 m q8 t_8 C in
  let: (C, t_8) := madd2 m q9 t_9 C in
  let: (C, t_9) := madd2 m q10 t_10 C in
  let: (C, t_10) := madd2 m q11 t_11 C in
  let: (C, t_11) := madd2 m q12 t_12 C in
  let: (C, t_12) := madd2 m q13 t_13 C in
  let: (t_13, C) := Add64 t_14 C 0%Z in
  let: (t_14, _) := Add64 0%Z D C in
  (t_0, t_1, t_2, t_3, t_4, t_5, t_6, t_7, t_8, t_9, t_10, t_11, t_12, t_13, t_14).
(** element_purego.go 1008-1049 *)
Definition square_r7 (x_0 x_1 x_2 x_3 x_4 x_5 x_6 x_7 x_8 x_9 x_10 x_11 x_12 x_13 t_0 t_1 t_2 t_3 t_4 t_5 t_6 t_7 t_8 t_9 t_10 t_11 t_12 t_13 t_14 : Z) :=
  let: (C, t_0) := madd1 x_7 x_0 t_0 in
  let: (C, t_1) := madd2 x_7 x_1 t_1 C in
  let: (C, t_2) := madd2 x_7 x_2 t_2 C in
  let: (C, t_3) := madd2 x_7 x_3 t_3 C in
  let: (C, t_4) := madd2 x_7 x_4 t_4 C in
  let: (C, t_5) := madd2 x_7 x_5 t_5 C in
  let: (C, t_6) := madd2 x_7 x_6 t_6 C in
  let: (C, t_7) := madd2 x_7 x_7 t_7 C in
  let: (C, t_8) := madd2 x_7 x_8 t_8 C in
  let: (C, t_9) := madd2 x_7 x_9 t_9 C in
  let: (C, t_10) := madd2 x_7 x_10 t_10 C in
  let: (C, t_11) := madd2 x_7 x_11 t_11 C in
  let: (C, t_12) := madd2 x_7 x_12 t_12 C in
  let: (C, t_13) := madd2 x_7 x_13 t_13 C in
  let: (t_14, D) := Add64 t_14 C 0%Z in
  let m := ((t_0 * qInvNeg) mod W)%Z in
  let C := madd0 m q0 t_0 in
  let: (C, t_0) := madd2 m q1 t_1 C in
  let: (C, t_1) := madd2 m q2 t_2 C in
  let: (C, t_2) := madd2 m q3 t_3 C in
  let: (C, t_3) := madd2 m q4 t_4 C in
  let: (C, t_4) := madd2 m q5 t_5 C in
  let: (C, t_5) := madd2 m q6 t_6 C in
  let: (C, t_6) := madd2 m q7 t_7 C in
  let: (C, t_7) := madd2 m q8 t_8 C in
  let: (C, t_8) := madd2 m q9 t_9 C in
  let: (C, t_9) := madd2 m q10 t_10 C in
  let: (C, t_10) := madd2 m q11 t_11 C in
  let: (C, t_11) := madd2 m q12 t_12 C in
  let: (C, t_12) := madd2 m q13 t_13 C in
  let: (t_13, C) := Add64 t_14 C 0%Z in
  let: (t_14, _) := Add64 0%Z D C in
  (t_0, t_1, t_2, t_3, t_4, t_5, t_6, t_7, t_8, t_9, t_10, t_11, t_12, t_13, t_14).
(** element_purego.go 1050-1091 *)
Definition square_r8 (x_0 x_1 x_2 x_3 x_4 x_5 x_6 x_7 x_8 x_9 x_10 x_11 x_12 x_13 t_0 t_1 t_2 t_3 t_4 t_5 t_6 t_7 t_8 t_9 t_10 t_11 t_12 t_13 t_14 : Z) :=
  let: (C, t_0) := madd1 x_8 x_0 t_0 in
  let: (C, t_1) := madd2 x_8 x_1 t_1 C in
  let: (C, t_2) := madd2 x_8 x_2 t_2 C in
  let: (C, t_3) := madd2 x_8 x_3 t_3 C in
  let: (C, t_4) := madd2 x_8 x_4 t_4 C in
  let: (C, t_5) := madd2 x_8 x_5 t_5 C in
  let: (C, t_6) := madd2 x_8 x_6 t_6 C in
  let: (C, t_7) := madd2 x_8 x_7 t_7 C in
  let: (C, t_8) := madd2 x_8 x_8 t_8 C in
  let: (C, t_9) := madd2 x_8 x_9 t_9 C in
  let: (C, t_10) := madd2 x_8 x_10 t_10 C in
  let: (C, t_11) := madd2 x_8 x_11 t_11 C in
  let: (C, t_12) := madd2 x_8 x_12 t_12 C in
  let: (C, t_13) := madd2 x_8 x_13 t_13 C in
  let: (t_14, D) := Add64 t_14 C 0%Z in
  let m := ((t_0 * qInvNeg) mod W)%Z in
  let C := madd0 m q0 t_0 in
  let: (C, t_0) := madd2 m q1 t_1 C in
  let: (C, t_1) := madd2 m q2 t_2 C in
  let: (C, t_2) := madd2 m q3 t_3 C in
  let: (C, t_3) := madd2 m q4 t_4 C in
  let: (C, t_4) := madd2 m q5 t_5 C in
  let: (C, t_5) := madd2 m q6 t_6 C in
  let: (C, t_6) := madd2 m q7 t_7 C in
  let: (C, t_7) := madd2 m q8 t_8 C in
  let: (C, t_8) := madd2 m q9 t_9 C in
  let: (C, t_9) := madd2 m q10 t_10 C in
  let: (C, t_10) := madd2 m q11 t_11 C in
  let: (C, t_11) := madd2 m q12 t_12 C in
  let: (C, t_12) := madd2 m q13 t_13 C in
  let: (t_13, C) := Add64 t_14 C 0%Z in
  let: (t_14, _) := Add64 0%Z D C in
  (t_0, t_1, t_2, t_3, t_4, t_5, t_6, t_7, t_8, t_9, t_10, t_11, t_12, t_13, t_14).
(** element_purego.go 1092-1133 *)
Definition square_r9 (x_0 x_1 x_2 x_3 x_4 x_5 x_6 x_7 x_8 x_9 x_10 x_11 x_12 x_13 t_0 t_1 t_2 t_3 t_4 t_5 t_6 t_7 t_8 t_9 t_10 t_11 t_12 t_13 t_14 : Z) :=
  let: (C, t_0) := madd1 x_9 x_0 t_0 in
  let: (C, t_1) := madd2 x_9 x_1 t_1 C in
  let: (C, t_2) := madd2 x_9 x_2 t_2 C in
  let: (C, t_3) := madd2 x_9 x_3 t_3 C in
  let: (C, t_4) := madd2 x_9 x_4 t_4 C in
  let: (C, t_5) := madd2 x_9 x_5 t_5 C in
  let: (C, t_6) := madd2 x_9 x_6 t_6 C in
  let: (C, t_7) := madd2 x_9 x_7 t_7 C in
  let: (C, t_8) := madd2 x_9 x_8 t_8 C in
  let: (C, t_9) := madd2 x_9 x_9 t_9 C in
  let: (C, t_10) := madd2 x_9 x_10 t_10 C in
  let: (C, t_11) := madd2 x_9 x_11 t_11 C in
  let: (C, t_12) := madd2 x_9 x_12 t_12 C in
  let: (C, t_13) := madd2 x_9 x_13 t_13 C in
  let: (t_14, D) := Add64 t_14 C 0%Z in
  let m := ((t_0 * qInvNeg) mod W)%Z in
  let C := madd0 m q0 t_0 in
  let: (C, t_0) := madd2 m q1 t_1 C in
  let: (C, t_1) := madd2 m q2 t_2 C in
  let: (C, t_2) := madd2 m q3 t_3 C in
  let: (C, t_3) := madd2 m q4 t_4 C in
  let: (C, t_4) := madd2 m q5 t_5 C in
  let: (C, t_5) := madd2 m q6 t_6 C in
  let: (C, t_6) := madd2 m q7 t_7 C in
  let: (C, t_7) := madd2 m q8 t_8 C in
  let: (C, t_8) := madd2 m q9 t_9 C in
  let: (C, t_9) := madd2 m q10 t_10 C in
  let: (C, t_10) := madd2 m q11 t_11 C in
  let: (C, t_11) := madd2 m q12 t_12 C in
  let: (C, t_12) := madd2 m q13 t_13 C in
  let: (t_13, C) := Add64 t_14 C 0%Z in
  let: (t_14, _) := Add64 0%Z D C in
  (t_0, t_1, t_2, t_3, t_4, t_5, t_6, t_7, t_8, t_9, t_10, t_11, t_12, t_13, t_14).
(** element_purego.go 1134-1175 *)
Definition square_r10 (x_0 x_1 x_2 x_3 x_4 x_5 x_6 x_7 x_8 x_9 x_10 x_11 x_12 x_13 t_0 t_1 t_2 t_3 t_4 t_5 t_6 t_7 t_8 t_9 t_10 t_11 t_12 t_13 t_14 : Z) :=
  let: (C, t_0) := madd1 x_10 x_0 t_0 in
  let: (C, t_1) := madd2 x_10 x_1 t_1 C in
  let: (C, t_2) := madd2 x_10 x_2 t_2 C in
  let: (C, t_3) := madd2 x_10 x_3 t_3 C in
  let: (C, t_4) := madd2 x_10 x_4 t_4 C in
  let: (C, t_5) := madd2 x_10 x_5 t_5 C in
  let: (C, t_6) := madd2 x_10 x_6 t_6 C in
  let: (C, t_7) := madd2 x_10 x_7 t_7 C in
  let: (C, t_8) := madd2 x_10 x_8 t_8 C in
  let: (C, t_9) := madd2 x_10 x_9 t_9 C in
  let: (C, t_10) := madd2 x_10 x_10 t_10 C in
  let: (C, t_11) := madd2 x_10 x_11 t_11 C in
  let: (C, t_12) := madd2 x_10 x_12 t_12 C in
  let: (C, t_13) := madd2 x_10 x_13 t_13 C in
  let: (t_14, D) := Add64 t_14 C 0%Z in
  let m := ((t_0 * qInvNeg) mod W)%Z in
  let C := madd0 m q0 t_0 in
  let: (C, t_0) := madd2 m q1 t_1 C in
  let: (C, t_1) := madd2 m q2 t_2 C in
  let: (C, t_2) := madd2 m q3 t_3 C in
  let: (C, t_3) := madd2 m q4 t_4 C in
  let: (C, t_4) := madd2 m q5 t_5 C in
  let: (C, t_5) := madd2 m q6 t_6 C in
  let: (C, t_6) := madd2 m q7 t_7 C in
  let: (C, t_7) := madd2 m q8 t_8 C in
  let: (C, t_8) := madd2 m q9 t_9 C in
  let: (C, t_9) := madd2 m q10 t_10 C in
  let: (C, t_10) := madd2 m q11 t_11 C in
  let: (C, t_11) := madd2 m q12 t_12 C in
  let: (C, t_12) := madd2 m q13 t_13 C in
  let: (t_13, C) := Add64 t_14 C 0%Z in
  let: (t_14, _) := Add64 0%Z D C in
  (t_0, t_1, t_2, t_3, t_4, t_5, t_6, t_7, t_8, t_9, t_10, t_11, t_12, t_13, t_14).
(** element_purego.go 1176-1217 *)
Definition square_r11 (x_0 x_1 x_2 x_3 x_4 x_5 x_6 x_7 x_8 x_9 x_10 x_11 x_12 x_13 t_0 t_1 t_2 t_3 t_4 t_5 t_6 t_7 t_8 t_9 t_10 t_11 t_12 t_13 t_14 : Z) :=
  let: (C, t_0) := madd1 x_11 x_0 t_0 in
  let: (C, t_1) := madd2 x_11 x_1 t_1 C in
  let: (C, t_2) := madd2 x_11 x_2 t_2 C in
  let: (C, t_3) := madd2 x_11 x_3 t_3 C in
  let: (C, t_4) := madd2 x_11 x_4 t_4 C in
  let: (C, t_5) := madd2 x_11 x_5 t_5 C in
  let: (C, t_6) := madd2 x_11 x_6 t_6 C in
  let: (C, t_7) := madd2 x_11 x_7 t_7 C in
  let: (C, t_8) := madd2 x_11 x_8 t_8 C in
  let: (C, t_9) := madd2 x_11 x_9 t_9 C in
  let: (C, t_10) := madd2 x_11 x_10 t_10 C in
  let: (C, t_11) := madd2 x_11 x_11 t_11 C in
  let: (C, t_12) := madd2 x_11 x_12 t_12 C in
  let: (C, t_13) := madd2 x_11 x_13 t_13 C in
  let: (t_14, D) := Add64 t_14 C 0%Z in
  let m := ((t_0 * qInvNeg) mod W)%Z in
  let C := madd0 m q0 t_0 in
  let: (C, t_0) := madd2 m q1 t_1 C in
  let: (C, t_1) := madd2 m q2 t_2 C in
  let: (C, t_2) := madd2 m q3 t_3 C in
  let: (C, t_3) := madd2 m q4 t_4 C in
  let: (C, t_4) := madd2 m q5 t_5 C in
  let: (C, t_5) := madd2 m q6 t_6 C in
  let: (C, t_6) := madd2 m q7 t_7 C in
  let: (C, t_7) := madd2 m q8 t_8 C in
  let: (C, t_8) := madd2 m q9 t_9 C in
  let: (C, t_9) := madd2 m q10 t_10 C in
  let: (C, t_10) := madd2 m q11 t_11 C in
  let: (C, t_11) := madd2 m q12 t_12 C in
  let: (C, t_12) := madd2 m q13 t_13 C in
  let: (t_13, C) := Add64 t_14 C 0%Z in
  let: (t_14, _) := Add64 0%Z D C in
  (t_0, t_1, t_2, t_3, t_4, t_5, t_6, t_7, t_8, t_9, t_10, t_11, t_12, t_13, t_14).
(** element_purego.go 1218-1259 *)
Definition square_r12 (x_0 x_1 x_2 x_3 x_4 x_5 x_6 x_7 x_8 x_9 x_10 x_11 x_12 x_13 t_0 t_1 t_2 t_3 t_4 t_5 t_6 t_7 t_8 t_9 t_10 t_11 t_12 t_13 t_14 : Z) :=
  let: (C, t_0) := madd1 x_12 x_0 t_0 in
  let: (C, t_1) := madd2 x_12 x_1 t_1 C in
  let: (C, t_2) := madd2 x_12 x_2 t_2 C in
  let: (C, t_3) := madd2 x_12 x_3 t_3 C in
  let: (C, t_4) := madd2 x_12 x_4 t_4 C in
  let: (C, t_5) := madd2 x_12 x_5 t_5 C in
  let: (C, t_6) := madd2 x_12 x_6 t_6 C in
  let: (C, t_7) := madd2 x_12 x_7 t_7 C in
  let: (C, t_8) := madd2 x_12 x_8 t_8 C in
  let: (C, t_9) := madd2 x_12 x_9 t_9 C in
  let: (C, t_10) := madd2 x_12 x_10 t_10 C in
  let: (C, t_11) := madd2 x_12 x_11 t_11 C in
  let: (C, t_12) := madd2 x_12 x_12 t_12 C in
  let: (C, t_13) := madd2 x_12 x_13 t_13 C in
  let: (t_14, D) := Add64 t_14 C 0%Z in
  let m := ((t_0 * qInvNeg) mod W)%Z in
  let C := madd0 m q0 t_0 in
  let: (C, t_0) := madd2 m q1 t_1 C in
  let: (C, t_1) := madd2 m q2 t_2 C in
  let: (C, t_2) := madd2 m q3 t_3 C in
  let: (C, t_3) := madd2 m q4 t_4 C in
  let: (C, t_4) := madd2 m q5 t_5 C in
  let: (C, t_5) := madd2 m q6 t_6 C in
  let: (C, t_6) := madd2 m q7 t_7 C in
  let: (C, t_7) := madd2 m q8 t_8 C in
  let: (C, t_8) := madd2 m q9 t_9 C in
  let: (C, t_9) := madd2 m q10 t_10 C in
  let: (C, t_10) := madd2 m q11 t_11 C in
  let: (C, t_11) := madd2 m q12 t_12 C in
  let: (C, t_12) := madd2 m q13 t_13 C in
  let: (t_13, C) := Add64 t_14 C 0%Z in
  let: (t_14, _) := Add64 0%Z D C in
  (t_0, t_1, t_2, t_3, t_4, t_5, t_6, t_7, t_8, t_9, t_10, t_11, t_12, t_13, t_14).
(** element_purego.go 1260-1301 *)
Definition square_r13 (x_0 x_1 x_2 x_3 x_4 x_5 x_6 x_7 x_8 x_9 x_10 x_11 x_12 x_13 t_0 t_1 t_2 t_3 t_4 t_5 t_6 t_7 t_8 t_9 t_10 t_11 t_12 t_13 t_14 : Z) :=
  let: (C, t_0) := madd1 x_13 x_0 t_0 in
  let: (C, t_1) := madd2 x_13 x_1 t_1 C in
  let: (C, t_2) := madd2 x_13 x_2 t_2 C in
  let: (C, t_3) := madd2 x_13 x_3 t_3 C in
  let: (C, t_4) := madd2 x_13 x_4 t_4 C in
  let: (C, t_5) := madd2 x_13 x_5 t_5 C in
  let: (C, t_6) := madd2 x_13 x_6 t_6 C in
  let: (C, t_7) := madd2 x_13 x_7 t_7 C in
  let: (C, t_8) := madd2 x_13 x_8 t_8 C in
  let: (C, t_9) := madd2 x_13 x_9 t_9 C in
  let: (C, t_10) := madd2 x_13 x_10 t_10 C in
  let: (C, t_11) := madd2 x_13 x_11 t_11 C in
  let: (C, t_12) := madd2 x_13 x_12 t_12 C in
  let: (C, t_13) := madd2 x_13 x_13 t_13 C in
  let: (t_14, D) := Add64 t_14 C 0%Z in
  let m := ((t_0 * qInvNeg) mod W)%Z in
  let C := madd0 m q0 t_0 in
  let: (C, t_0) := madd2 m q1 t_1 C in
  let: (C, t_1) := madd2 m q2 t_2 C in
  let: (C, t_2) := madd2 m q3 t_3 C in
  let: (C, t_3) := madd2 m q4 t_4 C in
  let: (C, t_4) := madd2 m q5 t_5 C in
  let: (C, t_5) := madd2 m q6 t_6 C in
  let: (C, t_6) := madd2 m q7 t_7 C in
  let: (C, t_7) := madd2 m q8 t_8 C in
  let: (C, t_8) := madd2 m q9 t_9 C in
  let: (C, t_9) := madd2 m q10 t_10 C in
  let: (C, t_10) := madd2 m q11 t_11 C in
  let: (C, t_11) := madd2 m q12 t_12 C in
  let: (C, t_12) := madd2 m q13 t_13 C in
  let: (t_13, C) := Add64 t_14 C 0%Z in
  let: (t_14, _) := Add64 0%Z D C in
  (t_0, t_1, t_2, t_3, t_4, t_5, t_6, t_7, t_8, t_9, t_10, t_11, t_12, t_13, t_14).
(** element_purego.go 707-1357 *)
Definition square (x_0 x_1 x_2 x_3 x_4 x_5 x_6 x_7 x_8 x_9 x_10 x_11 x_12 x_13 : Z) : seq Z :=
  let t_0 := 0%Z in
  let t_1 := 0%Z in
  let t_2 := 0%Z in
  let t_3 := 0%Z in
  let t_4 := 0%Z in
  let t_5 := 0%Z in
  let t_6 := 0%Z in
  let t_7 := 0%Z in
  let t_8 := 0%Z in
  let t_9 := 0%Z in
  let t_10 := 0%Z in
  let t_11 := 0%Z in
  let t_12 := 0%Z in
  let t_13 := 0%Z in
  let t_14 := 0%Z in
  let D := 0%Z in
  let m := 0%Z in
  let C := 0%Z in
  let: (t_0, t_1, t_2, t_3, t_4, t_5, t_6, t_7, t_8, t_9, t_10, t_11, t_12, t_13, t_14) := square_r0 x_0 x_1 x_2 x_3 x_4 x_5 x_6 x_7 x_8 x_9 x_10 x_11 x_12 x_13 t_0 t_1 t_2 t_3 t_4 t_5 t_6 t_7 t_8 t_9 t_10 t_11 t_12 t_13 t_14 in
  let: (t_0, t_1, t_2, t_3, t_4, t_5, t_6, t_7, t_8, t_9, t_10, t_11, t_12, t_13, t_14) := square_r1 x_0 x_1 x_2 x_3 x_4 x_5 x_6 x_7 x_8 x_9 x_10 x_11 x_12 x_13 t_0 t_1 t_2 t_3 t_4 t_5 t_6 t_7 t_8 t_9 t_10 t_11 t_12 t_13 t_14 in
  let: (t_0, t_1, t_2, t_3, t_4, t_5, t_6, t_7, t_8, t_9, t_10, t_11, t_12, t_13, t_14) := square_r2 x_0 x_1 x_2 x_3 x_4 x_5 x_6 x_7 x_8 x_9 x_10 x_11 x_12 x_13 t_0 t_1 t_2 t_3 t_4 t_5 t_6 t_7 t_8 t_9 t_10 t_11 t_12 t_13 t_14 in
  let: (t_0, t_1, t_2, t_3, t_4, t_5, t_6, t_7, t_8, t_9, t_10, t_11, t_12, t_13, t_14) := square_r3 x_0 x_1 x_2 x_3 x_4 x_5 x_6 x_7 x_8 x_9 x_10 x_11 x_12 x_13 t_0 t_1 t_2 t_3 t_4 t_5 t_6 t_7 t_8 t_9 t_10 t_11 t_12 t_13 t_14 in
  let: (t_0, t_1, t_2, t_3, t_4, t_5, t_6, t_7, t_8, t_9, t_10, t_11, t_12, t_13, t_14) := square_r4 x_0 x_1 x_2 x_3 x_4 x_5 x_6 x_7 x_8 x_9 x_10 x_11 x_12 x_13 t_0 t_1 t_2 t_3 t_4 t_5 t_6 t_7 t_8 t_9 t_10 t_11 t_12 t_13 t_14 in
  let: (t_0, t_1, t_2, t_3, t_4, t_5, t_6, t_7, t_8, t_9, t_10, t_11, t_12, t_13, t_14) := square_r5 x_0 x_1 x_2 x_3 x_4 x_5 x_6 x_7 x_8 x_9 x_10 x_11 x_12 x_13 t_0 t_1 t_2 t_3 t_4 t_5 t_6 t_7 t_8 t_9 t_10 t_11 t_12 t_13 t_14 in
  let: (t_0, t_1, t_2, t_3, t_4, t_5, t_6, t_7, t_8, t_9, t_10, t_11, t_12, t_13, t_14) := square_r6 x_0 x_1 x_2 x_3 x_4 x_5 x_6 x_7 x_8 x_9 x_10 x_11 x_12 x_13 t_0 t_1 t_2 t_3 t_4 t_5 t_6 t_7 t_8 t_9 t_10 t_11 t_12 t_13 t_14 in
  let: (t_0, t_1, t_2, t_3, t_4, t_5, t_6, t_7, t_8, t_9, t_10, t_11, t_12, t_13, t_14) := square_r7 x_0 x_1 x_2 x_3 x_4 x_5 x_6 x_7 x_8 x_9 x_10 x_11 x_12 x_13 t_0 t_1 t_2 t_3 t_4 t_5 t_6 t_7 t_8 t_9 t_10 t_11 t_12 t_13 t_14 in
  let: (t_0, t_1, t_2, t_3, t_4, t_5, t_6, t_7, t_8, t_9, t_10, t_11, t_12, t_13, t_14) := square_r8 x_0 x_1 x_2 x_3 x_4 x_5 x_6 x_7 x_8 x_9 x_10 x_11 x_12 x_13 t_0 t_1 t_2 t_3 t_4 t_5 t_6 t_7 t_8 t_9 t_10 t_11 t_12 t_13 t_14 in
  let: (t_0, t_1, t_2, t_3, t_4, t_5, t_6, t_7, t_8, t_9, t_10, t_11, t_12, t_13, t_14) := square_r9 x_0 x_1 x_2 x_3 x_4 x_5 x_6 x_7 x_8 x_9 x_10 x_11 x_12 x_13 t_0 t_1 t_2 t_3 t_4 t_5 t_6 t_7 t_8 t_9 t_10 t_11 t_12 t_13 t_14 in
  let: (t_0, t_1, t_2, t_3, t_4, t_5, t_6, t_7, t_8, t_9, t_10, t_11, t_12, t_13, t_14) := square_r10 x_0 x_1 x_2 x_3 x_4 x_5 x_6 x_7 x_8 x_9 x_10 x_11 x_12 x_13 t_0 t_1 t_2 t_3 t_4 t_5 t_6 t_7 t_8 t_9 t_10 t_11 t_12 t_13 t_14 in
  let: (t_0, t_1, t_2, t_3, t_4, t_5, t_6, t_7, t_8, t_9, t_10, t_11, t_12, t_13, t_14) := square_r11 x_0 x_1 x_2 x_3 x_4 x_5 x_6 x_7 x_8 x_9 x_10 x_11 x_12 x_13 t_0 t_1 t_2 t_3 t_4 t_5 t_6 t_7 t_8 t_9 t_10 t_11 t_12 t_13 t_14 in
  let: (t_0, t_1, t_2, t_3, t_4, t_5, t_6, t_7, t_8, t_9, t_10, t_11, t_12, t_13, t_14) := square_r12 x_0 x_1 x_2 x_3 x_4 x_5 x_6 x_7 x_8 x_9 x_10 x_11 x_12 x_13 t_0 t_1 t_2 t_3 t_4 t_5 t_6 t_7 t_8 t_9 t_10 t_11 t_12 t_13 t_14 in
  let: (t_0, t_1, t_2, t_3, t_4, t_5, t_6, t_7, t_8, t_9, t_10, t_11, t_12, t_13, t_14) := square_r13 x_0 x_1 x_2 x_3 x_4 x_5 x_6 x_7 x_8 x_9 x_10 x_11 x_12 x_13 t_0 t_1 t_2 t_3 t_4 t_5 t_6 t_7 t_8 t_9 t_10 t_11 t_12 t_13 t_14 in
  if ~~ (t_14 =? 0)%Z then
  let b := 0%Z in
  let: (z_0, b) := Sub64 t_0 q0 0%Z in
  let: (z_1, b) := Sub64 t_1 q1 b in
  let: (z_2, b) := Sub64 t_2 q2 b in
  let: (z_3, b) := Sub64 t_3 q3 b in
  let: (z_4, b) := Sub64 t_4 q4 b in
  let: (z_5, b) := Sub64 t_5 q5 b in
  let: (z_6, b) := Sub64 t_6 q6 b in
  let: (z_7, b) := Sub64 t_7 q7 b in
  let: (z_8, b) := Sub64 t_8 q8 b in
  let: (z_9, b) := Sub64 t_9 q9 b in
  let: (z_10, b) := Sub64 t_10 q10 b in
  let: (z_11, b) := Sub64 t_11 q11 b in
  let: (z_12, b) := Sub64 t_12 q12 b in
  let: (z_13, _) := Sub64 t_13 q13 b in
  [:: z_0; z_1; z_2; z_3; z_4; z_5; z_6; z_7; z_8; z_9; z_10; z_11; z_12; z_13] else
  let z_0 := t_0 in
  let z_1 := t_1 in
  let z_2 := t_2 in
  let z_3 := t_3 in
  let z_4 := t_4 in
  let z_5 := t_5 in
  let z_6 := t_6 in
  let z_7 := t_7 in
  let z_8 := t_8 in
  let z_9 := t_9 in
  let z_10 := t_10 in
  let z_11 := t_11 in
  let z_12 := t_12 in
  let z_13 := t_13 in
  if ~~ smaller z_0 z_1 z_2 z_3 z_4 z_5 z_6 z_7 z_8 z_9 z_10 z_11 z_12 z_13 then
  let b := 0%Z in
  let: (z_0, b) := Sub64 z_0 q0 0%Z in
  let: (z_1, b) := Sub64 z_1 q1 b in
  let: (z_2, b) := Sub64 z_2 q2 b in
  let: (z_3, b) := Sub64 z_3 q3 b in
  let: (z_4, b) := Sub64 z_4 q4 b in
  let: (z_5, b) := Sub64 z_5 q5 b in
  let: (z_6, b) := Sub64 z_6 q6 b in
  let: (z_7, b) := Sub64 z_7 q7 b in
  let: (z_8, b) := Sub64 z_8 q8 b in
  let: (z_9, b) := Sub64 z_9 q9 b in
  let: (z_10, b) := Sub64 z_10 q10 b in
  let: (z_11, b) := Sub64 z_11 q11 b in
  let: (z_12, b) := Sub64 z_12 q12 b in
  let: (z_13, _) := Sub64 z_13 q13 b in
  [:: z_0; z_1; z_2; z_3; z_4; z_5; z_6; z_7; z_8; z_9; z_10; z_11; z_12; z_13] else
  [:: z_0; z_1; z_2; z_3; z_4; z_5; z_6; z_7; z_8; z_9; z_10; z_11; z_12; z_13].
(** element.go 1403-1421 *)
Definition from_r0 (z_0 z_1 z_2 z_3 z_4 z_5 z_6 z_7 z_8 z_9 z_10 z_11 z_12 z_13 : Z) :=
  let m := ((z_0 * qInvNeg) mod W)%Z in
  let C := madd0 m q0 z_0 in
  let: (C, z_0) := madd2 m q1 z_1 C in
  let: (C, z_1) := madd2 m q2 z_2 C in
  let: (C, z_2) := madd2 m q3 z_3 C in
  let: (C, z_3) := madd2 m q4 z_4 C in
  let: (C, z_4) := madd2 m q5 z_5 C in
  let: (C, z_5) := madd2 m q6 z_6 C in
  let: (C, z_6) := madd2 m q7 z_7 C in
  let: (C, z_7) := madd2 m q8 z_8 C in
  let: (C, z_8) := madd2 m q9 z_9 C in
  let: (C, z_9) := madd2 m q10 z_10 C in
  let: (C, z_10) := madd2 m q11 z_11 C in
  let: (C, z_11) := madd2 m q12 z_12 C in
  let: (C, z_12) := madd2 m q13 z_13 C in
  let z_13 := C in
  (z_0, z_1, z_2, z_3, z_4, z_5, z_6, z_7, z_8, z_9, z_10, z_11, z_12, z_13).
(** element.go 1422-1440 *)
Definition from_r1 (z_0 z_1 z_2 z_3 z_4 z_5 z_6 z_7 z_8 z_9 z_10 z_11 z_12 z_13 : Z) :=
  let m := ((z_0 * qInvNeg) mod W)%Z in
  let C := madd0 m q0 z_0 in
  let: (C, z_0) := madd2 m q1 z_1 C in
  let: (C, z_1) := madd2 m q2 z_2 C in
  let: (C, z_2) := madd2 m q3 z_3 C in
  let: (C, z_3) := madd2 m q4 z_4 C in
  let: (C, z_4) := madd2 m q5 z_5 C in
  let: (C, z_5) := madd2 m q6 z_6 C in
  let: (C, z_6) := madd2 m q7 z_7 C in
  let: (C, z_7) := madd2 m q8 z_8 C in
  let: (C, z_8) := madd2 m q9 z_9 C in
  let: (C, z_9) := madd2 m q10 z_10 C in
  let: (C, z_10) := madd2 m q11 z_11 C in
  let: (C, z_11) := madd2 m q12 z_12 C in
  let: (C, z_12) := madd2 m q13 z_13 C in
  let z_13 := C in
  (z_0, z_1, z_2, z_3, z_4, z_5, z_6, z_7, z_8, z_9, z_10, z_11, z_12, z_13).
(** element.go 1441-1459 *)
Definition from_r2 (z_0 z_1 z_2 z_3 z_4 z_5 z_6 z_7 z_8 z_9 z_10 z_11 z_12 z_13 : Z) :=
  let m := ((z_0 * qInvNeg) mod W)%Z in
  let C := madd0 m q0 z_0 in
  let: (C, z_0) := madd2 m q1 z_1 C in
  let: (C, z_1) := madd2 m q2 z_2 C in
  let: (C, z_2) := madd2 m q3 z_3 C in
  let: (C, z_3) := madd2 m q4 z_4 C in
  let: (C, z_4) := madd2 m q5 z_5 C in
  let: (C, z_5) := madd2 m q6 z_6 C in
  let: (C, z_6) := madd2 m q7 z_7 C in
  let: (C, z_7) := madd2 m q8 z_8 C in
  let: (C, z_8) := madd2 m q9 z_9 C in
  let: (C, z_9) := madd2 m q10 z_10 C in
  let: (C, z_10) := madd2 m q11 z_11 C in
  let: (C, z_11) := madd2 m q12 z_12 C in
  let: (C, z_12) := madd2 m q13 z_13 C in
  let z_13 := C in
  (z_0, z_1, z_2, z_3, z_4, z_5, z_6, z_7, z_8, z_9, z_10, z_11, z_12, z_13).
(** element.go 1460-1478 *)
Definition from_r3 (z_0 z_1 z_2 z_3 z_4 z_5 z_6 z_7 z_8 z_9 z_10 z_11 z_12 z_13 : Z) :=
  let m := ((z_0 * qInvNeg) mod W)%Z in
  let C := madd0 m q0 z_0 in
  let: (C, z_0) := madd2 m q1 z_1 C in
  let: (C, z_1) := madd2 m q2 z_2 C in
  let: (C, z_2) := madd2 m q3 z_3 C in
  let: (C, z_3) := madd2 m q4 z_4 C in
  let: (C, z_4) := madd2 m q5 z_5 C in
  let: (C, z_5) := madd2 m q6 z_6 C in
  let: (C, z_6) := madd2 m q7 z_7 C in
  let: (C, z_7) := madd2 m q8 z_8 C in
  let: (C, z_8) := madd2 m q9 z_9 C in
  let: (C, z_9) := madd2 m q10 z_10 C in
  let: (C, z_10) := madd2 m q11 z_11 C in
  let: (C, z_11) := madd2 m q12 z_12 C in
  let: (C, z_12) := madd2 m q13 z_13 C in
  let z_13 := C in
  (z_0, z_1, z_2, z_3, z_4, z_5, z_6, z_7, z_8, z_9, z_10, z_11, z_12, z_13).
(** element.go 1479-1497 *)
Definition from_r4 (z_0 z_1 z_2 z_3 z_4 z_5 z_6 z_7 z_8 z_9 z_10 z_11 z_12 z_13 : Z) :=
  let m := ((z_0 * qInvNeg) mod W)%Z in
  let C := madd0 m q0 z_0 in
  let: (C, z_0) := madd2 m q1 z_1 C in
  let: (C, z_1) := madd2 m q2 z_2 C in
  let: (C, z_2) := madd2 m q3 z_3 C in
  let: (C, z_3) := madd2 m q4 z_4 C in
  let: (C, z_4) := madd2 m q5 z_5 C in
  let: (C, z_5) := madd2 m q6 z_6 C in
  let: (C, z_6) := madd2 m q7 z_7 C in
  let: (C, z_7) := madd2 m q8 z_8 C in
  let: (C, z_8) := madd2 m q9 z_9 C in
  let: (C, z_9) := madd2 m q10 z_10 C in
  let: (C, z_10) := madd2 m q11 z_11 C in
  let: (C, z_11) := madd2 m q12 z_12 C in
  let: (C, z_12) := madd2 m q13 z_13 C in
  let z_13 := C in
  (z_0, z_1, z_2, z_3, z_4, z_5, z_6, z_7, z_8, z_9, z_10, z_11, z_12, z_13).
(** element.go 1498-1516 *)
Definition from_r5 (z_0 z_1 z_2 z_3 z_4 z_5 z_6 z_7 z_8 z_9 z_10 z_11 z_12 z_13 : Z) :=
  let m := ((z_0 * qInvNeg) mod W)%Z in
  let C := madd0 m q0 z_0 in
  let: (C, z_0) := madd2 m q1 z_1 C in
  let: (C, z_1) := madd2 m q2 z_2 C in
  let: (C, z_2) := madd2 m q3 z_3 C in
  let: (C, z_3) := madd2 m q4 z_4 C in
  let: (C, z_4) := madd2 m q5 z_5 C in
  let: (C, z_5) := madd2 m q6 z_6 C in
  let: (C, z_6) := madd2 m q7 z_7 C in
  let: (C, z_7) := madd2 m q8 z_8 C in
  let: (C, z_8) := madd2 m q9 z_9 C in
  let: (C, z_9) := madd2 m q10 z_10 C in
  let: (C, z_10) := madd2 m q11 z_11 C in
  let: (C, z_11) := madd2 m q12 z_12 C in
  let: (C, z_12) := madd2 m q13 z_13 C in
  let z_13 := C in
  (z_0, z_1, z_2, z_3, z_4, z_5, z_6, z_7, z_8, z_9, z_10, z_11, z_12, z_13).
(** element.go 1517-1535 *)
Definition from_r6 (z_0 z_1 z_2 z_3 z_4 z_5 z_6 z_7 z_8 z_9 z_10 z_11 z_12 z_13 : Z) :=
  let m := ((z_0 * qInvNeg) mod W)%Z in
  let C := madd0 m q0 z_0 in
  let: (C, z_0) := madd2 m q1 z_1 C in
  let: (C, z_1) := madd2 m q2 z_2 C in
  let: (C, z_2) := madd2 m q3 z_3 C in
  let: (C, z_3) := madd2 m q4 z_4 C in
  let: (C, z_4) := madd2 m q5 z_5 C in
  let: (C, z_5) := madd2 m q6 z_6 C in
  let: (C, z_6) := madd2 m q7 z_7 C in
  let: (C, z_7) := madd2 m q8 z_8 C in
  let: (C, z_8) := madd2 m q9 z_9 C in
  let: (C, z_9) := madd2 m q10 z_10 C in
  let: (C, z_10) := madd2 m q11 z_11 C in
  let: (C, z_11) := madd2 m q12 z_12 C in
  let: (C, z_12) := madd2 m q13 z_13 C in
  let z_13 := C in
  (z_0, z_1, z_2, z_3, z_4, z_5, z_6, z_7, z_8, z_9, z_10, z_11, z_12, z_13).
(** element.go 1536-1554 *)
Definition from_r7 (z_0 z_1 z_2 z_3 z_4 z_5 z_6 z_7 z_8 z_9 z_10 z_11 z_12 z_13 : Z) :=
  let m := ((z_0 * qInvNeg) mod W)%Z in
  let C := madd0 m q0 z_0 in
  let: (C, z_0) := madd2 m q1 z_1 C in
  let: (C, z_1) := madd2 m q2 z_2 C in
  let: (C, z_2) := madd2 m q3 z_3 C in
  let: (C, z_3) := madd2 m q4 z_4 C in
  let: (C, z_4) := madd2 m q5 z_5 C in
  let: (C, z_5) := madd2 m q6 z_6 C in
  let: (C, z_6) := madd2 m q7 z_7 C in
  let: (C, z_7) := madd2 m q8 z_8 C in
  let: (C, z_8) := madd2 m q9 z_9 C in
  let: (C, z_9) := madd2 m q10 z_10 C in
  let: (C, z_10) := madd2 m q11 z_11 C in
  let: (C, z_11) := madd2 m q12 z_12 C in
  let: (C, z_12) := madd2 m q13 z_13 C in
  let z_13 := C in
  (z_0, z_1, z_2, z_3, z_4, z_5, z_6, z_7, z_8, z_9, z_10, z_11, z_12, z_13).
(** element.go 1555-1573 *)
Definition from_r8 (z_0 z_1 z_2 z_3 z_4 z_5 z_6 z_7 z_8 z_9 z_10 z_11 z_12 z_13 : Z) :=
  let m := ((z_0 * qInvNeg) mod W)%Z in
  let C := madd0 m q0 z_0 in
  let: (C, z_0) := madd2 m q1 z_1 C in
  let: (C, z_1) := madd2 m q2 z_2 C in
  let: (C, z_2) := madd2 m q3 z_3 C in
  let: (C, z_3) := madd2 m q4 z_4 C in
  let: (C, z_4) := madd2 m q5 z_5 C in
  let: (C, z_5) := madd2 m q6 z_6 C in
  let: (C, z_6) := madd2 m q7 z_7 C in
  let: (C, z_7) := madd2 m q8 z_8 C in
  let: (C, z_8) := madd2 m q9 z_9 C in
  let: (C, z_9) := madd2 m q10 z_10 C in
  let: (C, z_10) := madd2 m q11 z_11 C in
  let: (C, z_11) := madd2 m q12 z_12 C in
  let: (C, z_12) := madd2 m q13 z_13 C in
  let z_13 := C in
  (z_0, z_1, z_2, z_3, z_4, z_5, z_6, z_7, z_8, z_9, z_10, z_11, z_12, z_13).
(** element.go 1574-1592 *)
Definition from_r9 (z_0 z_1 z_2 z_3 z_4 z_5 z_6 z_7 z_8 z_9 z_10 z_11 z_12 z_13 : Z) :=
  let m := ((z_0 * qInvNeg) mod W)%Z in
  let C := madd0 m q0 z_0 in
  let: (C, z_0) := madd2 m q1 z_1 C in
  let: (C, z_1) := madd2 m q2 z_2 C in
  let: (C, z_2) := madd2 m q3 z_3 C in
  let: (C, z_3) := madd2 m q4 z_4 C in
  let: (C, z_4) := madd2 m q5 z_5 C in
  let: (C, z_5) := madd2 m q6 z_6 C in
  let: (C, z_6) := madd2 m q7 z_7 C in
  let: (C, z_7) := madd2 m q8 z_8 C in
  let: (C, z_8) := madd2 m q9 z_9 C in
  let: (C, z_9) := madd2 m q10 z_10 C in
  let: (C, z_10) := madd2 m q11 z_11 C in
  let: (C, z_11) := madd2 m q12 z_12 C in
  let: (C, z_12) := madd2 m q13 z_13 C in
  let z_13 := C in
  (z_0, z_1, z_2, z_3, z_4, z_5, z_6, z_7, z_8, z_9, z_10, z_11, z_12, z_13).
(** element.go 1593-1611 *)
Definition from_r10 (z_0 z_1 z_2 z_3 z_4 z_5 z_6 z_7 z_8 z_9 z_10 z_11 z_12 z_13 : Z) :=
  let m := ((z_0 * qInvNeg) mod W)%Z in
  let C := madd0 m q0 z_0 in
  let: (C, z_0) := madd2 m q1 z_1 C in
  let: (C, z_1) := madd2 m q2 z_2 C in
  let: (C, z_2) := madd2 m q3 z_3 C in
  let: (C, z_3) := madd2 m q4 z_4 C in
  let: (C, z_4) := madd2 m q5 z_5 C in
  let: (C, z_5) := madd2 m q6 z_6 C in
  let: (C, z_6) := madd2 m q7 z_7 C in
  let: (C, z_7) := madd2 m q8 z_8 C in
  let: (C, z_8) := madd2 m q9 z_9 C in
  let: (C, z_9) := madd2 m q10 z_10 C in
  let: (C, z_10) := madd2 m q11 z_11 C in
  let: (C, z_11) := madd2 m q12 z_12 C in
  let: (C, z_12) := madd2 m q13 z_13 C in
  let z_13 := C in
  (z_0, z_1, z_2, z_3, z_4, z_5, z_6, z_7, z_8, z_9, z_10, z_11, z_12, z_13).
(** element.go 1612-1630 *)
Definition from_r11 (z_0 z_1 z_2 z_3 z_4 z_5 z_6 z_7 z_8 z_9 z_10 z_11 z_12 z_13 : Z) :=
  let m := ((z_0 * qInvNeg) mod W)%Z in
  let C := madd0 m q0 z_0 in
  let: (C, z_0) := madd2 m q1 z_1 C in
  let: (C, z_1) := madd2 m q2 z_2 C in
  let: (C, z_2) := madd2 m q3 z_3 C in
  let: (C, z_3) := madd2 m q4 z_4 C in
  let: (C, z_4) := madd2 m q5 z_5 C in
  let: (C, z_5) := madd2 m q6 z_6 C in
  let: (C, z_6) := madd2 m q7 z_7 C in
  let: (C, z_7) := madd2 m q8 z_8 C in
  let: (C, z_8) := madd2 m q9 z_9 C in
  let: (C, z_9) := madd2 m q10 z_10 C in
  let: (C, z_10) := madd2 m q11 z_11 C in
  let: (C, z_11) := madd2 m q12 z_12 C in
  let: (C, z_12) := madd2 m q13 z_13 C in
  let z_13 := C in
  (z_0, z_1, z_2, z_3, z_4, z_5, z_6, z_7, z_8, z_9, z_10, z_11, z_12, z_13).
(** element.go 1631-1649 *)
Definition from_r12 (z_0 z_1 z_2 z_3 z_4 z_5 z_6 z_7 z_8 z_9 z_10 z_11 z_12 z_13 : Z) :=
  let m := ((z_0 * qInvNeg) mod W)%Z in
  let C := madd0 m q0 z_0 in
  let: (C, z_0) := madd2 m q1 z_1 C in
  let: (C, z_1) := madd2 m q2 z_2 C in
  let: (C, z_2) := madd2 m q3 z_3 C in
  let: (C, z_3) := madd2 m q4 z_4 C in
  let: (C, z_4) := madd2 m q5 z_5 C in
  let: (C, z_5) := madd2 m q6 z_6 C in
  let: (C, z_6) := madd2 m q7 z_7 C in
  let: (C, z_7) := madd2 m q8 z_8 C in
  let: (C, z_8) := madd2 m q9 z_9 C in
  let: (C, z_9) := madd2 m q10 z_10 C in
  let: (C, z_10) := madd2 m q11 z_11 C in
  let: (C, z_11) := madd2 m q12 z_12 C in
  let: (C, z_12) := madd2 m q13 z_13 C in
  let z_13 := C in
  (z_0, z_1, z_2, z_3, z_4, z_5, z_6, z_7, z_8, z_9, z_10, z_11, z_12, z_13).
(** element.go 1650-1668 *)
Definition from_r13 (z_0 z_1 z_2 z_3 z_4 z_5 z_6 z_7 z_8 z_9 z_10 z_11 z_12 z_13 : Z) :=
  let m := ((z_0 * qInvNeg) mod W)%Z in
  let C := madd0 m q0 z_0 in
  let: (C, z_0) := madd2 m q1 z_1 C in
  let: (C, z_1) := madd2 m q2 z_2 C in
  let: (C, z_2) := madd2 m q3 z_3 C in
  let: (C, z_3) := madd2 m q4 z_4 C in
  let: (C, z_4) := madd2 m q5 z_5 C in
  let: (C, z_5) := madd2 m q6 z_6 C in
  let: (C, z_6) := madd2 m q7 z_7 C in
  let: (C, z_7) := madd2 m q8 z_8 C in
  let: (C, z_8) := madd2 m q9 z_9 C in
  let: (C, z_9) := madd2 m q10 z_10 C in
  let: (C, z_10) := madd2 m q11 z_11 C in
  let: (C, z_11) := madd2 m q12 z_12 C in
  let: (C, z_12) := madd2 m q13 z_13 C in
  let z_13 := C in
  (z_0, z_1, z_2, z_3, z_4, z_5, z_6, z_7, z_8, z_9, z_10, z_11, z_12, z_13).
(** element.go 1399-1688 *)
Definition from (z_0 z_1 z_2 z_3 z_4 z_5 z_6 z_7 z_8 z_9 z_10 z_11 z_12 z_13 : Z) : seq Z :=
  let: (z_0, z_1, z_2, z_3, z_4, z_5, z_6, z_7, z_8, z_9, z_10, z_11, z_12, z_13) := from_r0 z_0 z_1 z_2 z_3 z_4 z_5 z_6 z_7 z_8 z_9 z_10 z_11 z_12 z_13 in
  let: (z_0, z_1, z_2, z_3, z_4, z_5, z_6, z_7, z_8, z_9, z_10, z_11, z_12, z_13) := from_r1 z_0 z_1 z_2 z_3 z_4 z_5 z_6 z_7 z_8 z_9 z_10 z_11 z_12 z_13 in
  let: (z_0, z_1, z_2, z_3, z_4, z_5, z_6, z_7, z_8, z_9, z_10, z_11, z_12, z_13) := from_r2 z_0 z_1 z_2 z_3 z_4 z_5 z_6 z_7 z_8 z_9 z_10 z_11 z_12 z_13 in
  let: (z_0, z_1, z_2, z_3, z_4, z_5, z_6, z_7, z_8, z_9, z_10, z_11, z_12, z_13) := from_r3 z_0 z_1 z_2 z_3 z_4 z_5 z_6 z_7 z_8 z_9 z_10 z_11 z_12 z_13 in
  let: (z_0, z_1, z_2, z_3, z_4, z_5, z_6, z_7, z_8, z_9, z_10, z_11, z_12, z_13) := from_r4 z_0 z_1 z_2 z_3 z_4 z_5 z_6 z_7 z_8 z_9 z_10 z_11 z_12 z_13 in
  let: (z_0, z_1, z_2, z_3, z_4, z_5, z_6, z_7, z_8, z_9, z_10, z_11, z_12, z_13) := from_r5 z_0 z_1 z_2 z_3 z_4 z_5 z_6 z_7 z_8 z_9 z_10 z_11 z_12 z_13 in
  let: (z_0, z_1, z_2, z_3, z_4, z_5, z_6, z_7, z_8, z_9, z_10, z_11, z_12, z_13) := from_r6 z_0 z_1 z_2 z_3 z_4 z_5 z_6 z_7 z_8 z_9 z_10 z_11 z_12 z_13 in
  let: (z_0, z_1, z_2, z_3, z_4, z_5, z_6, z_7, z_8, z_9, z_10, z_11, z_12, z_13) := from_r7 z_0 z_1 z_2 z_3 z_4 z_5 z_6 z_7 z_8 z_9 z_10 z_11 z_12 z_13 in
  let: (z_0, z_1, z_2, z_3, z_4, z_5, z_6, z_7, z_8, z_9, z_10, z_11, z_12, z_13) := from_r8 z_0 z_1 z_2 z_3 z_4 z_5 z_6 z_7 z_8 z_9 z_10 z_11 z_12 z_13 in
  let: (z_0, z_1, z_2, z_3, z_4, z_5, z_6, z_7, z_8, z_9, z_10, z_11, z_12, z_13) := from_r9 z_0 z_1 z_2 z_3 z_4 z_5 z_6 z_7 z_8 z_9 z_10 z_11 z_12 z_13 in
  let: (z_0, z_1, z_2, z_3, z_4, z_5, z_6, z_7, z_8, z_9, z_10, z_11, z_12, z_13) := from_r10 z_0 z_1 z_2 z_3 z_4 z_5 z_6 z_7 z_8 z_9 z_10 z_11 z_12 z_13 in
  let: (z_0, z_1, z_2, z_3, z_4, z_5, z_6, z_7, z_8, z_9, z_10, z_11, z_12, z_13) := from_r11 z_0 z_1 z_2 z_3 z_4 z_5 z_6 z_7 z_8 z_9 z_10 z_11 z_12 z_13 in
  let: (z_0, z_1, z_2, z_3, z_4, z_5, z_6, z_7, z_8, z_9, z_10, z_11, z_12, z_13) := from_r12 z_0 z_1 z_2 z_3 z_4 z_5 z_6 z_7 z_8 z_9 z_10 z_11 z_12 z_13 in
  let: (z_0, z_1, z_2, z_3, z_4, z_5, z_6, z_7, z_8, z_9, z_10, z_11, z_12, z_13) := from_r13 z_0 z_1 z_2 z_3 z_4 z_5 z_6 z_7 z_8 z_9 z_10 z_11 z_12 z_13 in
  if ~~ smaller z_0 z_1 z_2 z_3 z_4 z_5 z_6 z_7 z_8 z_9 z_10 z_11 z_12 z_13 then
  let b := 0%Z in
  let: (z_0, b) := Sub64 z_0 q0 0%Z in
  let: (z_1, b) := Sub64 z_1 q1 b in
  let: (z_2, b) := Sub64 z_2 q2 b in
  let: (z_3, b) := Sub64 z_3 q3 b in
  let: (z_4, b) := Sub64 z_4 q4 b in
  let: (z_5, b) := Sub64 z_5 q5 b in
  let: (z_6, b) := Sub64 z_6 q6 b in
  let: (z_7, b) := Sub64 z_7 q7 b in
  let: (z_8, b) := Sub64 z_8 q8 b in
  let: (z_9, b) := Sub64 z_9 q9 b in
  let: (z_10, b) := Sub64 z_10 q10 b in
  let: (z_11, b) := Sub64 z_11 q11 b in
  let: (z_12, b) := Sub64 z_12 q12 b in
  let: (z_13, _) := Sub64 z_13 q13 b in
  [:: z_0; z_1; z_2; z_3; z_4; z_5; z_6; z_7; z_8; z_9; z_10; z_11; z_12; z_13] else
  [:: z_0; z_1; z_2; z_3; z_4; z_5; z_6; z_7; z_8; z_9; z_10; z_11; z_12; z_13].
End Unrolled14.
(** names the result of every machine operation, on both sides at once *)
Ltac opcase e := match goal with
  | H : e = _ |- _ => rewrite H; cbv beta iota
  | _ => destruct e eqn:?
  end.
Ltac ops := repeat (match goal with
  | |- context [Mul64 ?a ?b] => opcase (Mul64 a b)
  | |- context [Add64 ?a ?b ?c] => opcase (Add64 a b c)
  | |- context [Sub64 ?a ?b ?c] => opcase (Sub64 a b c)
  | |- context [madd1 ?a ?b ?c] => opcase (madd1 a b c)
  | |- context [madd2 ?a ?b ?c ?d] => opcase (madd2 a b c d)
  end).
Ltac ifs := repeat (match goal with
  | |- context [negb ?c] => destruct c; cbn [negb]; cbv iota
  | |- context [if ?c then _ else _] => destruct c; cbv iota
  end).
Ltac unroll hless hzero :=
  cbv -[Add64 Sub64 Mul64 madd0 madd1 madd2 Z.mul Z.modulo Z.eqb Z.lor W negb smaller isZero less IsZero];
  rewrite ?hzero; ops; rewrite ?hless; ifs; reflexivity.
Ltac tail hless := cbv -[Add64 Sub64 Mul64 madd0 madd1 madd2 Z.mul Z.modulo Z.eqb Z.lor W negb smaller isZero less IsZero];
  ops; rewrite ?hless; ifs; reflexivity.
Lemma less14 q0 q1 q2 q3 q4 q5 q6 q7 q8 q9 q10 q11 q12 q13 x0 x1 x2 x3 x4 x5 x6 x7 x8 x9 x10 x11 x12 x13 : less [:: x0; x1; x2; x3; x4; x5; x6; x7; x8; x9; x10; x11; x12; x13] [:: q0; q1; q2; q3; q4; q5; q6; q7; q8; q9; q10; q11; q12; q13] = smaller q0 q1 q2 q3 q4 q5 q6 q7 q8 q9 q10 q11 q12 q13 x0 x1 x2 x3 x4 x5 x6 x7 x8 x9 x10 x11 x12 x13.
Proof. by rewrite /less /smaller /= andbF orbF. Qed.
Lemma isZero14 x0 x1 x2 x3 x4 x5 x6 x7 x8 x9 x10 x11 x12 x13 : IsZero [:: x0; x1; x2; x3; x4; x5; x6; x7; x8; x9; x10; x11; x12; x13] = isZero x0 x1 x2 x3 x4 x5 x6 x7 x8 x9 x10 x11 x12 x13.
Proof. by rewrite /IsZero /isZero /= Z.lor_0_r (Z.lor_comm x12 _) (Z.lor_comm x11 _) (Z.lor_comm x10 _) (Z.lor_comm x9 _) (Z.lor_comm x8 _) (Z.lor_comm x7 _) (Z.lor_comm x6 _) (Z.lor_comm x5 _) (Z.lor_comm x4 _) (Z.lor_comm x3 _) (Z.lor_comm x2 _) (Z.lor_comm x1 _) (Z.lor_comm x0 _). Qed.
Theorem unrolled14_Add q0 q1 q2 q3 q4 q5 q6 q7 q8 q9 q10 q11 q12 q13 qi r one co k x0 x1 x2 x3 x4 x5 x6 x7 x8 x9 x10 x11 x12 x13 y0 y1 y2 y3 y4 y5 y6 y7 y8 y9 y10 y11 y12 y13 :
  Add (Gen [:: q0; q1; q2; q3; q4; q5; q6; q7; q8; q9; q10; q11; q12; q13] qi r one co k true true) [:: x0; x1; x2; x3; x4; x5; x6; x7; x8; x9; x10; x11; x12; x13] [:: y0; y1; y2; y3; y4; y5; y6; y7; y8; y9; y10; y11; y12; y13] =
  add q0 q1 q2 q3 q4 q5 q6 q7 q8 q9 q10 q11 q12 q13 x0 x1 x2 x3 x4 x5 x6 x7 x8 x9 x10 x11 x12 x13 y0 y1 y2 y3 y4 y5 y6 y7 y8 y9 y10 y11 y12 y13.
Proof. unroll (@less14) (@isZero14). Qed.
Theorem unrolled14_Double q0 q1 q2 q3 q4 q5 q6 q7 q8 q9 q10 q11 q12 q13 qi r one co k x0 x1 x2 x3 x4 x5 x6 x7 x8 x9 x10 x11 x12 x13 :
  Double (Gen [:: q0; q1; q2; q3; q4; q5; q6; q7; q8; q9; q10; q11; q12; q13] qi r one co k true true) [:: x0; x1; x2; x3; x4; x5; x6; x7; x8; x9; x10; x11; x12; x13] =
  double q0 q1 q2 q3 q4 q5 q6 q7 q8 q9 q10 q11 q12 q13 x0 x1 x2 x3 x4 x5 x6 x7 x8 x9 x10 x11 x12 x13.
Proof. unroll (@less14) (@isZero14). Qed.
Theorem unrolled14_Sub q0 q1 q2 q3 q4 q5 q6 q7 q8 q9 q10 q11 q12 q13 qi r one co k x0 x1 x2 x3 x4 x5 x6 x7 x8 x9 x10 x11 x12 x13 y0 y1 y2 y3 y4 y5 y6 y7 y8 y9 y10 y11 y12 y13 :
  Sub (Gen [:: q0; q1; q2; q3; q4; q5; q6; q7; q8; q9; q10; q11; q12; q13] qi r one co k true true) [:: x0; x1; x2; x3; x4; x5; x6; x7; x8; x9; x10; x11; x12; x13] [:: y0; y1; y2; y3; y4; y5; y6; y7; y8; y9; y10; y11; y12; y13] =
  sub q0 q1 q2 q3 q4 q5 q6 q7 q8 q9 q10 q11 q12 q13 x0 x1 x2 x3 x4 x5 x6 x7 x8 x9 x10 x11 x12 x13 y0 y1 y2 y3 y4 y5 y6 y7 y8 y9 y10 y11 y12 y13.
Proof. unroll (@less14) (@isZero14). Qed.
Theorem unrolled14_Neg q0 q1 q2 q3 q4 q5 q6 q7 q8 q9 q10 q11 q12 q13 qi r one co k x0 x1 x2 x3 x4 x5 x6 x7 x8 x9 x10 x11 x12 x13 :
  Neg (Gen [:: q0; q1; q2; q3; q4; q5; q6; q7; q8; q9; q10; q11; q12; q13] qi r one co k true true) [:: x0; x1; x2; x3; x4; x5; x6; x7; x8; x9; x10; x11; x12; x13] =
  neg q0 q1 q2 q3 q4 q5 q6 q7 q8 q9 q10 q11 q12 q13 x0 x1 x2 x3 x4 x5 x6 x7 x8 x9 x10 x11 x12 x13.
Proof. unroll (@less14) (@isZero14). Qed.
Lemma mulG_r0E q0 q1 q2 q3 q4 q5 q6 q7 q8 q9 q10 q11 q12 q13 qi r one co k x0 x1 x2 x3 x4 x5 x6 x7 x8 x9 x10 x11 x12 x13 y0 :
  ciosFirst (Gen [:: q0; q1; q2; q3; q4; q5; q6; q7; q8; q9; q10; q11; q12; q13] qi r one co k true true) [:: x0; x1; x2; x3; x4; x5; x6; x7; x8; x9; x10; x11; x12; x13] y0 =
  let: (s0, s1, s2, s3, s4, s5, s6, s7, s8, s9, s10, s11, s12, s13, s14) := mulG_r0 q0 q1 q2 q3 q4 q5 q6 q7 q8 q9 q10 q11 q12 q13 qi x0 x1 x2 x3 x4 x5 x6 x7 x8 x9 x10 x11 x12 x13 y0 0%Z 0%Z 0%Z 0%Z 0%Z 0%Z 0%Z 0%Z 0%Z 0%Z 0%Z 0%Z 0%Z 0%Z 0%Z in ([:: s0; s1; s2; s3; s4; s5; s6; s7; s8; s9; s10; s11; s12; s13], s14).
Proof. rewrite /mulG_r0; unroll (@less14) (@isZero14). Qed.
Lemma mulG_r1E q0 q1 q2 q3 q4 q5 q6 q7 q8 q9 q10 q11 q12 q13 qi r one co k x0 x1 x2 x3 x4 x5 x6 x7 x8 x9 x10 x11 x12 x13 y1 t0 t1 t2 t3 t4 t5 t6 t7 t8 t9 t10 t11 t12 t13 t14 :
  ciosRound (Gen [:: q0; q1; q2; q3; q4; q5; q6; q7; q8; q9; q10; q11; q12; q13] qi r one co k true true) [:: x0; x1; x2; x3; x4; x5; x6; x7; x8; x9; x10; x11; x12; x13] ([:: t0; t1; t2; t3; t4; t5; t6; t7; t8; t9; t10; t11; t12; t13], t14) y1 =
  let: (s0, s1, s2, s3, s4, s5, s6, s7, s8, s9, s10, s11, s12, s13, s14) := mulG_r1 q0 q1 q2 q3 q4 q5 q6 q7 q8 q9 q10 q11 q12 q13 qi x0 x1 x2 x3 x4 x5 x6 x7 x8 x9 x10 x11 x12 x13 y1 t0 t1 t2 t3 t4 t5 t6 t7 t8 t9 t10 t11 t12 t13 t14 in ([:: s0; s1; s2; s3; s4; s5; s6; s7; s8; s9; s10; s11; s12; s13], s14).
Proof. rewrite /mulG_r1; unroll (@less14) (@isZero14). Qed.
Lemma mulG_r2E q0 q1 q2 q3 q4 q5 q6 q7 q8 q9 q10 q11 q12 q13 qi r one co k x0 x1 x2 x3 x4 x5 x6 x7 x8 x9 x10 x11 x12 x13 y2 t0 t1 t2 t3 t4 t5 t6 t7 t8 t9 t10 t11 t12 t13 t14 :
  ciosRound (Gen [:: q0; q1; q2; q3; q4; q5; q6; q7; q8; q9; q10; q11; q12; q13] qi r one co k true true) [:: x0; x1; x2; x3; x4; x5; x6; x7; x8; x9; x10; x11; x12; x13] ([:: t0; t1; t2; t3; t4; t5; t6; t7; t8; t9; t10; t11; t12; t13], t14) y2 =
  let: (s0, s1, s2, s3, s4, s5, s6, s7, s8, s9, s10, s11, s12, s13, s14) := mulG_r2 q0 q1 q2 q3 q4 q5 q6 q7 q8 q9 q10 q11 q12 q13 qi x0 x1 x2 x3 x4 x5 x6 x7 x8 x9 x10 x11 x12 x13 y2 t0 t1 t2 t3 t4 t5 t6 t7 t8 t9 t10 t11 t12 t13 t14 in ([:: s0; s1; s2; s3; s4; s5; s6; s7; s8; s9; s10; s11; s12; s13], s14).
Proof. rewrite /mulG_r2; unroll (@less14) (@isZero14). Qed.
Lemma mulG_r3E q0 q1 q2 q3 q4 q5 q6 q7 q8 q9 q10 q11 q12 q13 qi r one co k x0 x1 x2 x3 x4 x5 x6 x7 x8 x9 x10 x11 x12 x13 y3 t0 t1 t2 t3 t4 t5 t6 t7 t8 t9 t10 t11 t12 t13 t14 :
  ciosRound (Gen [:: q0; q1; q2; q3; q4; q5; q6; q7; q8; q9; q10; q11; q12; q13] qi r one co k true true) [:: x0; x1; x2; x3; x4; x5; x6; x7; x8; x9; x10; x11; x12; x13] ([:: t0; t1; t2; t3; t4; t5; t6; t7; t8; t9; t10; t11; t12; t13], t14) y3 =
  let: (s0, s1, s2, s3, s4, s5, s6, s7, s8, s9, s10, s11, s12, s13, s14) := mulG_r3 q0 q1 q2 q3 q4 q5 q6 q7 q8 q9 q10 q11 q12 q13 qi x0 x1 x2 x3 x4 x5 x6 x7 x8 x9 x10 x11 x12 x13 y3 t0 t1 t2 t3 t4 t5 t6 t7 t8 t9 t10 t11 t12 t13 t14 in ([:: s0; s1; s2; s3; s4; s5; s6; s7; s8; s9; s10; s11; s12; s13], s14).
Proof. rewrite /mulG_r3; unroll (@less14) (@isZero14). Qed.
Lemma mulG_r4E q0 q1 q2 q3 q4 q5 q6 q7 q8 q9 q10 q11 q12 q13 qi r one co k x0 x1 x2 x3 x4 x5 x6 x7 x8 x9 x10 x11 x12 x13 y4 t0 t1 t2 t3 t4 t5 t6 t7 t8 t9 t10 t11 t12 t13 t14 :
  ciosRound (Gen [:: q0; q1; q2; q3; q4; q5; q6; q7; q8; q9; q10; q11; q12; q13] qi r one co k true true) [:: x0; x1; x2; x3; x4; x5; x6; x7; x8; x9; x10; x11; x12; x13] ([:: t0; t1; t2; t3; t4; t5; t6; t7; t8; t9; t10; t11; t12; t13], t14) y4 =
  let: (s0, s1, s2, s3, s4, s5, s6, s7, s8, s9, s10, s11, s12, s13, s14) := mulG_r4 q0 q1 q2 q3 q4 q5 q6 q7 q8 q9 q10 q11 q12 q13 qi x0 x1 x2 x3 x4 x5 x6 x7 x8 x9 x10 x11 x12 x13 y4 t0 t1 t2 t3 t4 t5 t6 t7 t8 t9 t10 t11 t12 t13 t14 in ([:: s0; s1; s2; s3; s4; s5; s6; s7; s8; s9; s10; s11; s12; s13], s14).
Proof. rewrite /mulG_r4; unroll (@less14) (@isZero14). Qed.
Lemma mulG_r5E q0 q1 q2 q3 q4 q5 q6 q7 q8 q9 q10 q11 q12 q13 qi r one co k x0 x1 x2 x3 x4 x5 x6 x7 x8 x9 x10 x11 x12 x13 y5 t0 t1 t2 t3 t4 t5 t6 t7 t8 t9 t10 t11 t12 t13 t14 :
  ciosRound (Gen [:: q0; q1; q2; q3; q4; q5; q6; q7; q8; q9; q10; q11; q12; q13] qi r one co k true true) [:: x0; x1; x2; x3; x4; x5; x6; x7; x8; x9; x10; x11; x12; x13] ([:: t0; t1; t2; t3; t4; t5; t6; t7; t8; t9; t10; t11; t12; t13], t14) y5 =
  let: (s0, s1, s2, s3, s4, s5, s6, s7, s8, s9, s10, s11, s12, s13, s14) := mulG_r5 q0 q1 q2 q3 q4 q5 q6 q7 q8 q9 q10 q11 q12 q13 qi x0 x1 x2 x3 x4 x5 x6 x7 x8 x9 x10 x11 x12 x13 y5 t0 t1 t2 t3 t4 t5 t6 t7 t8 t9 t10 t11 t12 t13 t14 in ([:: s0; s1; s2; s3; s4; s5; s6; s7; s8; s9; s10; s11; s12; s13], s14).
Proof. rewrite /mulG_r5; unroll (@less14) (@isZero14). Qed.
Lemma mulG_r6E q0 q1 q2 q3 q4 q5 q6 q7 q8 q9 q10 q11 q12 q13 qi r one co k x0 x1 x2 x3 x4 x5 x6 x7 x8 x9 x10 x11 x12 x13 y6 t0 t1 t2 t3 t4 t5 t6 t7 t8 t9 t10 t11 t12 t13 t14 :
  ciosRound (Gen [:: q0; q1; q2; q3; q4; q5; q6; q7; q8; q9; q10; q11; q12; q13] qi r one co k true true) [:: x0; x1; x2; x3; x4; x5; x6; x7; x8; x9; x10; x11; x12; x13] ([:: t0; t1; t2; t3; t4; t5; t6; t7; t8; t9; t10; t11; t12; t13], t14) y6 =
  let: (s0, s1, s2, s3, s4, s5, s6, s7, s8, s9, s10, s11, s12, s13, s14) := mulG_r6 q0 q1 q2 q3 q4 q5 q6 q7 q8 q9 q10 q11 q12 q13 qi x0 x1 x2 x3 x4 x5 x6 x7 x8 x9 x10 x11 x12 x13 y6 t0 t1 t2 t3 t4 t5 t6 t7 t8 t9 t10 t11 t12 t13 t14 in ([:: s0; s1; s2; s3; s4; s5; s6; s7; s8; s9; s10; s11; s12; s13], s14).
Proof. rewrite /mulG_r6; unroll (@less14) (@isZero14). Qed.
Lemma mulG_r7E q0 q1 q2 q3 q4 q5 q6 q7 q8 q9 q10 q11 q12 q13 qi r one co k x0 x1 x2 x3 x4 x5 x6 x7 x8 x9 x10 x11 x12 x13 y7 t0 t1 t2 t3 t4 t5 t6 t7 t8 t9 t10 t11 t12 t13 t14 :
  ciosRound (Gen [:: q0; q1; q2; q3; q4; q5; q6; q7; q8; q9; q10; q11; q12; q13] qi r one co k true true) [:: x0; x1; x2; x3; x4; x5; x6; x7; x8; x9; x10; x11; x12; x13] ([:: t0; t1; t2; t3; t4; t5; t6; t7; t8; t9; t10; t11; t12; t13], t14) y7 =
  let: (s0, s1, s2, s3, s4, s5, s6, s7, s8, s9, s10, s11, s12, s13, s14) := mulG_r7 q0 q1 q2 q3 q4 q5 q6 q7 q8 q9 q10 q11 q12 q13 qi x0 x1 x2 x3 x4 x5 x6 x7 x8 x9 x10 x11 x12 x13 y7 t0 t1 t2 t3 t4 t5 t6 t7 t8 t9 t10 t11 t12 t13 t14 in ([:: s0; s1; s2; s3; s4; s5; s6; s7; s8; s9; s10; s11; s12; s13], s14).
Proof. rewrite /mulG_r7; unroll (@less14) (@isZero14). Qed.
Lemma mulG_r8E q0 q1 q2 q3 q4 q5 q6 q7 q8 q9 q10 q11 q12 q13 qi r one co k x0 x1 x2 x3 x4 x5 x6 x7 x8 x9 x10 x11 x12 x13 y8 t0 t1 t2 t3 t4 t5 t6 t7 t8 t9 t10 t11 t12 t13 t14 :
  ciosRound (Gen [:: q0; q1; q2; q3; q4; q5; q6; q7; q8; q9; q10; q11; q12; q13] qi r one co k true true) [:: x0; x1; x2; x3; x4; x5; x6; x7; x8; x9; x10; x11; x12; x13] ([:: t0; t1; t2; t3; t4; t5; t6; t7; t8; t9; t10; t11; t12; t13], t14) y8 =
  let: (s0, s1, s2, s3, s4, s5, s6, s7, s8, s9, s10, s11, s12, s13, s14) := mulG_r8 q0 q1 q2 q3 q4 q5 q6 q7 q8 q9 q10 q11 q12 q13 qi x0 x1 x2 x3 x4 x5 x6 x7 x8 x9 x10 x11 x12 x13 y8 t0 t1 t2 t3 t4 t5 t6 t7 t8 t9 t10 t11 t12 t13 t14 in ([:: s0; s1; s2; s3; s4; s5; s6; s7; s8; s9; s10; s11; s12; s13], s14).
Proof. rewrite /mulG_r8; unroll (@less14) (@isZero14). Qed.
Lemma mulG_r9E q0 q1 q2 q3 q4 q5 q6 q7 q8 q9 q10 q11 q12 q13 qi r one co k x0 x1 x2 x3 x4 x5 x6 x7 x8 x9 x10 x11 x12 x13 y9 t0 t1 t2 t3 t4 t5 t6 t7 t8 t9 t10 t11 t12 t13 t14 :
  ciosRound (Gen [:: q0; q1; q2; q3; q4; q5; q6; q7; q8; q9; q10; q11; q12; q13] qi r one co k true true) [:: x0; x1; x2; x3; x4; x5; x6; x7; x8; x9; x10; x11; x12; x13] ([:: t0; t1; t2; t3; t4; t5; t6; t7; t8; t9; t10; t11; t12; t13], t14) y9 =
  let: (s0, s1, s2, s3, s4, s5, s6, s7, s8, s9, s10, s11, s12, s13, s14) := mulG_r9 q0 q1 q2 q3 q4 q5 q6 q7 q8 q9 q10 q11 q12 q13 qi x0 x1 x2 x3 x4 x5 x6 x7 x8 x9 x10 x11 x12 x13 y9 t0 t1 t2 t3 t4 t5 t6 t7 t8 t9 t10 t11 t12 t13 t14 in ([:: s0; s1; s2; s3; s4; s5; s6; s7; s8; s9; s10; s11; s12; s13], s14).
Proof. rewrite /mulG_r9; unroll (@less14) (@isZero14). Qed.
Lemma mulG_r10E q0 q1 q2 q3 q4 q5 q6 q7 q8 q9 q10 q11 q12 q13 qi r one co k x0 x1 x2 x3 x4 x5 x6 x7 x8 x9 x10 x11 x12 x13 y10 t0 t1 t2 t3 t4 t5 t6 t7 t8 t9 t10 t11 t12 t13 t14 :
  ciosRound (Gen [:: q0; q1; q2; q3; q4; q5; q6; q7; q8; q9; q10; q11; q12; q13] qi r one co k true true) [:: x0; x1; x2; x3; x4; x5; x6; x7; x8; x9; x10; x11; x12; x13] ([:: t0; t1; t2; t3; t4; t5; t6; t7; t8; t9; t10; t11; t12; t13], t14) y10 =
  let: (s0, s1, s2, s3, s4, s5, s6, s7, s8, s9, s10, s11, s12, s13, s14) := mulG_r10 q0 q1 q2 q3 q4 q5 q6 q7 q8 q9 q10 q11 q12 q13 qi x0 x1 x2 x3 x4 x5 x6 x7 x8 x9 x10 x11 x12 x13 y10 t0 t1 t2 t3 t4 t5 t6 t7 t8 t9 t10 t11 t12 t13 t14 in ([:: s0; s1; s2; s3; s4; s5; s6; s7; s8; s9; s10; s11; s12; s13], s14).
Proof. rewrite /mulG_r10; unroll (@less14) (@isZero14). Qed.
Lemma mulG_r11E q0 q1 q2 q3 q4 q5 q6 q7 q8 q9 q10 q11 q12 q13 qi r one co k x0 x1 x2 x3 x4 x5 x6 x7 x8 x9 x10 x11 x12 x13 y11 t0 t1 t2 t3 t4 t5 t6 t7 t8 t9 t10 t11 t12 t13 t14 :
  ciosRound (Gen [:: q0; q1; q2; q3; q4; q5; q6; q7; q8; q9; q10; q11; q12; q13] qi r one co k true true) [:: x0; x1; x2; x3; x4; x5; x6; x7; x8; x9; x10; x11; x12; x13] ([:: t0; t1; t2; t3; t4; t5; t6; t7; t8; t9; t10; t11; t12; t13], t14) y11 =
  let: (s0, s1, s2, s3, s4, s5, s6, s7, s8, s9, s10, s11, s12, s13, s14) := mulG_r11 q0 q1 q2 q3 q4 q5 q6 q7 q8 q9 q10 q11 q12 q13 qi x0 x1 x2 x3 x4 x5 x6 x7 x8 x9 x10 x11 x12 x13 y11 t0 t1 t2 t3 t4 t5 t6 t7 t8 t9 t10 t11 t12 t13 t14 in ([:: s0; s1; s2; s3; s4; s5; s6; s7; s8; s9; s10; s11; s12; s13], s14).
Proof. rewrite /mulG_r11; unroll (@less14) (@isZero14). Qed.
Lemma mulG_r12E q0 q1 q2 q3 q4 q5 q6 q7 q8 q9 q10 q11 q12 q13 qi r one co k x0 x1 x2 x3 x4 x5 x6 x7 x8 x9 x10 x11 x12 x13 y12 t0 t1 t2 t3 t4 t5 t6 t7 t8 t9 t10 t11 t12 t13 t14 :
  ciosRound (Gen [:: q0; q1; q2; q3; q4; q5; q6; q7; q8; q9; q10; q11; q12; q13] qi r one co k true true) [:: x0; x1; x2; x3; x4; x5; x6; x7; x8; x9; x10; x11; x12; x13] ([:: t0; t1; t2; t3; t4; t5; t6; t7; t8; t9; t10; t11; t12; t13], t14) y12 =
  let: (s0, s1, s2, s3, s4, s5, s6, s7, s8, s9, s10, s11, s12, s13, s14) := mulG_r12 q0 q1 q2 q3 q4 q5 q6 q7 q8 q9 q10 q11 q12 q13 qi x0 x1 x2 x3 x4 x5 x6 x7 x8 x9 x10 x11 x12 x13 y12 t0 t1 t2 t3 t4 t5 t6 t7 t8 t9 t10 t11 t12 t13 t14 in ([:: s0; s1; s2; s3; s4; s5; s6; s7; s8; s9; s10; s11; s12; s13], s14).
Proof. rewrite /mulG_r12; unroll (@less14) (@isZero14). Qed.
Lemma mulG_r13E q0 q1 q2 q3 q4 q5 q6 q7 q8 q9 q10 q11 q12 q13 qi r one co k x0 x1 x2 x3 x4 x5 x6 x7 x8 x9 x10 x11 x12 x13 y13 t0 t1 t2 t3 t4 t5 t6 t7 t8 t9 t10 t11 t12 t13 t14 :
  ciosRound (Gen [:: q0; q1; q2; q3; q4; q5; q6; q7; q8; q9; q10; q11; q12; q13] qi r one co k true true) [:: x0; x1; x2; x3; x4; x5; x6; x7; x8; x9; x10; x11; x12; x13] ([:: t0; t1; t2; t3; t4; t5; t6; t7; t8; t9; t10; t11; t12; t13], t14) y13 =
  let: (s0, s1, s2, s3, s4, s5, s6, s7, s8, s9, s10, s11, s12, s13, s14) := mulG_r13 q0 q1 q2 q3 q4 q5 q6 q7 q8 q9 q10 q11 q12 q13 qi x0 x1 x2 x3 x4 x5 x6 x7 x8 x9 x10 x11 x12 x13 y13 t0 t1 t2 t3 t4 t5 t6 t7 t8 t9 t10 t11 t12 t13 t14 in ([:: s0; s1; s2; s3; s4; s5; s6; s7; s8; s9; s10; s11; s12; s13], s14).
Proof. rewrite /mulG_r13; unroll (@less14) (@isZero14). Qed.
Theorem unrolled14_mulGeneric q0 q1 q2 q3 q4 q5 q6 q7 q8 q9 q10 q11 q12 q13 qi r one co k x0 x1 x2 x3 x4 x5 x6 x7 x8 x9 x10 x11 x12 x13 y0 y1 y2 y3 y4 y5 y6 y7 y8 y9 y10 y11 y12 y13 :
  mulGeneric (Gen [:: q0; q1; q2; q3; q4; q5; q6; q7; q8; q9; q10; q11; q12; q13] qi r one co k true true) [:: x0; x1; x2; x3; x4; x5; x6; x7; x8; x9; x10; x11; x12; x13] [:: y0; y1; y2; y3; y4; y5; y6; y7; y8; y9; y10; y11; y12; y13] =
  mulG q0 q1 q2 q3 q4 q5 q6 q7 q8 q9 q10 q11 q12 q13 qi x0 x1 x2 x3 x4 x5 x6 x7 x8 x9 x10 x11 x12 x13 y0 y1 y2 y3 y4 y5 y6 y7 y8 y9 y10 y11 y12 y13.
Proof.
rewrite /mulGeneric /mulG; cbn [foldl behead hd0 nth]; cbv beta zeta.
cbv beta delta [hd0]; cbn [nth].
rewrite mulG_r0E; case: (mulG_r0 _ _ _ _ _ _ _ _ _ _ _ _ _ _ _ _ _ _ _ _ _ _ _ _ _ _ _ _ _ _ _ _ _ _ _ _ _ _ _ _ _ _ _ _ _) => [[[[[[[[[[[[[[a0_0 a0_1] a0_2] a0_3] a0_4] a0_5] a0_6] a0_7] a0_8] a0_9] a0_10] a0_11] a0_12] a0_13] a0_14]; cbv beta iota.
rewrite mulG_r1E; case: (mulG_r1 _ _ _ _ _ _ _ _ _ _ _ _ _ _ _ _ _ _ _ _ _ _ _ _ _ _ _ _ _ _ _ _ _ _ _ _ _ _ _ _ _ _ _ _ _) => [[[[[[[[[[[[[[a1_0 a1_1] a1_2] a1_3] a1_4] a1_5] a1_6] a1_7] a1_8] a1_9] a1_10] a1_11] a1_12] a1_13] a1_14]; cbv beta iota.
rewrite mulG_r2E; case: (mulG_r2 _ _ _ _ _ _ _ _ _ _ _ _ _ _ _ _ _ _ _ _ _ _ _ _ _ _ _ _ _ _ _ _ _ _ _ _ _ _ _ _ _ _ _ _ _) => [[[[[[[[[[[[[[a2_0 a2_1] a2_2] a2_3] a2_4] a2_5] a2_6] a2_7] a2_8] a2_9] a2_10] a2_11] a2_12] a2_13] a2_14]; cbv beta iota.
rewrite mulG_r3E; case: (mulG_r3 _ _ _ _ _ _ _ _ _ _ _ _ _ _ _ _ _ _ _ _ _ _ _ _ _ _ _ _ _ _ _ _ _ _ _ _ _ _ _ _ _ _ _ _ _) => [[[[[[[[[[[[[[a3_0 a3_1] a3_2] a3_3] a3_4] a3_5] a3_6] a3_7] a3_8] a3_9] a3_10] a3_11] a3_12] a3_13] a3_14]; cbv beta iota.
rewrite mulG_r4E; case: (mulG_r4 _ _ _ _ _ _ _ _ _ _ _ _ _ _ _ _ _ _ _ _ _ _ _ _ _ _ _ _ _ _ _ _ _ _ _ _ _ _ _ _ _ _ _ _ _) => [[[[[[[[[[[[[[a4_0 a4_1] a4_2] a4_3] a4_4] a4_5] a4_6] a4_7] a4_8] a4_9] a4_10] a4_11] a4_12] a4_13] a4_14]; cbv beta iota.
rewrite mulG_r5E; case: (mulG_r5 _ _ _ _ _ _ _ _ _ _ _ _ _ _ _ _ _ _ _ _ _ _ _ _ _ _ _ _ _ _ _ _ _ _ _ _ _ _ _ _ _ _ _ _ _) => [[[[[[[[[[[[[[a5_0 a5_1] a5_2] a5_3] a5_4] a5_5] a5_6] a5_7] a5_8] a5_9] a5_10] a5_11] a5_12] a5_13] a5_14]; cbv beta iota.
rewrite mulG_r6E; case: (mulG_r6 _ _ _ _ _ _ _ _ _ _ _ _ _ _ _ _ _ _ _ _ _ _ _ _ _ _ _ _ _ _ _ _ _ _ _ _ _ _ _ _ _ _ _ _ _) => [[[[[[[[[[[[[[a6_0 a6_1] a6_2] a6_3] a6_4] a6_5] a6_6] a6_7] a6_8] a6_9] a6_10] a6_11] a6_12] a6_13] a6_14]; cbv beta iota.
rewrite mulG_r7E; case: (mulG_r7 _ _ _ _ _ _ _ _ _ _ _ _ _ _ _ _ _ _ _ _ _ _ _ _ _ _ _ _ _ _ _ _ _ _ _ _ _ _ _ _ _ _ _ _ _) => [[[[[[[[[[[[[[a7_0 a7_1] a7_2] a7_3] a7_4] a7_5] a7_6] a7_7] a7_8] a7_9] a7_10] a7_11] a7_12] a7_13] a7_14]; cbv beta iota.
rewrite mulG_r8E; case: (mulG_r8 _ _ _ _ _ _ _ _ _ _ _ _ _ _ _ _ _ _ _ _ _ _ _ _ _ _ _ _ _ _ _ _ _ _ _ _ _ _ _ _ _ _ _ _ _) => [[[[[[[[[[[[[[a8_0 a8_1] a8_2] a8_3] a8_4] a8_5] a8_6] a8_7] a8_8] a8_9] a8_10] a8_11] a8_12] a8_13] a8_14]; cbv beta iota.
rewrite mulG_r9E; case: (mulG_r9 _ _ _ _ _ _ _ _ _ _ _ _ _ _ _ _ _ _ _ _ _ _ _ _ _ _ _ _ _ _ _ _ _ _ _ _ _ _ _ _ _ _ _ _ _) => [[[[[[[[[[[[[[a9_0 a9_1] a9_2] a9_3] a9_4] a9_5] a9_6] a9_7] a9_8] a9_9] a9_10] a9_11] a9_12] a9_13] a9_14]; cbv beta iota.
rewrite mulG_r10E; case: (mulG_r10 _ _ _ _ _ _ _ _ _ _ _ _ _ _ _ _ _ _ _ _ _ _ _ _ _ _ _ _ _ _ _ _ _ _ _ _ _ _ _ _ _ _ _ _ _) => [[[[[[[[[[[[[[a10_0 a10_1] a10_2] a10_3] a10_4] a10_5] a10_6] a10_7] a10_8] a10_9] a10_10] a10_11] a10_12] a10_13] a10_14]; cbv beta iota.
rewrite mulG_r11E; case: (mulG_r11 _ _ _ _ _ _ _ _ _ _ _ _ _ _ _ _ _ _ _ _ _ _ _ _ _ _ _ _ _ _ _ _ _ _ _ _ _ _ _ _ _ _ _ _ _) => [[[[[[[[[[[[[[a11_0 a11_1] a11_2] a11_3] a11_4] a11_5] a11_6] a11_7] a11_8] a11_9] a11_10] a11_11] a11_12] a11_13] a11_14]; cbv beta iota.
rewrite mulG_r12E; case: (mulG_r12 _ _ _ _ _ _ _ _ _ _ _ _ _ _ _ _ _ _ _ _ _ _ _ _ _ _ _ _ _ _ _ _ _ _ _ _ _ _ _ _ _ _ _ _ _) => [[[[[[[[[[[[[[a12_0 a12_1] a12_2] a12_3] a12_4] a12_5] a12_6] a12_7] a12_8] a12_9] a12_10] a12_11] a12_12] a12_13] a12_14]; cbv beta iota.
rewrite mulG_r13E; case: (mulG_r13 _ _ _ _ _ _ _ _ _ _ _ _ _ _ _ _ _ _ _ _ _ _ _ _ _ _ _ _ _ _ _ _ _ _ _ _ _ _ _ _ _ _ _ _ _) => [[[[[[[[[[[[[[a13_0 a13_1] a13_2] a13_3] a13_4] a13_5] a13_6] a13_7] a13_8] a13_9] a13_10] a13_11] a13_12] a13_13] a13_14]; cbv beta iota.
tail (@less14).
Qed.
Lemma mulP_r0E q0 q1 q2 q3 q4 q5 q6 q7 q8 q9 q10 q11 q12 q13 qi r one co k x0 x1 x2 x3 x4 x5 x6 x7 x8 x9 x10 x11 x12 x13 y0 :
  ciosFirst (Gen [:: q0; q1; q2; q3; q4; q5; q6; q7; q8; q9; q10; q11; q12; q13] qi r one co k true true) [:: x0; x1; x2; x3; x4; x5; x6; x7; x8; x9; x10; x11; x12; x13] y0 =
  let: (s0, s1, s2, s3, s4, s5, s6, s7, s8, s9, s10, s11, s12, s13, s14) := mulP_r0 q0 q1 q2 q3 q4 q5 q6 q7 q8 q9 q10 q11 q12 q13 qi x0 x1 x2 x3 x4 x5 x6 x7 x8 x9 x10 x11 x12 x13 y0 0%Z 0%Z 0%Z 0%Z 0%Z 0%Z 0%Z 0%Z 0%Z 0%Z 0%Z 0%Z 0%Z 0%Z 0%Z in ([:: s0; s1; s2; s3; s4; s5; s6; s7; s8; s9; s10; s11; s12; s13], s14).
Proof. rewrite /mulP_r0; unroll (@less14) (@isZero14). Qed.
Lemma mulP_r1E q0 q1 q2 q3 q4 q5 q6 q7 q8 q9 q10 q11 q12 q13 qi r one co k x0 x1 x2 x3 x4 x5 x6 x7 x8 x9 x10 x11 x12 x13 y1 t0 t1 t2 t3 t4 t5 t6 t7 t8 t9 t10 t11 t12 t13 t14 :
  ciosRound (Gen [:: q0; q1; q2; q3; q4; q5; q6; q7; q8; q9; q10; q11; q12; q13] qi r one co k true true) [:: x0; x1; x2; x3; x4; x5; x6; x7; x8; x9; x10; x11; x12; x13] ([:: t0; t1; t2; t3; t4; t5; t6; t7; t8; t9; t10; t11; t12; t13], t14) y1 =
  let: (s0, s1, s2, s3, s4, s5, s6, s7, s8, s9, s10, s11, s12, s13, s14) := mulP_r1 q0 q1 q2 q3 q4 q5 q6 q7 q8 q9 q10 q11 q12 q13 qi x0 x1 x2 x3 x4 x5 x6 x7 x8 x9 x10 x11 x12 x13 y1 t0 t1 t2 t3 t4 t5 t6 t7 t8 t9 t10 t11 t12 t13 t14 in ([:: s0; s1; s2; s3; s4; s5; s6; s7; s8; s9; s10; s11; s12; s13], s14).
Proof. rewrite /mulP_r1; unroll (@less14) (@isZero14). Qed.
Lemma mulP_r2E q0 q1 q2 q3 q4 q5 q6 q7 q8 q9 q10 q11 q12 q13 qi r one co k x0 x1 x2 x3 x4 x5 x6 x7 x8 x9 x10 x11 x12 x13 y2 t0 t1 t2 t3 t4 t5 t6 t7 t8 t9 t10 t11 t12 t13 t14 :
  ciosRound (Gen [:: q0; q1; q2; q3; q4; q5; q6; q7; q8; q9; q10; q11; q12; q13] qi r one co k true true) [:: x0; x1; x2; x3; x4; x5; x6; x7; x8; x9; x10; x11; x12; x13] ([:: t0; t1; t2; t3; t4; t5; t6; t7; t8; t9; t10; t11; t12; t13], t14) y2 =
  let: (s0, s1, s2, s3, s4, s5, s6, s7, s8, s9, s10, s11, s12, s13, s14) := mulP_r2 q0 q1 q2 q3 q4 q5 q6 q7 q8 q9 q10 q11 q12 q13 qi x0 x1 x2 x3 x4 x5 x6 x7 x8 x9 x10 x11 x12 x13 y2 t0 t1 t2 t3 t4 t5 t6 t7 t8 t9 t10 t11 t12 t13 t14 in ([:: s0; s1; s2; s3; s4; s5; s6; s7; s8; s9; s10; s11; s12; s13], s14).
Proof. rewrite /mulP_r2; unroll (@less14) (@isZero14). Qed.
Lemma mulP_r3E q0 q1 q2 q3 q4 q5 q6 q7 q8 q9 q10 q11 q12 q13 qi r one co k x0 x1 x2 x3 x4 x5 x6 x7 x8 x9 x10 x11 x12 x13 y3 t0 t1 t2 t3 t4 t5 t6 t7 t8 t9 t10 t11 t12 t13 t14 :
  ciosRound (Gen [:: q0; q1; q2; q3; q4; q5; q6; q7; q8; q9; q10; q11; q12; q13] qi r one co k true true) [:: x0; x1; x2; x3; x4; x5; x6; x7; x8; x9; x10; x11; x12; x13] ([:: t0; t1; t2; t3; t4; t5; t6; t7; t8; t9; t10; t11; t12; t13], t14) y3 =
  let: (s0, s1, s2, s3, s4, s5, s6, s7, s8, s9, s10, s11, s12, s13, s14) := mulP_r3 q0 q1 q2 q3 q4 q5 q6 q7 q8 q9 q10 q11 q12 q13 qi x0 x1 x2 x3 x4 x5 x6 x7 x8 x9 x10 x11 x12 x13 y3 t0 t1 t2 t3 t4 t5 t6 t7 t8 t9 t10 t11 t12 t13 t14 in ([:: s0; s1; s2; s3; s4; s5; s6; s7; s8; s9; s10; s11; s12; s13], s14).
Proof. rewrite /mulP_r3; unroll (@less14) (@isZero14). Qed.
Lemma mulP_r4E q0 q1 q2 q3 q4 q5 q6 q7 q8 q9 q10 q11 q12 q13 qi r one co k x0 x1 x2 x3 x4 x5 x6 x7 x8 x9 x10 x11 x12 x13 y4 t0 t1 t2 t3 t4 t5 t6 t7 t8 t9 t10 t11 t12 t13 t14 :
  ciosRound (Gen [:: q0; q1; q2; q3; q4; q5; q6; q7; q8; q9; q10; q11; q12; q13] qi r one co k true true) [:: x0; x1; x2; x3; x4; x5; x6; x7; x8; x9; x10; x11; x12; x13] ([:: t0; t1; t2; t3; t4; t5; t6; t7; t8; t9; t10; t11; t12; t13], t14) y4 =
  let: (s0, s1, s2, s3, s4, s5, s6, s7, s8, s9, s10, s11, s12, s13, s14) := mulP_r4 q0 q1 q2 q3 q4 q5 q6 q7 q8 q9 q10 q11 q12 q13 qi x0 x1 x2 x3 x4 x5 x6 x7 x8 x9 x10 x11 x12 x13 y4 t0 t1 t2 t3 t4 t5 t6 t7 t8 t9 t10 t11 t12 t13 t14 in ([:: s0; s1; s2; s3; s4; s5; s6; s7; s8; s9; s10; s11; s12; s13], s14).
Proof. rewrite /mulP_r4; unroll (@less14) (@isZero14). Qed.
Lemma mulP_r5E q0 q1 q2 q3 q4 q5 q6 q7 q8 q9 q10 q11 q12 q13 qi r one co k x0 x1 x2 x3 x4 x5 x6 x7 x8 x9 x10 x11 x12 x13 y5 t0 t1 t2 t3 t4 t5 t6 t7 t8 t9 t10 t11 t12 t13 t14 :
  ciosRound (Gen [:: q0; q1; q2; q3; q4; q5; q6; q7; q8; q9; q10; q11; q12; q13] qi r one co k true true) [:: x0; x1; x2; x3; x4; x5; x6; x7; x8; x9; x10; x11; x12; x13] ([:: t0; t1; t2; t3; t4; t5; t6; t7; t8; t9; t10; t11; t12; t13], t14) y5 =
  let: (s0, s1, s2, s3, s4, s5, s6, s7, s8, s9, s10, s11, s12, s13, s14) := mulP_r5 q0 q1 q2 q3 q4 q5 q6 q7 q8 q9 q10 q11 q12 q13 qi x0 x1 x2 x3 x4 x5 x6 x7 x8 x9 x10 x11 x12 x13 y5 t0 t1 t2 t3 t4 t5 t6 t7 t8 t9 t10 t11 t12 t13 t14 in ([:: s0; s1; s2; s3; s4; s5; s6; s7; s8; s9; s10; s11; s12; s13], s14).
Proof. rewrite /mulP_r5; unroll (@less14) (@isZero14). Qed.
Lemma mulP_r6E q0 q1 q2 q3 q4 q5 q6 q7 q8 q9 q10 q11 q12 q13 qi r one co k x0 x1 x2 x3 x4 x5 x6 x7 x8 x9 x10 x11 x12 x13 y6 t0 t1 t2 t3 t4 t5 t6 t7 t8 t9 t10 t11 t12 t13 t14 :
  ciosRound (Gen [:: q0; q1; q2; q3; q4; q5; q6; q7; q8; q9; q10; q11; q12; q13] qi r one co k true true) [:: x0; x1; x2; x3; x4; x5; x6; x7; x8; x9; x10; x11; x12; x13] ([:: t0; t1; t2; t3; t4; t5; t6; t7; t8; t9; t10; t11; t12; t13], t14) y6 =
  let: (s0, s1, s2, s3, s4, s5, s6, s7, s8, s9, s10, s11, s12, s13, s14) := mulP_r6 q0 q1 q2 q3 q4 q5 q6 q7 q8 q9 q10 q11 q12 q13 qi x0 x1 x2 x3 x4 x5 x6 x7 x8 x9 x10 x11 x12 x13 y6 t0 t1 t2 t3 t4 t5 t6 t7 t8 t9 t10 t11 t12 t13 t14 in ([:: s0; s1; s2; s3; s4; s5; s6; s7; s8; s9; s10; s11; s12; s13], s14).
Proof. rewrite /mulP_r6; unroll (@less14) (@isZero14). Qed.
Lemma mulP_r7E q0 q1 q2 q3 q4 q5 q6 q7 q8 q9 q10 q11 q12 q13 qi r one co k x0 x1 x2 x3 x4 x5 x6 x7 x8 x9 x10 x11 x12 x13 y7 t0 t1 t2 t3 t4 t5 t6 t7 t8 t9 t10 t11 t12 t13 t14 :
  ciosRound (Gen [:: q0; q1; q2; q3; q4; q5; q6; q7; q8; q9; q10; q11; q12; q13] qi r one co k true true) [:: x0; x1; x2; x3; x4; x5; x6; x7; x8; x9; x10; x11; x12; x13] ([:: t0; t1; t2; t3; t4; t5; t6; t7; t8; t9; t10; t11; t12; t13], t14) y7 =
  let: (s0, s1, s2, s3, s4, s5, s6, s7, s8, s9, s10, s11, s12, s13, s14) := mulP_r7 q0 q1 q2 q3 q4 q5 q6 q7 q8 q9 q10 q11 q12 q13 qi x0 x1 x2 x3 x4 x5 x6 x7 x8 x9 x10 x11 x12 x13 y7 t0 t1 t2 t3 t4 t5 t6 t7 t8 t9 t10 t11 t12 t13 t14 in ([:: s0; s1; s2; s3; s4; s5; s6; s7; s8; s9; s10; s11; s12; s13], s14).
Proof. rewrite /mulP_r7; unroll (@less14) (@isZero14). Qed.
Lemma mulP_r8E q0 q1 q2 q3 q4 q5 q6 q7 q8 q9 q10 q11 q12 q13 qi r one co k x0 x1 x2 x3 x4 x5 x6 x7 x8 x9 x10 x11 x12 x13 y8 t0 t1 t2 t3 t4 t5 t6 t7 t8 t9 t10 t11 t12 t13 t14 :
  ciosRound (Gen [:: q0; q1; q2; q3; q4; q5; q6; q7; q8; q9; q10; q11; q12; q13] qi r one co k true true) [:: x0; x1; x2; x3; x4; x5; x6; x7; x8; x9; x10; x11; x12; x13] ([:: t0; t1; t2; t3; t4; t5; t6; t7; t8; t9; t10; t11; t12; t13], t14) y8 =
  let: (s0, s1, s2, s3, s4, s5, s6, s7, s8, s9, s10, s11, s12, s13, s14) := mulP_r8 q0 q1 q2 q3 q4 q5 q6 q7 q8 q9 q10 q11 q12 q13 qi x0 x1 x2 x3 x4 x5 x6 x7 x8 x9 x10 x11 x12 x13 y8 t0 t1 t2 t3 t4 t5 t6 t7 t8 t9 t10 t11 t12 t13 t14 in ([:: s0; s1; s2; s3; s4; s5; s6; s7; s8; s9; s10; s11; s12; s13], s14).
Proof. rewrite /mulP_r8; unroll (@less14) (@isZero14). Qed.
Lemma mulP_r9E q0 q1 q2 q3 q4 q5 q6 q7 q8 q9 q10 q11 q12 q13 qi r one co k x0 x1 x2 x3 x4 x5 x6 x7 x8 x9 x10 x11 x12 x13 y9 t0 t1 t2 t3 t4 t5 t6 t7 t8 t9 t10 t11 t12 t13 t14 :
  ciosRound (Gen [:: q0; q1; q2; q3; q4; q5; q6; q7; q8; q9; q10; q11; q12; q13] qi r one co k true true) [:: x0; x1; x2; x3; x4; x5; x6; x7; x8; x9; x10; x11; x12; x13] ([:: t0; t1; t2; t3; t4; t5; t6; t7; t8; t9; t10; t11; t12; t13], t14) y9 =
  let: (s0, s1, s2, s3, s4, s5, s6, s7, s8, s9, s10, s11, s12, s13, s14) := mulP_r9 q0 q1 q2 q3 q4 q5 q6 q7 q8 q9 q10 q11 q12 q13 qi x0 x1 x2 x3 x4 x5 x6 x7 x8 x9 x10 x11 x12 x13 y9 t0 t1 t2 t3 t4 t5 t6 t7 t8 t9 t10 t11 t12 t13 t14 in ([:: s0; s1; s2; s3; s4; s5; s6; s7; s8; s9; s10; s11; s12; s13], s14).
Proof. rewrite /mulP_r9; unroll (@less14) (@isZero14). Qed.
Lemma mulP_r10E q0 q1 q2 q3 q4 q5 q6 q7 q8 q9 q10 q11 q12 q13 qi r one co k x0 x1 x2 x3 x4 x5 x6 x7 x8 x9 x10 x11 x12 x13 y10 t0 t1 t2 t3 t4 t5 t6 t7 t8 t9 t10 t11 t12 t13 t14 :
  ciosRound (Gen [:: q0; q1; q2; q3; q4; q5; q6; q7; q8; q9; q10; q11; q12; q13] qi r one co k true true) [:: x0; x1; x2; x3; x4; x5; x6; x7; x8; x9; x10; x11; x12; x13] ([:: t0; t1; t2; t3; t4; t5; t6; t7; t8; t9; t10; t11; t12; t13], t14) y10 =
  let: (s0, s1, s2, s3, s4, s5, s6, s7, s8, s9, s10, s11, s12, s13, s14) := mulP_r10 q0 q1 q2 q3 q4 q5 q6 q7 q8 q9 q10 q11 q12 q13 qi x0 x1 x2 x3 x4 x5 x6 x7 x8 x9 x10 x11 x12 x13 y10 t0 t1 t2 t3 t4 t5 t6 t7 t8 t9 t10 t11 t12 t13 t14 in ([:: s0; s1; s2; s3; s4; s5; s6; s7; s8; s9; s10; s11; s12; s13], s14).
Proof. rewrite /mulP_r10; unroll (@less14) (@isZero14). Qed.
Lemma mulP_r11E q0 q1 q2 q3 q4 q5 q6 q7 q8 q9 q10 q11 q12 q13 qi r one co k x0 x1 x2 x3 x4 x5 x6 x7 x8 x9 x10 x11 x12 x13 y11 t0 t1 t2 t3 t4 t5 t6 t7 t8 t9 t10 t11 t12 t13 t14 :
  ciosRound (Gen [:: q0; q1; q2; q3; q4; q5; q6; q7; q8; q9; q10; q11; q12; q13] qi r one co k true true) [:: x0; x1; x2; x3; x4; x5; x6; x7; x8; x9; x10; x11; x12; x13] ([:: t0; t1; t2; t3; t4; t5; t6; t7; t8; t9; t10; t11; t12; t13], t14) y11 =
  let: (s0, s1, s2, s3, s4, s5, s6, s7, s8, s9, s10, s11, s12, s13, s14) := mulP_r11 q0 q1 q2 q3 q4 q5 q6 q7 q8 q9 q10 q11 q12 q13 qi x0 x1 x2 x3 x4 x5 x6 x7 x8 x9 x10 x11 x12 x13 y11 t0 t1 t2 t3 t4 t5 t6 t7 t8 t9 t10 t11 t12 t13 t14 in ([:: s0; s1; s2; s3; s4; s5; s6; s7; s8; s9; s10; s11; s12; s13], s14).
Proof. rewrite /mulP_r11; unroll (@less14) (@isZero14). Qed.
Lemma mulP_r12E q0 q1 q2 q3 q4 q5 q6 q7 q8 q9 q10 q11 q12 q13 qi r one co k x0 x1 x2 x3 x4 x5 x6 x7 x8 x9 x10 x11 x12 x13 y12 t0 t1 t2 t3 t4 t5 t6 t7 t8 t9 t10 t11 t12 t13 t14 :
  ciosRound (Gen [:: q0; q1; q2; q3; q4; q5; q6; q7; q8; q9; q10; q11; q12; q13] qi r one co k true true) [:: x0; x1; x2; x3; x4; x5; x6; x7; x8; x9; x10; x11; x12; x13] ([:: t0; t1; t2; t3; t4; t5; t6; t7; t8; t9; t10; t11; t12; t13], t14) y12 =
  let: (s0, s1, s2, s3, s4, s5, s6, s7, s8, s9, s10, s11, s12, s13, s14) := mulP_r12 q0 q1 q2 q3 q4 q5 q6 q7 q8 q9 q10 q11 q12 q13 qi x0 x1 x2 x3 x4 x5 x6 x7 x8 x9 x10 x11 x12 x13 y12 t0 t1 t2 t3 t4 t5 t6 t7 t8 t9 t10 t11 t12 t13 t14 in ([:: s0; s1; s2; s3; s4; s5; s6; s7; s8; s9; s10; s11; s12; s13], s14).
Proof. rewrite /mulP_r12; unroll (@less14) (@isZero14). Qed.
Lemma mulP_r13E q0 q1 q2 q3 q4 q5 q6 q7 q8 q9 q10 q11 q12 q13 qi r one co k x0 x1 x2 x3 x4 x5 x6 x7 x8 x9 x10 x11 x12 x13 y13 t0 t1 t2 t3 t4 t5 t6 t7 t8 t9 t10 t11 t12 t13 t14 :
  ciosRound (Gen [:: q0; q1; q2; q3; q4; q5; q6; q7; q8; q9; q10; q11; q12; q13] qi r one co k true true) [:: x0; x1; x2; x3; x4; x5; x6; x7; x8; x9; x10; x11; x12; x13] ([:: t0; t1; t2; t3; t4; t5; t6; t7; t8; t9; t10; t11; t12; t13], t14) y13 =
  let: (s0, s1, s2, s3, s4, s5, s6, s7, s8, s9, s10, s11, s12, s13, s14) := mulP_r13 q0 q1 q2 q3 q4 q5 q6 q7 q8 q9 q10 q11 q12 q13 qi x0 x1 x2 x3 x4 x5 x6 x7 x8 x9 x10 x11 x12 x13 y13 t0 t1 t2 t3 t4 t5 t6 t7 t8 t9 t10 t11 t12 t13 t14 in ([:: s0; s1; s2; s3; s4; s5; s6; s7; s8; s9; s10; s11; s12; s13], s14).
Proof. rewrite /mulP_r13; unroll (@less14) (@isZero14). Qed.
Theorem unrolled14_Mul q0 q1 q2 q3 q4 q5 q6 q7 q8 q9 q10 q11 q12 q13 qi r one co k x0 x1 x2 x3 x4 x5 x6 x7 x8 x9 x10 x11 x12 x13 y0 y1 y2 y3 y4 y5 y6 y7 y8 y9 y10 y11 y12 y13 :
  mulGeneric (Gen [:: q0; q1; q2; q3; q4; q5; q6; q7; q8; q9; q10; q11; q12; q13] qi r one co k true true) [:: x0; x1; x2; x3; x4; x5; x6; x7; x8; x9; x10; x11; x12; x13] [:: y0; y1; y2; y3; y4; y5; y6; y7; y8; y9; y10; y11; y12; y13] =
  mulP q0 q1 q2 q3 q4 q5 q6 q7 q8 q9 q10 q11 q12 q13 qi x0 x1 x2 x3 x4 x5 x6 x7 x8 x9 x10 x11 x12 x13 y0 y1 y2 y3 y4 y5 y6 y7 y8 y9 y10 y11 y12 y13.
Proof.
rewrite /mulGeneric /mulP; cbn [foldl behead hd0 nth]; cbv beta zeta.
cbv beta delta [hd0]; cbn [nth].
rewrite mulP_r0E; case: (mulP_r0 _ _ _ _ _ _ _ _ _ _ _ _ _ _ _ _ _ _ _ _ _ _ _ _ _ _ _ _ _ _ _ _ _ _ _ _ _ _ _ _ _ _ _ _ _) => [[[[[[[[[[[[[[a0_0 a0_1] a0_2] a0_3] a0_4] a0_5] a0_6] a0_7] a0_8] a0_9] a0_10] a0_11] a0_12] a0_13] a0_14]; cbv beta iota.
rewrite mulP_r1E; case: (mulP_r1 _ _ _ _ _ _ _ _ _ _ _ _ _ _ _ _ _ _ _ _ _ _ _ _ _ _ _ _ _ _ _ _ _ _ _ _ _ _ _ _ _ _ _ _ _) => [[[[[[[[[[[[[[a1_0 a1_1] a1_2] a1_3] a1_4] a1_5] a1_6] a1_7] a1_8] a1_9] a1_10] a1_11] a1_12] a1_13] a1_14]; cbv beta iota.
rewrite mulP_r2E; case: (mulP_r2 _ _ _ _ _ _ _ _ _ _ _ _ _ _ _ _ _ _ _ _ _ _ _ _ _ _ _ _ _ _ _ _ _ _ _ _ _ _ _ _ _ _ _ _ _) => [[[[[[[[[[[[[[a2_0 a2_1] a2_2] a2_3] a2_4] a2_5] a2_6] a2_7] a2_8] a2_9] a2_10] a2_11] a2_12] a2_13] a2_14]; cbv beta iota.
rewrite mulP_r3E; case: (mulP_r3 _ _ _ _ _ _ _ _ _ _ _ _ _ _ _ _ _ _ _ _ _ _ _ _ _ _ _ _ _ _ _ _ _ _ _ _ _ _ _ _ _ _ _ _ _) => [[[[[[[[[[[[[[a3_0 a3_1] a3_2] a3_3] a3_4] a3_5] a3_6] a3_7] a3_8] a3_9] a3_10] a3_11] a3_12] a3_13] a3_14]; cbv beta iota.
rewrite mulP_r4E; case: (mulP_r4 _ _ _ _ _ _ _ _ _ _ _ _ _ _ _ _ _ _ _ _ _ _ _ _ _ _ _ _ _ _ _ _ _ _ _ _ _ _ _ _ _ _ _ _ _) => [[[[[[[[[[[[[[a4_0 a4_1] a4_2] a4_3] a4_4] a4_5] a4_6] a4_7] a4_8] a4_9] a4_10] a4_11] a4_12] a4_13] a4_14]; cbv beta iota.
rewrite mulP_r5E; case: (mulP_r5 _ _ _ _ _ _ _ _ _ _ _ _ _ _ _ _ _ _ _ _ _ _ _ _ _ _ _ _ _ _ _ _ _ _ _ _ _ _ _ _ _ _ _ _ _) => [[[[[[[[[[[[[[a5_0 a5_1] a5_2] a5_3] a5_4] a5_5] a5_6] a5_7] a5_8] a5_9] a5_10] a5_11] a5_12] a5_13] a5_14]; cbv beta iota.
rewrite mulP_r6E; case: (mulP_r6 _ _ _ _ _ _ _ _ _ _ _ _ _ _ _ _ _ _ _ _ _ _ _ _ _ _ _ _ _ _ _ _ _ _ _ _ _ _ _ _ _ _ _ _ _) => [[[[[[[[[[[[[[a6_0 a6_1] a6_2] a6_3] a6_4] a6_5] a6_6] a6_7] a6_8] a6_9] a6_10] a6_11] a6_12] a6_13] a6_14]; cbv beta iota.
rewrite mulP_r7E; case: (mulP_r7 _ _ _ _ _ _ _ _ _ _ _ _ _ _ _ _ _ _ _ _ _ _ _ _ _ _ _ _ _ _ _ _ _ _ _ _ _ _ _ _ _ _ _ _ _) => [[[[[[[[[[[[[[a7_0 a7_1] a7_2] a7_3] a7_4] a7_5] a7_6] a7_7] a7_8] a7_9] a7_10] a7_11] a7_12] a7_13] a7_14]; cbv beta iota.
rewrite mulP_r8E; case: (mulP_r8 _ _ _ _ _ _ _ _ _ _ _ _ _ _ _ _ _ _ _ _ _ _ _ _ _ _ _ _ _ _ _ _ _ _ _ _ _ _ _ _ _ _ _ _ _) => [[[[[[[[[[[[[[a8_0 a8_1] a8_2] a8_3] a8_4] a8_5] a8_6] a8_7] a8_8] a8_9] a8_10] a8_11] a8_12] a8_13] a8_14]; cbv beta iota.
rewrite mulP_r9E; case: (mulP_r9 _ _ _ _ _ _ _ _ _ _ _ _ _ _ _ _ _ _ _ _ _ _ _ _ _ _ _ _ _ _ _ _ _ _ _ _ _ _ _ _ _ _ _ _ _) => [[[[[[[[[[[[[[a9_0 a9_1] a9_2] a9_3] a9_4] a9_5] a9_6] a9_7] a9_8] a9_9] a9_10] a9_11] a9_12] a9_13] a9_14]; cbv beta iota.
rewrite mulP_r10E; case: (mulP_r10 _ _ _ _ _ _ _ _ _ _ _ _ _ _ _ _ _ _ _ _ _ _ _ _ _ _ _ _ _ _ _ _ _ _ _ _ _ _ _ _ _ _ _ _ _) => [[[[[[[[[[[[[[a10_0 a10_1] a10_2] a10_3] a10_4] a10_5] a10_6] a10_7] a10_8] a10_9] a10_10] a10_11] a10_12] a10_13] a10_14]; cbv beta iota.
rewrite mulP_r11E; case: (mulP_r11 _ _ _ _ _ _ _ _ _ _ _ _ _ _ _ _ _ _ _ _ _ _ _ _ _ _ _ _ _ _ _ _ _ _ _ _ _ _ _ _ _ _ _ _ _) => [[[[[[[[[[[[[[a11_0 a11_1] a11_2] a11_3] a11_4] a11_5] a11_6] a11_7] a11_8] a11_9] a11_10] a11_11] a11_12] a11_13] a11_14]; cbv beta iota.
rewrite mulP_r12E; case: (mulP_r12 _ _ _ _ _ _ _ _ _ _ _ _ _ _ _ _ _ _ _ _ _ _ _ _ _ _ _ _ _ _ _ _ _ _ _ _ _ _ _ _ _ _ _ _ _) => [[[[[[[[[[[[[[a12_0 a12_1] a12_2] a12_3] a12_4] a12_5] a12_6] a12_7] a12_8] a12_9] a12_10] a12_11] a12_12] a12_13] a12_14]; cbv beta iota.
rewrite mulP_r13E; case: (mulP_r13 _ _ _ _ _ _ _ _ _ _ _ _ _ _ _ _ _ _ _ _ _ _ _ _ _ _ _ _ _ _ _ _ _ _ _ _ _ _ _ _ _ _ _ _ _) => [[[[[[[[[[[[[[a13_0 a13_1] a13_2] a13_3] a13_4] a13_5] a13_6] a13_7] a13_8] a13_9] a13_10] a13_11] a13_12] a13_13] a13_14]; cbv beta iota.
tail (@less14).
Qed.
Lemma square_r0E q0 q1 q2 q3 q4 q5 q6 q7 q8 q9 q10 q11 q12 q13 qi r one co k x0 x1 x2 x3 x4 x5 x6 x7 x8 x9 x10 x11 x12 x13 :
  ciosFirst (Gen [:: q0; q1; q2; q3; q4; q5; q6; q7; q8; q9; q10; q11; q12; q13] qi r one co k true true) [:: x0; x1; x2; x3; x4; x5; x6; x7; x8; x9; x10; x11; x12; x13] x0 =
  let: (s0, s1, s2, s3, s4, s5, s6, s7, s8, s9, s10, s11, s12, s13, s14) := square_r0 q0 q1 q2 q3 q4 q5 q6 q7 q8 q9 q10 q11 q12 q13 qi x0 x1 x2 x3 x4 x5 x6 x7 x8 x9 x10 x11 x12 x13  0%Z 0%Z 0%Z 0%Z 0%Z 0%Z 0%Z 0%Z 0%Z 0%Z 0%Z 0%Z 0%Z 0%Z 0%Z in ([:: s0; s1; s2; s3; s4; s5; s6; s7; s8; s9; s10; s11; s12; s13], s14).
Proof. rewrite /square_r0; unroll (@less14) (@isZero14). Qed.
Lemma square_r1E q0 q1 q2 q3 q4 q5 q6 q7 q8 q9 q10 q11 q12 q13 qi r one co k x0 x1 x2 x3 x4 x5 x6 x7 x8 x9 x10 x11 x12 x13 t0 t1 t2 t3 t4 t5 t6 t7 t8 t9 t10 t11 t12 t13 t14 :
  ciosRound (Gen [:: q0; q1; q2; q3; q4; q5; q6; q7; q8; q9; q10; q11; q12; q13] qi r one co k true true) [:: x0; x1; x2; x3; x4; x5; x6; x7; x8; x9; x10; x11; x12; x13] ([:: t0; t1; t2; t3; t4; t5; t6; t7; t8; t9; t10; t11; t12; t13], t14) x1 =
  let: (s0, s1, s2, s3, s4, s5, s6, s7, s8, s9, s10, s11, s12, s13, s14) := square_r1 q0 q1 q2 q3 q4 q5 q6 q7 q8 q9 q10 q11 q12 q13 qi x0 x1 x2 x3 x4 x5 x6 x7 x8 x9 x10 x11 x12 x13  t0 t1 t2 t3 t4 t5 t6 t7 t8 t9 t10 t11 t12 t13 t14 in ([:: s0; s1; s2; s3; s4; s5; s6; s7; s8; s9; s10; s11; s12; s13], s14).
Proof. rewrite /square_r1; unroll (@less14) (@isZero14). Qed.
Lemma square_r2E q0 q1 q2 q3 q4 q5 q6 q7 q8 q9 q10 q11 q12 q13 qi r one co k x0 x1 x2 x3 x4 x5 x6 x7 x8 x9 x10 x11 x12 x13 t0 t1 t2 t3 t4 t5 t6 t7 t8 t9 t10 t11 t12 t13 t14 :
  ciosRound (Gen [:: q0; q1; q2; q3; q4; q5; q6; q7; q8; q9; q10; q11; q12; q13] qi r one co k true true) [:: x0; x1; x2; x3; x4; x5; x6; x7; x8; x9; x10; x11; x12; x13] ([:: t0; t1; t2; t3; t4; t5; t6; t7; t8; t9; t10; t11; t12; t13], t14) x2 =
  let: (s0, s1, s2, s3, s4, s5, s6, s7, s8, s9, s10, s11, s12, s13, s14) := square_r2 q0 q1 q2 q3 q4 q5 q6 q7 q8 q9 q10 q11 q12 q13 qi x0 x1 x2 x3 x4 x5 x6 x7 x8 x9 x10 x11 x12 x13  t0 t1 t2 t3 t4 t5 t6 t7 t8 t9 t10 t11 t12 t13 t14 in ([:: s0; s1; s2; s3; s4; s5; s6; s7; s8; s9; s10; s11; s12; s13], s14).
Proof. rewrite /square_r2; unroll (@less14) (@isZero14). Qed.
Lemma square_r3E q0 q1 q2 q3 q4 q5 q6 q7 q8 q9 q10 q11 q12 q13 qi r one co k x0 x1 x2 x3 x4 x5 x6 x7 x8 x9 x10 x11 x12 x13 t0 t1 t2 t3 t4 t5 t6 t7 t8 t9 t10 t11 t12 t13 t14 :
  ciosRound (Gen [:: q0; q1; q2; q3; q4; q5; q6; q7; q8; q9; q10; q11; q12; q13] qi r one co k true true) [:: x0; x1; x2; x3; x4; x5; x6; x7; x8; x9; x10; x11; x12; x13] ([:: t0; t1; t2; t3; t4; t5; t6; t7; t8; t9; t10; t11; t12; t13], t14) x3 =
  let: (s0, s1, s2, s3, s4, s5, s6, s7, s8, s9, s10, s11, s12, s13, s14) := square_r3 q0 q1 q2 q3 q4 q5 q6 q7 q8 q9 q10 q11 q12 q13 qi x0 x1 x2 x3 x4 x5 x6 x7 x8 x9 x10 x11 x12 x13  t0 t1 t2 t3 t4 t5 t6 t7 t8 t9 t10 t11 t12 t13 t14 in ([:: s0; s1; s2; s3; s4; s5; s6; s7; s8; s9; s10; s11; s12; s13], s14).
Proof. rewrite /square_r3; unroll (@less14) (@isZero14). Qed.
Lemma square_r4E q0 q1 q2 q3 q4 q5 q6 q7 q8 q9 q10 q11 q12 q13 qi r one co k x0 x1 x2 x3 x4 x5 x6 x7 x8 x9 x10 x11 x12 x13 t0 t1 t2 t3 t4 t5 t6 t7 t8 t9 t10 t11 t12 t13 t14 :
  ciosRound (Gen [:: q0; q1; q2; q3; q4; q5; q6; q7; q8; q9; q10; q11; q12; q13] qi r one co k true true) [:: x0; x1; x2; x3; x4; x5; x6; x7; x8; x9; x10; x11; x12; x13] ([:: t0; t1; t2; t3; t4; t5; t6; t7; t8; t9; t10; t11; t12; t13], t14) x4 =
  let: (s0, s1, s2, s3, s4, s5, s6, s7, s8, s9, s10, s11, s12, s13, s14) := square_r4 q0 q1 q2 q3 q4 q5 q6 q7 q8 q9 q10 q11 q12 q13 qi x0 x1 x2 x3 x4 x5 x6 x7 x8 x9 x10 x11 x12 x13  t0 t1 t2 t3 t4 t5 t6 t7 t8 t9 t10 t11 t12 t13 t14 in ([:: s0; s1; s2; s3; s4; s5; s6; s7; s8; s9; s10; s11; s12; s13], s14).
Proof. rewrite /square_r4; unroll (@less14) (@isZero14). Qed.
Lemma square_r5E q0 q1 q2 q3 q4 q5 q6 q7 q8 q9 q10 q11 q12 q13 qi r one co k x0 x1 x2 x3 x4 x5 x6 x7 x8 x9 x10 x11 x12 x13 t0 t1 t2 t3 t4 t5 t6 t7 t8 t9 t10 t11 t12 t13 t14 :
  ciosRound (Gen [:: q0; q1; q2; q3; q4; q5; q6; q7; q8; q9; q10; q11; q12; q13] qi r one co k true true) [:: x0; x1; x2; x3; x4; x5; x6; x7; x8; x9; x10; x11; x12; x13] ([:: t0; t1; t2; t3; t4; t5; t6; t7; t8; t9; t10; t11; t12; t13], t14) x5 =
  let: (s0, s1, s2, s3, s4, s5, s6, s7, s8, s9, s10, s11, s12, s13, s14) := square_r5 q0 q1 q2 q3 q4 q5 q6 q7 q8 q9 q10 q11 q12 q13 qi x0 x1 x2 x3 x4 x5 x6 x7 x8 x9 x10 x11 x12 x13  t0 t1 t2 t3 t4 t5 t6 t7 t8 t9 t10 t11 t12 t13 t14 in ([:: s0; s1; s2; s3; s4; s5; s6; s7; s8; s9; s10; s11; s12; s13], s14).
Proof. rewrite /square_r5; unroll (@less14) (@isZero14). Qed.
Lemma square_r6E q0 q1 q2 q3 q4 q5 q6 q7 q8 q9 q10 q11 q12 q13 qi r one co k x0 x1 x2 x3 x4 x5 x6 x7 x8 x9 x10 x11 x12 x13 t0 t1 t2 t3 t4 t5 t6 t7 t8 t9 t10 t11 t12 t13 t14 :
  ciosRound (Gen [:: q0; q1; q2; q3; q4; q5; q6; q7; q8; q9; q10; q11; q12; q13] qi r one co k true true) [:: x0; x1; x2; x3; x4; x5; x6; x7; x8; x9; x10; x11; x12; x13] ([:: t0; t1; t2; t3; t4; t5; t6; t7; t8; t9; t10; t11; t12; t13], t14) x6 =
  let: (s0, s1, s2, s3, s4, s5, s6, s7, s8, s9, s10, s11, s12, s13, s14) := square_r6 q0 q1 q2 q3 q4 q5 q6 q7 q8 q9 q10 q11 q12 q13 qi x0 x1 x2 x3 x4 x5 x6 x7 x8 x9 x10 x11 x12 x13  t0 t1 t2 t3 t4 t5 t6 t7 t8 t9 t10 t11 t12 t13 t14 in ([:: s0; s1; s2; s3; s4; s5; s6; s7; s8; s9; s10; s11; s12; s13], s14).
Proof. rewrite /square_r6; unroll (@less14) (@isZero14). Qed.
Lemma square_r7E q0 q1 q2 q3 q4 q5 q6 q7 q8 q9 q10 q11 q12 q13 qi r one co k x0 x1 x2 x3 x4 x5 x6 x7 x8 x9 x10 x11 x12 x13 t0 t1 t2 t3 t4 t5 t6 t7 t8 t9 t10 t11 t12 t13 t14 :
  ciosRound (Gen [:: q0; q1; q2; q3; q4; q5; q6; q7; q8; q9; q10; q11; q12; q13] qi r one co k true true) [:: x0; x1; x2; x3; x4; x5; x6; x7; x8; x9; x10; x11; x12; x13] ([:: t0; t1; t2; t3; t4; t5; t6; t7; t8; t9; t10; t11; t12; t13], t14) x7 =
  let: (s0, s1, s2, s3, s4, s5, s6, s7, s8, s9, s10, s11, s12, s13, s14) := square_r7 q0 q1 q2 q3 q4 q5 q6 q7 q8 q9 q10 q11 q12 q13 qi x0 x1 x2 x3 x4 x5 x6 x7 x8 x9 x10 x11 x12 x13  t0 t1 t2 t3 t4 t5 t6 t7 t8 t9 t10 t11 t12 t13 t14 in ([:: s0; s1; s2; s3; s4; s5; s6; s7; s8; s9; s10; s11; s12; s13], s14).
Proof. rewrite /square_r7; unroll (@less14) (@isZero14). Qed.
Lemma square_r8E q0 q1 q2 q3 q4 q5 q6 q7 q8 q9 q10 q11 q12 q13 qi r one co k x0 x1 x2 x3 x4 x5 x6 x7 x8 x9 x10 x11 x12 x13 t0 t1 t2 t3 t4 t5 t6 t7 t8 t9 t10 t11 t12 t13 t14 :
  ciosRound (Gen [:: q0; q1; q2; q3; q4; q5; q6; q7; q8; q9; q10; q11; q12; q13] qi r one co k true true) [:: x0; x1; x2; x3; x4; x5; x6; x7; x8; x9; x10; x11; x12; x13] ([:: t0; t1; t2; t3; t4; t5; t6; t7; t8; t9; t10; t11; t12; t13], t14) x8 =
  let: (s0, s1, s2, s3, s4, s5, s6, s7, s8, s9, s10, s11, s12, s13, s14) := square_r8 q0 q1 q2 q3 q4 q5 q6 q7 q8 q9 q10 q11 q12 q13 qi x0 x1 x2 x3 x4 x5 x6 x7 x8 x9 x10 x11 x12 x13  t0 t1 t2 t3 t4 t5 t6 t7 t8 t9 t10 t11 t12 t13 t14 in ([:: s0; s1; s2; s3; s4; s5; s6; s7; s8; s9; s10; s11; s12; s13], s14).
Proof. rewrite /square_r8; unroll (@less14) (@isZero14). Qed.
Lemma square_r9E q0 q1 q2 q3 q4 q5 q6 q7 q8 q9 q10 q11 q12 q13 qi r one co k x0 x1 x2 x3 x4 x5 x6 x7 x8 x9 x10 x11 x12 x13 t0 t1 t2 t3 t4 t5 t6 t7 t8 t9 t10 t11 t12 t13 t14 :
  ciosRound (Gen [:: q0; q1; q2; q3; q4; q5; q6; q7; q8; q9; q10; q11; q12; q13] qi r one co k true true) [:: x0; x1; x2; x3; x4; x5; x6; x7; x8; x9; x10; x11; x12; x13] ([:: t0; t1; t2; t3; t4; t5; t6; t7; t8; t9; t10; t11; t12; t13], t14) x9 =
  let: (s0, s1, s2, s3, s4, s5, s6, s7, s8, s9, s10, s11, s12, s13, s14) := square_r9 q0 q1 q2 q3 q4 q5 q6 q7 q8 q9 q10 q11 q12 q13 qi x0 x1 x2 x3 x4 x5 x6 x7 x8 x9 x10 x11 x12 x13  t0 t1 t2 t3 t4 t5 t6 t7 t8 t9 t10 t11 t12 t13 t14 in ([:: s0; s1; s2; s3; s4; s5; s6; s7; s8; s9; s10; s11; s12; s13], s14).
Proof. rewrite /square_r9; unroll (@less14) (@isZero14). Qed.
Lemma square_r10E q0 q1 q2 q3 q4 q5 q6 q7 q8 q9 q10 q11 q12 q13 qi r one co k x0 x1 x2 x3 x4 x5 x6 x7 x8 x9 x10 x11 x12 x13 t0 t1 t2 t3 t4 t5 t6 t7 t8 t9 t10 t11 t12 t13 t14 :
  ciosRound (Gen [:: q0; q1; q2; q3; q4; q5; q6; q7; q8; q9; q10; q11; q12; q13] qi r one co k true true) [:: x0; x1; x2; x3; x4; x5; x6; x7; x8; x9; x10; x11; x12; x13] ([:: t0; t1; t2; t3; t4; t5; t6; t7; t8; t9; t10; t11; t12; t13], t14) x10 =
  let: (s0, s1, s2, s3, s4, s5, s6, s7, s8, s9, s10, s11, s12, s13, s14) := square_r10 q0 q1 q2 q3 q4 q5 q6 q7 q8 q9 q10 q11 q12 q13 qi x0 x1 x2 x3 x4 x5 x6 x7 x8 x9 x10 x11 x12 x13  t0 t1 t2 t3 t4 t5 t6 t7 t8 t9 t10 t11 t12 t13 t14 in ([:: s0; s1; s2; s3; s4; s5; s6; s7; s8; s9; s10; s11; s12; s13], s14).
Proof. rewrite /square_r10; unroll (@less14) (@isZero14). Qed.
Lemma square_r11E q0 q1 q2 q3 q4 q5 q6 q7 q8 q9 q10 q11 q12 q13 qi r one co k x0 x1 x2 x3 x4 x5 x6 x7 x8 x9 x10 x11 x12 x13 t0 t1 t2 t3 t4 t5 t6 t7 t8 t9 t10 t11 t12 t13 t14 :
  ciosRound (Gen [:: q0; q1; q2; q3; q4; q5; q6; q7; q8; q9; q10; q11; q12; q13] qi r one co k true true) [:: x0; x1; x2; x3; x4; x5; x6; x7; x8; x9; x10; x11; x12; x13] ([:: t0; t1; t2; t3; t4; t5; t6; t7; t8; t9; t10; t11; t12; t13], t14) x11 =
  let: (s0, s1, s2, s3, s4, s5, s6, s7, s8, s9, s10, s11, s12, s13, s14) := square_r11 q0 q1 q2 q3 q4 q5 q6 q7 q8 q9 q10 q11 q12 q13 qi x0 x1 x2 x3 x4 x5 x6 x7 x8 x9 x10 x11 x12 x13  t0 t1 t2 t3 t4 t5 t6 t7 t8 t9 t10 t11 t12 t13 t14 in ([:: s0; s1; s2; s3; s4; s5; s6; s7; s8; s9; s10; s11; s12; s13], s14).
Proof. rewrite /square_r11; unroll (@less14) (@isZero14). Qed.
Lemma square_r12E q0 q1 q2 q3 q4 q5 q6 q7 q8 q9 q10 q11 q12 q13 qi r one co k x0 x1 x2 x3 x4 x5 x6 x7 x8 x9 x10 x11 x12 x13 t0 t1 t2 t3 t4 t5 t6 t7 t8 t9 t10 t11 t12 t13 t14 :
  ciosRound (Gen [:: q0; q1; q2; q3; q4; q5; q6; q7; q8; q9; q10; q11; q12; q13] qi r one co k true true) [:: x0; x1; x2; x3; x4; x5; x6; x7; x8; x9; x10; x11; x12; x13] ([:: t0; t1; t2; t3; t4; t5; t6; t7; t8; t9; t10; t11; t12; t13], t14) x12 =
  let: (s0, s1, s2, s3, s4, s5, s6, s7, s8, s9, s10, s11, s12, s13, s14) := square_r12 q0 q1 q2 q3 q4 q5 q6 q7 q8 q9 q10 q11 q12 q13 qi x0 x1 x2 x3 x4 x5 x6 x7 x8 x9 x10 x11 x12 x13  t0 t1 t2 t3 t4 t5 t6 t7 t8 t9 t10 t11 t12 t13 t14 in ([:: s0; s1; s2; s3; s4; s5; s6; s7; s8; s9; s10; s11; s12; s13], s14).
Proof. rewrite /square_r12; unroll (@less14) (@isZero14). Qed.
Lemma square_r13E q0 q1 q2 q3 q4 q5 q6 q7 q8 q9 q10 q11 q12 q13 qi r one co k x0 x1 x2 x3 x4 x5 x6 x7 x8 x9 x10 x11 x12 x13 t0 t1 t2 t3 t4 t5 t6 t7 t8 t9 t10 t11 t12 t13 t14 :
  ciosRound (Gen [:: q0; q1; q2; q3; q4; q5; q6; q7; q8; q9; q10; q11; q12; q13] qi r one co k true true) [:: x0; x1; x2; x3; x4; x5; x6; x7; x8; x9; x10; x11; x12; x13] ([:: t0; t1; t2; t3; t4; t5; t6; t7; t8; t9; t10; t11; t12; t13], t14) x13 =
  let: (s0, s1, s2, s3, s4, s5, s6, s7, s8, s9, s10, s11, s12, s13, s14) := square_r13 q0 q1 q2 q3 q4 q5 q6 q7 q8 q9 q10 q11 q12 q13 qi x0 x1 x2 x3 x4 x5 x6 x7 x8 x9 x10 x11 x12 x13  t0 t1 t2 t3 t4 t5 t6 t7 t8 t9 t10 t11 t12 t13 t14 in ([:: s0; s1; s2; s3; s4; s5; s6; s7; s8; s9; s10; s11; s12; s13], s14).
Proof. rewrite /square_r13; unroll (@less14) (@isZero14). Qed.
Theorem unrolled14_Square q0 q1 q2 q3 q4 q5 q6 q7 q8 q9 q10 q11 q12 q13 qi r one co k x0 x1 x2 x3 x4 x5 x6 x7 x8 x9 x10 x11 x12 x13 :
  mulGeneric (Gen [:: q0; q1; q2; q3; q4; q5; q6; q7; q8; q9; q10; q11; q12; q13] qi r one co k true true) [:: x0; x1; x2; x3; x4; x5; x6; x7; x8; x9; x10; x11; x12; x13] [:: x0; x1; x2; x3; x4; x5; x6; x7; x8; x9; x10; x11; x12; x13] =
  square q0 q1 q2 q3 q4 q5 q6 q7 q8 q9 q10 q11 q12 q13 qi x0 x1 x2 x3 x4 x5 x6 x7 x8 x9 x10 x11 x12 x13.
Proof.
rewrite /mulGeneric /square; cbn [foldl behead hd0 nth]; cbv beta zeta.
cbv beta delta [hd0]; cbn [nth].
rewrite square_r0E; case: (square_r0 _ _ _ _ _ _ _ _ _ _ _ _ _ _ _ _ _ _ _ _ _ _ _ _ _ _ _ _ _ _ _ _ _ _ _ _ _ _ _ _ _ _ _ _) => [[[[[[[[[[[[[[a0_0 a0_1] a0_2] a0_3] a0_4] a0_5] a0_6] a0_7] a0_8] a0_9] a0_10] a0_11] a0_12] a0_13] a0_14]; cbv beta iota.
rewrite square_r1E; case: (square_r1 _ _ _ _ _ _ _ _ _ _ _ _ _ _ _ _ _ _ _ _ _ _ _ _ _ _ _ _ _ _ _ _ _ _ _ _ _ _ _ _ _ _ _ _) => [[[[[[[[[[[[[[a1_0 a1_1] a1_2] a1_3] a1_4] a1_5] a1_6] a1_7] a1_8] a1_9] a1_10] a1_11] a1_12] a1_13] a1_14]; cbv beta iota.
rewrite square_r2E; case: (square_r2 _ _ _ _ _ _ _ _ _ _ _ _ _ _ _ _ _ _ _ _ _ _ _ _ _ _ _ _ _ _ _ _ _ _ _ _ _ _ _ _ _ _ _ _) => [[[[[[[[[[[[[[a2_0 a2_1] a2_2] a2_3] a2_4] a2_5] a2_6] a2_7] a2_8] a2_9] a2_10] a2_11] a2_12] a2_13] a2_14]; cbv beta iota.
rewrite square_r3E; case: (square_r3 _ _ _ _ _ _ _ _ _ _ _ _ _ _ _ _ _ _ _ _ _ _ _ _ _ _ _ _ _ _ _ _ _ _ _ _ _ _ _ _ _ _ _ _) => [[[[[[[[[[[[[[a3_0 a3_1] a3_2] a3_3] a3_4] a3_5] a3_6] a3_7] a3_8] a3_9] a3_10] a3_11] a3_12] a3_13] a3_14]; cbv beta iota.
rewrite square_r4E; case: (square_r4 _ _ _ _ _ _ _ _ _ _ _ _ _ _ _ _ _ _ _ _ _ _ _ _ _ _ _ _ _ _ _ _ _ _ _ _ _ _ _ _ _ _ _ _) => [[[[[[[[[[[[[[a4_0 a4_1] a4_2] a4_3] a4_4] a4_5] a4_6] a4_7] a4_8] a4_9] a4_10] a4_11] a4_12] a4_13] a4_14]; cbv beta iota.
rewrite square_r5E; case: (square_r5 _ _ _ _ _ _ _ _ _ _ _ _ _ _ _ _ _ _ _ _ _ _ _ _ _ _ _ _ _ _ _ _ _ _ _ _ _ _ _ _ _ _ _ _) => [[[[[[[[[[[[[[a5_0 a5_1] a5_2] a5_3] a5_4] a5_5] a5_6] a5_7] a5_8] a5_9] a5_10] a5_11] a5_12] a5_13] a5_14]; cbv beta iota.
rewrite square_r6E; case: (square_r6 _ _ _ _ _ _ _ _ _ _ _ _ _ _ _ _ _ _ _ _ _ _ _ _ _ _ _ _ _ _ _ _ _ _ _ _ _ _ _ _ _ _ _ _) => [[[[[[[[[[[[[[a6_0 a6_1] a6_2] a6_3] a6_4] a6_5] a6_6] a6_7] a6_8] a6_9] a6_10] a6_11] a6_12] a6_13] a6_14]; cbv beta iota.
rewrite square_r7E; case: (square_r7 _ _ _ _ _ _ _ _ _ _ _ _ _ _ _ _ _ _ _ _ _ _ _ _ _ _ _ _ _ _ _ _ _ _ _ _ _ _ _ _ _ _ _ _) => [[[[[[[[[[[[[[a7_0 a7_1] a7_2] a7_3] a7_4] a7_5] a7_6] a7_7] a7_8] a7_9] a7_10] a7_11] a7_12] a7_13] a7_14]; cbv beta iota.
rewrite square_r8E; case: (square_r8 _ _ _ _ _ _ _ _ _ _ _ _ _ _ _ _ _ _ _ _ _ _ _ _ _ _ _ _ _ _ _ _ _ _ _ _ _ _ _ _ _ _ _ _) => [[[[[[[[[[[[[[a8_0 a8_1] a8_2] a8_3] a8_4] a8_5] a8_6] a8_7] a8_8] a8_9] a8_10] a8_11] a8_12] a8_13] a8_14]; cbv beta iota.
rewrite square_r9E; case: (square_r9 _ _ _ _ _ _ _ _ _ _ _ _ _ _ _ _ _ _ _ _ _ _ _ _ _ _ _ _ _ _ _ _ _ _ _ _ _ _ _ _ _ _ _ _) => [[[[[[[[[[[[[[a9_0 a9_1] a9_2] a9_3] a9_4] a9_5] a9_6] a9_7] a9_8] a9_9] a9_10] a9_11] a9_12] a9_13] a9_14]; cbv beta iota.
rewrite square_r10E; case: (square_r10 _ _ _ _ _ _ _ _ _ _ _ _ _ _ _ _ _ _ _ _ _ _ _ _ _ _ _ _ _ _ _ _ _ _ _ _ _ _ _ _ _ _ _ _) => [[[[[[[[[[[[[[a10_0 a10_1] a10_2] a10_3] a10_4] a10_5] a10_6] a10_7] a10_8] a10_9] a10_10] a10_11] a10_12] a10_13] a10_14]; cbv beta iota.
rewrite square_r11E; case: (square_r11 _ _ _ _ _ _ _ _ _ _ _ _ _ _ _ _ _ _ _ _ _ _ _ _ _ _ _ _ _ _ _ _ _ _ _ _ _ _ _ _ _ _ _ _) => [[[[[[[[[[[[[[a11_0 a11_1] a11_2] a11_3] a11_4] a11_5] a11_6] a11_7] a11_8] a11_9] a11_10] a11_11] a11_12] a11_13] a11_14]; cbv beta iota.
rewrite square_r12E; case: (square_r12 _ _ _ _ _ _ _ _ _ _ _ _ _ _ _ _ _ _ _ _ _ _ _ _ _ _ _ _ _ _ _ _ _ _ _ _ _ _ _ _ _ _ _ _) => [[[[[[[[[[[[[[a12_0 a12_1] a12_2] a12_3] a12_4] a12_5] a12_6] a12_7] a12_8] a12_9] a12_10] a12_11] a12_12] a12_13] a12_14]; cbv beta iota.
rewrite square_r13E; case: (square_r13 _ _ _ _ _ _ _ _ _ _ _ _ _ _ _ _ _ _ _ _ _ _ _ _ _ _ _ _ _ _ _ _ _ _ _ _ _ _ _ _ _ _ _ _) => [[[[[[[[[[[[[[a13_0 a13_1] a13_2] a13_3] a13_4] a13_5] a13_6] a13_7] a13_8] a13_9] a13_10] a13_11] a13_12] a13_13] a13_14]; cbv beta iota.
tail (@less14).
Qed.
Lemma from_r0E q0 q1 q2 q3 q4 q5 q6 q7 q8 q9 q10 q11 q12 q13 qi r one co k z0 z1 z2 z3 z4 z5 z6 z7 z8 z9 z10 z11 z12 z13 :
  montRound (Gen [:: q0; q1; q2; q3; q4; q5; q6; q7; q8; q9; q10; q11; q12; q13] qi r one co k true true) [:: z0; z1; z2; z3; z4; z5; z6; z7; z8; z9; z10; z11; z12; z13] =
  let: (s0, s1, s2, s3, s4, s5, s6, s7, s8, s9, s10, s11, s12, s13) := from_r0 q0 q1 q2 q3 q4 q5 q6 q7 q8 q9 q10 q11 q12 q13 qi z0 z1 z2 z3 z4 z5 z6 z7 z8 z9 z10 z11 z12 z13 in [:: s0; s1; s2; s3; s4; s5; s6; s7; s8; s9; s10; s11; s12; s13].
Proof. rewrite /from_r0; unroll (@less14) (@isZero14). Qed.
Lemma from_r1E q0 q1 q2 q3 q4 q5 q6 q7 q8 q9 q10 q11 q12 q13 qi r one co k z0 z1 z2 z3 z4 z5 z6 z7 z8 z9 z10 z11 z12 z13 :
  montRound (Gen [:: q0; q1; q2; q3; q4; q5; q6; q7; q8; q9; q10; q11; q12; q13] qi r one co k true true) [:: z0; z1; z2; z3; z4; z5; z6; z7; z8; z9; z10; z11; z12; z13] =
  let: (s0, s1, s2, s3, s4, s5, s6, s7, s8, s9, s10, s11, s12, s13) := from_r1 q0 q1 q2 q3 q4 q5 q6 q7 q8 q9 q10 q11 q12 q13 qi z0 z1 z2 z3 z4 z5 z6 z7 z8 z9 z10 z11 z12 z13 in [:: s0; s1; s2; s3; s4; s5; s6; s7; s8; s9; s10; s11; s12; s13].
Proof. rewrite /from_r1; unroll (@less14) (@isZero14). Qed.
Lemma from_r2E q0 q1 q2 q3 q4 q5 q6 q7 q8 q9 q10 q11 q12 q13 qi r one co k z0 z1 z2 z3 z4 z5 z6 z7 z8 z9 z10 z11 z12 z13 :
  montRound (Gen [:: q0; q1; q2; q3; q4; q5; q6; q7; q8; q9; q10; q11; q12; q13] qi r one co k true true) [:: z0; z1; z2; z3; z4; z5; z6; z7; z8; z9; z10; z11; z12; z13] =
  let: (s0, s1, s2, s3, s4, s5, s6, s7, s8, s9, s10, s11, s12, s13) := from_r2 q0 q1 q2 q3 q4 q5 q6 q7 q8 q9 q10 q11 q12 q13 qi z0 z1 z2 z3 z4 z5 z6 z7 z8 z9 z10 z11 z12 z13 in [:: s0; s1; s2; s3; s4; s5; s6; s7; s8; s9; s10; s11; s12; s13].
Proof. rewrite /from_r2; unroll (@less14) (@isZero14). Qed.
Lemma from_r3E q0 q1 q2 q3 q4 q5 q6 q7 q8 q9 q10 q11 q12 q13 qi r one co k z0 z1 z2 z3 z4 z5 z6 z7 z8 z9 z10 z11 z12 z13 :
  montRound (Gen [:: q0; q1; q2; q3; q4; q5; q6; q7; q8; q9; q10; q11; q12; q13] qi r one co k true true) [:: z0; z1; z2; z3; z4; z5; z6; z7; z8; z9; z10; z11; z12; z13] =
  let: (s0, s1, s2, s3, s4, s5, s6, s7, s8, s9, s10, s11, s12, s13) := from_r3 q0 q1 q2 q3 q4 q5 q6 q7 q8 q9 q10 q11 q12 q13 qi z0 z1 z2 z3 z4 z5 z6 z7 z8 z9 z10 z11 z12 z13 in [:: s0; s1; s2; s3; s4; s5; s6; s7; s8; s9; s10; s11; s12; s13].
Proof. rewrite /from_r3; unroll (@less14) (@isZero14). Qed.
Lemma from_r4E q0 q1 q2 q3 q4 q5 q6 q7 q8 q9 q10 q11 q12 q13 qi r one co k z0 z1 z2 z3 z4 z5 z6 z7 z8 z9 z10 z11 z12 z13 :
  montRound (Gen [:: q0; q1; q2; q3; q4; q5; q6; q7; q8; q9; q10; q11; q12; q13] qi r one co k true true) [:: z0; z1; z2; z3; z4; z5; z6; z7; z8; z9; z10; z11; z12; z13] =
  let: (s0, s1, s2, s3, s4, s5, s6, s7, s8, s9, s10, s11, s12, s13) := from_r4 q0 q1 q2 q3 q4 q5 q6 q7 q8 q9 q10 q11 q12 q13 qi z0 z1 z2 z3 z4 z5 z6 z7 z8 z9 z10 z11 z12 z13 in [:: s0; s1; s2; s3; s4; s5; s6; s7; s8; s9; s10; s11; s12; s13].
Proof. rewrite /from_r4; unroll (@less14) (@isZero14). Qed.
Lemma from_r5E q0 q1 q2 q3 q4 q5 q6 q7 q8 q9 q10 q11 q12 q13 qi r one co k z0 z1 z2 z3 z4 z5 z6 z7 z8 z9 z10 z11 z12 z13 :
  montRound (Gen [:: q0; q1; q2; q3; q4; q5; q6; q7; q8; q9; q10; q11; q12; q13] qi r one co k true true) [:: z0; z1; z2; z3; z4; z5; z6; z7; z8; z9; z10; z11; z12; z13] =
  let: (s0, s1, s2, s3, s4, s5, s6, s7, s8, s9, s10, s11, s12, s13) := from_r5 q0 q1 q2 q3 q4 q5 q6 q7 q8 q9 q10 q11 q12 q13 qi z0 z1 z2 z3 z4 z5 z6 z7 z8 z9 z10 z11 z12 z13 in [:: s0; s1; s2; s3; s4; s5; s6; s7; s8; s9; s10; s11; s12; s13].
Proof. rewrite /from_r5; unroll (@less14) (@isZero14). Qed.
Lemma from_r6E q0 q1 q2 q3 q4 q5 q6 q7 q8 q9 q10 q11 q12 q13 qi r one co k z0 z1 z2 z3 z4 z5 z6 z7 z8 z9 z10 z11 z12 z13 :
  montRound (Gen [:: q0; q1; q2; q3; q4; q5; q6; q7; q8; q9; q10; q11; q12; q13] qi r one co k true true) [:: z0; z1; z2; z3; z4; z5; z6; z7; z8; z9; z10; z11; z12; z13] =
  let: (s0, s1, s2, s3, s4, s5, s6, s7, s8, s9, s10, s11, s12, s13) := from_r6 q0 q1 q2 q3 q4 q5 q6 q7 q8 q9 q10 q11 q12 q13 qi z0 z1 z2 z3 z4 z5 z6 z7 z8 z9 z10 z11 z12 z13 in [:: s0; s1; s2; s3; s4; s5; s6; s7; s8; s9; s10; s11; s12; s13].
Proof. rewrite /from_r6; unroll (@less14) (@isZero14). Qed.
Lemma from_r7E q0 q1 q2 q3 q4 q5 q6 q7 q8 q9 q10 q11 q12 q13 qi r one co k z0 z1 z2 z3 z4 z5 z6 z7 z8 z9 z10 z11 z12 z13 :
  montRound (Gen [:: q0; q1; q2; q3; q4; q5; q6; q7; q8; q9; q10; q11; q12; q13] qi r one co k true true) [:: z0; z1; z2; z3; z4; z5; z6; z7; z8; z9; z10; z11; z12; z13] =
  let: (s0, s1, s2, s3, s4, s5, s6, s7, s8, s9, s10, s11, s12, s13) := from_r7 q0 q1 q2 q3 q4 q5 q6 q7 q8 q9 q10 q11 q12 q13 qi z0 z1 z2 z3 z4 z5 z6 z7 z8 z9 z10 z11 z12 z13 in [:: s0; s1; s2; s3; s4; s5; s6; s7; s8; s9; s10; s11; s12; s13].
Proof. rewrite /from_r7; unroll (@less14) (@isZero14). Qed.
Lemma from_r8E q0 q1 q2 q3 q4 q5 q6 q7 q8 q9 q10 q11 q12 q13 qi r one co k z0 z1 z2 z3 z4 z5 z6 z7 z8 z9 z10 z11 z12 z13 :
  montRound (Gen [:: q0; q1; q2; q3; q4; q5; q6; q7; q8; q9; q10; q11; q12; q13] qi r one co k true true) [:: z0; z1; z2; z3; z4; z5; z6; z7; z8; z9; z10; z11; z12; z13] =
  let: (s0, s1, s2, s3, s4, s5, s6, s7, s8, s9, s10, s11, s12, s13) := from_r8 q0 q1 q2 q3 q4 q5 q6 q7 q8 q9 q10 q11 q12 q13 qi z0 z1 z2 z3 z4 z5 z6 z7 z8 z9 z10 z11 z12 z13 in [:: s0; s1; s2; s3; s4; s5; s6; s7; s8; s9; s10; s11; s12; s13].
Proof. rewrite /from_r8; unroll (@less14) (@isZero14). Qed.
Lemma from_r9E q0 q1 q2 q3 q4 q5 q6 q7 q8 q9 q10 q11 q12 q13 qi r one co k z0 z1 z2 z3 z4 z5 z6 z7 z8 z9 z10 z11 z12 z13 :
  montRound (Gen [:: q0; q1; q2; q3; q4; q5; q6; q7; q8; q9; q10; q11; q12; q13] qi r one co k true true) [:: z0; z1; z2; z3; z4; z5; z6; z7; z8; z9; z10; z11; z12; z13] =
  let: (s0, s1, s2, s3, s4, s5, s6, s7, s8, s9, s10, s11, s12, s13) := from_r9 q0 q1 q2 q3 q4 q5 q6 q7 q8 q9 q10 q11 q12 q13 qi z0 z1 z2 z3 z4 z5 z6 z7 z8 z9 z10 z11 z12 z13 in [:: s0; s1; s2; s3; s4; s5; s6; s7; s8; s9; s10; s11; s12; s13].
Proof. rewrite /from_r9; unroll (@less14) (@isZero14). Qed.
Lemma from_r10E q0 q1 q2 q3 q4 q5 q6 q7 q8 q9 q10 q11 q12 q13 qi r one co k z0 z1 z2 z3 z4 z5 z6 z7 z8 z9 z10 z11 z12 z13 :
  montRound (Gen [:: q0; q1; q2; q3; q4; q5; q6; q7; q8; q9; q10; q11; q12; q13] qi r one co k true true) [:: z0; z1; z2; z3; z4; z5; z6; z7; z8; z9; z10; z11; z12; z13] =
  let: (s0, s1, s2, s3, s4, s5, s6, s7, s8, s9, s10, s11, s12, s13) := from_r10 q0 q1 q2 q3 q4 q5 q6 q7 q8 q9 q10 q11 q12 q13 qi z0 z1 z2 z3 z4 z5 z6 z7 z8 z9 z10 z11 z12 z13 in [:: s0; s1; s2; s3; s4; s5; s6; s7; s8; s9; s10; s11; s12; s13].
Proof. rewrite /from_r10; unroll (@less14) (@isZero14). Qed.
Lemma from_r11E q0 q1 q2 q3 q4 q5 q6 q7 q8 q9 q10 q11 q12 q13 qi r one co k z0 z1 z2 z3 z4 z5 z6 z7 z8 z9 z10 z11 z12 z13 :
  montRound (Gen [:: q0; q1; q2; q3; q4; q5; q6; q7; q8; q9; q10; q11; q12; q13] qi r one co k true true) [:: z0; z1; z2; z3; z4; z5; z6; z7; z8; z9; z10; z11; z12; z13] =
  let: (s0, s1, s2, s3, s4, s5, s6, s7, s8, s9, s10, s11, s12, s13) := from_r11 q0 q1 q2 q3 q4 q5 q6 q7 q8 q9 q10 q11 q12 q13 qi z0 z1 z2 z3 z4 z5 z6 z7 z8 z9 z10 z11 z12 z13 in [:: s0; s1; s2; s3; s4; s5; s6; s7; s8; s9; s10; s11; s12; s13].
Proof. rewrite /from_r11; unroll (@less14) (@isZero14). Qed.
Lemma from_r12E q0 q1 q2 q3 q4 q5 q6 q7 q8 q9 q10 q11 q12 q13 qi r one co k z0 z1 z2 z3 z4 z5 z6 z7 z8 z9 z10 z11 z12 z13 :
  montRound (Gen [:: q0; q1; q2; q3; q4; q5; q6; q7; q8; q9; q10; q11; q12; q13] qi r one co k true true) [:: z0; z1; z2; z3; z4; z5; z6; z7; z8; z9; z10; z11; z12; z13] =
  let: (s0, s1, s2, s3, s4, s5, s6, s7, s8, s9, s10, s11, s12, s13) := from_r12 q0 q1 q2 q3 q4 q5 q6 q7 q8 q9 q10 q11 q12 q13 qi z0 z1 z2 z3 z4 z5 z6 z7 z8 z9 z10 z11 z12 z13 in [:: s0; s1; s2; s3; s4; s5; s6; s7; s8; s9; s10; s11; s12; s13].
Proof. rewrite /from_r12; unroll (@less14) (@isZero14). Qed.
Lemma from_r13E q0 q1 q2 q3 q4 q5 q6 q7 q8 q9 q10 q11 q12 q13 qi r one co k z0 z1 z2 z3 z4 z5 z6 z7 z8 z9 z10 z11 z12 z13 :
  montRound (Gen [:: q0; q1; q2; q3; q4; q5; q6; q7; q8; q9; q10; q11; q12; q13] qi r one co k true true) [:: z0; z1; z2; z3; z4; z5; z6; z7; z8; z9; z10; z11; z12; z13] =
  let: (s0, s1, s2, s3, s4, s5, s6, s7, s8, s9, s10, s11, s12, s13) := from_r13 q0 q1 q2 q3 q4 q5 q6 q7 q8 q9 q10 q11 q12 q13 qi z0 z1 z2 z3 z4 z5 z6 z7 z8 z9 z10 z11 z12 z13 in [:: s0; s1; s2; s3; s4; s5; s6; s7; s8; s9; s10; s11; s12; s13].
Proof. rewrite /from_r13; unroll (@less14) (@isZero14). Qed.
Theorem unrolled14_fromMont q0 q1 q2 q3 q4 q5 q6 q7 q8 q9 q10 q11 q12 q13 qi r one co k z0 z1 z2 z3 z4 z5 z6 z7 z8 z9 z10 z11 z12 z13 :
  fromMont (Gen [:: q0; q1; q2; q3; q4; q5; q6; q7; q8; q9; q10; q11; q12; q13] qi r one co k true true) [:: z0; z1; z2; z3; z4; z5; z6; z7; z8; z9; z10; z11; z12; z13] =
  from q0 q1 q2 q3 q4 q5 q6 q7 q8 q9 q10 q11 q12 q13 qi z0 z1 z2 z3 z4 z5 z6 z7 z8 z9 z10 z11 z12 z13.
Proof.
rewrite /fromMont /from; rewrite /Limbs; cbn [iter qs size]; cbv beta zeta.
rewrite from_r0E; case: (from_r0 _ _ _ _ _ _ _ _ _ _ _ _ _ _ _ _ _ _ _ _ _ _ _ _ _ _ _ _ _) => [[[[[[[[[[[[[a0_0 a0_1] a0_2] a0_3] a0_4] a0_5] a0_6] a0_7] a0_8] a0_9] a0_10] a0_11] a0_12] a0_13]; cbv beta iota.
rewrite from_r1E; case: (from_r1 _ _ _ _ _ _ _ _ _ _ _ _ _ _ _ _ _ _ _ _ _ _ _ _ _ _ _ _ _) => [[[[[[[[[[[[[a1_0 a1_1] a1_2] a1_3] a1_4] a1_5] a1_6] a1_7] a1_8] a1_9] a1_10] a1_11] a1_12] a1_13]; cbv beta iota.
rewrite from_r2E; case: (from_r2 _ _ _ _ _ _ _ _ _ _ _ _ _ _ _ _ _ _ _ _ _ _ _ _ _ _ _ _ _) => [[[[[[[[[[[[[a2_0 a2_1] a2_2] a2_3] a2_4] a2_5] a2_6] a2_7] a2_8] a2_9] a2_10] a2_11] a2_12] a2_13]; cbv beta iota.
rewrite from_r3E; case: (from_r3 _ _ _ _ _ _ _ _ _ _ _ _ _ _ _ _ _ _ _ _ _ _ _ _ _ _ _ _ _) => [[[[[[[[[[[[[a3_0 a3_1] a3_2] a3_3] a3_4] a3_5] a3_6] a3_7] a3_8] a3_9] a3_10] a3_11] a3_12] a3_13]; cbv beta iota.
rewrite from_r4E; case: (from_r4 _ _ _ _ _ _ _ _ _ _ _ _ _ _ _ _ _ _ _ _ _ _ _ _ _ _ _ _ _) => [[[[[[[[[[[[[a4_0 a4_1] a4_2] a4_3] a4_4] a4_5] a4_6] a4_7] a4_8] a4_9] a4_10] a4_11] a4_12] a4_13]; cbv beta iota.
rewrite from_r5E; case: (from_r5 _ _ _ _ _ _ _ _ _ _ _ _ _ _ _ _ _ _ _ _ _ _ _ _ _ _ _ _ _) => [[[[[[[[[[[[[a5_0 a5_1] a5_2] a5_3] a5_4] a5_5] a5_6] a5_7] a5_8] a5_9] a5_10] a5_11] a5_12] a5_13]; cbv beta iota.
rewrite from_r6E; case: (from_r6 _ _ _ _ _ _ _ _ _ _ _ _ _ _ _ _ _ _ _ _ _ _ _ _ _ _ _ _ _) => [[[[[[[[[[[[[a6_0 a6_1] a6_2] a6_3] a6_4] a6_5] a6_6] a6_7] a6_8] a6_9] a6_10] a6_11] a6_12] a6_13]; cbv beta iota.
rewrite from_r7E; case: (from_r7 _ _ _ _ _ _ _ _ _ _ _ _ _ _ _ _ _ _ _ _ _ _ _ _ _ _ _ _ _) => [[[[[[[[[[[[[a7_0 a7_1] a7_2] a7_3] a7_4] a7_5] a7_6] a7_7] a7_8] a7_9] a7_10] a7_11] a7_12] a7_13]; cbv beta iota.
rewrite from_r8E; case: (from_r8 _ _ _ _ _ _ _ _ _ _ _ _ _ _ _ _ _ _ _ _ _ _ _ _ _ _ _ _ _) => [[[[[[[[[[[[[a8_0 a8_1] a8_2] a8_3] a8_4] a8_5] a8_6] a8_7] a8_8] a8_9] a8_10] a8_11] a8_12] a8_13]; cbv beta iota.
rewrite from_r9E; case: (from_r9 _ _ _ _ _ _ _ _ _ _ _ _ _ _ _ _ _ _ _ _ _ _ _ _ _ _ _ _ _) => [[[[[[[[[[[[[a9_0 a9_1] a9_2] a9_3] a9_4] a9_5] a9_6] a9_7] a9_8] a9_9] a9_10] a9_11] a9_12] a9_13]; cbv beta iota.
rewrite from_r10E; case: (from_r10 _ _ _ _ _ _ _ _ _ _ _ _ _ _ _ _ _ _ _ _ _ _ _ _ _ _ _ _ _) => [[[[[[[[[[[[[a10_0 a10_1] a10_2] a10_3] a10_4] a10_5] a10_6] a10_7] a10_8] a10_9] a10_10] a10_11] a10_12] a10_13]; cbv beta iota.
rewrite from_r11E; case: (from_r11 _ _ _ _ _ _ _ _ _ _ _ _ _ _ _ _ _ _ _ _ _ _ _ _ _ _ _ _ _) => [[[[[[[[[[[[[a11_0 a11_1] a11_2] a11_3] a11_4] a11_5] a11_6] a11_7] a11_8] a11_9] a11_10] a11_11] a11_12] a11_13]; cbv beta iota.
rewrite from_r12E; case: (from_r12 _ _ _ _ _ _ _ _ _ _ _ _ _ _ _ _ _ _ _ _ _ _ _ _ _ _ _ _ _) => [[[[[[[[[[[[[a12_0 a12_1] a12_2] a12_3] a12_4] a12_5] a12_6] a12_7] a12_8] a12_9] a12_10] a12_11] a12_12] a12_13]; cbv beta iota.
rewrite from_r13E; case: (from_r13 _ _ _ _ _ _ _ _ _ _ _ _ _ _ _ _ _ _ _ _ _ _ _ _ _ _ _ _ _) => [[[[[[[[[[[[[a13_0 a13_1] a13_2] a13_3] a13_4] a13_5] a13_6] a13_7] a13_8] a13_9] a13_10] a13_11] a13_12] a13_13]; cbv beta iota.
tail (@less14).
Qed.
