(** The unrolled text of buckler/internal/zp440, word by word: each definition is the
    sequence of the statements of the Go function, one let per assignment.  The long functions are
    cut into their rounds, one definition each; the variables that live across the cut are passed
    on.  The theorems say that the recursions of ZpModel.v are these texts. *)
From Coq Require Import ZArith.
From mathcomp Require Import all_ssreflect.
From Verif Require Import JindoIntModel ZpModel.
Set Implicit Arguments. Unset Strict Implicit. Unset Printing Implicit Defensive.
Delimit Scope Z_scope with Z.
Section Unrolled7.
Variables q0 q1 q2 q3 q4 q5 q6 qInvNeg : Z.
(** element.go 391-393 *)
Definition smaller (z_0 z_1 z_2 z_3 z_4 z_5 z_6 : Z) : bool := ((z_6 <? q6)%Z || ((z_6 =? q6)%Z && ((z_5 <? q5)%Z || ((z_5 =? q5)%Z && ((z_4 <? q4)%Z || ((z_4 =? q4)%Z && ((z_3 <? q3)%Z || ((z_3 =? q3)%Z && ((z_2 <? q2)%Z || ((z_2 =? q2)%Z && ((z_1 <? q1)%Z || ((z_1 =? q1)%Z && ((z_0 <? q0)%Z))))))))))))).
(** element.go 234-236 *)
Definition isZero (z_0 z_1 z_2 z_3 z_4 z_5 z_6 : Z) : bool := ((Z.lor (Z.lor (Z.lor (Z.lor (Z.lor (Z.lor z_6 z_5) z_4) z_3) z_2) z_1) z_0) =? 0)%Z.
(** element.go 436-459 *)
Definition add (x_0 x_1 x_2 x_3 x_4 x_5 x_6 y_0 y_1 y_2 y_3 y_4 y_5 y_6 : Z) : seq Z :=
  let carry := 0%Z in
  let: (z_0, carry) := Add64 x_0 y_0 0%Z in
  let: (z_1, carry) := Add64 x_1 y_1 carry in
  let: (z_2, carry) := Add64 x_2 y_2 carry in
  let: (z_3, carry) := Add64 x_3 y_3 carry in
  let: (z_4, carry) := Add64 x_4 y_4 carry in
  let: (z_5, carry) := Add64 x_5 y_5 carry in
  let: (z_6, _) := Add64 x_6 y_6 carry in
  if ~~ smaller z_0 z_1 z_2 z_3 z_4 z_5 z_6 then
  let b := 0%Z in
  let: (z_0, b) := Sub64 z_0 q0 0%Z in
  let: (z_1, b) := Sub64 z_1 q1 b in
  let: (z_2, b) := Sub64 z_2 q2 b in
  let: (z_3, b) := Sub64 z_3 q3 b in
  let: (z_4, b) := Sub64 z_4 q4 b in
  let: (z_5, b) := Sub64 z_5 q5 b in
  let: (z_6, _) := Sub64 z_6 q6 b in
  [:: z_0; z_1; z_2; z_3; z_4; z_5; z_6] else
  [:: z_0; z_1; z_2; z_3; z_4; z_5; z_6].
(** element.go 462-485 *)
Definition double (x_0 x_1 x_2 x_3 x_4 x_5 x_6 : Z) : seq Z :=
  let carry := 0%Z in
  let: (z_0, carry) := Add64 x_0 x_0 0%Z in
  let: (z_1, carry) := Add64 x_1 x_1 carry in
  let: (z_2, carry) := Add64 x_2 x_2 carry in
  let: (z_3, carry) := Add64 x_3 x_3 carry in
  let: (z_4, carry) := Add64 x_4 x_4 carry in
  let: (z_5, carry) := Add64 x_5 x_5 carry in
  let: (z_6, _) := Add64 x_6 x_6 carry in
  if ~~ smaller z_0 z_1 z_2 z_3 z_4 z_5 z_6 then
  let b := 0%Z in
  let: (z_0, b) := Sub64 z_0 q0 0%Z in
  let: (z_1, b) := Sub64 z_1 q1 b in
  let: (z_2, b) := Sub64 z_2 q2 b in
  let: (z_3, b) := Sub64 z_3 q3 b in
  let: (z_4, b) := Sub64 z_4 q4 b in
  let: (z_5, b) := Sub64 z_5 q5 b in
  let: (z_6, _) := Sub64 z_6 q6 b in
  [:: z_0; z_1; z_2; z_3; z_4; z_5; z_6] else
  [:: z_0; z_1; z_2; z_3; z_4; z_5; z_6].
(** element.go 488-508 *)
Definition sub (x_0 x_1 x_2 x_3 x_4 x_5 x_6 y_0 y_1 y_2 y_3 y_4 y_5 y_6 : Z) : seq Z :=
  let b := 0%Z in
  let: (z_0, b) := Sub64 x_0 y_0 0%Z in
  let: (z_1, b) := Sub64 x_1 y_1 b in
  let: (z_2, b) := Sub64 x_2 y_2 b in
  let: (z_3, b) := Sub64 x_3 y_3 b in
  let: (z_4, b) := Sub64 x_4 y_4 b in
  let: (z_5, b) := Sub64 x_5 y_5 b in
  let: (z_6, b) := Sub64 x_6 y_6 b in
  if ~~ (b =? 0)%Z then
  let c := 0%Z in
  let: (z_0, c) := Add64 z_0 q0 0%Z in
  let: (z_1, c) := Add64 z_1 q1 c in
  let: (z_2, c) := Add64 z_2 q2 c in
  let: (z_3, c) := Add64 z_3 q3 c in
  let: (z_4, c) := Add64 z_4 q4 c in
  let: (z_5, c) := Add64 z_5 q5 c in
  let: (z_6, _) := Add64 z_6 q6 c in
  [:: z_0; z_1; z_2; z_3; z_4; z_5; z_6] else
  [:: z_0; z_1; z_2; z_3; z_4; z_5; z_6].
(** element.go 511-525 *)
Definition neg (x_0 x_1 x_2 x_3 x_4 x_5 x_6 : Z) : seq Z :=
  if isZero x_0 x_1 x_2 x_3 x_4 x_5 x_6 then
  let z_0 := 0%Z in
  let z_1 := 0%Z in
  let z_2 := 0%Z in
  let z_3 := 0%Z in
  let z_4 := 0%Z in
  let z_5 := 0%Z in
  let z_6 := 0%Z in
  [:: z_0; z_1; z_2; z_3; z_4; z_5; z_6] else
  let borrow := 0%Z in
  let: (z_0, borrow) := Sub64 q0 x_0 0%Z in
  let: (z_1, borrow) := Sub64 q1 x_1 borrow in
  let: (z_2, borrow) := Sub64 q2 x_2 borrow in
  let: (z_3, borrow) := Sub64 q3 x_3 borrow in
  let: (z_4, borrow) := Sub64 q4 x_4 borrow in
  let: (z_5, borrow) := Sub64 q5 x_5 borrow in
  let: (z_6, _) := Sub64 q6 x_6 borrow in
  [:: z_0; z_1; z_2; z_3; z_4; z_5; z_6].
(** element.go 553-580 *)
Definition mulG_r0 (x_0 x_1 x_2 x_3 x_4 x_5 x_6 y_0 t_0 t_1 t_2 t_3 t_4 t_5 t_6 t_7 : Z) :=
  let: (C, t_0) := Mul64 y_0 x_0 in
  let: (C, t_1) := madd1 y_0 x_1 C in
  let: (C, t_2) := madd1 y_0 x_2 C in
  let: (C, t_3) := madd1 y_0 x_3 C in
  let: (C, t_4) := madd1 y_0 x_4 C in
  let: (C, t_5) := madd1 y_0 x_5 C in
  let: (C, t_6) := madd1 y_0 x_6 C in
  let: (t_7, D) := Add64 t_7 C 0%Z in
  let m := ((t_0 * qInvNeg) mod W)%Z in
  let C := madd0 m q0 t_0 in
  let: (C, t_0) := madd2 m q1 t_1 C in
  let: (C, t_1) := madd2 m q2 t_2 C in
  let: (C, t_2) := madd2 m q3 t_3 C in
  let: (C, t_3) := madd2 m q4 t_4 C in
  let: (C, t_4) := madd2 m q5 t_5 C in
  let: (C, t_5) := madd2 m q6 t_6 C in
  let: (t_6, C) := Add64 t_7 C 0%Z in
  let: (t_7, _) := Add64 0%Z D C in
  (t_0, t_1, t_2, t_3, t_4, t_5, t_6, t_7).
(** element.go 581-608 *)
Definition mulG_r1 (x_0 x_1 x_2 x_3 x_4 x_5 x_6 y_1 t_0 t_1 t_2 t_3 t_4 t_5 t_6 t_7 : Z) :=
  let: (C, t_0) := madd1 y_1 x_0 t_0 in
  let: (C, t_1) := madd2 y_1 x_1 t_1 C in
  let: (C, t_2) := madd2 y_1 x_2 t_2 C in
  let: (C, t_3) := madd2 y_1 x_3 t_3 C in
  let: (C, t_4) := madd2 y_1 x_4 t_4 C in
  let: (C, t_5) := madd2 y_1 x_5 t_5 C in
  let: (C, t_6) := madd2 y_1 x_6 t_6 C in
  let: (t_7, D) := Add64 t_7 C 0%Z in
  let m := ((t_0 * qInvNeg) mod W)%Z in
  let C := madd0 m q0 t_0 in
  let: (C, t_0) := madd2 m q1 t_1 C in
  let: (C, t_1) := madd2 m q2 t_2 C in
  let: (C, t_2) := madd2 m q3 t_3 C in
  let: (C, t_3) := madd2 m q4 t_4 C in
  let: (C, t_4) := madd2 m q5 t_5 C in
  let: (C, t_5) := madd2 m q6 t_6 C in
  let: (t_6, C) := Add64 t_7 C 0%Z in
  let: (t_7, _) := Add64 0%Z D C in
  (t_0, t_1, t_2, t_3, t_4, t_5, t_6, t_7).
(** element.go 609-636 *)
Definition mulG_r2 (x_0 x_1 x_2 x_3 x_4 x_5 x_6 y_2 t_0 t_1 t_2 t_3 t_4 t_5 t_6 t_7 : Z) :=
  let: (C, t_0) := madd1 y_2 x_0 t_0 in
  let: (C, t_1) := madd2 y_2 x_1 t_1 C in
  let: (C, t_2) := madd2 y_2 x_2 t_2 C in
  let: (C, t_3) := madd2 y_2 x_3 t_3 C in
  let: (C, t_4) := madd2 y_2 x_4 t_4 C in
  let: (C, t_5) := madd2 y_2 x_5 t_5 C in
  let: (C, t_6) := madd2 y_2 x_6 t_6 C in
  let: (t_7, D) := Add64 t_7 C 0%Z in
  let m := ((t_0 * qInvNeg) mod W)%Z in
  let C := madd0 m q0 t_0 in
  let: (C, t_0) := madd2 m q1 t_1 C in
  let: (C, t_1) := madd2 m q2 t_2 C in
  let: (C, t_2) := madd2 m q3 t_3 C in
  let: (C, t_3) := madd2 m q4 t_4 C in
  let: (C, t_4) := madd2 m q5 t_5 C in
  let: (C, t_5) := madd2 m q6 t_6 C in
  let: (t_6, C) := Add64 t_7 C 0%Z in
  let: (t_7, _) := Add64 0%Z D C in
  (t_0, t_1, t_2, t_3, t_4, t_5, t_6, t_7).
(** element.go 637-664 *)
Definition mulG_r3 (x_0 x_1 x_2 x_3 x_4 x_5 x_6 y_3 t_0 t_1 t_2 t_3 t_4 t_5 t_6 t_7 : Z) :=
  let: (C, t_0) := madd1 y_3 x_0 t_0 in
  let: (C, t_1) := madd2 y_3 x_1 t_1 C in
  let: (C, t_2) := madd2 y_3 x_2 t_2 C in
  let: (C, t_3) := madd2 y_3 x_3 t_3 C in
  let: (C, t_4) := madd2 y_3 x_4 t_4 C in
  let: (C, t_5) := madd2 y_3 x_5 t_5 C in
  let: (C, t_6) := madd2 y_3 x_6 t_6 C in
  let: (t_7, D) := Add64 t_7 C 0%Z in
  let m := ((t_0 * qInvNeg) mod W)%Z in
  let C := madd0 m q0 t_0 in
  let: (C, t_0) := madd2 m q1 t_1 C in
  let: (C, t_1) := madd2 m q2 t_2 C in
  let: (C, t_2) := madd2 m q3 t_3 C in
  let: (C, t_3) := madd2 m q4 t_4 C in
  let: (C, t_4) := madd2 m q5 t_5 C in
  let: (C, t_5) := madd2 m q6 t_6 C in
  let: (t_6, C) := Add64 t_7 C 0%Z in
  let: (t_7, _) := Add64 0%Z D C in
  (t_0, t_1, t_2, t_3, t_4, t_5, t_6, t_7).
(** element.go 665-692 *)
Definition mulG_r4 (x_0 x_1 x_2 x_3 x_4 x_5 x_6 y_4 t_0 t_1 t_2 t_3 t_4 t_5 t_6 t_7 : Z) :=
  let: (C, t_0) := madd1 y_4 x_0 t_0 in
  let: (C, t_1) := madd2 y_4 x_1 t_1 C in
  let: (C, t_2) := madd2 y_4 x_2 t_2 C in
  let: (C, t_3) := madd2 y_4 x_3 t_3 C in
  let: (C, t_4) := madd2 y_4 x_4 t_4 C in
  let: (C, t_5) := madd2 y_4 x_5 t_5 C in
  let: (C, t_6) := madd2 y_4 x_6 t_6 C in
  let: (t_7, D) := Add64 t_7 C 0%Z in
  let m := ((t_0 * qInvNeg) mod W)%Z in
  let C := madd0 m q0 t_0 in
  let: (C, t_0) := madd2 m q1 t_1 C in
  let: (C, t_1) := madd2 m q2 t_2 C in
  let: (C, t_2) := madd2 m q3 t_3 C in
  let: (C, t_3) := madd2 m q4 t_4 C in
  let: (C, t_4) := madd2 m q5 t_5 C in
  let: (C, t_5) := madd2 m q6 t_6 C in
  let: (t_6, C) := Add64 t_7 C 0%Z in
  let: (t_7, _) := Add64 0%Z D C in
  (t_0, t_1, t_2, t_3, t_4, t_5, t_6, t_7).
(** element.go 693-720 *)
Definition mulG_r5 (x_0 x_1 x_2 x_3 x_4 x_5 x_6 y_5 t_0 t_1 t_2 t_3 t_4 t_5 t_6 t_7 : Z) :=
  let: (C, t_0) := madd1 y_5 x_0 t_0 in
  let: (C, t_1) := madd2 y_5 x_1 t_1 C in
  let: (C, t_2) := madd2 y_5 x_2 t_2 C in
  let: (C, t_3) := madd2 y_5 x_3 t_3 C in
  let: (C, t_4) := madd2 y_5 x_4 t_4 C in
  let: (C, t_5) := madd2 y_5 x_5 t_5 C in
  let: (C, t_6) := madd2 y_5 x_6 t_6 C in
  let: (t_7, D) := Add64 t_7 C 0%Z in
  let m := ((t_0 * qInvNeg) mod W)%Z in
  let C := madd0 m q0 t_0 in
  let: (C, t_0) := madd2 m q1 t_1 C in
  let: (C, t_1) := madd2 m q2 t_2 C in
  let: (C, t_2) := madd2 m q3 t_3 C in
  let: (C, t_3) := madd2 m q4 t_4 C in
  let: (C, t_4) := madd2 m q5 t_5 C in
  let: (C, t_5) := madd2 m q6 t_6 C in
  let: (t_6, C) := Add64 t_7 C 0%Z in
  let: (t_7, _) := Add64 0%Z D C in
  (t_0, t_1, t_2, t_3, t_4, t_5, t_6, t_7).
(** element.go 721-748 *)
Definition mulG_r6 (x_0 x_1 x_2 x_3 x_4 x_5 x_6 y_6 t_0 t_1 t_2 t_3 t_4 t_5 t_6 t_7 : Z) :=
  let: (C, t_0) := madd1 y_6 x_0 t_0 in
  let: (C, t_1) := madd2 y_6 x_1 t_1 C in
  let: (C, t_2) := madd2 y_6 x_2 t_2 C in
  let: (C, t_3) := madd2 y_6 x_3 t_3 C in
  let: (C, t_4) := madd2 y_6 x_4 t_4 C in
  let: (C, t_5) := madd2 y_6 x_5 t_5 C in
  let: (C, t_6) := madd2 y_6 x_6 t_6 C in
  let: (t_7, D) := Add64 t_7 C 0%Z in
  let m := ((t_0 * qInvNeg) mod W)%Z in
  let C := madd0 m q0 t_0 in
  let: (C, t_0) := madd2 m q1 t_1 C in
  let: (C, t_1) := madd2 m q2 t_2 C in
  let: (C, t_2) := madd2 m q3 t_3 C in
  let: (C, t_3) := madd2 m q4 t_4 C in
  let: (C, t_4) := madd2 m q5 t_5 C in
  let: (C, t_5) := madd2 m q6 t_6 C in
  let: (t_6, C) := Add64 t_7 C 0%Z in
  let: (t_7, _) := Add64 0%Z D C in
  (t_0, t_1, t_2, t_3, t_4, t_5, t_6, t_7).
(** element.go 544-782 *)
Definition mulG (x_0 x_1 x_2 x_3 x_4 x_5 x_6 y_0 y_1 y_2 y_3 y_4 y_5 y_6 : Z) : seq Z :=
  let t_0 := 0%Z in
  let t_1 := 0%Z in
  let t_2 := 0%Z in
  let t_3 := 0%Z in
  let t_4 := 0%Z in
  let t_5 := 0%Z in
  let t_6 := 0%Z in
  let t_7 := 0%Z in
  let D := 0%Z in
  let m := 0%Z in
  let C := 0%Z in
  let: (t_0, t_1, t_2, t_3, t_4, t_5, t_6, t_7) := mulG_r0 x_0 x_1 x_2 x_3 x_4 x_5 x_6 y_0 t_0 t_1 t_2 t_3 t_4 t_5 t_6 t_7 in
  let: (t_0, t_1, t_2, t_3, t_4, t_5, t_6, t_7) := mulG_r1 x_0 x_1 x_2 x_3 x_4 x_5 x_6 y_1 t_0 t_1 t_2 t_3 t_4 t_5 t_6 t_7 in
  let: (t_0, t_1, t_2, t_3, t_4, t_5, t_6, t_7) := mulG_r2 x_0 x_1 x_2 x_3 x_4 x_5 x_6 y_2 t_0 t_1 t_2 t_3 t_4 t_5 t_6 t_7 in
  let: (t_0, t_1, t_2, t_3, t_4, t_5, t_6, t_7) := mulG_r3 x_0 x_1 x_2 x_3 x_4 x_5 x_6 y_3 t_0 t_1 t_2 t_3 t_4 t_5 t_6 t_7 in
  let: (t_0, t_1, t_2, t_3, t_4, t_5, t_6, t_7) := mulG_r4 x_0 x_1 x_2 x_3 x_4 x_5 x_6 y_4 t_0 t_1 t_2 t_3 t_4 t_5 t_6 t_7 in
  let: (t_0, t_1, t_2, t_3, t_4, t_5, t_6, t_7) := mulG_r5 x_0 x_1 x_2 x_3 x_4 x_5 x_6 y_5 t_0 t_1 t_2 t_3 t_4 t_5 t_6 t_7 in
  let: (t_0, t_1, t_2, t_3, t_4, t_5, t_6, t_7) := mulG_r6 x_0 x_1 x_2 x_3 x_4 x_5 x_6 y_6 t_0 t_1 t_2 t_3 t_4 t_5 t_6 t_7 in
  if ~~ (t_7 =? 0)%Z then
  let b := 0%Z in
  let: (z_0, b) := Sub64 t_0 q0 0%Z in
  let: (z_1, b) := Sub64 t_1 q1 b in
  let: (z_2, b) := Sub64 t_2 q2 b in
  let: (z_3, b) := Sub64 t_3 q3 b in
  let: (z_4, b) := Sub64 t_4 q4 b in
  let: (z_5, b) := Sub64 t_5 q5 b in
  let: (z_6, _) := Sub64 t_6 q6 b in
  [:: z_0; z_1; z_2; z_3; z_4; z_5; z_6] else
  let z_0 := t_0 in
  let z_1 := t_1 in
  let z_2 := t_2 in
  let z_3 := t_3 in
  let z_4 := t_4 in
  let z_5 := t_5 in
  let z_6 := t_6 in
  if ~~ smaller z_0 z_1 z_2 z_3 z_4 z_5 z_6 then
  let b := 0%Z in
  let: (z_0, b) := Sub64 z_0 q0 0%Z in
  let: (z_1, b) := Sub64 z_1 q1 b in
  let: (z_2, b) := Sub64 z_2 q2 b in
  let: (z_3, b) := Sub64 z_3 q3 b in
  let: (z_4, b) := Sub64 z_4 q4 b in
  let: (z_5, b) := Sub64 z_5 q5 b in
  let: (z_6, _) := Sub64 z_6 q6 b in
  [:: z_0; z_1; z_2; z_3; z_4; z_5; z_6] else
  [:: z_0; z_1; z_2; z_3; z_4; z_5; z_6].
(** element_purego.go 56-102 *)
Definition mulP_r0 (x_0 y_0 y_1 y_2 y_3 y_4 y_5 y_6 : Z) :=
  let c0 := 0%Z in
  let c1 := 0%Z in
  let c2 := 0%Z in
  let v := x_0 in
  let: (u0, t0) := Mul64 v y_0 in
  let: (u1, t1) := Mul64 v y_1 in
  let: (u2, t2) := Mul64 v y_2 in
  let: (u3, t3) := Mul64 v y_3 in
  let: (u4, t4) := Mul64 v y_4 in
  let: (u5, t5) := Mul64 v y_5 in
  let: (u6, t6) := Mul64 v y_6 in
  let: (t1, c0) := Add64 u0 t1 0%Z in
  let: (t2, c0) := Add64 u1 t2 c0 in
  let: (t3, c0) := Add64 u2 t3 c0 in
  let: (t4, c0) := Add64 u3 t4 c0 in
  let: (t5, c0) := Add64 u4 t5 c0 in
  let: (t6, c0) := Add64 u5 t6 c0 in
  let: (c2, _) := Add64 u6 0%Z c0 in
  let m := ((qInvNeg * t0) mod W)%Z in
  let: (u0, c1) := Mul64 m q0 in
  let: (_, c0) := Add64 t0 c1 0%Z in
  let: (u1, c1) := Mul64 m q1 in
  let: (t0, c0) := Add64 t1 c1 c0 in
  let: (u2, c1) := Mul64 m q2 in
  let: (t1, c0) := Add64 t2 c1 c0 in
  let: (u3, c1) := Mul64 m q3 in
  let: (t2, c0) := Add64 t3 c1 c0 in
  let: (u4, c1) := Mul64 m q4 in
  let: (t3, c0) := Add64 t4 c1 c0 in
  let: (u5, c1) := Mul64 m q5 in
  let: (t4, c0) := Add64 t5 c1 c0 in
  let: (u6, c1) := Mul64 m q6 in
  let: (t5, c0) := Add64 0%Z c1 c0 in
  let: (u6, _) := Add64 u6 0%Z c0 in
  let: (t0, c0) := Add64 u0 t0 0%Z in
  let: (t1, c0) := Add64 u1 t1 c0 in
  let: (t2, c0) := Add64 u2 t2 c0 in
  let: (t3, c0) := Add64 u3 t3 c0 in
  let: (t4, c0) := Add64 u4 t4 c0 in
  let: (t5, c0) := Add64 u5 t5 c0 in
  let: (c2, _) := Add64 c2 0%Z c0 in
  let: (t5, c0) := Add64 t6 t5 0%Z in
  let: (t6, _) := Add64 u6 c2 c0 in
  (t0, t1, t2, t3, t4, t5, t6).
(** element_purego.go 103-158 *)
Definition mulP_r1 (x_1 y_0 y_1 y_2 y_3 y_4 y_5 y_6 t0 t1 t2 t3 t4 t5 t6 : Z) :=
  let c0 := 0%Z in
  let c1 := 0%Z in
  let c2 := 0%Z in
  let v := x_1 in
  let: (u0, c1) := Mul64 v y_0 in
  let: (t0, c0) := Add64 c1 t0 0%Z in
  let: (u1, c1) := Mul64 v y_1 in
  let: (t1, c0) := Add64 c1 t1 c0 in
  let: (u2, c1) := Mul64 v y_2 in
  let: (t2, c0) := Add64 c1 t2 c0 in
  let: (u3, c1) := Mul64 v y_3 in
  let: (t3, c0) := Add64 c1 t3 c0 in
  let: (u4, c1) := Mul64 v y_4 in
  let: (t4, c0) := Add64 c1 t4 c0 in
  let: (u5, c1) := Mul64 v y_5 in
  let: (t5, c0) := Add64 c1 t5 c0 in
  let: (u6, c1) := Mul64 v y_6 in
  let: (t6, c0) := Add64 c1 t6 c0 in
  let: (c2, _) := Add64 0%Z 0%Z c0 in
  let: (t1, c0) := Add64 u0 t1 0%Z in
  let: (t2, c0) := Add64 u1 t2 c0 in
  let: (t3, c0) := Add64 u2 t3 c0 in
  let: (t4, c0) := Add64 u3 t4 c0 in
  let: (t5, c0) := Add64 u4 t5 c0 in
  let: (t6, c0) := Add64 u5 t6 c0 in
  let: (c2, _) := Add64 u6 c2 c0 in
  let m := ((qInvNeg * t0) mod W)%Z in
  let: (u0, c1) := Mul64 m q0 in
  let: (_, c0) := Add64 t0 c1 0%Z in
  let: (u1, c1) := Mul64 m q1 in
  let: (t0, c0) := Add64 t1 c1 c0 in
  let: (u2, c1) := Mul64 m q2 in
  let: (t1, c0) := Add64 t2 c1 c0 in
  let: (u3, c1) := Mul64 m q3 in
  let: (t2, c0) := Add64 t3 c1 c0 in
  let: (u4, c1) := Mul64 m q4 in
  let: (t3, c0) := Add64 t4 c1 c0 in
  let: (u5, c1) := Mul64 m q5 in
  let: (t4, c0) := Add64 t5 c1 c0 in
  let: (u6, c1) := Mul64 m q6 in
  let: (t5, c0) := Add64 0%Z c1 c0 in
  let: (u6, _) := Add64 u6 0%Z c0 in
  let: (t0, c0) := Add64 u0 t0 0%Z in
  let: (t1, c0) := Add64 u1 t1 c0 in
  let: (t2, c0) := Add64 u2 t2 c0 in
  let: (t3, c0) := Add64 u3 t3 c0 in
  let: (t4, c0) := Add64 u4 t4 c0 in
  let: (t5, c0) := Add64 u5 t5 c0 in
  let: (c2, _) := Add64 c2 0%Z c0 in
  let: (t5, c0) := Add64 t6 t5 0%Z in
  let: (t6, _) := Add64 u6 c2 c0 in
  (t0, t1, t2, t3, t4, t5, t6).
(** element_purego.go 159-214 *)
Definition mulP_r2 (x_2 y_0 y_1 y_2 y_3 y_4 y_5 y_6 t0 t1 t2 t3 t4 t5 t6 : Z) :=
  let c0 := 0%Z in
  let c1 := 0%Z in
  let c2 := 0%Z in
  let v := x_2 in
  let: (u0, c1) := Mul64 v y_0 in
  let: (t0, c0) := Add64 c1 t0 0%Z in
  let: (u1, c1) := Mul64 v y_1 in
  let: (t1, c0) := Add64 c1 t1 c0 in
  let: (u2, c1) := Mul64 v y_2 in
  let: (t2, c0) := Add64 c1 t2 c0 in
  let: (u3, c1) := Mul64 v y_3 in
  let: (t3, c0) := Add64 c1 t3 c0 in
  let: (u4, c1) := Mul64 v y_4 in
  let: (t4, c0) := Add64 c1 t4 c0 in
  let: (u5, c1) := Mul64 v y_5 in
  let: (t5, c0) := Add64 c1 t5 c0 in
  let: (u6, c1) := Mul64 v y_6 in
  let: (t6, c0) := Add64 c1 t6 c0 in
  let: (c2, _) := Add64 0%Z 0%Z c0 in
  let: (t1, c0) := Add64 u0 t1 0%Z in
  let: (t2, c0) := Add64 u1 t2 c0 in
  let: (t3, c0) := Add64 u2 t3 c0 in
  let: (t4, c0) := Add64 u3 t4 c0 in
  let: (t5, c0) := Add64 u4 t5 c0 in
  let: (t6, c0) := Add64 u5 t6 c0 in
  let: (c2, _) := Add64 u6 c2 c0 in
  let m := ((qInvNeg * t0) mod W)%Z in
  let: (u0, c1) := Mul64 m q0 in
  let: (_, c0) := Add64 t0 c1 0%Z in
  let: (u1, c1) := Mul64 m q1 in
  let: (t0, c0) := Add64 t1 c1 c0 in
  let: (u2, c1) := Mul64 m q2 in
  let: (t1, c0) := Add64 t2 c1 c0 in
  let: (u3, c1) := Mul64 m q3 in
  let: (t2, c0) := Add64 t3 c1 c0 in
  let: (u4, c1) := Mul64 m q4 in
  let: (t3, c0) := Add64 t4 c1 c0 in
  let: (u5, c1) := Mul64 m q5 in
  let: (t4, c0) := Add64 t5 c1 c0 in
  let: (u6, c1) := Mul64 m q6 in
  let: (t5, c0) := Add64 0%Z c1 c0 in
  let: (u6, _) := Add64 u6 0%Z c0 in
  let: (t0, c0) := Add64 u0 t0 0%Z in
  let: (t1, c0) := Add64 u1 t1 c0 in
  let: (t2, c0) := Add64 u2 t2 c0 in
  let: (t3, c0) := Add64 u3 t3 c0 in
  let: (t4, c0) := Add64 u4 t4 c0 in
  let: (t5, c0) := Add64 u5 t5 c0 in
  let: (c2, _) := Add64 c2 0%Z c0 in
  let: (t5, c0) := Add64 t6 t5 0%Z in
  let: (t6, _) := Add64 u6 c2 c0 in
  (t0, t1, t2, t3, t4, t5, t6).
(** element_purego.go 215-270 *)
Definition mulP_r3 (x_3 y_0 y_1 y_2 y_3 y_4 y_5 y_6 t0 t1 t2 t3 t4 t5 t6 : Z) :=
  let c0 := 0%Z in
  let c1 := 0%Z in
  let c2 := 0%Z in
  let v := x_3 in
  let: (u0, c1) := Mul64 v y_0 in
  let: (t0, c0) := Add64 c1 t0 0%Z in
  let: (u1, c1) := Mul64 v y_1 in
  let: (t1, c0) := Add64 c1 t1 c0 in
  let: (u2, c1) := Mul64 v y_2 in
  let: (t2, c0) := Add64 c1 t2 c0 in
  let: (u3, c1) := Mul64 v y_3 in
  let: (t3, c0) := Add64 c1 t3 c0 in
  let: (u4, c1) := Mul64 v y_4 in
  let: (t4, c0) := Add64 c1 t4 c0 in
  let: (u5, c1) := Mul64 v y_5 in
  let: (t5, c0) := Add64 c1 t5 c0 in
  let: (u6, c1) := Mul64 v y_6 in
  let: (t6, c0) := Add64 c1 t6 c0 in
  let: (c2, _) := Add64 0%Z 0%Z c0 in
  let: (t1, c0) := Add64 u0 t1 0%Z in
  let: (t2, c0) := Add64 u1 t2 c0 in
  let: (t3, c0) := Add64 u2 t3 c0 in
  let: (t4, c0) := Add64 u3 t4 c0 in
  let: (t5, c0) := Add64 u4 t5 c0 in
  let: (t6, c0) := Add64 u5 t6 c0 in
  let: (c2, _) := Add64 u6 c2 c0 in
  let m := ((qInvNeg * t0) mod W)%Z in
  let: (u0, c1) := Mul64 m q0 in
  let: (_, c0) := Add64 t0 c1 0%Z in
  let: (u1, c1) := Mul64 m q1 in
  let: (t0, c0) := Add64 t1 c1 c0 in
  let: (u2, c1) := Mul64 m q2 in
  let: (t1, c0) := Add64 t2 c1 c0 in
  let: (u3, c1) := Mul64 m q3 in
  let: (t2, c0) := Add64 t3 c1 c0 in
  let: (u4, c1) := Mul64 m q4 in
  let: (t3, c0) := Add64 t4 c1 c0 in
  let: (u5, c1) := Mul64 m q5 in
  let: (t4, c0) := Add64 t5 c1 c0 in
  let: (u6, c1) := Mul64 m q6 in
  let: (t5, c0) := Add64 0%Z c1 c0 in
  let: (u6, _) := Add64 u6 0%Z c0 in
  let: (t0, c0) := Add64 u0 t0 0%Z in
  let: (t1, c0) := Add64 u1 t1 c0 in
  let: (t2, c0) := Add64 u2 t2 c0 in
  let: (t3, c0) := Add64 u3 t3 c0 in
  let: (t4, c0) := Add64 u4 t4 c0 in
  let: (t5, c0) := Add64 u5 t5 c0 in
  let: (c2, _) := Add64 c2 0%Z c0 in
  let: (t5, c0) := Add64 t6 t5 0%Z in
  let: (t6, _) := Add64 u6 c2 c0 in
  (t0, t1, t2, t3, t4, t5, t6).
(** element_purego.go 271-326 *)
Definition mulP_r4 (x_4 y_0 y_1 y_2 y_3 y_4 y_5 y_6 t0 t1 t2 t3 t4 t5 t6 : Z) :=
  let c0 := 0%Z in
  let c1 := 0%Z in
  let c2 := 0%Z in
  let v := x_4 in
  let: (u0, c1) := Mul64 v y_0 in
  let: (t0, c0) := Add64 c1 t0 0%Z in
  let: (u1, c1) := Mul64 v y_1 in
  let: (t1, c0) := Add64 c1 t1 c0 in
  let: (u2, c1) := Mul64 v y_2 in
  let: (t2, c0) := Add64 c1 t2 c0 in
  let: (u3, c1) := Mul64 v y_3 in
  let: (t3, c0) := Add64 c1 t3 c0 in
  let: (u4, c1) := Mul64 v y_4 in
  let: (t4, c0) := Add64 c1 t4 c0 in
  let: (u5, c1) := Mul64 v y_5 in
  let: (t5, c0) := Add64 c1 t5 c0 in
  let: (u6, c1) := Mul64 v y_6 in
  let: (t6, c0) := Add64 c1 t6 c0 in
  let: (c2, _) := Add64 0%Z 0%Z c0 in
  let: (t1, c0) := Add64 u0 t1 0%Z in
  let: (t2, c0) := Add64 u1 t2 c0 in
  let: (t3, c0) := Add64 u2 t3 c0 in
  let: (t4, c0) := Add64 u3 t4 c0 in
  let: (t5, c0) := Add64 u4 t5 c0 in
  let: (t6, c0) := Add64 u5 t6 c0 in
  let: (c2, _) := Add64 u6 c2 c0 in
  let m := ((qInvNeg * t0) mod W)%Z in
  let: (u0, c1) := Mul64 m q0 in
  let: (_, c0) := Add64 t0 c1 0%Z in
  let: (u1, c1) := Mul64 m q1 in
  let: (t0, c0) := Add64 t1 c1 c0 in
  let: (u2, c1) := Mul64 m q2 in
  let: (t1, c0) := Add64 t2 c1 c0 in
  let: (u3, c1) := Mul64 m q3 in
  let: (t2, c0) := Add64 t3 c1 c0 in
  let: (u4, c1) := Mul64 m q4 in
  let: (t3, c0) := Add64 t4 c1 c0 in
  let: (u5, c1) := Mul64 m q5 in
  let: (t4, c0) := Add64 t5 c1 c0 in
  let: (u6, c1) := Mul64 m q6 in
  let: (t5, c0) := Add64 0%Z c1 c0 in
  let: (u6, _) := Add64 u6 0%Z c0 in
  let: (t0, c0) := Add64 u0 t0 0%Z in
  let: (t1, c0) := Add64 u1 t1 c0 in
  let: (t2, c0) := Add64 u2 t2 c0 in
  let: (t3, c0) := Add64 u3 t3 c0 in
  let: (t4, c0) := Add64 u4 t4 c0 in
  let: (t5, c0) := Add64 u5 t5 c0 in
  let: (c2, _) := Add64 c2 0%Z c0 in
  let: (t5, c0) := Add64 t6 t5 0%Z in
  let: (t6, _) := Add64 u6 c2 c0 in
  (t0, t1, t2, t3, t4, t5, t6).
(** element_purego.go 327-382 *)
Definition mulP_r5 (x_5 y_0 y_1 y_2 y_3 y_4 y_5 y_6 t0 t1 t2 t3 t4 t5 t6 : Z) :=
  let c0 := 0%Z in
  let c1 := 0%Z in
  let c2 := 0%Z in
  let v := x_5 in
  let: (u0, c1) := Mul64 v y_0 in
  let: (t0, c0) := Add64 c1 t0 0%Z in
  let: (u1, c1) := Mul64 v y_1 in
  let: (t1, c0) := Add64 c1 t1 c0 in
  let: (u2, c1) := Mul64 v y_2 in
  let: (t2, c0) := Add64 c1 t2 c0 in
  let: (u3, c1) := Mul64 v y_3 in
  let: (t3, c0) := Add64 c1 t3 c0 in
  let: (u4, c1) := Mul64 v y_4 in
  let: (t4, c0) := Add64 c1 t4 c0 in
  let: (u5, c1) := Mul64 v y_5 in
  let: (t5, c0) := Add64 c1 t5 c0 in
  let: (u6, c1) := Mul64 v y_6 in
  let: (t6, c0) := Add64 c1 t6 c0 in
  let: (c2, _) := Add64 0%Z 0%Z c0 in
  let: (t1, c0) := Add64 u0 t1 0%Z in
  let: (t2, c0) := Add64 u1 t2 c0 in
  let: (t3, c0) := Add64 u2 t3 c0 in
  let: (t4, c0) := Add64 u3 t4 c0 in
  let: (t5, c0) := Add64 u4 t5 c0 in
  let: (t6, c0) := Add64 u5 t6 c0 in
  let: (c2, _) := Add64 u6 c2 c0 in
  let m := ((qInvNeg * t0) mod W)%Z in
  let: (u0, c1) := Mul64 m q0 in
  let: (_, c0) := Add64 t0 c1 0%Z in
  let: (u1, c1) := Mul64 m q1 in
  let: (t0, c0) := Add64 t1 c1 c0 in
  let: (u2, c1) := Mul64 m q2 in
  let: (t1, c0) := Add64 t2 c1 c0 in
  let: (u3, c1) := Mul64 m q3 in
  let: (t2, c0) := Add64 t3 c1 c0 in
  let: (u4, c1) := Mul64 m q4 in
  let: (t3, c0) := Add64 t4 c1 c0 in
  let: (u5, c1) := Mul64 m q5 in
  let: (t4, c0) := Add64 t5 c1 c0 in
  let: (u6, c1) := Mul64 m q6 in
  let: (t5, c0) := Add64 0%Z c1 c0 in
  let: (u6, _) := Add64 u6 0%Z c0 in
  let: (t0, c0) := Add64 u0 t0 0%Z in
  let: (t1, c0) := Add64 u1 t1 c0 in
  let: (t2, c0) := Add64 u2 t2 c0 in
  let: (t3, c0) := Add64 u3 t3 c0 in
  let: (t4, c0) := Add64 u4 t4 c0 in
  let: (t5, c0) := Add64 u5 t5 c0 in
  let: (c2, _) := Add64 c2 0%Z c0 in
  let: (t5, c0) := Add64 t6 t5 0%Z in
  let: (t6, _) := Add64 u6 c2 c0 in
  (t0, t1, t2, t3, t4, t5, t6).
(** element_purego.go 383-438 *)
Definition mulP_r6 (x_6 y_0 y_1 y_2 y_3 y_4 y_5 y_6 t0 t1 t2 t3 t4 t5 t6 : Z) :=
  let c0 := 0%Z in
  let c1 := 0%Z in
  let c2 := 0%Z in
  let v := x_6 in
  let: (u0, c1) := Mul64 v y_0 in
  let: (t0, c0) := Add64 c1 t0 0%Z in
  let: (u1, c1) := Mul64 v y_1 in
  let: (t1, c0) := Add64 c1 t1 c0 in
  let: (u2, c1) := Mul64 v y_2 in
  let: (t2, c0) := Add64 c1 t2 c0 in
  let: (u3, c1) := Mul64 v y_3 in
  let: (t3, c0) := Add64 c1 t3 c0 in
  let: (u4, c1) := Mul64 v y_4 in
  let: (t4, c0) := Add64 c1 t4 c0 in
  let: (u5, c1) := Mul64 v y_5 in
  let: (t5, c0) := Add64 c1 t5 c0 in
  let: (u6, c1) := Mul64 v y_6 in
  let: (t6, c0) := Add64 c1 t6 c0 in
  let: (c2, _) := Add64 0%Z 0%Z c0 in
  let: (t1, c0) := Add64 u0 t1 0%Z in
  let: (t2, c0) := Add64 u1 t2 c0 in
  let: (t3, c0) := Add64 u2 t3 c0 in
  let: (t4, c0) := Add64 u3 t4 c0 in
  let: (t5, c0) := Add64 u4 t5 c0 in
  let: (t6, c0) := Add64 u5 t6 c0 in
  let: (c2, _) := Add64 u6 c2 c0 in
  let m := ((qInvNeg * t0) mod W)%Z in
  let: (u0, c1) := Mul64 m q0 in
  let: (_, c0) := Add64 t0 c1 0%Z in
  let: (u1, c1) := Mul64 m q1 in
  let: (t0, c0) := Add64 t1 c1 c0 in
  let: (u2, c1) := Mul64 m q2 in
  let: (t1, c0) := Add64 t2 c1 c0 in
  let: (u3, c1) := Mul64 m q3 in
  let: (t2, c0) := Add64 t3 c1 c0 in
  let: (u4, c1) := Mul64 m q4 in
  let: (t3, c0) := Add64 t4 c1 c0 in
  let: (u5, c1) := Mul64 m q5 in
  let: (t4, c0) := Add64 t5 c1 c0 in
  let: (u6, c1) := Mul64 m q6 in
  let: (t5, c0) := Add64 0%Z c1 c0 in
  let: (u6, _) := Add64 u6 0%Z c0 in
  let: (t0, c0) := Add64 u0 t0 0%Z in
  let: (t1, c0) := Add64 u1 t1 c0 in
  let: (t2, c0) := Add64 u2 t2 c0 in
  let: (t3, c0) := Add64 u3 t3 c0 in
  let: (t4, c0) := Add64 u4 t4 c0 in
  let: (t5, c0) := Add64 u5 t5 c0 in
  let: (c2, _) := Add64 c2 0%Z c0 in
  let: (t5, c0) := Add64 t6 t5 0%Z in
  let: (t6, _) := Add64 u6 c2 c0 in
  (t0, t1, t2, t3, t4, t5, t6).
(** element_purego.go 49-459 *)
Definition mulP (x_0 x_1 x_2 x_3 x_4 x_5 x_6 y_0 y_1 y_2 y_3 y_4 y_5 y_6 : Z) : seq Z :=
  let: (t0, t1, t2, t3, t4, t5, t6) := mulP_r0 x_0 y_0 y_1 y_2 y_3 y_4 y_5 y_6 in
  let: (t0, t1, t2, t3, t4, t5, t6) := mulP_r1 x_1 y_0 y_1 y_2 y_3 y_4 y_5 y_6 t0 t1 t2 t3 t4 t5 t6 in
  let: (t0, t1, t2, t3, t4, t5, t6) := mulP_r2 x_2 y_0 y_1 y_2 y_3 y_4 y_5 y_6 t0 t1 t2 t3 t4 t5 t6 in
  let: (t0, t1, t2, t3, t4, t5, t6) := mulP_r3 x_3 y_0 y_1 y_2 y_3 y_4 y_5 y_6 t0 t1 t2 t3 t4 t5 t6 in
  let: (t0, t1, t2, t3, t4, t5, t6) := mulP_r4 x_4 y_0 y_1 y_2 y_3 y_4 y_5 y_6 t0 t1 t2 t3 t4 t5 t6 in
  let: (t0, t1, t2, t3, t4, t5, t6) := mulP_r5 x_5 y_0 y_1 y_2 y_3 y_4 y_5 y_6 t0 t1 t2 t3 t4 t5 t6 in
  let: (t0, t1, t2, t3, t4, t5, t6) := mulP_r6 x_6 y_0 y_1 y_2 y_3 y_4 y_5 y_6 t0 t1 t2 t3 t4 t5 t6 in
  let z_0 := t0 in
  let z_1 := t1 in
  let z_2 := t2 in
  let z_3 := t3 in
  let z_4 := t4 in
  let z_5 := t5 in
  let z_6 := t6 in
  if ~~ smaller z_0 z_1 z_2 z_3 z_4 z_5 z_6 then
  let b := 0%Z in
  let: (z_0, b) := Sub64 z_0 q0 0%Z in
  let: (z_1, b) := Sub64 z_1 q1 b in
  let: (z_2, b) := Sub64 z_2 q2 b in
  let: (z_3, b) := Sub64 z_3 q3 b in
  let: (z_4, b) := Sub64 z_4 q4 b in
  let: (z_5, b) := Sub64 z_5 q5 b in
  let: (z_6, _) := Sub64 z_6 q6 b in
  [:: z_0; z_1; z_2; z_3; z_4; z_5; z_6] else
  [:: z_0; z_1; z_2; z_3; z_4; z_5; z_6].
(** element_purego.go 469-515 *)
Definition square_r0 (x_0 x_1 x_2 x_3 x_4 x_5 x_6 : Z) :=
  let c0 := 0%Z in
  let c1 := 0%Z in
  let c2 := 0%Z in
  let v := x_0 in
  let: (u0, t0) := Mul64 v x_0 in
  let: (u1, t1) := Mul64 v x_1 in
  let: (u2, t2) := Mul64 v x_2 in
  let: (u3, t3) := Mul64 v x_3 in
  let: (u4, t4) := Mul64 v x_4 in
  let: (u5, t5) := Mul64 v x_5 in
  let: (u6, t6) := Mul64 v x_6 in
  let: (t1, c0) := Add64 u0 t1 0%Z in
  let: (t2, c0) := Add64 u1 t2 c0 in
  let: (t3, c0) := Add64 u2 t3 c0 in
  let: (t4, c0) := Add64 u3 t4 c0 in
  let: (t5, c0) := Add64 u4 t5 c0 in
  let: (t6, c0) := Add64 u5 t6 c0 in
  let: (c2, _) := Add64 u6 0%Z c0 in
  let m := ((qInvNeg * t0) mod W)%Z in
  let: (u0, c1) := Mul64 m q0 in
  let: (_, c0) := Add64 t0 c1 0%Z in
  let: (u1, c1) := Mul64 m q1 in
  let: (t0, c0) := Add64 t1 c1 c0 in
  let: (u2, c1) := Mul64 m q2 in
  let: (t1, c0) := Add64 t2 c1 c0 in
  let: (u3, c1) := Mul64 m q3 in
  let: (t2, c0) := Add64 t3 c1 c0 in
  let: (u4, c1) := Mul64 m q4 in
  let: (t3, c0) := Add64 t4 c1 c0 in
  let: (u5, c1) := Mul64 m q5 in
  let: (t4, c0) := Add64 t5 c1 c0 in
  let: (u6, c1) := Mul64 m q6 in
  let: (t5, c0) := Add64 0%Z c1 c0 in
  let: (u6, _) := Add64 u6 0%Z c0 in
  let: (t0, c0) := Add64 u0 t0 0%Z in
  let: (t1, c0) := Add64 u1 t1 c0 in
  let: (t2, c0) := Add64 u2 t2 c0 in
  let: (t3, c0) := Add64 u3 t3 c0 in
  let: (t4, c0) := Add64 u4 t4 c0 in
  let: (t5, c0) := Add64 u5 t5 c0 in
  let: (c2, _) := Add64 c2 0%Z c0 in
  let: (t5, c0) := Add64 t6 t5 0%Z in
  let: (t6, _) := Add64 u6 c2 c0 in
  (t0, t1, t2, t3, t4, t5, t6).
(** element_purego.go 516-571 *)
Definition square_r1 (x_0 x_1 x_2 x_3 x_4 x_5 x_6 t0 t1 t2 t3 t4 t5 t6 : Z) :=
  let c0 := 0%Z in
  let c1 := 0%Z in
  let c2 := 0%Z in
  let v := x_1 in
  let: (u0, c1) := Mul64 v x_0 in
  let: (t0, c0) := Add64 c1 t0 0%Z in
  let: (u1, c1) := Mul64 v x_1 in
  let: (t1, c0) := Add64 c1 t1 c0 in
  let: (u2, c1) := Mul64 v x_2 in
  let: (t2, c0) := Add64 c1 t2 c0 in
  let: (u3, c1) := Mul64 v x_3 in
  let: (t3, c0) := Add64 c1 t3 c0 in
  let: (u4, c1) := Mul64 v x_4 in
  let: (t4, c0) := Add64 c1 t4 c0 in
  let: (u5, c1) := Mul64 v x_5 in
  let: (t5, c0) := Add64 c1 t5 c0 in
  let: (u6, c1) := Mul64 v x_6 in
  let: (t6, c0) := Add64 c1 t6 c0 in
  let: (c2, _) := Add64 0%Z 0%Z c0 in
  let: (t1, c0) := Add64 u0 t1 0%Z in
  let: (t2, c0) := Add64 u1 t2 c0 in
  let: (t3, c0) := Add64 u2 t3 c0 in
  let: (t4, c0) := Add64 u3 t4 c0 in
  let: (t5, c0) := Add64 u4 t5 c0 in
  let: (t6, c0) := Add64 u5 t6 c0 in
  let: (c2, _) := Add64 u6 c2 c0 in
  let m := ((qInvNeg * t0) mod W)%Z in
  let: (u0, c1) := Mul64 m q0 in
  let: (_, c0) := Add64 t0 c1 0%Z in
  let: (u1, c1) := Mul64 m q1 in
  let: (t0, c0) := Add64 t1 c1 c0 in
  let: (u2, c1) := Mul64 m q2 in
  let: (t1, c0) := Add64 t2 c1 c0 in
  let: (u3, c1) := Mul64 m q3 in
  let: (t2, c0) := Add64 t3 c1 c0 in
  let: (u4, c1) := Mul64 m q4 in
  let: (t3, c0) := Add64 t4 c1 c0 in
  let: (u5, c1) := Mul64 m q5 in
  let: (t4, c0) := Add64 t5 c1 c0 in
  let: (u6, c1) := Mul64 m q6 in
  let: (t5, c0) := Add64 0%Z c1 c0 in
  let: (u6, _) := Add64 u6 0%Z c0 in
  let: (t0, c0) := Add64 u0 t0 0%Z in
  let: (t1, c0) := Add64 u1 t1 c0 in
  let: (t2, c0) := Add64 u2 t2 c0 in
  let: (t3, c0) := Add64 u3 t3 c0 in
  let: (t4, c0) := Add64 u4 t4 c0 in
  let: (t5, c0) := Add64 u5 t5 c0 in
  let: (c2, _) := Add64 c2 0%Z c0 in
  let: (t5, c0) := Add64 t6 t5 0%Z in
  let: (t6, _) := Add64 u6 c2 c0 in
  (t0, t1, t2, t3, t4, t5, t6).
(** element_purego.go 572-627 *)
Definition square_r2 (x_0 x_1 x_2 x_3 x_4 x_5 x_6 t0 t1 t2 t3 t4 t5 t6 : Z) :=
  let c0 := 0%Z in
  let c1 := 0%Z in
  let c2 := 0%Z in
  let v := x_2 in
  let: (u0, c1) := Mul64 v x_0 in
  let: (t0, c0) := Add64 c1 t0 0%Z in
  let: (u1, c1) := Mul64 v x_1 in
  let: (t1, c0) := Add64 c1 t1 c0 in
  let: (u2, c1) := Mul64 v x_2 in
  let: (t2, c0) := Add64 c1 t2 c0 in
  let: (u3, c1) := Mul64 v x_3 in
  let: (t3, c0) := Add64 c1 t3 c0 in
  let: (u4, c1) := Mul64 v x_4 in
  let: (t4, c0) := Add64 c1 t4 c0 in
  let: (u5, c1) := Mul64 v x_5 in
  let: (t5, c0) := Add64 c1 t5 c0 in
  let: (u6, c1) := Mul64 v x_6 in
  let: (t6, c0) := Add64 c1 t6 c0 in
  let: (c2, _) := Add64 0%Z 0%Z c0 in
  let: (t1, c0) := Add64 u0 t1 0%Z in
  let: (t2, c0) := Add64 u1 t2 c0 in
  let: (t3, c0) := Add64 u2 t3 c0 in
  let: (t4, c0) := Add64 u3 t4 c0 in
  let: (t5, c0) := Add64 u4 t5 c0 in
  let: (t6, c0) := Add64 u5 t6 c0 in
  let: (c2, _) := Add64 u6 c2 c0 in
  let m := ((qInvNeg * t0) mod W)%Z in
  let: (u0, c1) := Mul64 m q0 in
  let: (_, c0) := Add64 t0 c1 0%Z in
  let: (u1, c1) := Mul64 m q1 in
  let: (t0, c0) := Add64 t1 c1 c0 in
  let: (u2, c1) := Mul64 m q2 in
  let: (t1, c0) := Add64 t2 c1 c0 in
  let: (u3, c1) := Mul64 m q3 in
  let: (t2, c0) := Add64 t3 c1 c0 in
  let: (u4, c1) := Mul64 m q4 in
  let: (t3, c0) := Add64 t4 c1 c0 in
  let: (u5, c1) := Mul64 m q5 in
  let: (t4, c0) := Add64 t5 c1 c0 in
  let: (u6, c1) := Mul64 m q6 in
  let: (t5, c0) := Add64 0%Z c1 c0 in
  let: (u6, _) := Add64 u6 0%Z c0 in
  let: (t0, c0) := Add64 u0 t0 0%Z in
  let: (t1, c0) := Add64 u1 t1 c0 in
  let: (t2, c0) := Add64 u2 t2 c0 in
  let: (t3, c0) := Add64 u3 t3 c0 in
  let: (t4, c0) := Add64 u4 t4 c0 in
  let: (t5, c0) := Add64 u5 t5 c0 in
  let: (c2, _) := Add64 c2 0%Z c0 in
  let: (t5, c0) := Add64 t6 t5 0%Z in
  let: (t6, _) := Add64 u6 c2 c0 in
  (t0, t1, t2, t3, t4, t5, t6).
(** element_purego.go 628-683 *)
Definition square_r3 (x_0 x_1 x_2 x_3 x_4 x_5 x_6 t0 t1 t2 t3 t4 t5 t6 : Z) :=
  let c0 := 0%Z in
  let c1 := 0%Z in
  let c2 := 0%Z in
  let v := x_3 in
  let: (u0, c1) := Mul64 v x_0 in
  let: (t0, c0) := Add64 c1 t0 0%Z in
  let: (u1, c1) := Mul64 v x_1 in
  let: (t1, c0) := Add64 c1 t1 c0 in
  let: (u2, c1) := Mul64 v x_2 in
  let: (t2, c0) := Add64 c1 t2 c0 in
  let: (u3, c1) := Mul64 v x_3 in
  let: (t3, c0) := Add64 c1 t3 c0 in
  let: (u4, c1) := Mul64 v x_4 in
  let: (t4, c0) := Add64 c1 t4 c0 in
  let: (u5, c1) := Mul64 v x_5 in
  let: (t5, c0) := Add64 c1 t5 c0 in
  let: (u6, c1) := Mul64 v x_6 in
  let: (t6, c0) := Add64 c1 t6 c0 in
  let: (c2, _) := Add64 0%Z 0%Z c0 in
  let: (t1, c0) := Add64 u0 t1 0%Z in
  let: (t2, c0) := Add64 u1 t2 c0 in
  let: (t3, c0) := Add64 u2 t3 c0 in
  let: (t4, c0) := Add64 u3 t4 c0 in
  let: (t5, c0) := Add64 u4 t5 c0 in
  let: (t6, c0) := Add64 u5 t6 c0 in
  let: (c2, _) := Add64 u6 c2 c0 in
  let m := ((qInvNeg * t0) mod W)%Z in
  let: (u0, c1) := Mul64 m q0 in
  let: (_, c0) := Add64 t0 c1 0%Z in
  let: (u1, c1) := Mul64 m q1 in
  let: (t0, c0) := Add64 t1 c1 c0 in
  let: (u2, c1) := Mul64 m q2 in
  let: (t1, c0) := Add64 t2 c1 c0 in
  let: (u3, c1) := Mul64 m q3 in
  let: (t2, c0) := Add64 t3 c1 c0 in
  let: (u4, c1) := Mul64 m q4 in
  let: (t3, c0) := Add64 t4 c1 c0 in
  let: (u5, c1) := Mul64 m q5 in
  let: (t4, c0) := Add64 t5 c1 c0 in
  let: (u6, c1) := Mul64 m q6 in
  let: (t5, c0) := Add64 0%Z c1 c0 in
  let: (u6, _) := Add64 u6 0%Z c0 in
  let: (t0, c0) := Add64 u0 t0 0%Z in
  let: (t1, c0) := Add64 u1 t1 c0 in
  let: (t2, c0) := Add64 u2 t2 c0 in
  let: (t3, c0) := Add64 u3 t3 c0 in
  let: (t4, c0) := Add64 u4 t4 c0 in
  let: (t5, c0) := Add64 u5 t5 c0 in
  let: (c2, _) := Add64 c2 0%Z c0 in
  let: (t5, c0) := Add64 t6 t5 0%Z in
  let: (t6, _) := Add64 u6 c2 c0 in
  (t0, t1, t2, t3, t4, t5, t6).
(** element_purego.go 684-739 *)
Definition square_r4 (x_0 x_1 x_2 x_3 x_4 x_5 x_6 t0 t1 t2 t3 t4 t5 t6 : Z) :=
  let c0 := 0%Z in
  let c1 := 0%Z in
  let c2 := 0%Z in
  let v := x_4 in
  let: (u0, c1) := Mul64 v x_0 in
  let: (t0, c0) := Add64 c1 t0 0%Z in
  let: (u1, c1) := Mul64 v x_1 in
  let: (t1, c0) := Add64 c1 t1 c0 in
  let: (u2, c1) := Mul64 v x_2 in
  let: (t2, c0) := Add64 c1 t2 c0 in
  let: (u3, c1) := Mul64 v x_3 in
  let: (t3, c0) := Add64 c1 t3 c0 in
  let: (u4, c1) := Mul64 v x_4 in
  let: (t4, c0) := Add64 c1 t4 c0 in
  let: (u5, c1) := Mul64 v x_5 in
  let: (t5, c0) := Add64 c1 t5 c0 in
  let: (u6, c1) := Mul64 v x_6 in
  let: (t6, c0) := Add64 c1 t6 c0 in
  let: (c2, _) := Add64 0%Z 0%Z c0 in
  let: (t1, c0) := Add64 u0 t1 0%Z in
  let: (t2, c0) := Add64 u1 t2 c0 in
  let: (t3, c0) := Add64 u2 t3 c0 in
  let: (t4, c0) := Add64 u3 t4 c0 in
  let: (t5, c0) := Add64 u4 t5 c0 in
  let: (t6, c0) := Add64 u5 t6 c0 in
  let: (c2, _) := Add64 u6 c2 c0 in
  let m := ((qInvNeg * t0) mod W)%Z in
  let: (u0, c1) := Mul64 m q0 in
  let: (_, c0) := Add64 t0 c1 0%Z in
  let: (u1, c1) := Mul64 m q1 in
  let: (t0, c0) := Add64 t1 c1 c0 in
  let: (u2, c1) := Mul64 m q2 in
  let: (t1, c0) := Add64 t2 c1 c0 in
  let: (u3, c1) := Mul64 m q3 in
  let: (t2, c0) := Add64 t3 c1 c0 in
  let: (u4, c1) := Mul64 m q4 in
  let: (t3, c0) := Add64 t4 c1 c0 in
  let: (u5, c1) := Mul64 m q5 in
  let: (t4, c0) := Add64 t5 c1 c0 in
  let: (u6, c1) := Mul64 m q6 in
  let: (t5, c0) := Add64 0%Z c1 c0 in
  let: (u6, _) := Add64 u6 0%Z c0 in
  let: (t0, c0) := Add64 u0 t0 0%Z in
  let: (t1, c0) := Add64 u1 t1 c0 in
  let: (t2, c0) := Add64 u2 t2 c0 in
  let: (t3, c0) := Add64 u3 t3 c0 in
  let: (t4, c0) := Add64 u4 t4 c0 in
  let: (t5, c0) := Add64 u5 t5 c0 in
  let: (c2, _) := Add64 c2 0%Z c0 in
  let: (t5, c0) := Add64 t6 t5 0%Z in
  let: (t6, _) := Add64 u6 c2 c0 in
  (t0, t1, t2, t3, t4, t5, t6).
(** element_purego.go 740-795 *)
Definition square_r5 (x_0 x_1 x_2 x_3 x_4 x_5 x_6 t0 t1 t2 t3 t4 t5 t6 : Z) :=
  let c0 := 0%Z in
  let c1 := 0%Z in
  let c2 := 0%Z in
  let v := x_5 in
  let: (u0, c1) := Mul64 v x_0 in
  let: (t0, c0) := Add64 c1 t0 0%Z in
  let: (u1, c1) := Mul64 v x_1 in
  let: (t1, c0) := Add64 c1 t1 c0 in
  let: (u2, c1) := Mul64 v x_2 in
  let: (t2, c0) := Add64 c1 t2 c0 in
  let: (u3, c1) := Mul64 v x_3 in
  let: (t3, c0) := Add64 c1 t3 c0 in
  let: (u4, c1) := Mul64 v x_4 in
  let: (t4, c0) := Add64 c1 t4 c0 in
  let: (u5, c1) := Mul64 v x_5 in
  let: (t5, c0) := Add64 c1 t5 c0 in
  let: (u6, c1) := Mul64 v x_6 in
  let: (t6, c0) := Add64 c1 t6 c0 in
  let: (c2, _) := Add64 0%Z 0%Z c0 in
  let: (t1, c0) := Add64 u0 t1 0%Z in
  let: (t2, c0) := Add64 u1 t2 c0 in
  let: (t3, c0) := Add64 u2 t3 c0 in
  let: (t4, c0) := Add64 u3 t4 c0 in
  let: (t5, c0) := Add64 u4 t5 c0 in
  let: (t6, c0) := Add64 u5 t6 c0 in
  let: (c2, _) := Add64 u6 c2 c0 in
  let m := ((qInvNeg * t0) mod W)%Z in
  let: (u0, c1) := Mul64 m q0 in
  let: (_, c0) := Add64 t0 c1 0%Z in
  let: (u1, c1) := Mul64 m q1 in
  let: (t0, c0) := Add64 t1 c1 c0 in
  let: (u2, c1) := Mul64 m q2 in
  let: (t1, c0) := Add64 t2 c1 c0 in
  let: (u3, c1) := Mul64 m q3 in
  let: (t2, c0) := Add64 t3 c1 c0 in
  let: (u4, c1) := Mul64 m q4 in
  let: (t3, c0) := Add64 t4 c1 c0 in
  let: (u5, c1) := Mul64 m q5 in
  let: (t4, c0) := Add64 t5 c1 c0 in
  let: (u6, c1) := Mul64 m q6 in
  let: (t5, c0) := Add64 0%Z c1 c0 in
  let: (u6, _) := Add64 u6 0%Z c0 in
  let: (t0, c0) := Add64 u0 t0 0%Z in
  let: (t1, c0) := Add64 u1 t1 c0 in
  let: (t2, c0) := Add64 u2 t2 c0 in
  let: (t3, c0) := Add64 u3 t3 c0 in
  let: (t4, c0) := Add64 u4 t4 c0 in
  let: (t5, c0) := Add64 u5 t5 c0 in
  let: (c2, _) := Add64 c2 0%Z c0 in
  let: (t5, c0) := Add64 t6 t5 0%Z in
  let: (t6, _) := Add64 u6 c2 c0 in
  (t0, t1, t2, t3, t4, t5, t6).
(** element_purego.go 796-851 *)
Definition square_r6 (x_0 x_1 x_2 x_3 x_4 x_5 x_6 t0 t1 t2 t3 t4 t5 t6 : Z) :=
  let c0 := 0%Z in
  let c1 := 0%Z in
  let c2 := 0%Z in
  let v := x_6 in
  let: (u0, c1) := Mul64 v x_0 in
  let: (t0, c0) := Add64 c1 t0 0%Z in
  let: (u1, c1) := Mul64 v x_1 in
  let: (t1, c0) := Add64 c1 t1 c0 in
  let: (u2, c1) := Mul64 v x_2 in
  let: (t2, c0) := Add64 c1 t2 c0 in
  let: (u3, c1) := Mul64 v x_3 in
  let: (t3, c0) := Add64 c1 t3 c0 in
  let: (u4, c1) := Mul64 v x_4 in
  let: (t4, c0) := Add64 c1 t4 c0 in
  let: (u5, c1) := Mul64 v x_5 in
  let: (t5, c0) := Add64 c1 t5 c0 in
  let: (u6, c1) := Mul64 v x_6 in
  let: (t6, c0) := Add64 c1 t6 c0 in
  let: (c2, _) := Add64 0%Z 0%Z c0 in
  let: (t1, c0) := Add64 u0 t1 0%Z in
  let: (t2, c0) := Add64 u1 t2 c0 in
  let: (t3, c0) := Add64 u2 t3 c0 in
  let: (t4, c0) := Add64 u3 t4 c0 in
  let: (t5, c0) := Add64 u4 t5 c0 in
  let: (t6, c0) := Add64 u5 t6 c0 in
  let: (c2, _) := Add64 u6 c2 c0 in
  let m := ((qInvNeg * t0) mod W)%Z in
  let: (u0, c1) := Mul64 m q0 in
  let: (_, c0) := Add64 t0 c1 0%Z in
  let: (u1, c1) := Mul64 m q1 in
  let: (t0, c0) := Add64 t1 c1 c0 in
  let: (u2, c1) := Mul64 m q2 in
  let: (t1, c0) := Add64 t2 c1 c0 in
  let: (u3, c1) := Mul64 m q3 in
  let: (t2, c0) := Add64 t3 c1 c0 in
  let: (u4, c1) := Mul64 m q4 in
  let: (t3, c0) := Add64 t4 c1 c0 in
  let: (u5, c1) := Mul64 m q5 in
  let: (t4, c0) := Add64 t5 c1 c0 in
  let: (u6, c1) := Mul64 m q6 in
  let: (t5, c0) := Add64 0%Z c1 c0 in
  let: (u6, _) := Add64 u6 0%Z c0 in
  let: (t0, c0) := Add64 u0 t0 0%Z in
  let: (t1, c0) := Add64 u1 t1 c0 in
  let: (t2, c0) := Add64 u2 t2 c0 in
  let: (t3, c0) := Add64 u3 t3 c0 in
  let: (t4, c0) := Add64 u4 t4 c0 in
  let: (t5, c0) := Add64 u5 t5 c0 in
  let: (c2, _) := Add64 c2 0%Z c0 in
  let: (t5, c0) := Add64 t6 t5 0%Z in
  let: (t6, _) := Add64 u6 c2 c0 in
  (t0, t1, t2, t3, t4, t5, t6).
(** element_purego.go 464-872 *)
Definition square (x_0 x_1 x_2 x_3 x_4 x_5 x_6 : Z) : seq Z :=
  let: (t0, t1, t2, t3, t4, t5, t6) := square_r0 x_0 x_1 x_2 x_3 x_4 x_5 x_6 in
  let: (t0, t1, t2, t3, t4, t5, t6) := square_r1 x_0 x_1 x_2 x_3 x_4 x_5 x_6 t0 t1 t2 t3 t4 t5 t6 in
  let: (t0, t1, t2, t3, t4, t5, t6) := square_r2 x_0 x_1 x_2 x_3 x_4 x_5 x_6 t0 t1 t2 t3 t4 t5 t6 in
  let: (t0, t1, t2, t3, t4, t5, t6) := square_r3 x_0 x_1 x_2 x_3 x_4 x_5 x_6 t0 t1 t2 t3 t4 t5 t6 in
  let: (t0, t1, t2, t3, t4, t5, t6) := square_r4 x_0 x_1 x_2 x_3 x_4 x_5 x_6 t0 t1 t2 t3 t4 t5 t6 in
  let: (t0, t1, t2, t3, t4, t5, t6) := square_r5 x_0 x_1 x_2 x_3 x_4 x_5 x_6 t0 t1 t2 t3 t4 t5 t6 in
  let: (t0, t1, t2, t3, t4, t5, t6) := square_r6 x_0 x_1 x_2 x_3 x_4 x_5 x_6 t0 t1 t2 t3 t4 t5 t6 in
  let z_0 := t0 in
  let z_1 := t1 in
  let z_2 := t2 in
  let z_3 := t3 in
  let z_4 := t4 in
  let z_5 := t5 in
  let z_6 := t6 in
  if ~~ smaller z_0 z_1 z_2 z_3 z_4 z_5 z_6 then
  let b := 0%Z in
  let: (z_0, b) := Sub64 z_0 q0 0%Z in
  let: (z_1, b) := Sub64 z_1 q1 b in
  let: (z_2, b) := Sub64 z_2 q2 b in
  let: (z_3, b) := Sub64 z_3 q3 b in
  let: (z_4, b) := Sub64 z_4 q4 b in
  let: (z_5, b) := Sub64 z_5 q5 b in
  let: (z_6, _) := Sub64 z_6 q6 b in
  [:: z_0; z_1; z_2; z_3; z_4; z_5; z_6] else
  [:: z_0; z_1; z_2; z_3; z_4; z_5; z_6].
(** element.go 788-799 *)
Definition from_r0 (z_0 z_1 z_2 z_3 z_4 z_5 z_6 : Z) :=
  let m := ((z_0 * qInvNeg) mod W)%Z in
  let C := madd0 m q0 z_0 in
  let: (C, z_0) := madd2 m q1 z_1 C in
  let: (C, z_1) := madd2 m q2 z_2 C in
  let: (C, z_2) := madd2 m q3 z_3 C in
  let: (C, z_3) := madd2 m q4 z_4 C in
  let: (C, z_4) := madd2 m q5 z_5 C in
  let: (C, z_5) := madd2 m q6 z_6 C in
  let z_6 := C in
  (z_0, z_1, z_2, z_3, z_4, z_5, z_6).
(** element.go 800-811 *)
Definition from_r1 (z_0 z_1 z_2 z_3 z_4 z_5 z_6 : Z) :=
  let m := ((z_0 * qInvNeg) mod W)%Z in
  let C := madd0 m q0 z_0 in
  let: (C, z_0) := madd2 m q1 z_1 C in
  let: (C, z_1) := madd2 m q2 z_2 C in
  let: (C, z_2) := madd2 m q3 z_3 C in
  let: (C, z_3) := madd2 m q4 z_4 C in
  let: (C, z_4) := madd2 m q5 z_5 C in
  let: (C, z_5) := madd2 m q6 z_6 C in
  let z_6 := C in
  (z_0, z_1, z_2, z_3, z_4, z_5, z_6).
(** element.go 812-823 *)
Definition from_r2 (z_0 z_1 z_2 z_3 z_4 z_5 z_6 : Z) :=
  let m := ((z_0 * qInvNeg) mod W)%Z in
  let C := madd0 m q0 z_0 in
  let: (C, z_0) := madd2 m q1 z_1 C in
  let: (C, z_1) := madd2 m q2 z_2 C in
  let: (C, z_2) := madd2 m q3 z_3 C in
  let: (C, z_3) := madd2 m q4 z_4 C in
  let: (C, z_4) := madd2 m q5 z_5 C in
  let: (C, z_5) := madd2 m q6 z_6 C in
  let z_6 := C in
  (z_0, z_1, z_2, z_3, z_4, z_5, z_6).
(** element.go 824-835 *)
Definition from_r3 (z_0 z_1 z_2 z_3 z_4 z_5 z_6 : Z) :=
  let m := ((z_0 * qInvNeg) mod W)%Z in
  let C := madd0 m q0 z_0 in
  let: (C, z_0) := madd2 m q1 z_1 C in
  let: (C, z_1) := madd2 m q2 z_2 C in
  let: (C, z_2) := madd2 m q3 z_3 C in
  let: (C, z_3) := madd2 m q4 z_4 C in
  let: (C, z_4) := madd2 m q5 z_5 C in
  let: (C, z_5) := madd2 m q6 z_6 C in
  let z_6 := C in
  (z_0, z_1, z_2, z_3, z_4, z_5, z_6).
(** element.go 836-847 *)
Definition from_r4 (z_0 z_1 z_2 z_3 z_4 z_5 z_6 : Z) :=
  let m := ((z_0 * qInvNeg) mod W)%Z in
  let C := madd0 m q0 z_0 in
  let: (C, z_0) := madd2 m q1 z_1 C in
  let: (C, z_1) := madd2 m q2 z_2 C in
  let: (C, z_2) := madd2 m q3 z_3 C in
  let: (C, z_3) := madd2 m q4 z_4 C in
  let: (C, z_4) := madd2 m q5 z_5 C in
  let: (C, z_5) := madd2 m q6 z_6 C in
  let z_6 := C in
  (z_0, z_1, z_2, z_3, z_4, z_5, z_6).
(** element.go 848-859 *)
Definition from_r5 (z_0 z_1 z_2 z_3 z_4 z_5 z_6 : Z) :=
  let m := ((z_0 * qInvNeg) mod W)%Z in
  let C := madd0 m q0 z_0 in
  let: (C, z_0) := madd2 m q1 z_1 C in
  let: (C, z_1) := madd2 m q2 z_2 C in
  let: (C, z_2) := madd2 m q3 z_3 C in
  let: (C, z_3) := madd2 m q4 z_4 C in
  let: (C, z_4) := madd2 m q5 z_5 C in
  let: (C, z_5) := madd2 m q6 z_6 C in
  let z_6 := C in
  (z_0, z_1, z_2, z_3, z_4, z_5, z_6).
(** element.go 860-871 *)
Definition from_r6 (z_0 z_1 z_2 z_3 z_4 z_5 z_6 : Z) :=
  let m := ((z_0 * qInvNeg) mod W)%Z in
  let C := madd0 m q0 z_0 in
  let: (C, z_0) := madd2 m q1 z_1 C in
  let: (C, z_1) := madd2 m q2 z_2 C in
  let: (C, z_2) := madd2 m q3 z_3 C in
  let: (C, z_3) := madd2 m q4 z_4 C in
  let: (C, z_4) := madd2 m q5 z_5 C in
  let: (C, z_5) := madd2 m q6 z_6 C in
  let z_6 := C in
  (z_0, z_1, z_2, z_3, z_4, z_5, z_6).
(** element.go 784-884 *)
Definition from (z_0 z_1 z_2 z_3 z_4 z_5 z_6 : Z) : seq Z :=
  let: (z_0, z_1, z_2, z_3, z_4, z_5, z_6) := from_r0 z_0 z_1 z_2 z_3 z_4 z_5 z_6 in
  let: (z_0, z_1, z_2, z_3, z_4, z_5, z_6) := from_r1 z_0 z_1 z_2 z_3 z_4 z_5 z_6 in
  let: (z_0, z_1, z_2, z_3, z_4, z_5, z_6) := from_r2 z_0 z_1 z_2 z_3 z_4 z_5 z_6 in
  let: (z_0, z_1, z_2, z_3, z_4, z_5, z_6) := from_r3 z_0 z_1 z_2 z_3 z_4 z_5 z_6 in
  let: (z_0, z_1, z_2, z_3, z_4, z_5, z_6) := from_r4 z_0 z_1 z_2 z_3 z_4 z_5 z_6 in
  let: (z_0, z_1, z_2, z_3, z_4, z_5, z_6) := from_r5 z_0 z_1 z_2 z_3 z_4 z_5 z_6 in
  let: (z_0, z_1, z_2, z_3, z_4, z_5, z_6) := from_r6 z_0 z_1 z_2 z_3 z_4 z_5 z_6 in
  if ~~ smaller z_0 z_1 z_2 z_3 z_4 z_5 z_6 then
  let b := 0%Z in
  let: (z_0, b) := Sub64 z_0 q0 0%Z in
  let: (z_1, b) := Sub64 z_1 q1 b in
  let: (z_2, b) := Sub64 z_2 q2 b in
  let: (z_3, b) := Sub64 z_3 q3 b in
  let: (z_4, b) := Sub64 z_4 q4 b in
  let: (z_5, b) := Sub64 z_5 q5 b in
  let: (z_6, _) := Sub64 z_6 q6 b in
  [:: z_0; z_1; z_2; z_3; z_4; z_5; z_6] else
  [:: z_0; z_1; z_2; z_3; z_4; z_5; z_6].
End Unrolled7.
(** names the result of every machine operation, on both sides at once *)
Ltac opcase e := match goal with
  | H : e = _ |- _ => rewrite H; cbv beta iota
  | _ => destruct e eqn:?
  end.
Ltac ops := repeat (match goal with
  | |- context [Mul64 ?a ?b] => opcase (Mul64 a b)
  | |- context [Add64 ?a ?b ?c] => opcase (Add64 a b c)
  | |- context [Sub64 ?a ?b ?c] => opcase (Sub64 a b c)
  | |- context [madd1 ?a ?b ?c] => opcase (madd1 a b c)
  | |- context [madd2 ?a ?b ?c ?d] => opcase (madd2 a b c d)
  end).
Ltac ifs := repeat (match goal with
  | |- context [negb ?c] => destruct c; cbn [negb]; cbv iota
  | |- context [if ?c then _ else _] => destruct c; cbv iota
  end).
Ltac unroll hless hzero :=
  cbv -[Add64 Sub64 Mul64 madd0 madd1 madd2 Z.mul Z.modulo Z.eqb Z.lor W negb smaller isZero less IsZero];
  rewrite ?hzero; ops; rewrite ?hless; ifs; reflexivity.
Ltac tail hless := cbv -[Add64 Sub64 Mul64 madd0 madd1 madd2 Z.mul Z.modulo Z.eqb Z.lor W negb smaller isZero less IsZero];
  ops; rewrite ?hless; ifs; reflexivity.
Lemma less7 q0 q1 q2 q3 q4 q5 q6 x0 x1 x2 x3 x4 x5 x6 : less [:: x0; x1; x2; x3; x4; x5; x6] [:: q0; q1; q2; q3; q4; q5; q6] = smaller q0 q1 q2 q3 q4 q5 q6 x0 x1 x2 x3 x4 x5 x6.
Proof. by rewrite /less /smaller /= andbF orbF. Qed.
Lemma isZero7 x0 x1 x2 x3 x4 x5 x6 : IsZero [:: x0; x1; x2; x3; x4; x5; x6] = isZero x0 x1 x2 x3 x4 x5 x6.
Proof. by rewrite /IsZero /isZero /= Z.lor_0_r (Z.lor_comm x5 _) (Z.lor_comm x4 _) (Z.lor_comm x3 _) (Z.lor_comm x2 _) (Z.lor_comm x1 _) (Z.lor_comm x0 _). Qed.
Theorem unrolled7_Add q0 q1 q2 q3 q4 q5 q6 qi r one co k b x0 x1 x2 x3 x4 x5 x6 y0 y1 y2 y3 y4 y5 y6 :
  Add (Gen [:: q0; q1; q2; q3; q4; q5; q6] qi r one co k false b) [:: x0; x1; x2; x3; x4; x5; x6] [:: y0; y1; y2; y3; y4; y5; y6] =
  add q0 q1 q2 q3 q4 q5 q6 x0 x1 x2 x3 x4 x5 x6 y0 y1 y2 y3 y4 y5 y6.
Proof. unroll (@less7) (@isZero7). Qed.
Theorem unrolled7_Double q0 q1 q2 q3 q4 q5 q6 qi r one co k b x0 x1 x2 x3 x4 x5 x6 :
  Double (Gen [:: q0; q1; q2; q3; q4; q5; q6] qi r one co k false b) [:: x0; x1; x2; x3; x4; x5; x6] =
  double q0 q1 q2 q3 q4 q5 q6 x0 x1 x2 x3 x4 x5 x6.
Proof. unroll (@less7) (@isZero7). Qed.
Theorem unrolled7_Sub q0 q1 q2 q3 q4 q5 q6 qi r one co k b x0 x1 x2 x3 x4 x5 x6 y0 y1 y2 y3 y4 y5 y6 :
  Sub (Gen [:: q0; q1; q2; q3; q4; q5; q6] qi r one co k false b) [:: x0; x1; x2; x3; x4; x5; x6] [:: y0; y1; y2; y3; y4; y5; y6] =
  sub q0 q1 q2 q3 q4 q5 q6 x0 x1 x2 x3 x4 x5 x6 y0 y1 y2 y3 y4 y5 y6.
Proof. unroll (@less7) (@isZero7). Qed.
Theorem unrolled7_Neg q0 q1 q2 q3 q4 q5 q6 qi r one co k b x0 x1 x2 x3 x4 x5 x6 :
  Neg (Gen [:: q0; q1; q2; q3; q4; q5; q6] qi r one co k false b) [:: x0; x1; x2; x3; x4; x5; x6] =
  neg q0 q1 q2 q3 q4 q5 q6 x0 x1 x2 x3 x4 x5 x6.
Proof. unroll (@less7) (@isZero7). Qed.
Lemma mulG_r0E q0 q1 q2 q3 q4 q5 q6 qi r one co k b x0 x1 x2 x3 x4 x5 x6 y0 :
  ciosFirst (Gen [:: q0; q1; q2; q3; q4; q5; q6] qi r one co k false b) [:: x0; x1; x2; x3; x4; x5; x6] y0 =
  let: (s0, s1, s2, s3, s4, s5, s6, s7) := mulG_r0 q0 q1 q2 q3 q4 q5 q6 qi x0 x1 x2 x3 x4 x5 x6 y0 0%Z 0%Z 0%Z 0%Z 0%Z 0%Z 0%Z 0%Z in ([:: s0; s1; s2; s3; s4; s5; s6], s7).
Proof. rewrite /mulG_r0; unroll (@less7) (@isZero7). Qed.
Lemma mulG_r1E q0 q1 q2 q3 q4 q5 q6 qi r one co k b x0 x1 x2 x3 x4 x5 x6 y1 t0 t1 t2 t3 t4 t5 t6 t7 :
  ciosRound (Gen [:: q0; q1; q2; q3; q4; q5; q6] qi r one co k false b) [:: x0; x1; x2; x3; x4; x5; x6] ([:: t0; t1; t2; t3; t4; t5; t6], t7) y1 =
  let: (s0, s1, s2, s3, s4, s5, s6, s7) := mulG_r1 q0 q1 q2 q3 q4 q5 q6 qi x0 x1 x2 x3 x4 x5 x6 y1 t0 t1 t2 t3 t4 t5 t6 t7 in ([:: s0; s1; s2; s3; s4; s5; s6], s7).
Proof. rewrite /mulG_r1; unroll (@less7) (@isZero7). Qed.
Lemma mulG_r2E q0 q1 q2 q3 q4 q5 q6 qi r one co k b x0 x1 x2 x3 x4 x5 x6 y2 t0 t1 t2 t3 t4 t5 t6 t7 :
  ciosRound (Gen [:: q0; q1; q2; q3; q4; q5; q6] qi r one co k false b) [:: x0; x1; x2; x3; x4; x5; x6] ([:: t0; t1; t2; t3; t4; t5; t6], t7) y2 =
  let: (s0, s1, s2, s3, s4, s5, s6, s7) := mulG_r2 q0 q1 q2 q3 q4 q5 q6 qi x0 x1 x2 x3 x4 x5 x6 y2 t0 t1 t2 t3 t4 t5 t6 t7 in ([:: s0; s1; s2; s3; s4; s5; s6], s7).
Proof. rewrite /mulG_r2; unroll (@less7) (@isZero7). Qed.
Lemma mulG_r3E q0 q1 q2 q3 q4 q5 q6 qi r one co k b x0 x1 x2 x3 x4 x5 x6 y3 t0 t1 t2 t3 t4 t5 t6 t7 :
  ciosRound (Gen [:: q0; q1; q2; q3; q4; q5; q6] qi r one co k false b) [:: x0; x1; x2; x3; x4; x5; x6] ([:: t0; t1; t2; t3; t4; t5; t6], t7) y3 =
  let: (s0, s1, s2, s3, s4, s5, s6, s7) := mulG_r3 q0 q1 q2 q3 q4 q5 q6 qi x0 x1 x2 x3 x4 x5 x6 y3 t0 t1 t2 t3 t4 t5 t6 t7 in ([:: s0; s1; s2; s3; s4; s5; s6], s7).
Proof. rewrite /mulG_r3; unroll (@less7) (@isZero7). Qed.
Lemma mulG_r4E q0 q1 q2 q3 q4 q5 q6 qi r one co k b x0 x1 x2 x3 x4 x5 x6 y4 t0 t1 t2 t3 t4 t5 t6 t7 :
  ciosRound (Gen [:: q0; q1; q2; q3; q4; q5; q6] qi r one co k false b) [:: x0; x1; x2; x3; x4; x5; x6] ([:: t0; t1; t2; t3; t4; t5; t6], t7) y4 =
  let: (s0, s1, s2, s3, s4, s5, s6, s7) := mulG_r4 q0 q1 q2 q3 q4 q5 q6 qi x0 x1 x2 x3 x4 x5 x6 y4 t0 t1 t2 t3 t4 t5 t6 t7 in ([:: s0; s1; s2; s3; s4; s5; s6], s7).
Proof. rewrite /mulG_r4; unroll (@less7) (@isZero7). Qed.
Lemma mulG_r5E q0 q1 q2 q3 q4 q5 q6 qi r one co k b x0 x1 x2 x3 x4 x5 x6 y5 t0 t1 t2 t3 t4 t5 t6 t7 :
  ciosRound (Gen [:: q0; q1; q2; q3; q4; q5; q6] qi r one co k false b) [:: x0; x1; x2; x3; x4; x5; x6] ([:: t0; t1; t2; t3; t4; t5; t6], t7) y5 =
  let: (s0, s1, s2, s3, s4, s5, s6, s7) := mulG_r5 q0 q1 q2 q3 q4 q5 q6 qi x0 x1 x2 x3 x4 x5 x6 y5 t0 t1 t2 t3 t4 t5 t6 t7 in ([:: s0; s1; s2; s3; s4; s5; s6], s7).
Proof. rewrite /mulG_r5; unroll (@less7) (@isZero7). Qed.
Lemma mulG_r6E q0 q1 q2 q3 q4 q5 q6 qi r one co k b x0 x1 x2 x3 x4 x5 x6 y6 t0 t1 t2 t3 t4 t5 t6 t7 :
  ciosRound (Gen [:: q0; q1; q2; q3; q4; q5; q6] qi r one co k false b) [:: x0; x1; x2; x3; x4; x5; x6] ([:: t0; t1; t2; t3; t4; t5; t6], t7) y6 =
  let: (s0, s1, s2, s3, s4, s5, s6, s7) := mulG_r6 q0 q1 q2 q3 q4 q5 q6 qi x0 x1 x2 x3 x4 x5 x6 y6 t0 t1 t2 t3 t4 t5 t6 t7 in ([:: s0; s1; s2; s3; s4; s5; s6], s7).
Proof. rewrite /mulG_r6; unroll (@less7) (@isZero7). Qed.
Theorem unrolled7_mulGeneric q0 q1 q2 q3 q4 q5 q6 qi r one co k b x0 x1 x2 x3 x4 x5 x6 y0 y1 y2 y3 y4 y5 y6 :
  mulGeneric (Gen [:: q0; q1; q2; q3; q4; q5; q6] qi r one co k false b) [:: x0; x1; x2; x3; x4; x5; x6] [:: y0; y1; y2; y3; y4; y5; y6] =
  mulG q0 q1 q2 q3 q4 q5 q6 qi x0 x1 x2 x3 x4 x5 x6 y0 y1 y2 y3 y4 y5 y6.
Proof.
rewrite /mulGeneric /mulG; cbn [foldl behead hd0 nth]; cbv beta zeta.
cbv beta delta [hd0]; cbn [nth].
rewrite mulG_r0E; case: (mulG_r0 _ _ _ _ _ _ _ _ _ _ _ _ _ _ _ _ _ _ _ _ _ _ _ _) => [[[[[[[a0_0 a0_1] a0_2] a0_3] a0_4] a0_5] a0_6] a0_7]; cbv beta iota.
rewrite mulG_r1E; case: (mulG_r1 _ _ _ _ _ _ _ _ _ _ _ _ _ _ _ _ _ _ _ _ _ _ _ _) => [[[[[[[a1_0 a1_1] a1_2] a1_3] a1_4] a1_5] a1_6] a1_7]; cbv beta iota.
rewrite mulG_r2E; case: (mulG_r2 _ _ _ _ _ _ _ _ _ _ _ _ _ _ _ _ _ _ _ _ _ _ _ _) => [[[[[[[a2_0 a2_1] a2_2] a2_3] a2_4] a2_5] a2_6] a2_7]; cbv beta iota.
rewrite mulG_r3E; case: (mulG_r3 _ _ _ _ _ _ _ _ _ _ _ _ _ _ _ _ _ _ _ _ _ _ _ _) => [[[[[[[a3_0 a3_1] a3_2] a3_3] a3_4] a3_5] a3_6] a3_7]; cbv beta iota.
rewrite mulG_r4E; case: (mulG_r4 _ _ _ _ _ _ _ _ _ _ _ _ _ _ _ _ _ _ _ _ _ _ _ _) => [[[[[[[a4_0 a4_1] a4_2] a4_3] a4_4] a4_5] a4_6] a4_7]; cbv beta iota.
rewrite mulG_r5E; case: (mulG_r5 _ _ _ _ _ _ _ _ _ _ _ _ _ _ _ _ _ _ _ _ _ _ _ _) => [[[[[[[a5_0 a5_1] a5_2] a5_3] a5_4] a5_5] a5_6] a5_7]; cbv beta iota.
rewrite mulG_r6E; case: (mulG_r6 _ _ _ _ _ _ _ _ _ _ _ _ _ _ _ _ _ _ _ _ _ _ _ _) => [[[[[[[a6_0 a6_1] a6_2] a6_3] a6_4] a6_5] a6_6] a6_7]; cbv beta iota.
tail (@less7).
Qed.
Lemma mulP_r0E q0 q1 q2 q3 q4 q5 q6 qi r one co k b x0 y0 y1 y2 y3 y4 y5 y6 :
  purFirst (Gen [:: q0; q1; q2; q3; q4; q5; q6] qi r one co k false b) [:: y0; y1; y2; y3; y4; y5; y6] x0 =
  let: (s0, s1, s2, s3, s4, s5, s6) := mulP_r0 q0 q1 q2 q3 q4 q5 q6 qi x0 y0 y1 y2 y3 y4 y5 y6 in [:: s0; s1; s2; s3; s4; s5; s6].
Proof. rewrite /mulP_r0; unroll (@less7) (@isZero7). Qed.
Lemma mulP_r1E q0 q1 q2 q3 q4 q5 q6 qi r one co k b x1 y0 y1 y2 y3 y4 y5 y6 t0 t1 t2 t3 t4 t5 t6 :
  purRound (Gen [:: q0; q1; q2; q3; q4; q5; q6] qi r one co k false b) [:: y0; y1; y2; y3; y4; y5; y6] [:: t0; t1; t2; t3; t4; t5; t6] x1 =
  let: (s0, s1, s2, s3, s4, s5, s6) := mulP_r1 q0 q1 q2 q3 q4 q5 q6 qi x1 y0 y1 y2 y3 y4 y5 y6 t0 t1 t2 t3 t4 t5 t6 in [:: s0; s1; s2; s3; s4; s5; s6].
Proof. rewrite /mulP_r1; unroll (@less7) (@isZero7). Qed.
Lemma mulP_r2E q0 q1 q2 q3 q4 q5 q6 qi r one co k b x2 y0 y1 y2 y3 y4 y5 y6 t0 t1 t2 t3 t4 t5 t6 :
  purRound (Gen [:: q0; q1; q2; q3; q4; q5; q6] qi r one co k false b) [:: y0; y1; y2; y3; y4; y5; y6] [:: t0; t1; t2; t3; t4; t5; t6] x2 =
  let: (s0, s1, s2, s3, s4, s5, s6) := mulP_r2 q0 q1 q2 q3 q4 q5 q6 qi x2 y0 y1 y2 y3 y4 y5 y6 t0 t1 t2 t3 t4 t5 t6 in [:: s0; s1; s2; s3; s4; s5; s6].
Proof. rewrite /mulP_r2; unroll (@less7) (@isZero7). Qed.
Lemma mulP_r3E q0 q1 q2 q3 q4 q5 q6 qi r one co k b x3 y0 y1 y2 y3 y4 y5 y6 t0 t1 t2 t3 t4 t5 t6 :
  purRound (Gen [:: q0; q1; q2; q3; q4; q5; q6] qi r one co k false b) [:: y0; y1; y2; y3; y4; y5; y6] [:: t0; t1; t2; t3; t4; t5; t6] x3 =
  let: (s0, s1, s2, s3, s4, s5, s6) := mulP_r3 q0 q1 q2 q3 q4 q5 q6 qi x3 y0 y1 y2 y3 y4 y5 y6 t0 t1 t2 t3 t4 t5 t6 in [:: s0; s1; s2; s3; s4; s5; s6].
Proof. rewrite /mulP_r3; unroll (@less7) (@isZero7). Qed.
Lemma mulP_r4E q0 q1 q2 q3 q4 q5 q6 qi r one co k b x4 y0 y1 y2 y3 y4 y5 y6 t0 t1 t2 t3 t4 t5 t6 :
  purRound (Gen [:: q0; q1; q2; q3; q4; q5; q6] qi r one co k false b) [:: y0; y1; y2; y3; y4; y5; y6] [:: t0; t1; t2; t3; t4; t5; t6] x4 =
  let: (s0, s1, s2, s3, s4, s5, s6) := mulP_r4 q0 q1 q2 q3 q4 q5 q6 qi x4 y0 y1 y2 y3 y4 y5 y6 t0 t1 t2 t3 t4 t5 t6 in [:: s0; s1; s2; s3; s4; s5; s6].
Proof. rewrite /mulP_r4; unroll (@less7) (@isZero7). Qed.
Lemma mulP_r5E q0 q1 q2 q3 q4 q5 q6 qi r one co k b x5 y0 y1 y2 y3 y4 y5 y6 t0 t1 t2 t3 t4 t5 t6 :
  purRound (Gen [:: q0; q1; q2; q3; q4; q5; q6] qi r one co k false b) [:: y0; y1; y2; y3; y4; y5; y6] [:: t0; t1; t2; t3; t4; t5; t6] x5 =
  let: (s0, s1, s2, s3, s4, s5, s6) := mulP_r5 q0 q1 q2 q3 q4 q5 q6 qi x5 y0 y1 y2 y3 y4 y5 y6 t0 t1 t2 t3 t4 t5 t6 in [:: s0; s1; s2; s3; s4; s5; s6].
Proof. rewrite /mulP_r5; unroll (@less7) (@isZero7). Qed.
Lemma mulP_r6E q0 q1 q2 q3 q4 q5 q6 qi r one co k b x6 y0 y1 y2 y3 y4 y5 y6 t0 t1 t2 t3 t4 t5 t6 :
  purRound (Gen [:: q0; q1; q2; q3; q4; q5; q6] qi r one co k false b) [:: y0; y1; y2; y3; y4; y5; y6] [:: t0; t1; t2; t3; t4; t5; t6] x6 =
  let: (s0, s1, s2, s3, s4, s5, s6) := mulP_r6 q0 q1 q2 q3 q4 q5 q6 qi x6 y0 y1 y2 y3 y4 y5 y6 t0 t1 t2 t3 t4 t5 t6 in [:: s0; s1; s2; s3; s4; s5; s6].
Proof. rewrite /mulP_r6; unroll (@less7) (@isZero7). Qed.
Theorem unrolled7_Mul q0 q1 q2 q3 q4 q5 q6 qi r one co k b x0 x1 x2 x3 x4 x5 x6 y0 y1 y2 y3 y4 y5 y6 :
  mulPure (Gen [:: q0; q1; q2; q3; q4; q5; q6] qi r one co k false b) [:: x0; x1; x2; x3; x4; x5; x6] [:: y0; y1; y2; y3; y4; y5; y6] =
  mulP q0 q1 q2 q3 q4 q5 q6 qi x0 x1 x2 x3 x4 x5 x6 y0 y1 y2 y3 y4 y5 y6.
Proof.
rewrite /mulPure /mulP; cbn [foldl behead hd0 nth]; cbv beta zeta.
cbv beta delta [hd0]; cbn [nth].
rewrite mulP_r0E; case: (mulP_r0 _ _ _ _ _ _ _ _ _ _ _ _ _ _ _ _) => [[[[[[a0_0 a0_1] a0_2] a0_3] a0_4] a0_5] a0_6]; cbv beta iota.
rewrite mulP_r1E; case: (mulP_r1 _ _ _ _ _ _ _ _ _ _ _ _ _ _ _ _ _ _ _ _ _ _ _) => [[[[[[a1_0 a1_1] a1_2] a1_3] a1_4] a1_5] a1_6]; cbv beta iota.
rewrite mulP_r2E; case: (mulP_r2 _ _ _ _ _ _ _ _ _ _ _ _ _ _ _ _ _ _ _ _ _ _ _) => [[[[[[a2_0 a2_1] a2_2] a2_3] a2_4] a2_5] a2_6]; cbv beta iota.
rewrite mulP_r3E; case: (mulP_r3 _ _ _ _ _ _ _ _ _ _ _ _ _ _ _ _ _ _ _ _ _ _ _) => [[[[[[a3_0 a3_1] a3_2] a3_3] a3_4] a3_5] a3_6]; cbv beta iota.
rewrite mulP_r4E; case: (mulP_r4 _ _ _ _ _ _ _ _ _ _ _ _ _ _ _ _ _ _ _ _ _ _ _) => [[[[[[a4_0 a4_1] a4_2] a4_3] a4_4] a4_5] a4_6]; cbv beta iota.
rewrite mulP_r5E; case: (mulP_r5 _ _ _ _ _ _ _ _ _ _ _ _ _ _ _ _ _ _ _ _ _ _ _) => [[[[[[a5_0 a5_1] a5_2] a5_3] a5_4] a5_5] a5_6]; cbv beta iota.
rewrite mulP_r6E; case: (mulP_r6 _ _ _ _ _ _ _ _ _ _ _ _ _ _ _ _ _ _ _ _ _ _ _) => [[[[[[a6_0 a6_1] a6_2] a6_3] a6_4] a6_5] a6_6]; cbv beta iota.
tail (@less7).
Qed.
Lemma square_r0E q0 q1 q2 q3 q4 q5 q6 qi r one co k b x0 x1 x2 x3 x4 x5 x6 :
  purFirst (Gen [:: q0; q1; q2; q3; q4; q5; q6] qi r one co k false b) [:: x0; x1; x2; x3; x4; x5; x6] x0 =
  let: (s0, s1, s2, s3, s4, s5, s6) := square_r0 q0 q1 q2 q3 q4 q5 q6 qi  x0 x1 x2 x3 x4 x5 x6 in [:: s0; s1; s2; s3; s4; s5; s6].
Proof. rewrite /square_r0; unroll (@less7) (@isZero7). Qed.
Lemma square_r1E q0 q1 q2 q3 q4 q5 q6 qi r one co k b x0 x1 x2 x3 x4 x5 x6 t0 t1 t2 t3 t4 t5 t6 :
  purRound (Gen [:: q0; q1; q2; q3; q4; q5; q6] qi r one co k false b) [:: x0; x1; x2; x3; x4; x5; x6] [:: t0; t1; t2; t3; t4; t5; t6] x1 =
  let: (s0, s1, s2, s3, s4, s5, s6) := square_r1 q0 q1 q2 q3 q4 q5 q6 qi  x0 x1 x2 x3 x4 x5 x6 t0 t1 t2 t3 t4 t5 t6 in [:: s0; s1; s2; s3; s4; s5; s6].
Proof. rewrite /square_r1; unroll (@less7) (@isZero7). Qed.
Lemma square_r2E q0 q1 q2 q3 q4 q5 q6 qi r one co k b x0 x1 x2 x3 x4 x5 x6 t0 t1 t2 t3 t4 t5 t6 :
  purRound (Gen [:: q0; q1; q2; q3; q4; q5; q6] qi r one co k false b) [:: x0; x1; x2; x3; x4; x5; x6] [:: t0; t1; t2; t3; t4; t5; t6] x2 =
  let: (s0, s1, s2, s3, s4, s5, s6) := square_r2 q0 q1 q2 q3 q4 q5 q6 qi  x0 x1 x2 x3 x4 x5 x6 t0 t1 t2 t3 t4 t5 t6 in [:: s0; s1; s2; s3; s4; s5; s6].
Proof. rewrite /square_r2; unroll (@less7) (@isZero7). Qed.
Lemma square_r3E q0 q1 q2 q3 q4 q5 q6 qi r one co k b x0 x1 x2 x3 x4 x5 x6 t0 t1 t2 t3 t4 t5 t6 :
  purRound (Gen [:: q0; q1; q2; q3; q4; q5; q6] qi r one co k false b) [:: x0; x1; x2; x3; x4; x5; x6] [:: t0; t1; t2; t3; t4; t5; t6] x3 =
  let: (s0, s1, s2, s3, s4, s5, s6) := square_r3 q0 q1 q2 q3 q4 q5 q6 qi  x0 x1 x2 x3 x4 x5 x6 t0 t1 t2 t3 t4 t5 t6 in [:: s0; s1; s2; s3; s4; s5; s6].
Proof. rewrite /square_r3; unroll (@less7) (@isZero7). Qed.
Lemma square_r4E q0 q1 q2 q3 q4 q5 q6 qi r one co k b x0 x1 x2 x3 x4 x5 x6 t0 t1 t2 t3 t4 t5 t6 :
  purRound (Gen [:: q0; q1; q2; q3; q4; q5; q6] qi r one co k false b) [:: x0; x1; x2; x3; x4; x5; x6] [:: t0; t1; t2; t3; t4; t5; t6] x4 =
  let: (s0, s1, s2, s3, s4, s5, s6) := square_r4 q0 q1 q2 q3 q4 q5 q6 qi  x0 x1 x2 x3 x4 x5 x6 t0 t1 t2 t3 t4 t5 t6 in [:: s0; s1; s2; s3; s4; s5; s6].
Proof. rewrite /square_r4; unroll (@less7) (@isZero7). Qed.
Lemma square_r5E q0 q1 q2 q3 q4 q5 q6 qi r one co k b x0 x1 x2 x3 x4 x5 x6 t0 t1 t2 t3 t4 t5 t6 :
  purRound (Gen [:: q0; q1; q2; q3; q4; q5; q6] qi r one co k false b) [:: x0; x1; x2; x3; x4; x5; x6] [:: t0; t1; t2; t3; t4; t5; t6] x5 =
  let: (s0, s1, s2, s3, s4, s5, s6) := square_r5 q0 q1 q2 q3 q4 q5 q6 qi  x0 x1 x2 x3 x4 x5 x6 t0 t1 t2 t3 t4 t5 t6 in [:: s0; s1; s2; s3; s4; s5; s6].
Proof. rewrite /square_r5; unroll (@less7) (@isZero7). Qed.
Lemma square_r6E q0 q1 q2 q3 q4 q5 q6 qi r one co k b x0 x1 x2 x3 x4 x5 x6 t0 t1 t2 t3 t4 t5 t6 :
  purRound (Gen [:: q0; q1; q2; q3; q4; q5; q6] qi r one co k false b) [:: x0; x1; x2; x3; x4; x5; x6] [:: t0; t1; t2; t3; t4; t5; t6] x6 =
  let: (s0, s1, s2, s3, s4, s5, s6) := square_r6 q0 q1 q2 q3 q4 q5 q6 qi  x0 x1 x2 x3 x4 x5 x6 t0 t1 t2 t3 t4 t5 t6 in [:: s0; s1; s2; s3; s4; s5; s6].
Proof. rewrite /square_r6; unroll (@less7) (@isZero7). Qed.
Theorem unrolled7_Square q0 q1 q2 q3 q4 q5 q6 qi r one co k b x0 x1 x2 x3 x4 x5 x6 :
  mulPure (Gen [:: q0; q1; q2; q3; q4; q5; q6] qi r one co k false b) [:: x0; x1; x2; x3; x4; x5; x6] [:: x0; x1; x2; x3; x4; x5; x6] =
  square q0 q1 q2 q3 q4 q5 q6 qi x0 x1 x2 x3 x4 x5 x6.
Proof.
rewrite /mulPure /square; cbn [foldl behead hd0 nth]; cbv beta zeta.
cbv beta delta [hd0]; cbn [nth].
rewrite square_r0E; case: (square_r0 _ _ _ _ _ _ _ _ _ _ _ _ _ _ _) => [[[[[[a0_0 a0_1] a0_2] a0_3] a0_4] a0_5] a0_6]; cbv beta iota.
rewrite square_r1E; case: (square_r1 _ _ _ _ _ _ _ _ _ _ _ _ _ _ _ _ _ _ _ _ _ _) => [[[[[[a1_0 a1_1] a1_2] a1_3] a1_4] a1_5] a1_6]; cbv beta iota.
rewrite square_r2E; case: (square_r2 _ _ _ _ _ _ _ _ _ _ _ _ _ _ _ _ _ _ _ _ _ _) => [[[[[[a2_0 a2_1] a2_2] a2_3] a2_4] a2_5] a2_6]; cbv beta iota.
rewrite square_r3E; case: (square_r3 _ _ _ _ _ _ _ _ _ _ _ _ _ _ _ _ _ _ _ _ _ _) => [[[[[[a3_0 a3_1] a3_2] a3_3] a3_4] a3_5] a3_6]; cbv beta iota.
rewrite square_r4E; case: (square_r4 _ _ _ _ _ _ _ _ _ _ _ _ _ _ _ _ _ _ _ _ _ _) => [[[[[[a4_0 a4_1] a4_2] a4_3] a4_4] a4_5] a4_6]; cbv beta iota.
rewrite square_r5E; case: (square_r5 _ _ _ _ _ _ _ _ _ _ _ _ _ _ _ _ _ _ _ _ _ _) => [[[[[[a5_0 a5_1] a5_2] a5_3] a5_4] a5_5] a5_6]; cbv beta iota.
rewrite square_r6E; case: (square_r6 _ _ _ _ _ _ _ _ _ _ _ _ _ _ _ _ _ _ _ _ _ _) => [[[[[[a6_0 a6_1] a6_2] a6_3] a6_4] a6_5] a6_6]; cbv beta iota.
tail (@less7).
Qed.
Lemma from_r0E q0 q1 q2 q3 q4 q5 q6 qi r one co k b z0 z1 z2 z3 z4 z5 z6 :
  montRound (Gen [:: q0; q1; q2; q3; q4; q5; q6] qi r one co k false b) [:: z0; z1; z2; z3; z4; z5; z6] =
  let: (s0, s1, s2, s3, s4, s5, s6) := from_r0 q0 q1 q2 q3 q4 q5 q6 qi z0 z1 z2 z3 z4 z5 z6 in [:: s0; s1; s2; s3; s4; s5; s6].
Proof. rewrite /from_r0; unroll (@less7) (@isZero7). Qed.
Lemma from_r1E q0 q1 q2 q3 q4 q5 q6 qi r one co k b z0 z1 z2 z3 z4 z5 z6 :
  montRound (Gen [:: q0; q1; q2; q3; q4; q5; q6] qi r one co k false b) [:: z0; z1; z2; z3; z4; z5; z6] =
  let: (s0, s1, s2, s3, s4, s5, s6) := from_r1 q0 q1 q2 q3 q4 q5 q6 qi z0 z1 z2 z3 z4 z5 z6 in [:: s0; s1; s2; s3; s4; s5; s6].
Proof. rewrite /from_r1; unroll (@less7) (@isZero7). Qed.
Lemma from_r2E q0 q1 q2 q3 q4 q5 q6 qi r one co k b z0 z1 z2 z3 z4 z5 z6 :
  montRound (Gen [:: q0; q1; q2; q3; q4; q5; q6] qi r one co k false b) [:: z0; z1; z2; z3; z4; z5; z6] =
  let: (s0, s1, s2, s3, s4, s5, s6) := from_r2 q0 q1 q2 q3 q4 q5 q6 qi z0 z1 z2 z3 z4 z5 z6 in [:: s0; s1; s2; s3; s4; s5; s6].
Proof. rewrite /from_r2; unroll (@less7) (@isZero7). Qed.
Lemma from_r3E q0 q1 q2 q3 q4 q5 q6 qi r one co k b z0 z1 z2 z3 z4 z5 z6 :
  montRound (Gen [:: q0; q1; q2; q3; q4; q5; q6] qi r one co k false b) [:: z0; z1; z2; z3; z4; z5; z6] =
  let: (s0, s1, s2, s3, s4, s5, s6) := from_r3 q0 q1 q2 q3 q4 q5 q6 qi z0 z1 z2 z3 z4 z5 z6 in [:: s0; s1; s2; s3; s4; s5; s6].
Proof. rewrite /from_r3; unroll (@less7) (@isZero7). Qed.
Lemma from_r4E q0 q1 q2 q3 q4 q5 q6 qi r one co k b z0 z1 z2 z3 z4 z5 z6 :
  montRound (Gen [:: q0; q1; q2; q3; q4; q5; q6] qi r one co k false b) [:: z0; z1; z2; z3; z4; z5; z6] =
  let: (s0, s1, s2, s3, s4, s5, s6) := from_r4 q0 q1 q2 q3 q4 q5 q6 qi z0 z1 z2 z3 z4 z5 z6 in [:: s0; s1; s2; s3; s4; s5; s6].
Proof. rewrite /from_r4; unroll (@less7) (@isZero7). Qed.
Lemma from_r5E q0 q1 q2 q3 q4 q5 q6 qi r one co k b z0 z1 z2 z3 z4 z5 z6 :
  montRound (Gen [:: q0; q1; q2; q3; q4; q5; q6] qi r one co k false b) [:: z0; z1; z2; z3; z4; z5; z6] =
  let: (s0, s1, s2, s3, s4, s5, s6) := from_r5 q0 q1 q2 q3 q4 q5 q6 qi z0 z1 z2 z3 z4 z5 z6 in [:: s0; s1; s2; s3; s4; s5; s6].
Proof. rewrite /from_r5; unroll (@less7) (@isZero7). Qed.
Lemma from_r6E q0 q1 q2 q3 q4 q5 q6 qi r one co k b z0 z1 z2 z3 z4 z5 z6 :
  montRound (Gen [:: q0; q1; q2; q3; q4; q5; q6] qi r one co k false b) [:: z0; z1; z2; z3; z4; z5; z6] =
  let: (s0, s1, s2, s3, s4, s5, s6) := from_r6 q0 q1 q2 q3 q4 q5 q6 qi z0 z1 z2 z3 z4 z5 z6 in [:: s0; s1; s2; s3; s4; s5; s6].
Proof. rewrite /from_r6; unroll (@less7) (@isZero7). Qed.
Theorem unrolled7_fromMont q0 q1 q2 q3 q4 q5 q6 qi r one co k b z0 z1 z2 z3 z4 z5 z6 :
  fromMont (Gen [:: q0; q1; q2; q3; q4; q5; q6] qi r one co k false b) [:: z0; z1; z2; z3; z4; z5; z6] =
  from q0 q1 q2 q3 q4 q5 q6 qi z0 z1 z2 z3 z4 z5 z6.
Proof.
rewrite /fromMont /from; rewrite /Limbs; cbn [iter qs size]; cbv beta zeta.
rewrite from_r0E; case: (from_r0 _ _ _ _ _ _ _ _ _ _ _ _ _ _ _) => [[[[[[a0_0 a0_1] a0_2] a0_3] a0_4] a0_5] a0_6]; cbv beta iota.
rewrite from_r1E; case: (from_r1 _ _ _ _ _ _ _ _ _ _ _ _ _ _ _) => [[[[[[a1_0 a1_1] a1_2] a1_3] a1_4] a1_5] a1_6]; cbv beta iota.
rewrite from_r2E; case: (from_r2 _ _ _ _ _ _ _ _ _ _ _ _ _ _ _) => [[[[[[a2_0 a2_1] a2_2] a2_3] a2_4] a2_5] a2_6]; cbv beta iota.
rewrite from_r3E; case: (from_r3 _ _ _ _ _ _ _ _ _ _ _ _ _ _ _) => [[[[[[a3_0 a3_1] a3_2] a3_3] a3_4] a3_5] a3_6]; cbv beta iota.
rewrite from_r4E; case: (from_r4 _ _ _ _ _ _ _ _ _ _ _ _ _ _ _) => [[[[[[a4_0 a4_1] a4_2] a4_3] a4_4] a4_5] a4_6]; cbv beta iota.
rewrite from_r5E; case: (from_r5 _ _ _ _ _ _ _ _ _ _ _ _ _ _ _) => [[[[[[a5_0 a5_1] a5_2] a5_3] a5_4] a5_5] a5_6]; cbv beta iota.
rewrite from_r6E; case: (from_r6 _ _ _ _ _ _ _ _ _ _ _ _ _ _ _) => [[[[[[a6_0 a6_1] a6_2] a6_3] a6_4] a6_5] a6_6]; cbv beta iota.
tail (@less7).
Qed.
