(** The unrolled text of buckler/internal/zp220, word by word: each definition is the
    sequence of the statements of the Go function, one let per assignment.  The theorems say that
    the recursions of ZpModel.v are these texts. *)
From Coq Require Import ZArith.
From mathcomp Require Import all_ssreflect.
From Verif Require Import JindoIntModel ZpModel.
Set Implicit Arguments. Unset Strict Implicit. Unset Printing Implicit Defensive.
Delimit Scope Z_scope with Z.
Section Unrolled4.
Variables q0 q1 q2 q3 qInvNeg : Z.
(** element.go 358-360 *)
Definition smaller (z_0 z_1 z_2 z_3 : Z) : bool := ((z_3 <? q3)%Z || ((z_3 =? q3)%Z && ((z_2 <? q2)%Z || ((z_2 =? q2)%Z && ((z_1 <? q1)%Z || ((z_1 =? q1)%Z && ((z_0 <? q0)%Z))))))).
(** element.go 222-224 *)
Definition isZero (z_0 z_1 z_2 z_3 : Z) : bool := ((Z.lor (Z.lor (Z.lor z_3 z_2) z_1) z_0) =? 0)%Z.
(** element.go 397-414 *)
Definition add (x_0 x_1 x_2 x_3 y_0 y_1 y_2 y_3 : Z) : seq Z :=
  let carry := 0%Z in
  let: (z_0, carry) := Add64 x_0 y_0 0%Z in
  let: (z_1, carry) := Add64 x_1 y_1 carry in
  let: (z_2, carry) := Add64 x_2 y_2 carry in
  let: (z_3, _) := Add64 x_3 y_3 carry in
  if ~~ smaller z_0 z_1 z_2 z_3 then
  let b := 0%Z in
  let: (z_0, b) := Sub64 z_0 q0 0%Z in
  let: (z_1, b) := Sub64 z_1 q1 b in
  let: (z_2, b) := Sub64 z_2 q2 b in
  let: (z_3, _) := Sub64 z_3 q3 b in
  [:: z_0; z_1; z_2; z_3] else
  [:: z_0; z_1; z_2; z_3].
(** element.go 417-434 *)
Definition double (x_0 x_1 x_2 x_3 : Z) : seq Z :=
  let carry := 0%Z in
  let: (z_0, carry) := Add64 x_0 x_0 0%Z in
  let: (z_1, carry) := Add64 x_1 x_1 carry in
  let: (z_2, carry) := Add64 x_2 x_2 carry in
  let: (z_3, _) := Add64 x_3 x_3 carry in
  if ~~ smaller z_0 z_1 z_2 z_3 then
  let b := 0%Z in
  let: (z_0, b) := Sub64 z_0 q0 0%Z in
  let: (z_1, b) := Sub64 z_1 q1 b in
  let: (z_2, b) := Sub64 z_2 q2 b in
  let: (z_3, _) := Sub64 z_3 q3 b in
  [:: z_0; z_1; z_2; z_3] else
  [:: z_0; z_1; z_2; z_3].
(** element.go 437-451 *)
Definition sub (x_0 x_1 x_2 x_3 y_0 y_1 y_2 y_3 : Z) : seq Z :=
  let b := 0%Z in
  let: (z_0, b) := Sub64 x_0 y_0 0%Z in
  let: (z_1, b) := Sub64 x_1 y_1 b in
  let: (z_2, b) := Sub64 x_2 y_2 b in
  let: (z_3, b) := Sub64 x_3 y_3 b in
  if ~~ (b =? 0)%Z then
  let c := 0%Z in
  let: (z_0, c) := Add64 z_0 q0 0%Z in
  let: (z_1, c) := Add64 z_1 q1 c in
  let: (z_2, c) := Add64 z_2 q2 c in
  let: (z_3, _) := Add64 z_3 q3 c in
  [:: z_0; z_1; z_2; z_3] else
  [:: z_0; z_1; z_2; z_3].
(** element.go 454-465 *)
Definition neg (x_0 x_1 x_2 x_3 : Z) : seq Z :=
  if isZero x_0 x_1 x_2 x_3 then
  let z_0 := 0%Z in
  let z_1 := 0%Z in
  let z_2 := 0%Z in
  let z_3 := 0%Z in
  [:: z_0; z_1; z_2; z_3] else
  let borrow := 0%Z in
  let: (z_0, borrow) := Sub64 q0 x_0 0%Z in
  let: (z_1, borrow) := Sub64 q1 x_1 borrow in
  let: (z_2, borrow) := Sub64 q2 x_2 borrow in
  let: (z_3, _) := Sub64 q3 x_3 borrow in
  [:: z_0; z_1; z_2; z_3].
(** element.go 481-602 *)
Definition mulG (x_0 x_1 x_2 x_3 y_0 y_1 y_2 y_3 : Z) : seq Z :=
  let t_0 := 0%Z in
  let t_1 := 0%Z in
  let t_2 := 0%Z in
  let t_3 := 0%Z in
  let t_4 := 0%Z in
  let D := 0%Z in
  let m := 0%Z in
  let C := 0%Z in
  let: (C, t_0) := Mul64 y_0 x_0 in
  let: (C, t_1) := madd1 y_0 x_1 C in
  let: (C, t_2) := madd1 y_0 x_2 C in
  let: (C, t_3) := madd1 y_0 x_3 C in
  let: (t_4, D) := Add64 t_4 C 0%Z in
  let m := ((t_0 * qInvNeg) mod W)%Z in
  let C := madd0 m q0 t_0 in
  let: (C, t_0) := madd2 m q1 t_1 C in
  let: (C, t_1) := madd2 m q2 t_2 C in
  let: (C, t_2) := madd2 m q3 t_3 C in
  let: (t_3, C) := Add64 t_4 C 0%Z in
  let: (t_4, _) := Add64 0%Z D C in
  let: (C, t_0) := madd1 y_1 x_0 t_0 in
  let: (C, t_1) := madd2 y_1 x_1 t_1 C in
  let: (C, t_2) := madd2 y_1 x_2 t_2 C in
  let: (C, t_3) := madd2 y_1 x_3 t_3 C in
  let: (t_4, D) := Add64 t_4 C 0%Z in
  let m := ((t_0 * qInvNeg) mod W)%Z in
  let C := madd0 m q0 t_0 in
  let: (C, t_0) := madd2 m q1 t_1 C in
  let: (C, t_1) := madd2 m q2 t_2 C in
  let: (C, t_2) := madd2 m q3 t_3 C in
  let: (t_3, C) := Add64 t_4 C 0%Z in
  let: (t_4, _) := Add64 0%Z D C in
  let: (C, t_0) := madd1 y_2 x_0 t_0 in
  let: (C, t_1) := madd2 y_2 x_1 t_1 C in
  let: (C, t_2) := madd2 y_2 x_2 t_2 C in
  let: (C, t_3) := madd2 y_2 x_3 t_3 C in
  let: (t_4, D) := Add64 t_4 C 0%Z in
  let m := ((t_0 * qInvNeg) mod W)%Z in
  let C := madd0 m q0 t_0 in
  let: (C, t_0) := madd2 m q1 t_1 C in
  let: (C, t_1) := madd2 m q2 t_2 C in
  let: (C, t_2) := madd2 m q3 t_3 C in
  let: (t_3, C) := Add64 t_4 C 0%Z in
  let: (t_4, _) := Add64 0%Z D C in
  let: (C, t_0) := madd1 y_3 x_0 t_0 in
  let: (C, t_1) := madd2 y_3 x_1 t_1 C in
  let: (C, t_2) := madd2 y_3 x_2 t_2 C in
  let: (C, t_3) := madd2 y_3 x_3 t_3 C in
  let: (t_4, D) := Add64 t_4 C 0%Z in
  let m := ((t_0 * qInvNeg) mod W)%Z in
  let C := madd0 m q0 t_0 in
  let: (C, t_0) := madd2 m q1 t_1 C in
  let: (C, t_1) := madd2 m q2 t_2 C in
  let: (C, t_2) := madd2 m q3 t_3 C in
  let: (t_3, C) := Add64 t_4 C 0%Z in
  let: (t_4, _) := Add64 0%Z D C in
  if ~~ (t_4 =? 0)%Z then
  let b := 0%Z in
  let: (z_0, b) := Sub64 t_0 q0 0%Z in
  let: (z_1, b) := Sub64 t_1 q1 b in
  let: (z_2, b) := Sub64 t_2 q2 b in
  let: (z_3, _) := Sub64 t_3 q3 b in
  [:: z_0; z_1; z_2; z_3] else
  let z_0 := t_0 in
  let z_1 := t_1 in
  let z_2 := t_2 in
  let z_3 := t_3 in
  if ~~ smaller z_0 z_1 z_2 z_3 then
  let b := 0%Z in
  let: (z_0, b) := Sub64 z_0 q0 0%Z in
  let: (z_1, b) := Sub64 z_1 q1 b in
  let: (z_2, b) := Sub64 z_2 q2 b in
  let: (z_3, _) := Sub64 z_3 q3 b in
  [:: z_0; z_1; z_2; z_3] else
  [:: z_0; z_1; z_2; z_3].
(** element_purego.go 44-211 *)
Definition mulP (x_0 x_1 x_2 x_3 y_0 y_1 y_2 y_3 : Z) : seq Z :=
  let t0 := 0%Z in
  let t1 := 0%Z in
  let t2 := 0%Z in
  let t3 := 0%Z in
  let u0 := 0%Z in
  let u1 := 0%Z in
  let u2 := 0%Z in
  let u3 := 0%Z in
  let c0 := 0%Z in
  let c1 := 0%Z in
  let c2 := 0%Z in
  let v := x_0 in
  let: (u0, t0) := Mul64 v y_0 in
  let: (u1, t1) := Mul64 v y_1 in
  let: (u2, t2) := Mul64 v y_2 in
  let: (u3, t3) := Mul64 v y_3 in
  let: (t1, c0) := Add64 u0 t1 0%Z in
  let: (t2, c0) := Add64 u1 t2 c0 in
  let: (t3, c0) := Add64 u2 t3 c0 in
  let: (c2, _) := Add64 u3 0%Z c0 in
  let m := ((qInvNeg * t0) mod W)%Z in
  let: (u0, c1) := Mul64 m q0 in
  let: (_, c0) := Add64 t0 c1 0%Z in
  let: (u1, c1) := Mul64 m q1 in
  let: (t0, c0) := Add64 t1 c1 c0 in
  let: (u2, c1) := Mul64 m q2 in
  let: (t1, c0) := Add64 t2 c1 c0 in
  let: (u3, c1) := Mul64 m q3 in
  let: (t2, c0) := Add64 0%Z c1 c0 in
  let: (u3, _) := Add64 u3 0%Z c0 in
  let: (t0, c0) := Add64 u0 t0 0%Z in
  let: (t1, c0) := Add64 u1 t1 c0 in
  let: (t2, c0) := Add64 u2 t2 c0 in
  let: (c2, _) := Add64 c2 0%Z c0 in
  let: (t2, c0) := Add64 t3 t2 0%Z in
  let: (t3, _) := Add64 u3 c2 c0 in
  let c0 := 0%Z in
  let c1 := 0%Z in
  let c2 := 0%Z in
  let v := x_1 in
  let: (u0, c1) := Mul64 v y_0 in
  let: (t0, c0) := Add64 c1 t0 0%Z in
  let: (u1, c1) := Mul64 v y_1 in
  let: (t1, c0) := Add64 c1 t1 c0 in
  let: (u2, c1) := Mul64 v y_2 in
  let: (t2, c0) := Add64 c1 t2 c0 in
  let: (u3, c1) := Mul64 v y_3 in
  let: (t3, c0) := Add64 c1 t3 c0 in
  let: (c2, _) := Add64 0%Z 0%Z c0 in
  let: (t1, c0) := Add64 u0 t1 0%Z in
  let: (t2, c0) := Add64 u1 t2 c0 in
  let: (t3, c0) := Add64 u2 t3 c0 in
  let: (c2, _) := Add64 u3 c2 c0 in
  let m := ((qInvNeg * t0) mod W)%Z in
  let: (u0, c1) := Mul64 m q0 in
  let: (_, c0) := Add64 t0 c1 0%Z in
  let: (u1, c1) := Mul64 m q1 in
  let: (t0, c0) := Add64 t1 c1 c0 in
  let: (u2, c1) := Mul64 m q2 in
  let: (t1, c0) := Add64 t2 c1 c0 in
  let: (u3, c1) := Mul64 m q3 in
  let: (t2, c0) := Add64 0%Z c1 c0 in
  let: (u3, _) := Add64 u3 0%Z c0 in
  let: (t0, c0) := Add64 u0 t0 0%Z in
  let: (t1, c0) := Add64 u1 t1 c0 in
  let: (t2, c0) := Add64 u2 t2 c0 in
  let: (c2, _) := Add64 c2 0%Z c0 in
  let: (t2, c0) := Add64 t3 t2 0%Z in
  let: (t3, _) := Add64 u3 c2 c0 in
  let c0 := 0%Z in
  let c1 := 0%Z in
  let c2 := 0%Z in
  let v := x_2 in
  let: (u0, c1) := Mul64 v y_0 in
  let: (t0, c0) := Add64 c1 t0 0%Z in
  let: (u1, c1) := Mul64 v y_1 in
  let: (t1, c0) := Add64 c1 t1 c0 in
  let: (u2, c1) := Mul64 v y_2 in
  let: (t2, c0) := Add64 c1 t2 c0 in
  let: (u3, c1) := Mul64 v y_3 in
  let: (t3, c0) := Add64 c1 t3 c0 in
  let: (c2, _) := Add64 0%Z 0%Z c0 in
  let: (t1, c0) := Add64 u0 t1 0%Z in
  let: (t2, c0) := Add64 u1 t2 c0 in
  let: (t3, c0) := Add64 u2 t3 c0 in
  let: (c2, _) := Add64 u3 c2 c0 in
  let m := ((qInvNeg * t0) mod W)%Z in
  let: (u0, c1) := Mul64 m q0 in
  let: (_, c0) := Add64 t0 c1 0%Z in
  let: (u1, c1) := Mul64 m q1 in
  let: (t0, c0) := Add64 t1 c1 c0 in
  let: (u2, c1) := Mul64 m q2 in
  let: (t1, c0) := Add64 t2 c1 c0 in
  let: (u3, c1) := Mul64 m q3 in
  let: (t2, c0) := Add64 0%Z c1 c0 in
  let: (u3, _) := Add64 u3 0%Z c0 in
  let: (t0, c0) := Add64 u0 t0 0%Z in
  let: (t1, c0) := Add64 u1 t1 c0 in
  let: (t2, c0) := Add64 u2 t2 c0 in
  let: (c2, _) := Add64 c2 0%Z c0 in
  let: (t2, c0) := Add64 t3 t2 0%Z in
  let: (t3, _) := Add64 u3 c2 c0 in
  let c0 := 0%Z in
  let c1 := 0%Z in
  let c2 := 0%Z in
  let v := x_3 in
  let: (u0, c1) := Mul64 v y_0 in
  let: (t0, c0) := Add64 c1 t0 0%Z in
  let: (u1, c1) := Mul64 v y_1 in
  let: (t1, c0) := Add64 c1 t1 c0 in
  let: (u2, c1) := Mul64 v y_2 in
  let: (t2, c0) := Add64 c1 t2 c0 in
  let: (u3, c1) := Mul64 v y_3 in
  let: (t3, c0) := Add64 c1 t3 c0 in
  let: (c2, _) := Add64 0%Z 0%Z c0 in
  let: (t1, c0) := Add64 u0 t1 0%Z in
  let: (t2, c0) := Add64 u1 t2 c0 in
  let: (t3, c0) := Add64 u2 t3 c0 in
  let: (c2, _) := Add64 u3 c2 c0 in
  let m := ((qInvNeg * t0) mod W)%Z in
  let: (u0, c1) := Mul64 m q0 in
  let: (_, c0) := Add64 t0 c1 0%Z in
  let: (u1, c1) := Mul64 m q1 in
  let: (t0, c0) := Add64 t1 c1 c0 in
  let: (u2, c1) := Mul64 m q2 in
  let: (t1, c0) := Add64 t2 c1 c0 in
  let: (u3, c1) := Mul64 m q3 in
  let: (t2, c0) := Add64 0%Z c1 c0 in
  let: (u3, _) := Add64 u3 0%Z c0 in
  let: (t0, c0) := Add64 u0 t0 0%Z in
  let: (t1, c0) := Add64 u1 t1 c0 in
  let: (t2, c0) := Add64 u2 t2 c0 in
  let: (c2, _) := Add64 c2 0%Z c0 in
  let: (t2, c0) := Add64 t3 t2 0%Z in
  let: (t3, _) := Add64 u3 c2 c0 in
  let z_0 := t0 in
  let z_1 := t1 in
  let z_2 := t2 in
  let z_3 := t3 in
  if ~~ smaller z_0 z_1 z_2 z_3 then
  let b := 0%Z in
  let: (z_0, b) := Sub64 z_0 q0 0%Z in
  let: (z_1, b) := Sub64 z_1 q1 b in
  let: (z_2, b) := Sub64 z_2 q2 b in
  let: (z_3, _) := Sub64 z_3 q3 b in
  [:: z_0; z_1; z_2; z_3] else
  [:: z_0; z_1; z_2; z_3].
(** element_purego.go 216-381 *)
Definition square (x_0 x_1 x_2 x_3 : Z) : seq Z :=
  let t0 := 0%Z in
  let t1 := 0%Z in
  let t2 := 0%Z in
  let t3 := 0%Z in
  let u0 := 0%Z in
  let u1 := 0%Z in
  let u2 := 0%Z in
  let u3 := 0%Z in
  let c0 := 0%Z in
  let c1 := 0%Z in
  let c2 := 0%Z in
  let v := x_0 in
  let: (u0, t0) := Mul64 v x_0 in
  let: (u1, t1) := Mul64 v x_1 in
  let: (u2, t2) := Mul64 v x_2 in
  let: (u3, t3) := Mul64 v x_3 in
  let: (t1, c0) := Add64 u0 t1 0%Z in
  let: (t2, c0) := Add64 u1 t2 c0 in
  let: (t3, c0) := Add64 u2 t3 c0 in
  let: (c2, _) := Add64 u3 0%Z c0 in
  let m := ((qInvNeg * t0) mod W)%Z in
  let: (u0, c1) := Mul64 m q0 in
  let: (_, c0) := Add64 t0 c1 0%Z in
  let: (u1, c1) := Mul64 m q1 in
  let: (t0, c0) := Add64 t1 c1 c0 in
  let: (u2, c1) := Mul64 m q2 in
  let: (t1, c0) := Add64 t2 c1 c0 in
  let: (u3, c1) := Mul64 m q3 in
  let: (t2, c0) := Add64 0%Z c1 c0 in
  let: (u3, _) := Add64 u3 0%Z c0 in
  let: (t0, c0) := Add64 u0 t0 0%Z in
  let: (t1, c0) := Add64 u1 t1 c0 in
  let: (t2, c0) := Add64 u2 t2 c0 in
  let: (c2, _) := Add64 c2 0%Z c0 in
  let: (t2, c0) := Add64 t3 t2 0%Z in
  let: (t3, _) := Add64 u3 c2 c0 in
  let c0 := 0%Z in
  let c1 := 0%Z in
  let c2 := 0%Z in
  let v := x_1 in
  let: (u0, c1) := Mul64 v x_0 in
  let: (t0, c0) := Add64 c1 t0 0%Z in
  let: (u1, c1) := Mul64 v x_1 in
  let: (t1, c0) := Add64 c1 t1 c0 in
  let: (u2, c1) := Mul64 v x_2 in
  let: (t2, c0) := Add64 c1 t2 c0 in
  let: (u3, c1) := Mul64 v x_3 in
  let: (t3, c0) := Add64 c1 t3 c0 in
  let: (c2, _) := Add64 0%Z 0%Z c0 in
  let: (t1, c0) := Add64 u0 t1 0%Z in
  let: (t2, c0) := Add64 u1 t2 c0 in
  let: (t3, c0) := Add64 u2 t3 c0 in
  let: (c2, _) := Add64 u3 c2 c0 in
  let m := ((qInvNeg * t0) mod W)%Z in
  let: (u0, c1) := Mul64 m q0 in
  let: (_, c0) := Add64 t0 c1 0%Z in
  let: (u1, c1) := Mul64 m q1 in
  let: (t0, c0) := Add64 t1 c1 c0 in
  let: (u2, c1) := Mul64 m q2 in
  let: (t1, c0) := Add64 t2 c1 c0 in
  let: (u3, c1) := Mul64 m q3 in
  let: (t2, c0) := Add64 0%Z c1 c0 in
  let: (u3, _) := Add64 u3 0%Z c0 in
  let: (t0, c0) := Add64 u0 t0 0%Z in
  let: (t1, c0) := Add64 u1 t1 c0 in
  let: (t2, c0) := Add64 u2 t2 c0 in
  let: (c2, _) := Add64 c2 0%Z c0 in
  let: (t2, c0) := Add64 t3 t2 0%Z in
  let: (t3, _) := Add64 u3 c2 c0 in
  let c0 := 0%Z in
  let c1 := 0%Z in
  let c2 := 0%Z in
  let v := x_2 in
  let: (u0, c1) := Mul64 v x_0 in
  let: (t0, c0) := Add64 c1 t0 0%Z in
  let: (u1, c1) := Mul64 v x_1 in
  let: (t1, c0) := Add64 c1 t1 c0 in
  let: (u2, c1) := Mul64 v x_2 in
  let: (t2, c0) := Add64 c1 t2 c0 in
  let: (u3, c1) := Mul64 v x_3 in
  let: (t3, c0) := Add64 c1 t3 c0 in
  let: (c2, _) := Add64 0%Z 0%Z c0 in
  let: (t1, c0) := Add64 u0 t1 0%Z in
  let: (t2, c0) := Add64 u1 t2 c0 in
  let: (t3, c0) := Add64 u2 t3 c0 in
  let: (c2, _) := Add64 u3 c2 c0 in
  let m := ((qInvNeg * t0) mod W)%Z in
  let: (u0, c1) := Mul64 m q0 in
  let: (_, c0) := Add64 t0 c1 0%Z in
  let: (u1, c1) := Mul64 m q1 in
  let: (t0, c0) := Add64 t1 c1 c0 in
  let: (u2, c1) := Mul64 m q2 in
  let: (t1, c0) := Add64 t2 c1 c0 in
  let: (u3, c1) := Mul64 m q3 in
  let: (t2, c0) := Add64 0%Z c1 c0 in
  let: (u3, _) := Add64 u3 0%Z c0 in
  let: (t0, c0) := Add64 u0 t0 0%Z in
  let: (t1, c0) := Add64 u1 t1 c0 in
  let: (t2, c0) := Add64 u2 t2 c0 in
  let: (c2, _) := Add64 c2 0%Z c0 in
  let: (t2, c0) := Add64 t3 t2 0%Z in
  let: (t3, _) := Add64 u3 c2 c0 in
  let c0 := 0%Z in
  let c1 := 0%Z in
  let c2 := 0%Z in
  let v := x_3 in
  let: (u0, c1) := Mul64 v x_0 in
  let: (t0, c0) := Add64 c1 t0 0%Z in
  let: (u1, c1) := Mul64 v x_1 in
  let: (t1, c0) := Add64 c1 t1 c0 in
  let: (u2, c1) := Mul64 v x_2 in
  let: (t2, c0) := Add64 c1 t2 c0 in
  let: (u3, c1) := Mul64 v x_3 in
  let: (t3, c0) := Add64 c1 t3 c0 in
  let: (c2, _) := Add64 0%Z 0%Z c0 in
  let: (t1, c0) := Add64 u0 t1 0%Z in
  let: (t2, c0) := Add64 u1 t2 c0 in
  let: (t3, c0) := Add64 u2 t3 c0 in
  let: (c2, _) := Add64 u3 c2 c0 in
  let m := ((qInvNeg * t0) mod W)%Z in
  let: (u0, c1) := Mul64 m q0 in
  let: (_, c0) := Add64 t0 c1 0%Z in
  let: (u1, c1) := Mul64 m q1 in
  let: (t0, c0) := Add64 t1 c1 c0 in
  let: (u2, c1) := Mul64 m q2 in
  let: (t1, c0) := Add64 t2 c1 c0 in
  let: (u3, c1) := Mul64 m q3 in
  let: (t2, c0) := Add64 0%Z c1 c0 in
  let: (u3, _) := Add64 u3 0%Z c0 in
  let: (t0, c0) := Add64 u0 t0 0%Z in
  let: (t1, c0) := Add64 u1 t1 c0 in
  let: (t2, c0) := Add64 u2 t2 c0 in
  let: (c2, _) := Add64 c2 0%Z c0 in
  let: (t2, c0) := Add64 t3 t2 0%Z in
  let: (t3, _) := Add64 u3 c2 c0 in
  let z_0 := t0 in
  let z_1 := t1 in
  let z_2 := t2 in
  let z_3 := t3 in
  if ~~ smaller z_0 z_1 z_2 z_3 then
  let b := 0%Z in
  let: (z_0, b) := Sub64 z_0 q0 0%Z in
  let: (z_1, b) := Sub64 z_1 q1 b in
  let: (z_2, b) := Sub64 z_2 q2 b in
  let: (z_3, _) := Sub64 z_3 q3 b in
  [:: z_0; z_1; z_2; z_3] else
  [:: z_0; z_1; z_2; z_3].
(** element.go 604-653 *)
Definition from (z_0 z_1 z_2 z_3 : Z) : seq Z :=
  let m := ((z_0 * qInvNeg) mod W)%Z in
  let C := madd0 m q0 z_0 in
  let: (C, z_0) := madd2 m q1 z_1 C in
  let: (C, z_1) := madd2 m q2 z_2 C in
  let: (C, z_2) := madd2 m q3 z_3 C in
  let z_3 := C in
  let m := ((z_0 * qInvNeg) mod W)%Z in
  let C := madd0 m q0 z_0 in
  let: (C, z_0) := madd2 m q1 z_1 C in
  let: (C, z_1) := madd2 m q2 z_2 C in
  let: (C, z_2) := madd2 m q3 z_3 C in
  let z_3 := C in
  let m := ((z_0 * qInvNeg) mod W)%Z in
  let C := madd0 m q0 z_0 in
  let: (C, z_0) := madd2 m q1 z_1 C in
  let: (C, z_1) := madd2 m q2 z_2 C in
  let: (C, z_2) := madd2 m q3 z_3 C in
  let z_3 := C in
  let m := ((z_0 * qInvNeg) mod W)%Z in
  let C := madd0 m q0 z_0 in
  let: (C, z_0) := madd2 m q1 z_1 C in
  let: (C, z_1) := madd2 m q2 z_2 C in
  let: (C, z_2) := madd2 m q3 z_3 C in
  let z_3 := C in
  if ~~ smaller z_0 z_1 z_2 z_3 then
  let b := 0%Z in
  let: (z_0, b) := Sub64 z_0 q0 0%Z in
  let: (z_1, b) := Sub64 z_1 q1 b in
  let: (z_2, b) := Sub64 z_2 q2 b in
  let: (z_3, _) := Sub64 z_3 q3 b in
  [:: z_0; z_1; z_2; z_3] else
  [:: z_0; z_1; z_2; z_3].
End Unrolled4.
(** names the result of every machine operation, on both sides at once *)
Ltac opcase e := match goal with
  | H : e = _ |- _ => rewrite H; cbv beta iota
  | _ => destruct e eqn:?
  end.
Ltac unroll hless hzero :=
  cbv -[Add64 Sub64 Mul64 madd0 madd1 madd2 Z.mul Z.modulo Z.eqb Z.lor W negb smaller isZero less IsZero];
  rewrite ?hzero;
  repeat (match goal with
  | |- context [Mul64 ?a ?b] => opcase (Mul64 a b)
  | |- context [Add64 ?a ?b ?c] => opcase (Add64 a b c)
  | |- context [Sub64 ?a ?b ?c] => opcase (Sub64 a b c)
  | |- context [madd1 ?a ?b ?c] => opcase (madd1 a b c)
  | |- context [madd2 ?a ?b ?c ?d] => opcase (madd2 a b c d)
  end);
  rewrite ?hless; repeat (match goal with
  | |- context [negb ?c] => destruct c; cbn [negb]; cbv iota
  | |- context [if ?c then _ else _] => destruct c; cbv iota
  end); reflexivity.
Lemma less4 q0 q1 q2 q3 x0 x1 x2 x3 : less [:: x0; x1; x2; x3] [:: q0; q1; q2; q3] = smaller q0 q1 q2 q3 x0 x1 x2 x3.
Proof. by rewrite /less /smaller /= andbF orbF. Qed.
Lemma isZero4 x0 x1 x2 x3 : IsZero [:: x0; x1; x2; x3] = isZero x0 x1 x2 x3.
Proof. by rewrite /IsZero /isZero /= Z.lor_0_r (Z.lor_comm x2 _) (Z.lor_comm x1 _) (Z.lor_comm x0 _). Qed.
Theorem unrolled4_Add q0 q1 q2 q3 qInvNeg r one co k b x0 x1 x2 x3 y0 y1 y2 y3 :
  Add (Gen [:: q0; q1; q2; q3] qInvNeg r one co k false b) [:: x0; x1; x2; x3] [:: y0; y1; y2; y3] =
  add q0 q1 q2 q3 x0 x1 x2 x3 y0 y1 y2 y3.
Proof. unroll (@less4) (@isZero4). Qed.
Theorem unrolled4_Double q0 q1 q2 q3 qInvNeg r one co k b x0 x1 x2 x3 :
  Double (Gen [:: q0; q1; q2; q3] qInvNeg r one co k false b) [:: x0; x1; x2; x3] =
  double q0 q1 q2 q3 x0 x1 x2 x3.
Proof. unroll (@less4) (@isZero4). Qed.
Theorem unrolled4_Sub q0 q1 q2 q3 qInvNeg r one co k b x0 x1 x2 x3 y0 y1 y2 y3 :
  Sub (Gen [:: q0; q1; q2; q3] qInvNeg r one co k false b) [:: x0; x1; x2; x3] [:: y0; y1; y2; y3] =
  sub q0 q1 q2 q3 x0 x1 x2 x3 y0 y1 y2 y3.
Proof. unroll (@less4) (@isZero4). Qed.
Theorem unrolled4_Neg q0 q1 q2 q3 qInvNeg r one co k b x0 x1 x2 x3 :
  Neg (Gen [:: q0; q1; q2; q3] qInvNeg r one co k false b) [:: x0; x1; x2; x3] =
  neg q0 q1 q2 q3 x0 x1 x2 x3.
Proof. unroll (@less4) (@isZero4). Qed.
Theorem unrolled4_mulGeneric q0 q1 q2 q3 qInvNeg r one co k b x0 x1 x2 x3 y0 y1 y2 y3 :
  mulGeneric (Gen [:: q0; q1; q2; q3] qInvNeg r one co k false b) [:: x0; x1; x2; x3] [:: y0; y1; y2; y3] =
  mulG q0 q1 q2 q3 qInvNeg x0 x1 x2 x3 y0 y1 y2 y3.
Proof. unroll (@less4) (@isZero4). Qed.
Theorem unrolled4_Mul q0 q1 q2 q3 qInvNeg r one co k b x0 x1 x2 x3 y0 y1 y2 y3 :
  mulPure (Gen [:: q0; q1; q2; q3] qInvNeg r one co k false b) [:: x0; x1; x2; x3] [:: y0; y1; y2; y3] =
  mulP q0 q1 q2 q3 qInvNeg x0 x1 x2 x3 y0 y1 y2 y3.
Proof. unroll (@less4) (@isZero4). Qed.
Theorem unrolled4_Square q0 q1 q2 q3 qInvNeg r one co k b x0 x1 x2 x3 :
  mulPure (Gen [:: q0; q1; q2; q3] qInvNeg r one co k false b) [:: x0; x1; x2; x3] [:: x0; x1; x2; x3] =
  square q0 q1 q2 q3 qInvNeg x0 x1 x2 x3.
Proof. unroll (@less4) (@isZero4). Qed.
Theorem unrolled4_fromMont q0 q1 q2 q3 qInvNeg r one co k b x0 x1 x2 x3 :
  fromMont (Gen [:: q0; q1; q2; q3] qInvNeg r one co k false b) [:: x0; x1; x2; x3] =
  from q0 q1 q2 q3 qInvNeg x0 x1 x2 x3.
Proof. unroll (@less4) (@isZero4). Qed.
