(** The unrolled text of buckler/internal/zp110, word by word: each definition is the
    sequence of the statements of the Go function, one let per assignment.  The theorems say that
    the recursions of ZpModel.v are these texts. *)
From Coq Require Import ZArith.
From mathcomp Require Import all_ssreflect.
From Verif Require Import JindoIntModel ZpModel.
Set Implicit Arguments. Unset Strict Implicit. Unset Printing Implicit Defensive.
Delimit Scope Z_scope with Z.
Section Unrolled2.
Variables q0 q1 qInvNeg : Z.
(** element.go 331-333 *)
Definition smaller (z_0 z_1 : Z) : bool := ((z_1 <? q1)%Z || ((z_1 =? q1)%Z && ((z_0 <? q0)%Z))).
(** element.go 209-211 *)
Definition isZero (z_0 z_1 : Z) : bool := ((Z.lor z_1 z_0) =? 0)%Z.
(** element.go 366-379 *)
Definition add (x_0 x_1 y_0 y_1 : Z) : seq Z :=
  let carry := 0%Z in
  let: (z_0, carry) := Add64 x_0 y_0 0%Z in
  let: (z_1, _) := Add64 x_1 y_1 carry in
  if ~~ smaller z_0 z_1 then
  let b := 0%Z in
  let: (z_0, b) := Sub64 z_0 q0 0%Z in
  let: (z_1, _) := Sub64 z_1 q1 b in
  [:: z_0; z_1] else
  [:: z_0; z_1].
(** element.go 382-395 *)
Definition double (x_0 x_1 : Z) : seq Z :=
  let carry := 0%Z in
  let: (z_0, carry) := Add64 x_0 x_0 0%Z in
  let: (z_1, _) := Add64 x_1 x_1 carry in
  if ~~ smaller z_0 z_1 then
  let b := 0%Z in
  let: (z_0, b) := Sub64 z_0 q0 0%Z in
  let: (z_1, _) := Sub64 z_1 q1 b in
  [:: z_0; z_1] else
  [:: z_0; z_1].
(** element.go 398-408 *)
Definition sub (x_0 x_1 y_0 y_1 : Z) : seq Z :=
  let b := 0%Z in
  let: (z_0, b) := Sub64 x_0 y_0 0%Z in
  let: (z_1, b) := Sub64 x_1 y_1 b in
  if ~~ (b =? 0)%Z then
  let c := 0%Z in
  let: (z_0, c) := Add64 z_0 q0 0%Z in
  let: (z_1, _) := Add64 z_1 q1 c in
  [:: z_0; z_1] else
  [:: z_0; z_1].
(** element.go 411-420 *)
Definition neg (x_0 x_1 : Z) : seq Z :=
  if isZero x_0 x_1 then
  let z_0 := 0%Z in
  let z_1 := 0%Z in
  [:: z_0; z_1] else
  let borrow := 0%Z in
  let: (z_0, borrow) := Sub64 q0 x_0 0%Z in
  let: (z_1, _) := Sub64 q1 x_1 borrow in
  [:: z_0; z_1].
(** element.go 434-497 *)
Definition mulG (x_0 x_1 y_0 y_1 : Z) : seq Z :=
  let t_0 := 0%Z in
  let t_1 := 0%Z in
  let t_2 := 0%Z in
  let D := 0%Z in
  let m := 0%Z in
  let C := 0%Z in
  let: (C, t_0) := Mul64 y_0 x_0 in
  let: (C, t_1) := madd1 y_0 x_1 C in
  let: (t_2, D) := Add64 t_2 C 0%Z in
  let m := ((t_0 * qInvNeg) mod W)%Z in
  let C := madd0 m q0 t_0 in
  let: (C, t_0) := madd2 m q1 t_1 C in
  let: (t_1, C) := Add64 t_2 C 0%Z in
  let: (t_2, _) := Add64 0%Z D C in
  let: (C, t_0) := madd1 y_1 x_0 t_0 in
  let: (C, t_1) := madd2 y_1 x_1 t_1 C in
  let: (t_2, D) := Add64 t_2 C 0%Z in
  let m := ((t_0 * qInvNeg) mod W)%Z in
  let C := madd0 m q0 t_0 in
  let: (C, t_0) := madd2 m q1 t_1 C in
  let: (t_1, C) := Add64 t_2 C 0%Z in
  let: (t_2, _) := Add64 0%Z D C in
  if ~~ (t_2 =? 0)%Z then
  let b := 0%Z in
  let: (z_0, b) := Sub64 t_0 q0 0%Z in
  let: (z_1, _) := Sub64 t_1 q1 b in
  [:: z_0; z_1] else
  let z_0 := t_0 in
  let z_1 := t_1 in
  if ~~ smaller z_0 z_1 then
  let b := 0%Z in
  let: (z_0, b) := Sub64 z_0 q0 0%Z in
  let: (z_1, _) := Sub64 z_1 q1 b in
  [:: z_0; z_1] else
  [:: z_0; z_1].
(** element_purego.go 44-109 *)
Definition mulP (x_0 x_1 y_0 y_1 : Z) : seq Z :=
  let t0 := 0%Z in
  let t1 := 0%Z in
  let u0 := 0%Z in
  let u1 := 0%Z in
  let c0 := 0%Z in
  let c1 := 0%Z in
  let c2 := 0%Z in
  let v := x_0 in
  let: (u0, t0) := Mul64 v y_0 in
  let: (u1, t1) := Mul64 v y_1 in
  let: (t1, c0) := Add64 u0 t1 0%Z in
  let: (c2, _) := Add64 u1 0%Z c0 in
  let m := ((qInvNeg * t0) mod W)%Z in
  let: (u0, c1) := Mul64 m q0 in
  let: (_, c0) := Add64 t0 c1 0%Z in
  let: (u1, c1) := Mul64 m q1 in
  let: (t0, c0) := Add64 0%Z c1 c0 in
  let: (u1, _) := Add64 u1 0%Z c0 in
  let: (t0, c0) := Add64 u0 t0 0%Z in
  let: (c2, _) := Add64 c2 0%Z c0 in
  let: (t0, c0) := Add64 t1 t0 0%Z in
  let: (t1, _) := Add64 u1 c2 c0 in
  let c0 := 0%Z in
  let c1 := 0%Z in
  let c2 := 0%Z in
  let v := x_1 in
  let: (u0, c1) := Mul64 v y_0 in
  let: (t0, c0) := Add64 c1 t0 0%Z in
  let: (u1, c1) := Mul64 v y_1 in
  let: (t1, c0) := Add64 c1 t1 c0 in
  let: (c2, _) := Add64 0%Z 0%Z c0 in
  let: (t1, c0) := Add64 u0 t1 0%Z in
  let: (c2, _) := Add64 u1 c2 c0 in
  let m := ((qInvNeg * t0) mod W)%Z in
  let: (u0, c1) := Mul64 m q0 in
  let: (_, c0) := Add64 t0 c1 0%Z in
  let: (u1, c1) := Mul64 m q1 in
  let: (t0, c0) := Add64 0%Z c1 c0 in
  let: (u1, _) := Add64 u1 0%Z c0 in
  let: (t0, c0) := Add64 u0 t0 0%Z in
  let: (c2, _) := Add64 c2 0%Z c0 in
  let: (t0, c0) := Add64 t1 t0 0%Z in
  let: (t1, _) := Add64 u1 c2 c0 in
  let z_0 := t0 in
  let z_1 := t1 in
  if ~~ smaller z_0 z_1 then
  let b := 0%Z in
  let: (z_0, b) := Sub64 z_0 q0 0%Z in
  let: (z_1, _) := Sub64 z_1 q1 b in
  [:: z_0; z_1] else
  [:: z_0; z_1].
(** element_purego.go 114-177 *)
Definition square (x_0 x_1 : Z) : seq Z :=
  let t0 := 0%Z in
  let t1 := 0%Z in
  let u0 := 0%Z in
  let u1 := 0%Z in
  let c0 := 0%Z in
  let c1 := 0%Z in
  let c2 := 0%Z in
  let v := x_0 in
  let: (u0, t0) := Mul64 v x_0 in
  let: (u1, t1) := Mul64 v x_1 in
  let: (t1, c0) := Add64 u0 t1 0%Z in
  let: (c2, _) := Add64 u1 0%Z c0 in
  let m := ((qInvNeg * t0) mod W)%Z in
  let: (u0, c1) := Mul64 m q0 in
  let: (_, c0) := Add64 t0 c1 0%Z in
  let: (u1, c1) := Mul64 m q1 in
  let: (t0, c0) := Add64 0%Z c1 c0 in
  let: (u1, _) := Add64 u1 0%Z c0 in
  let: (t0, c0) := Add64 u0 t0 0%Z in
  let: (c2, _) := Add64 c2 0%Z c0 in
  let: (t0, c0) := Add64 t1 t0 0%Z in
  let: (t1, _) := Add64 u1 c2 c0 in
  let c0 := 0%Z in
  let c1 := 0%Z in
  let c2 := 0%Z in
  let v := x_1 in
  let: (u0, c1) := Mul64 v x_0 in
  let: (t0, c0) := Add64 c1 t0 0%Z in
  let: (u1, c1) := Mul64 v x_1 in
  let: (t1, c0) := Add64 c1 t1 c0 in
  let: (c2, _) := Add64 0%Z 0%Z c0 in
  let: (t1, c0) := Add64 u0 t1 0%Z in
  let: (c2, _) := Add64 u1 c2 c0 in
  let m := ((qInvNeg * t0) mod W)%Z in
  let: (u0, c1) := Mul64 m q0 in
  let: (_, c0) := Add64 t0 c1 0%Z in
  let: (u1, c1) := Mul64 m q1 in
  let: (t0, c0) := Add64 0%Z c1 c0 in
  let: (u1, _) := Add64 u1 0%Z c0 in
  let: (t0, c0) := Add64 u0 t0 0%Z in
  let: (c2, _) := Add64 c2 0%Z c0 in
  let: (t0, c0) := Add64 t1 t0 0%Z in
  let: (t1, _) := Add64 u1 c2 c0 in
  let z_0 := t0 in
  let z_1 := t1 in
  if ~~ smaller z_0 z_1 then
  let b := 0%Z in
  let: (z_0, b) := Sub64 z_0 q0 0%Z in
  let: (z_1, _) := Sub64 z_1 q1 b in
  [:: z_0; z_1] else
  [:: z_0; z_1].
(** element.go 499-524 *)
Definition from (z_0 z_1 : Z) : seq Z :=
  let m := ((z_0 * qInvNeg) mod W)%Z in
  let C := madd0 m q0 z_0 in
  let: (C, z_0) := madd2 m q1 z_1 C in
  let z_1 := C in
  let m := ((z_0 * qInvNeg) mod W)%Z in
  let C := madd0 m q0 z_0 in
  let: (C, z_0) := madd2 m q1 z_1 C in
  let z_1 := C in
  if ~~ smaller z_0 z_1 then
  let b := 0%Z in
  let: (z_0, b) := Sub64 z_0 q0 0%Z in
  let: (z_1, _) := Sub64 z_1 q1 b in
  [:: z_0; z_1] else
  [:: z_0; z_1].
End Unrolled2.
(** names the result of every machine operation, on both sides at once *)
Ltac opcase e := match goal with
  | H : e = _ |- _ => rewrite H; cbv beta iota
  | _ => destruct e eqn:?
  end.
Ltac unroll hless hzero :=
  cbv -[Add64 Sub64 Mul64 madd0 madd1 madd2 Z.mul Z.modulo Z.eqb Z.lor W negb smaller isZero less IsZero];
  rewrite ?hzero;
  repeat (match goal with
  | |- context [Mul64 ?a ?b] => opcase (Mul64 a b)
  | |- context [Add64 ?a ?b ?c] => opcase (Add64 a b c)
  | |- context [Sub64 ?a ?b ?c] => opcase (Sub64 a b c)
  | |- context [madd1 ?a ?b ?c] => opcase (madd1 a b c)
  | |- context [madd2 ?a ?b ?c ?d] => opcase (madd2 a b c d)
  end);
  rewrite ?hless; repeat (match goal with
  | |- context [negb ?c] => destruct c; cbn [negb]; cbv iota
  | |- context [if ?c then _ else _] => destruct c; cbv iota
  end); reflexivity.
Lemma less2 q0 q1 x0 x1 : less [:: x0; x1] [:: q0; q1] = smaller q0 q1 x0 x1.
Proof. by rewrite /less /smaller /= andbF orbF. Qed.
Lemma isZero2 x0 x1 : IsZero [:: x0; x1] = isZero x0 x1.
Proof. by rewrite /IsZero /isZero /= Z.lor_0_r (Z.lor_comm x0 _). Qed.
Theorem unrolled2_Add q0 q1 qInvNeg r one co k b x0 x1 y0 y1 :
  Add (Gen [:: q0; q1] qInvNeg r one co k false b) [:: x0; x1] [:: y0; y1] =
  add q0 q1 x0 x1 y0 y1.
Proof. unroll (@less2) (@isZero2). Qed.
Theorem unrolled2_Double q0 q1 qInvNeg r one co k b x0 x1 :
  Double (Gen [:: q0; q1] qInvNeg r one co k false b) [:: x0; x1] =
  double q0 q1 x0 x1.
Proof. unroll (@less2) (@isZero2). Qed.
Theorem unrolled2_Sub q0 q1 qInvNeg r one co k b x0 x1 y0 y1 :
  Sub (Gen [:: q0; q1] qInvNeg r one co k false b) [:: x0; x1] [:: y0; y1] =
  sub q0 q1 x0 x1 y0 y1.
Proof. unroll (@less2) (@isZero2). Qed.
Theorem unrolled2_Neg q0 q1 qInvNeg r one co k b x0 x1 :
  Neg (Gen [:: q0; q1] qInvNeg r one co k false b) [:: x0; x1] =
  neg q0 q1 x0 x1.
Proof. unroll (@less2) (@isZero2). Qed.
Theorem unrolled2_mulGeneric q0 q1 qInvNeg r one co k b x0 x1 y0 y1 :
  mulGeneric (Gen [:: q0; q1] qInvNeg r one co k false b) [:: x0; x1] [:: y0; y1] =
  mulG q0 q1 qInvNeg x0 x1 y0 y1.
Proof. unroll (@less2) (@isZero2). Qed.
Theorem unrolled2_Mul q0 q1 qInvNeg r one co k b x0 x1 y0 y1 :
  mulPure (Gen [:: q0; q1] qInvNeg r one co k false b) [:: x0; x1] [:: y0; y1] =
  mulP q0 q1 qInvNeg x0 x1 y0 y1.
Proof. unroll (@less2) (@isZero2). Qed.
Theorem unrolled2_Square q0 q1 qInvNeg r one co k b x0 x1 :
  mulPure (Gen [:: q0; q1] qInvNeg r one co k false b) [:: x0; x1] [:: x0; x1] =
  square q0 q1 qInvNeg x0 x1.
Proof. unroll (@less2) (@isZero2). Qed.
Theorem unrolled2_fromMont q0 q1 qInvNeg r one co k b x0 x1 :
  fromMont (Gen [:: q0; q1] qInvNeg r one co k false b) [:: x0; x1] =
  from q0 q1 qInvNeg x0 x1.
Proof. unroll (@less2) (@isZero2). Qed.
