(** The unrolled text of examples/mult/zp, word by word: each definition is the
    sequence of the statements of the Go function, one let per assignment.  The long functions are
    cut into their rounds, one definition each; the variables that live across the cut are passed
    on.  The theorems say that the recursions of ZpModel.v are these texts. *)
From Coq Require Import ZArith.
From mathcomp Require Import all_ssreflect.
From Verif Require Import JindoIntModel ZpModel.
Set Implicit Arguments. Unset Strict Implicit. Unset Printing Implicit Defensive.
Delimit Scope Z_scope with Z.
Section UnrolledMult.
Variables q0 q1 qInvNeg : Z.
(** element.go 331-333 *)
Definition smaller (z_0 z_1 : Z) : bool := ((z_1 <? q1)%Z || ((z_1 =? q1)%Z && ((z_0 <? q0)%Z))).
(** element.go 209-211 *)
Definition isZero (z_0 z_1 : Z) : bool := ((Z.lor z_1 z_0) =? 0)%Z.
(** element.go 372-394 *)
Definition add (x_0 x_1 y_0 y_1 : Z) : seq Z :=
  let carry := 0%Z in
  let: (z_0, carry) := Add64 x_0 y_0 0%Z in
  let: (z_1, carry) := Add64 x_1 y_1 carry in
  if ~~ (carry =? 0)%Z then
  let b := 0%Z in
  let: (z_0, b) := Sub64 z_0 q0 0%Z in
  let: (z_1, _) := Sub64 z_1 q1 b in
  [:: z_0; z_1] else
  if ~~ smaller z_0 z_1 then
  let b := 0%Z in
  let: (z_0, b) := Sub64 z_0 q0 0%Z in
  let: (z_1, _) := Sub64 z_1 q1 b in
  [:: z_0; z_1] else
  [:: z_0; z_1].
(** element.go 397-419 *)
Definition double (x_0 x_1 : Z) : seq Z :=
  let carry := 0%Z in
  let: (z_0, carry) := Add64 x_0 x_0 0%Z in
  let: (z_1, carry) := Add64 x_1 x_1 carry in
  if ~~ (carry =? 0)%Z then
  let b := 0%Z in
  let: (z_0, b) := Sub64 z_0 q0 0%Z in
  let: (z_1, _) := Sub64 z_1 q1 b in
  [:: z_0; z_1] else
  if ~~ smaller z_0 z_1 then
  let b := 0%Z in
  let: (z_0, b) := Sub64 z_0 q0 0%Z in
  let: (z_1, _) := Sub64 z_1 q1 b in
  [:: z_0; z_1] else
  [:: z_0; z_1].
(** element.go 422-432 *)
Definition sub (x_0 x_1 y_0 y_1 : Z) : seq Z :=
  let b := 0%Z in
  let: (z_0, b) := Sub64 x_0 y_0 0%Z in
  let: (z_1, b) := Sub64 x_1 y_1 b in
  if ~~ (b =? 0)%Z then
  let c := 0%Z in
  let: (z_0, c) := Add64 z_0 q0 0%Z in
  let: (z_1, _) := Add64 z_1 q1 c in
  [:: z_0; z_1] else
  [:: z_0; z_1].
(** element.go 435-444 *)
Definition neg (x_0 x_1 : Z) : seq Z :=
  if isZero x_0 x_1 then
  let z_0 := 0%Z in
  let z_1 := 0%Z in
  [:: z_0; z_1] else
  let borrow := 0%Z in
  let: (z_0, borrow) := Sub64 q0 x_0 0%Z in
  let: (z_1, _) := Sub64 q1 x_1 borrow in
  [:: z_0; z_1].
(** element.go 467-484 *)
Definition mulG_r0 (x_0 x_1 y_0 t_0 t_1 t_2 : Z) :=
  let: (C, t_0) := Mul64 y_0 x_0 in
  let: (C, t_1) := madd1 y_0 x_1 C in
  let: (t_2, D) := Add64 t_2 C 0%Z in
  let m := ((t_0 * qInvNeg) mod W)%Z in
  let C := madd0 m q0 t_0 in
  let: (C, t_0) := madd2 m q1 t_1 C in
  let: (t_1, C) := Add64 t_2 C 0%Z in
  let: (t_2, _) := Add64 0%Z D C in
  (t_0, t_1, t_2).
(** element.go 485-502 *)
Definition mulG_r1 (x_0 x_1 y_1 t_0 t_1 t_2 : Z) :=
  let: (C, t_0) := madd1 y_1 x_0 t_0 in
  let: (C, t_1) := madd2 y_1 x_1 t_1 C in
  let: (t_2, D) := Add64 t_2 C 0%Z in
  let m := ((t_0 * qInvNeg) mod W)%Z in
  let C := madd0 m q0 t_0 in
  let: (C, t_0) := madd2 m q1 t_1 C in
  let: (t_1, C) := Add64 t_2 C 0%Z in
  let: (t_2, _) := Add64 0%Z D C in
  (t_0, t_1, t_2).
(** element.go 458-521 *)
Definition mulG (x_0 x_1 y_0 y_1 : Z) : seq Z :=
  let t_0 := 0%Z in
  let t_1 := 0%Z in
  let t_2 := 0%Z in
  let D := 0%Z in
  let m := 0%Z in
  let C := 0%Z in
  let: (t_0, t_1, t_2) := mulG_r0 x_0 x_1 y_0 t_0 t_1 t_2 in
  let: (t_0, t_1, t_2) := mulG_r1 x_0 x_1 y_1 t_0 t_1 t_2 in
  if ~~ (t_2 =? 0)%Z then
  let b := 0%Z in
  let: (z_0, b) := Sub64 t_0 q0 0%Z in
  let: (z_1, _) := Sub64 t_1 q1 b in
  [:: z_0; z_1] else
  let z_0 := t_0 in
  let z_1 := t_1 in
  if ~~ smaller z_0 z_1 then
  let b := 0%Z in
  let: (z_0, b) := Sub64 z_0 q0 0%Z in
  let: (z_1, _) := Sub64 z_1 q1 b in
  [:: z_0; z_1] else
  [:: z_0; z_1].
(** element_purego.go 49-66 *)
Definition mulP_r0 (x_0 x_1 y_0 t_0 t_1 t_2 : Z) :=
  let: (C, t_0) := Mul64 y_0 x_0 in
  let: (C, t_1) := madd1 y_0 x_1 C in
  let: (t_2, D) := Add64 t_2 C 0%Z in
  let m := ((t_0 * qInvNeg) mod W)%Z in
  let C := madd0 m q0 t_0 in
  let: (C, t_0) := madd2 m q1 t_1 C in
  let: (t_1, C) := Add64 t_2 C 0%Z in
  let: (t_2, _) := Add64 0%Z D C in
  (t_0, t_1, t_2).
(** element_purego.go 67-84 *)
Definition mulP_r1 (x_0 x_1 y_1 t_0 t_1 t_2 : Z) :=
  let: (C, t_0) := madd1 y_1 x_0 t_0 in
  let: (C, t_1) := madd2 y_1 x_1 t_1 C in
  let: (t_2, D) := Add64 t_2 C 0%Z in
  let m := ((t_0 * qInvNeg) mod W)%Z in
  let C := madd0 m q0 t_0 in
  let: (C, t_0) := madd2 m q1 t_1 C in
  let: (t_1, C) := Add64 t_2 C 0%Z in
  let: (t_2, _) := Add64 0%Z D C in
  (t_0, t_1, t_2).
(** element_purego.go 40-104 *)
Definition mulP (x_0 x_1 y_0 y_1 : Z) : seq Z :=
  let t_0 := 0%Z in
  let t_1 := 0%Z in
  let t_2 := 0%Z in
  let D := 0%Z in
  let m := 0%Z in
  let C := 0%Z in
  let: (t_0, t_1, t_2) := mulP_r0 x_0 x_1 y_0 t_0 t_1 t_2 in
  let: (t_0, t_1, t_2) := mulP_r1 x_0 x_1 y_1 t_0 t_1 t_2 in
  if ~~ (t_2 =? 0)%Z then
  let b := 0%Z in
  let: (z_0, b) := Sub64 t_0 q0 0%Z in
  let: (z_1, _) := Sub64 t_1 q1 b in
  [:: z_0; z_1] else
  let z_0 := t_0 in
  let z_1 := t_1 in
  if ~~ smaller z_0 z_1 then
  let b := 0%Z in
  let: (z_0, b) := Sub64 z_0 q0 0%Z in
  let: (z_1, _) := Sub64 z_1 q1 b in
  [:: z_0; z_1] else
  [:: z_0; z_1].
(** element_purego.go 114-131 *)
Definition square_r0 (x_0 x_1 t_0 t_1 t_2 : Z) :=
  let: (C, t_0) := Mul64 x_0 x_0 in
  let: (C, t_1) := madd1 x_0 x_1 C in
  let: (t_2, D) := Add64 t_2 C 0%Z in
  let m := ((t_0 * qInvNeg) mod W)%Z in
  let C := madd0 m q0 t_0 in
  let: (C, t_0) := madd2 m q1 t_1 C in
  let: (t_1, C) := Add64 t_2 C 0%Z in
  let: (t_2, _) := Add64 0%Z D C in
  (t_0, t_1, t_2).
(** element_purego.go 132-149 *)
Definition square_r1 (x_0 x_1 t_0 t_1 t_2 : Z) :=
  let: (C, t_0) := madd1 x_1 x_0 t_0 in
  let: (C, t_1) := madd2 x_1 x_1 t_1 C in
  let: (t_2, D) := Add64 t_2 C 0%Z in
  let m := ((t_0 * qInvNeg) mod W)%Z in
  let C := madd0 m q0 t_0 in
  let: (C, t_0) := madd2 m q1 t_1 C in
  let: (t_1, C) := Add64 t_2 C 0%Z in
  let: (t_2, _) := Add64 0%Z D C in
  (t_0, t_1, t_2).
(** element_purego.go 107-169 *)
Definition square (x_0 x_1 : Z) : seq Z :=
  let t_0 := 0%Z in
  let t_1 := 0%Z in
  let t_2 := 0%Z in
  let D := 0%Z in
  let m := 0%Z in
  let C := 0%Z in
  let: (t_0, t_1, t_2) := square_r0 x_0 x_1 t_0 t_1 t_2 in
  let: (t_0, t_1, t_2) := square_r1 x_0 x_1 t_0 t_1 t_2 in
  if ~~ (t_2 =? 0)%Z then
  let b := 0%Z in
  let: (z_0, b) := Sub64 t_0 q0 0%Z in
  let: (z_1, _) := Sub64 t_1 q1 b in
  [:: z_0; z_1] else
  let z_0 := t_0 in
  let z_1 := t_1 in
  if ~~ smaller z_0 z_1 then
  let b := 0%Z in
  let: (z_0, b) := Sub64 z_0 q0 0%Z in
  let: (z_1, _) := Sub64 z_1 q1 b in
  [:: z_0; z_1] else
  [:: z_0; z_1].
(** element.go 527-533 *)
Definition from_r0 (z_0 z_1 : Z) :=
  let m := ((z_0 * qInvNeg) mod W)%Z in
  let C := madd0 m q0 z_0 in
  let: (C, z_0) := madd2 m q1 z_1 C in
  let z_1 := C in
  (z_0, z_1).
(** element.go 534-540 *)
Definition from_r1 (z_0 z_1 : Z) :=
  let m := ((z_0 * qInvNeg) mod W)%Z in
  let C := madd0 m q0 z_0 in
  let: (C, z_0) := madd2 m q1 z_1 C in
  let z_1 := C in
  (z_0, z_1).
(** element.go 523-548 *)
Definition from (z_0 z_1 : Z) : seq Z :=
  let: (z_0, z_1) := from_r0 z_0 z_1 in
  let: (z_0, z_1) := from_r1 z_0 z_1 in
  if ~~ smaller z_0 z_1 then
  let b := 0%Z in
  let: (z_0, b) := Sub64 z_0 q0 0%Z in
  let: (z_1, _) := Sub64 z_1 q1 b in
  [:: z_0; z_1] else
  [:: z_0; z_1].
End UnrolledMult.
(** names the result of every machine operation, on both sides at once *)
Ltac opcase e := match goal with
  | H : e = _ |- _ => rewrite H; cbv beta iota
  | _ => destruct e eqn:?
  end.
Ltac ops := repeat (match goal with
  | |- context [Mul64 ?a ?b] => opcase (Mul64 a b)
  | |- context [Add64 ?a ?b ?c] => opcase (Add64 a b c)
  | |- context [Sub64 ?a ?b ?c] => opcase (Sub64 a b c)
  | |- context [madd1 ?a ?b ?c] => opcase (madd1 a b c)
  | |- context [madd2 ?a ?b ?c ?d] => opcase (madd2 a b c d)
  end).
Ltac ifs := repeat (match goal with
  | |- context [negb ?c] => destruct c; cbn [negb]; cbv iota
  | |- context [if ?c then _ else _] => destruct c; cbv iota
  end).
Ltac unroll hless hzero :=
  cbv -[Add64 Sub64 Mul64 madd0 madd1 madd2 Z.mul Z.modulo Z.eqb Z.lor W negb smaller isZero less IsZero];
  rewrite ?hzero; ops; rewrite ?hless; ifs; reflexivity.
Ltac tail hless := cbv -[Add64 Sub64 Mul64 madd0 madd1 madd2 Z.mul Z.modulo Z.eqb Z.lor W negb smaller isZero less IsZero];
  ops; rewrite ?hless; ifs; reflexivity.
Lemma less2 q0 q1 x0 x1 : less [:: x0; x1] [:: q0; q1] = smaller q0 q1 x0 x1.
Proof. by rewrite /less /smaller /= andbF orbF. Qed.
Lemma isZero2 x0 x1 : IsZero [:: x0; x1] = isZero x0 x1.
Proof. by rewrite /IsZero /isZero /= Z.lor_0_r (Z.lor_comm x0 _). Qed.
Theorem unrolledMult_Add q0 q1 qi r one co k x0 x1 y0 y1 :
  Add (Gen [:: q0; q1] qi r one co k true true) [:: x0; x1] [:: y0; y1] =
  add q0 q1 x0 x1 y0 y1.
Proof. unroll (@less2) (@isZero2). Qed.
Theorem unrolledMult_Double q0 q1 qi r one co k x0 x1 :
  Double (Gen [:: q0; q1] qi r one co k true true) [:: x0; x1] =
  double q0 q1 x0 x1.
Proof. unroll (@less2) (@isZero2). Qed.
Theorem unrolledMult_Sub q0 q1 qi r one co k x0 x1 y0 y1 :
  Sub (Gen [:: q0; q1] qi r one co k true true) [:: x0; x1] [:: y0; y1] =
  sub q0 q1 x0 x1 y0 y1.
Proof. unroll (@less2) (@isZero2). Qed.
Theorem unrolledMult_Neg q0 q1 qi r one co k x0 x1 :
  Neg (Gen [:: q0; q1] qi r one co k true true) [:: x0; x1] =
  neg q0 q1 x0 x1.
Proof. unroll (@less2) (@isZero2). Qed.
Lemma mulG_r0E q0 q1 qi r one co k x0 x1 y0 :
  ciosFirst (Gen [:: q0; q1] qi r one co k true true) [:: x0; x1] y0 =
  let: (s0, s1, s2) := mulG_r0 q0 q1 qi x0 x1 y0 0%Z 0%Z 0%Z in ([:: s0; s1], s2).
Proof. rewrite /mulG_r0; unroll (@less2) (@isZero2). Qed.
Lemma mulG_r1E q0 q1 qi r one co k x0 x1 y1 t0 t1 t2 :
  ciosRound (Gen [:: q0; q1] qi r one co k true true) [:: x0; x1] ([:: t0; t1], t2) y1 =
  let: (s0, s1, s2) := mulG_r1 q0 q1 qi x0 x1 y1 t0 t1 t2 in ([:: s0; s1], s2).
Proof. rewrite /mulG_r1; unroll (@less2) (@isZero2). Qed.
Theorem unrolledMult_mulGeneric q0 q1 qi r one co k x0 x1 y0 y1 :
  mulGeneric (Gen [:: q0; q1] qi r one co k true true) [:: x0; x1] [:: y0; y1] =
  mulG q0 q1 qi x0 x1 y0 y1.
Proof.
rewrite /mulGeneric /mulG; cbn [foldl behead hd0 nth]; cbv beta zeta.
cbv beta delta [hd0]; cbn [nth].
rewrite mulG_r0E; case: (mulG_r0 _ _ _ _ _ _ _ _ _) => [[a0_0 a0_1] a0_2]; cbv beta iota.
rewrite mulG_r1E; case: (mulG_r1 _ _ _ _ _ _ _ _ _) => [[a1_0 a1_1] a1_2]; cbv beta iota.
tail (@less2).
Qed.
Lemma mulP_r0E q0 q1 qi r one co k x0 x1 y0 :
  ciosFirst (Gen [:: q0; q1] qi r one co k true true) [:: x0; x1] y0 =
  let: (s0, s1, s2) := mulP_r0 q0 q1 qi x0 x1 y0 0%Z 0%Z 0%Z in ([:: s0; s1], s2).
Proof. rewrite /mulP_r0; unroll (@less2) (@isZero2). Qed.
Lemma mulP_r1E q0 q1 qi r one co k x0 x1 y1 t0 t1 t2 :
  ciosRound (Gen [:: q0; q1] qi r one co k true true) [:: x0; x1] ([:: t0; t1], t2) y1 =
  let: (s0, s1, s2) := mulP_r1 q0 q1 qi x0 x1 y1 t0 t1 t2 in ([:: s0; s1], s2).
Proof. rewrite /mulP_r1; unroll (@less2) (@isZero2). Qed.
Theorem unrolledMult_Mul q0 q1 qi r one co k x0 x1 y0 y1 :
  mulGeneric (Gen [:: q0; q1] qi r one co k true true) [:: x0; x1] [:: y0; y1] =
  mulP q0 q1 qi x0 x1 y0 y1.
Proof.
rewrite /mulGeneric /mulP; cbn [foldl behead hd0 nth]; cbv beta zeta.
cbv beta delta [hd0]; cbn [nth].
rewrite mulP_r0E; case: (mulP_r0 _ _ _ _ _ _ _ _ _) => [[a0_0 a0_1] a0_2]; cbv beta iota.
rewrite mulP_r1E; case: (mulP_r1 _ _ _ _ _ _ _ _ _) => [[a1_0 a1_1] a1_2]; cbv beta iota.
tail (@less2).
Qed.
Lemma square_r0E q0 q1 qi r one co k x0 x1 :
  ciosFirst (Gen [:: q0; q1] qi r one co k true true) [:: x0; x1] x0 =
  let: (s0, s1, s2) := square_r0 q0 q1 qi x0 x1  0%Z 0%Z 0%Z in ([:: s0; s1], s2).
Proof. rewrite /square_r0; unroll (@less2) (@isZero2). Qed.
Lemma square_r1E q0 q1 qi r one co k x0 x1 t0 t1 t2 :
  ciosRound (Gen [:: q0; q1] qi r one co k true true) [:: x0; x1] ([:: t0; t1], t2) x1 =
  let: (s0, s1, s2) := square_r1 q0 q1 qi x0 x1  t0 t1 t2 in ([:: s0; s1], s2).
Proof. rewrite /square_r1; unroll (@less2) (@isZero2). Qed.
Theorem unrolledMult_Square q0 q1 qi r one co k x0 x1 :
  mulGeneric (Gen [:: q0; q1] qi r one co k true true) [:: x0; x1] [:: x0; x1] =
  square q0 q1 qi x0 x1.
Proof.
rewrite /mulGeneric /square; cbn [foldl behead hd0 nth]; cbv beta zeta.
cbv beta delta [hd0]; cbn [nth].
rewrite square_r0E; case: (square_r0 _ _ _ _ _ _ _ _) => [[a0_0 a0_1] a0_2]; cbv beta iota.
rewrite square_r1E; case: (square_r1 _ _ _ _ _ _ _ _) => [[a1_0 a1_1] a1_2]; cbv beta iota.
tail (@less2).
Qed.
Lemma from_r0E q0 q1 qi r one co k z0 z1 :
  montRound (Gen [:: q0; q1] qi r one co k true true) [:: z0; z1] =
  let: (s0, s1) := from_r0 q0 q1 qi z0 z1 in [:: s0; s1].
Proof. rewrite /from_r0; unroll (@less2) (@isZero2). Qed.
Lemma from_r1E q0 q1 qi r one co k z0 z1 :
  montRound (Gen [:: q0; q1] qi r one co k true true) [:: z0; z1] =
  let: (s0, s1) := from_r1 q0 q1 qi z0 z1 in [:: s0; s1].
Proof. rewrite /from_r1; unroll (@less2) (@isZero2). Qed.
Theorem unrolledMult_fromMont q0 q1 qi r one co k z0 z1 :
  fromMont (Gen [:: q0; q1] qi r one co k true true) [:: z0; z1] =
  from q0 q1 qi z0 z1.
Proof.
rewrite /fromMont /from; rewrite /Limbs; cbn [iter qs size]; cbv beta zeta.
rewrite from_r0E; case: (from_r0 _ _ _ _ _) => [a0_0 a0_1]; cbv beta iota.
rewrite from_r1E; case: (from_r1 _ _ _ _ _) => [a1_0 a1_1]; cbv beta iota.
tail (@less2).
Qed.
