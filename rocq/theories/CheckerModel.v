(** buckler/linear.go: the NTT and automorphism checkers and modInverse.  (projChecker and
    projRecomposeChecker are in BucklerModel.v.) *)
From Coq Require Import ZArith.
From mathcomp Require Import all_ssreflect all_algebra.
From Verif Require Import UintModel BigpolyModel.
Set Implicit Arguments. Unset Strict Implicit. Unset Printing Implicit Defensive.
Import GRing.Theory.
Local Open Scope ring_scope.
Delimit Scope Z_scope with Z.

Section Checkers.
Variables (F : fieldType) (U : uint F).

(** linear.go 20-32 *)
Record nttChecker := NttChecker { nckNtt : transformer F; nckScale : F }.
Definition NewNTTChecker (rank : nat) : option nttChecker :=
  if NewCyclotomicTransformer U rank is Some T
  then Some (NttChecker T (setBigInt U (Z.of_nat rank))) else None.

(** linear.go 34-36 *)
Definition nttTransformTo (c : nttChecker) (vOut v : seq F) : option (seq F) := FwdNTTTo (nckNtt c) vOut v.

(** linear.go 38-43; vOut and v are different slices in this model *)
Definition nttTransposeTo (c : nttChecker) (vOut v : seq F) : option (seq F) :=
  let r := trank (nckNtt c) in
  let o := foldl (fun o i => set_nth 0 o i (v`_(r - 1 - i) * nckScale c)) vOut (iota 0 r) in
  InvNTTTo (nckNtt c) o o.

(** the same with vOut and v the same slice: the loop reads what it has already written *)
Definition nttTransposeInPlace (c : nttChecker) (v : seq F) : option (seq F) :=
  let r := trank (nckNtt c) in
  let o := foldl (fun o i => set_nth 0 o i (o`_(r - 1 - i) * nckScale c)) v (iota 0 r) in
  InvNTTTo (nckNtt c) o o.
End Checkers.

(** linear.go 75-91 over uint64: subtraction and multiplication wrap modulo 2^64.  The loop
    runs at most m+1 times because b decreases from the second iteration on. *)
Definition w64 : Z := (2 ^ 64)%Z.
Fixpoint modInverse_loop (fuel : nat) (a b u v : Z) : Z * Z :=
  match fuel with
  | 0 => (a, u)
  | fuel'.+1 =>
    if (b =? 0)%Z then (a, u) else
    let q := (a / b)%Z in
    modInverse_loop fuel' b ((a - q * b) mod w64)%Z v ((u - (q * v) mod w64) mod w64)%Z
  end.
(** [None] is the panic *)
Definition modInverse (x m : Z) : option Z :=
  let x := (x mod m)%Z in
  let: (a, u) := modInverse_loop (Z.to_nat m).+2 x m 1 0 in
  if (a =? 1)%Z then Some (u mod m)%Z else None.

Section Aut.
Variable F : fieldType.

(** linear.go 46-61; uint64(idx) of a negative int wraps *)
Record autChecker := AutChecker { ackRank : nat; ackNTT : bool; ackIdx : Z; ackInv : Z }.
Definition NewAutChecker (rank : nat) (idx : Z) (isNTT : bool) : option autChecker :=
  if modInverse (idx mod w64)%Z (Z.of_nat (2 * rank)) is Some i
  then Some (AutChecker rank isNTT idx i) else None.

(** linear.go 63-73; [buf] is the pooled polynomial of the evaluator *)
Definition autTransformTo (c : autChecker) (buf vOut v : seq F) : option (seq F) :=
  omap (@coeffs F) (AutTo (ackRank c) buf (Poly_t vOut false) (Poly_t v (ackNTT c)) (ackIdx c)).
Definition autTransposeTo (c : autChecker) (buf vOut v : seq F) : option (seq F) :=
  omap (@coeffs F) (AutTo (ackRank c) buf (Poly_t vOut false) (Poly_t v (ackNTT c)) (ackInv c)).
End Aut.
