(** What the constraints of Buckler mean, independently of how they are checked. *)
From Coq Require Import ZArith.
From mathcomp Require Import all_ssreflect all_algebra.
From Verif Require Import UintModel BigpolyModel RingProofs NormModel BucklerModel DefineModel.
Set Implicit Arguments. Unset Strict Implicit. Unset Printing Implicit Defensive.
Import GRing.Theory.
Local Open Scope ring_scope.
Delimit Scope Z_scope with Z.

Section Spec.
Variables (F : fieldType) (U : uint F).

(** entry [i] of vector number [id] *)
Definition slot (w : seq (seq F)) (id i : nat) : F := (nth [::] w id)`_i.

(** value of a constraint at slot [i]: the sum of coefficient * public * product of witnesses *)
Definition tval_ (pw w : seq (seq F)) (i : nat) (t : term F) : F :=
  tcoeff t * (if tpw t is Some j then slot pw j i else 1) * \prod_(j <- twit t) slot w j i.
Definition cval (pw w : seq (seq F)) (i : nat) (c : constraint F) : F := \sum_(t <- c) tval_ pw w i t.

(** the arithmetic constraints of a context hold at every slot *)
Definition arithSat (x : context F) (pw w : seq (seq F)) : Prop :=
  forall c, List.In c (carith x) -> forall i, (i < crank x)%N -> cval pw w i c = 0.
(** every sum-check constraint has its declared sum *)
Definition sumSat (x : context F) (pw w : seq (seq F)) : Prop :=
  forall c s, List.In (c, s) (zip (csum x) (csums x)) -> \sum_(i < crank x) cval pw w i c = setBigInt U s.
(** every linear constraint holds; [proj] is the matrix of the random projection *)
Definition linSat (x : context F) (proj : seq (seq bool)) (w : seq (seq F)) : Prop :=
  forall chk o i, List.In chk (clinChk x) -> List.In (o, i) (odflt [::] (aget (clin x) (caddr chk))) ->
    nth [::] w o = TransformTo proj (cobj_of chk) (nseq (crank x) 0) (nth [::] w i).

(** the same integer modulo the field characteristic *)
Definition repr (x : F) (z : Z) : Prop := setBigInt U z = x.
Definition infBounded (N : nat) (v : seq F) (B : Z) : Prop :=
  forall i, (i < N)%N -> exists z, repr v`_i z /\ (Z.abs z <= B)%Z.
Definition zsum (N : nat) (f : nat -> Z) : Z := foldr (fun i a => (f i + a)%Z) 0%Z (iota 0 N).
Definition twoBounded (N : nat) (v : seq F) (B : Z) : Prop :=
  exists z, (forall i, (i < N)%N -> repr v`_i (z i)) /\ (zsum N (fun i => z i * z i) <= B)%Z.
(** what AddSqTwoNormConstraint documents: the bound modulo the witness modulus *)
Definition twoBoundedMod (N : nat) (v : seq F) (B : Z) : Prop :=
  exists s, (0 <= s <= B)%Z /\ repr (\sum_(i < N) v`_i * v`_i) s.
End Spec.
