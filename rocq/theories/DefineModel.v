(** A circuit's Define method (compile.go 160-175) is arbitrary user code that calls the
    methods of Context.  What reaches the prover and verifier is the context after these
    calls, so a Define is modelled by the list of calls it makes. *)
From Coq Require Import ZArith.
From mathcomp Require Import all_ssreflect all_algebra.
From Verif Require Import UintModel BigpolyModel RingProofs NormModel BucklerModel.
Set Implicit Arguments. Unset Strict Implicit. Unset Printing Implicit Defensive.
Delimit Scope Z_scope with Z.

Section Define.
Variables (F : fieldType) (U : uint F).

(** context.go 79-228: the methods that add constraints.  [CLin wOut wIn a tf tr] passes a
    user-supplied LinearChecker with pointer [a] whose methods behave as [tf], [tr]. *)
Inductive cmd :=
  | CArith of constraint F
  | CSum of constraint F & Z
  | CLin of nat & nat & nat & (seq F -> seq F -> seq F) & (seq F -> seq F -> seq F)
  | CInf of nat & Z
  | CTwo of nat & Z
  | CApprox of nat & Z.

Definition run1 (x : context F) (c : cmd) : option (context F) :=
  match c with
  | CArith c => Some (AddArithmeticConstraint x c)
  | CSum c s => Some (AddSumCheckConstraintBig x c s)
  | CLin o i a tf tr => Some (AddLinearConstraint x o i (Chk (inl a) (OUser tf tr)))
  | CInf w B => AddInfNormConstraintBig U x w B
  | CTwo w B => Some (AddSqNormConstraintBig U x w B)
  | CApprox w B => AddApproxInfNormConstraintBig U x w B
  end.

(** Define as a whole; [None] is a panic inside one of the calls. *)
Fixpoint define (x : context F) (cs : seq cmd) : option (context F) :=
  if cs is c :: cs' then
    if run1 x c is Some x' then define x' cs' else None
  else Some x.
End Define.
Arguments CInf {F}. Arguments CTwo {F}. Arguments CApprox {F}.
