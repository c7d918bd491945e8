(** A [ring] tactic for mathcomp commutative rings (no plugin beyond Coq's own
    [ring]).  Nothing here models the code. *)
From mathcomp Require Import all_ssreflect all_algebra.
Require Import Ring.
Set Implicit Arguments. Unset Strict Implicit. Unset Printing Implicit Defensive.
Import GRing.Theory.
Local Open Scope ring_scope.

Definition radd (R : comRingType) (a b : R) : R := a + b.
Definition rmul (R : comRingType) (a b : R) : R := a * b.
Definition ropp (R : comRingType) (a : R) : R := - a.
Definition rsub (R : comRingType) (a b : R) : R := a - b.
Definition rzero (R : comRingType) : R := 0.
Definition rone (R : comRingType) : R := 1.

Lemma rt (R : comRingType) :
  @ring_theory R (rzero R) (rone R) (@radd R) (@rmul R) (@rsub R) (@ropp R) eq.
Proof.
rewrite /radd /rmul /rsub /ropp /rzero /rone; split; intros.
- by rewrite add0r.
- by rewrite addrC.
- by rewrite addrA.
- by rewrite mul1r.
- by rewrite mulrC.
- by rewrite mulrA.
- by rewrite mulrDl.
- by [].
- by rewrite subrr.
Qed.

Lemma req_intro (R : comRingType) (a b : R) :
  radd (rzero R) a = radd (rzero R) b -> a = b.
Proof. by rewrite /radd /rzero !add0r. Qed.

Ltac norm_ring R :=
  apply: (@req_intro R);
  rewrite ?(mulr2n, expr2, exprS, expr0, mulrS, mulr0n);
  repeat match goal with
  | |- context[@GRing.add ?Y ] => change (@GRing.add Y) with (@radd R)
  | |- context[@GRing.opp ?Y ] => change (@GRing.opp Y) with (@ropp R)
  | |- context[GRing.zero ?Y ] => change (GRing.zero Y) with (rzero R)
  | |- context[@GRing.mul ?Y ] => change (@GRing.mul Y) with (@rmul R)
  | |- context[GRing.one ?Y ] => change (GRing.one Y) with (rone R)
  end.
