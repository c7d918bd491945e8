(** Small, model-independent specifications used by the property statements. *)
From mathcomp Require Import all_ssreflect all_algebra.
Set Implicit Arguments. Unset Strict Implicit. Unset Printing Implicit Defensive.
Import GRing.Theory.

(** [brv n i]: the number whose [n]-bit binary expansion is that of [i] read backwards:
    bit [k] of [i] becomes bit [n-1-k]. *)
Definition brv (n i : nat) : nat :=
  \sum_(k < n) (odd (i %/ 2 ^ k)) * 2 ^ (n.-1 - k).

Section PolySpec.
Variable F : fieldType.
Local Open Scope ring_scope.

(** The value at [x] of the polynomial with coefficient list [p]. *)
Definition peval (p : seq F) (x : F) : F := \sum_(i < size p) p`_i * x ^+ i.

(** [g] has multiplicative order exactly [n]. *)
Definition has_order (g : F) (n : nat) : Prop :=
  (0 < n)%N /\ g ^+ n = 1 /\ forall k, (0 < k < n)%N -> g ^+ k <> 1.
End PolySpec.
