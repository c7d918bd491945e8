(** Pointer-level model of math/bigpoly/vec.go 9-120 and base_op.go 41-171.
    Go's []E holds pointers to field elements, so two slices (or a slice and a scalar)
    can share elements.  A heap maps pointers to values; a slice is a list of pointers. *)
From mathcomp Require Import all_ssreflect all_algebra.
From Verif Require Import UintModel BigpolyModel.
Set Implicit Arguments. Unset Strict Implicit. Unset Printing Implicit Defensive.
Import GRing.Theory.
Local Open Scope ring_scope.

Section Vec.
Variable F : fieldType.
Definition heap := nat -> F.
Definition slice := seq nat.

(** An assignment through a pointer: [x.Add(a,b)] etc. write the element [x] points to. *)
Definition store (h : heap) (a : nat) (x : F) : heap := fun b => if b == a then x else h b.

(** vec.go 9-30 (Add), 32-53 (Sub), 99-120 (Mul): [f] is the field operation *)
Definition binVecTo (f : F -> F -> F) (h : heap) (xOut x0 x1 : slice) : heap :=
  let M := (size xOut %/ 8 * 8)%N in
  let op h i := store h (nth 0%N xOut i) (f (h (nth 0%N x0 i)) (h (nth 0%N x1 i))) in
  let h := foldl (fun h i => foldl (fun h k => op h (i + k)%N) h (iota 0 8)) h (range_step 0 M 8) in
  foldl op h (iota M (size xOut - M)).
Definition addVecTo := binVecTo (fun a b => a + b).
Definition subVecTo := binVecTo (fun a b => a - b).
Definition mulVecTo := binVecTo (fun a b => a * b).

(** vec.go 55-75 *)
Definition negVecTo (h : heap) (xOut x0 : slice) : heap :=
  let M := (size xOut %/ 8 * 8)%N in
  let op h i := store h (nth 0%N xOut i) (- h (nth 0%N x0 i)) in
  let h := foldl (fun h i => foldl (fun h k => op h (i + k)%N) h (iota 0 8)) h (range_step 0 M 8) in
  foldl op h (iota M (size xOut - M)).

(** vec.go 77-97; [c] is a pointer, read again at every step *)
Definition scalarMulVecTo (h : heap) (xOut x0 : slice) (c : nat) : heap :=
  let M := (size xOut %/ 8 * 8)%N in
  let op h i := store h (nth 0%N xOut i) (h (nth 0%N x0 i) * h c) in
  let h := foldl (fun h i => foldl (fun h k => op h (i + k)%N) h (iota 0 8)) h (range_step 0 M 8) in
  foldl op h (iota M (size xOut - M)).

(** A polynomial object: its coefficient slice and its IsNTT flag (poly.go 11-14). *)
Record pobj := Pobj { pc : slice; pntt : bool }.

(** poly.go 106-111, 114-121 *)
Definition unaryOperable (rank : nat) (pOut p : pobj) : bool :=
  (size (pc pOut) == rank) && (size (pc p) == rank).
Definition binaryOperable (rank : nat) (pOut p0 p1 : pobj) : bool :=
  [&& size (pc pOut) == rank, size (pc p0) == rank, size (pc p1) == rank & pntt p0 == pntt p1].

(** The results below are the new heap and the new value of pOut.IsNTT; [None] is a panic. *)

(** base_op.go 49-54 *)
Definition AddTo rank h pOut p0 p1 : option (heap * bool) :=
  if binaryOperable rank pOut p0 p1
  then Some (addVecTo h (pc pOut) (pc p0) (pc p1), pntt p0) else None.
(** base_op.go 64-69 *)
Definition SubTo rank h pOut p0 p1 : option (heap * bool) :=
  if binaryOperable rank pOut p0 p1
  then Some (subVecTo h (pc pOut) (pc p0) (pc p1), pntt p0) else None.
(** base_op.go 79-84 *)
Definition NegTo rank h pOut p : option (heap * bool) :=
  if unaryOperable rank pOut p
  then Some (negVecTo h (pc pOut) (pc p), pntt p) else None.
(** base_op.go 94-99 *)
Definition ScalarMulTo rank h pOut p c : option (heap * bool) :=
  if unaryOperable rank pOut p
  then Some (scalarMulVecTo h (pc pOut) (pc p) c, pntt p) else None.
(** base_op.go 102-111; [buf] is the slice of the polynomial taken from the pool *)
Definition ScalarMulAddTo rank h (buf : slice) pOut p c : option (heap * bool) :=
  if unaryOperable rank pOut p
  then let h := scalarMulVecTo h buf (pc p) c in
       Some (addVecTo h (pc pOut) (pc pOut) buf, pntt p) else None.
(** base_op.go 114-123 *)
Definition ScalarMulSubTo rank h (buf : slice) pOut p c : option (heap * bool) :=
  if unaryOperable rank pOut p
  then let h := scalarMulVecTo h buf (pc p) c in
       Some (subVecTo h (pc pOut) (pc pOut) buf, pntt p) else None.
(** base_op.go 133-141 *)
Definition MulTo rank h pOut p0 p1 : option (heap * bool) :=
  if ~~ binaryOperable rank pOut p0 p1 then None else
  if ~~ pntt p0 || ~~ pntt p1 then None else
  Some (mulVecTo h (pc pOut) (pc p0) (pc p1), true).
(** base_op.go 144-156 *)
Definition MulAddTo rank h (buf : slice) pOut p0 p1 : option (heap * bool) :=
  if ~~ binaryOperable rank pOut p0 p1 then None else
  if ~~ pntt p0 || ~~ pntt p1 then None else
  let h := mulVecTo h buf (pc p0) (pc p1) in
  Some (addVecTo h (pc pOut) (pc pOut) buf, true).
(** base_op.go 159-171 *)
Definition MulSubTo rank h (buf : slice) pOut p0 p1 : option (heap * bool) :=
  if ~~ binaryOperable rank pOut p0 p1 then None else
  if ~~ pntt p0 || ~~ pntt p1 then None else
  let h := mulVecTo h buf (pc p0) (pc p1) in
  Some (subVecTo h (pc pOut) (pc pOut) buf, true).
End Vec.
