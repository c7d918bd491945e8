(** The contract of [bignum.Uint] (math/bignum/bignum.go 8-31) that the generic
    code relies on, as far as integers are concerned: an element type that is a
    field, with conversions to and from big integers.

    - [bigInt]    models [BigInt]   (canonical representative)
    - [setBigInt] models [SetBigInt], and [SetUint64]/[SetInt64] on the integers
      they accept.

    Add/Sub/Neg/Mul/Inverse are the operations of the field [F]; [Cmp(x) == 0] is
    equality. *)
From Coq Require Import ZArith.
From mathcomp Require Import all_ssreflect all_algebra.
Set Implicit Arguments. Unset Strict Implicit. Unset Printing Implicit Defensive.
Import GRing.Theory.
Delimit Scope Z_scope with Z.

Record uint (F : fieldType) : Type := Uint {
  modulus : Z;
  bigInt : F -> Z;
  setBigInt : Z -> F;
  modulus_gt1 : (1 < modulus)%Z;
  bigInt_range : forall x, (0 <= bigInt x < modulus)%Z;
  bigInt_setBigInt : forall z, bigInt (setBigInt z) = (z mod modulus)%Z;
  setBigInt_bigInt : forall x, setBigInt (bigInt x) = x;
  setBigInt_add : forall a b, setBigInt (a + b) = (setBigInt a + setBigInt b)%R;
  setBigInt_mul : forall a b, setBigInt (a * b) = (setBigInt a * setBigInt b)%R;
  setBigInt_one : setBigInt 1 = 1%R
}.

(** math/bignum/bignum.go 34-46: square and multiply.  [fuel] bounds the number of
    iterations of [for e > 0]; 64 suffice for a uint64. *)
Section Exp.
Variable F : fieldType.

Fixpoint exp_loop (fuel : nat) (r t : F) (e : Z) : F :=
  match fuel with
  | 0 => r
  | fuel'.+1 =>
    if (0 <? e)%Z then
      let r := if (Z.land e 1 =? 1)%Z then (r * t)%R else r in
      let t := (t * t)%R in
      exp_loop fuel' r t (Z.shiftr e 1)
    else r
  end.

Definition Exp (x : F) (e : Z) : F := exp_loop 64 1%R x e.
End Exp.
