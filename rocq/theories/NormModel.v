(** buckler/utils.go: the digit decomposition behind the norm constraints.  [math/big]
    integers are [Z]. *)
From Coq Require Import ZArith.
From mathcomp Require Import all_ssreflect.
Set Implicit Arguments. Unset Strict Implicit. Unset Printing Implicit Defensive.
Delimit Scope Z_scope with Z.
Local Open Scope Z_scope.

(** big.Int.BitLen: length of the absolute value in bits, 0 for 0. *)
Definition bitLen (x : Z) : Z := if x =? 0 then 0 else Z.log2 (Z.abs x) + 1.

(** big.Int.TrailingZeroBits of the absolute value, 0 for 0. *)
Fixpoint ptz (p : positive) : Z := match p with xO p' => ptz p' + 1 | _ => 0 end.
Definition trailingZeroBits (x : Z) : Z :=
  match x with Z0 => 0 | Zpos p => ptz p | Zneg p => ptz p end.

Definition sumz (s : seq Z) : Z := foldr Z.add 0 s.

(** utils.go 17-28: the loop; [base] holds base[0..i-1].  quo.Rsh(b,1) floors,
    rem.And(b,1) is the low bit (two's complement for negative b, as in math/big). *)
Definition dcmp_digit (x : Z) (base : seq Z) : Z :=
  let b := x - foldl Z.add 0 base in
  Z.shiftr b 1 + Z.land b 1.

Definition dcmp_loop (x : Z) (k : nat) : seq Z :=
  iter k (fun base => rcons base (dcmp_digit x base)) [::].

(** utils.go 7-32; [None]: base[dcmpLen-1] with dcmpLen = 0. *)
Definition decomposeBase (x : Z) : option (seq Z) :=
  let len := bitLen x - (if Z.shiftl 1 (trailingZeroBits x) =? x then 1 else 0) in
  if len <=? 0 then None
  else Some (rcons (dcmp_loop x (Z.to_nat (len - 1))) 1).

(** utils.go 41-53 *)
Fixpoint dcmp_digits (x : Z) (base : seq Z) : seq Z :=
  match base with
  | [::] => [::]
  | b :: base' =>
    if b <=? x then 1 :: dcmp_digits (x - b) base'
    else if x <=? - b then (-1) :: dcmp_digits (x + b) base'
    else 0 :: dcmp_digits x base'
  end.

(** utils.go 34-56 *)
Definition decomposeBig (x : Z) (base : seq Z) (q : Z) : seq Z :=
  let xSigned := if Z.shiftr q 1 <? x then x - q else x in
  dcmp_digits xSigned base.
