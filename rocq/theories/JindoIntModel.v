(** The integer parts of jindo: multi-word division, encoding parameters, challenge digits,
    RNS reconstruction.  Words are Z in [0, 2^64). *)
From Coq Require Import ZArith.
From mathcomp Require Import all_ssreflect.
Set Implicit Arguments. Unset Strict Implicit. Unset Printing Implicit Defensive.
Delimit Scope Z_scope with Z.

Definition W : Z := 18446744073709551616%Z. (* 2^64 *)

(** math/bits.Div64: panics for y = 0 and for y <= hi *)
Definition Div64 (hi lo y : Z) : option (Z * Z) :=
  if (y <=? hi)%Z then None else Some (((hi * W + lo) / y)%Z, ((hi * W + lo) mod y)%Z).

(** jindo/utils.go 12-18: the loop runs i = len(x)-1 .. 0 and overwrites x[i] *)
Definition divMod64_step (y : Z) (st : option (seq Z * Z)) (i : nat) : option (seq Z * Z) :=
  if st is Some (x, r) then
    if Div64 r (nth 0%Z x i) y is Some (q, r') then Some (set_nth 0%Z x i q, r') else None
  else None.
Definition divMod64 (x : seq Z) (y : Z) : option (seq Z * Z) :=
  foldl (divMod64_step y) (Some (x, 0%Z)) (rev (iota 0 (size x))).

(** jindo/params.go 18-40, on p - 1 = BigInt(SetBigInt(-1)).  The loop has no bound in the
    code; [fuel] is the number of iterations granted, running out is [None], as is the panic
    for a base beyond uint64. *)
Fixpoint sqrt_loop (fuel : nat) (base : Z) (logExp : nat) : option (Z * nat) :=
  match fuel with
  | 0 => None
  | fuel'.+1 =>
    let s := Z.sqrt base in
    if (s * s =? base)%Z then sqrt_loop fuel' s logExp.+1 else Some (base, logExp)
  end.
Definition newEncodeParameters (fuel : nat) (p : Z) : option (Z * nat) :=
  if sqrt_loop fuel (p - 1) 0 is Some (base, logExp) then
    if (base <? W)%Z then Some (base, 2 ^ logExp)%N else None
  else None.

(** jindo/params.go 358-360; the untyped constant 1 takes the type uint64, so the shift
    drops the bits from 64 on.  120 / exp is the int division. *)
Definition ChallengeBound (base : Z) (exp : nat) : Z :=
  (Z.min base ((Z.shiftl 1 (120 / Z.of_nat exp)) mod W) / 2)%Z.

(** jindo/utils.go 21-46: the integers written at positions i*slots; a negative one stands for
    Modulus - r in every limb.  [c] is the 16-byte challenge as two words, low word first
    (the first eight bytes). *)
Definition chalDigit (cb r : Z) : Z := if (cb / 2 <? r)%Z then (- (cb - r))%Z else r.
Definition chal_step (cb : Z) (st : option (seq Z * seq Z)) (_ : nat) : option (seq Z * seq Z) :=
  if st is Some (c, out) then
    if divMod64 c cb is Some (c', r) then Some (c', rcons out (chalDigit cb r)) else None
  else None.
Definition encodeChallenge (base : Z) (exp : nat) (c : seq Z) : option (seq Z) :=
  omap snd (foldl (chal_step (ChallengeBound base exp)) (Some (c, [::])) (iota 0 exp)).

(** the value stored in limb k for such an integer (utils.go 32-43, and 49-60 for samples:
    Go's c % qi is the remainder of the truncated division) *)
Definition limbOf (q z : Z) : Z := if (0 <=? z)%Z then z else (Z.rem z q + q)%Z.

(** * jindo/rns.go *)

(** rns.go 68-73; the int64 differences do not overflow for q < 2^63 *)
Definition toBalanced (x q : Z) : Z := if (Z.shiftr q 1 <? x)%Z then (x - q)%Z else x.

Definition prodz (qs : seq Z) : Z := foldr Z.mul 1%Z qs.

(** rns.go 33-44: gad[i] = (Q/qi) * ((Q/qi)^-1 mod qi) mod Q; ModInverse is modelled by its
    contract, [inv a m] *)
Section RNS.
Variable inv : Z -> Z -> Z.
Definition gadget (Q q : Z) : Z := (((Q / q) * inv (Q / q) q) mod Q)%Z.

(** rns.go 76-105 for one coefficient, given as its residues [rs] *)
Definition reconstruct (qs rs : seq Z) : Z :=
  let Q := prodz qs in
  let c := toBalanced (nth 0%Z rs 0) (nth 0%Z qs 0) in
  let isSmall := all (fun j => (c =? toBalanced (nth 0%Z rs j) (nth 0%Z qs j))%Z) (iota 1 (size qs - 1)) in
  if isSmall then c else
  let acc := foldl (fun acc j => (acc + nth 0%Z rs j * gadget Q (nth 0%Z qs j))%Z) 0%Z (iota 0 (size qs)) in
  let acc := (acc mod Q)%Z in
  if (Z.shiftr Q 1 <=? acc)%Z then (acc - Q)%Z else acc.
End RNS.

(** rns.go 108-114: big.Int.Mod is the Euclidean remainder *)
Definition setBigCoeff (qs : seq Z) (z : Z) : seq Z := [seq (z mod q)%Z | q <- qs].
