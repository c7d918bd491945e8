(** math/csprng: the rounded Gaussian sampler (Ziggurat) and the COSAC sampler, over the real
    numbers instead of float64.  Definitions only. *)
From Coq Require Import Reals ZArith List Lra.
Import ListNotations.
Set Implicit Arguments. Unset Strict Implicit.
Local Open Scope R_scope.

(** math.Round: nearest integer, halves away from zero *)
Definition roundZ (y : R) : Z := if Rle_dec 0 y then Int_part (y + / 2) else (- Int_part (- y + / 2))%Z.

Definition Rleb (a b : R) : bool := if Rle_dec a b then true else false.

(** * gaussian_rounded.go *)

(** 45-55 *)
Definition normal (x : R) : R := exp (- (1 / 2) * x * x).
Definition normalInv (x : R) : R := sqrt (-2 * ln x).

(** 10, 13: floatPrec, rn *)
Definition scale : Z := (2 ^ 52)%Z.
Definition rn : R := 3442619855899 / 1000000000000.

(** 22-43: init.  [v] is the area of a layer (normalIntegral is math.Erfc); [xn] is filled from
    index 127 downwards to 1 and keeps the zero of its declaration at index 0, and so does
    [fn]. *)
Section Tables.
Variable v : R.
Fixpoint xnDown (k : nat) : R :=
  match k with O => rn | S k => let x := xnDown k in normalInv (v / x + normal x) end.
Definition xn (i : nat) : R := if Nat.eqb i 0 then 0 else xnDown (127 - i).
Definition kn (i : nat) : Z :=
  if Nat.eqb i 0 then Int_part (rn * normal rn / v * IZR scale)
  else Int_part (xn (i - 1) / xn i * IZR scale).
Definition wn (i : nat) : R := if Nat.eqb i 0 then v / normal rn / IZR scale else xn i / IZR scale.
Definition fn (i : nat) : R := if Nat.eqb i 0 then 0 else normal (xn i).
End Tables.

(** 84-88: the parts of a random word; uint64 arithmetic in the sign *)
Definition w64 : Z := (2 ^ 64)%Z.
Definition toInt64 (z : Z) : Z := if (z <? 2 ^ 63)%Z then z else (z - w64)%Z.
Definition partB (r : Z) : Z := Z.shiftr r 63.
Definition partI (r : Z) : Z := (r mod 2 ^ 7)%Z.
Definition partJ (r : Z) : Z := ((Z.shiftr r 7) mod scale)%Z.
Definition signedJ (r : Z) : Z := toInt64 ((Z.lxor (partJ r) ((- partB r) mod w64) + partB r) mod w64).

(** 80-119.  [kn] [wn] [fn] are the tables, [ws] the words of Sample and [us] the values of
    SampleFloat (in the code one stream; each is used in order).  [None]: ran out of randomness.
    The loop is bounded by the number of words. *)
Section NormFloat.
Variables (kn : nat -> Z) (wn fn : nat -> R).
(** 96-105: the tail.  The logarithm of 0 is 0 in this model and infinite in the code, so the
    theorems about the tail take positive values of SampleFloat. *)
Fixpoint tail (us : list R) : option (R * list R) :=
  match us with
  | u1 :: u2 :: us =>
    let u := - ln u1 * (1 / rn) in
    let v := - ln u2 in
    if Rle_dec (u * u) (v + v) then Some (u + rn, us) else tail us
  | _ => None
  end.
Fixpoint normFloat (ws : list Z) (us : list R) : option (R * list Z * list R) :=
  match ws with
  | [] => None
  | r :: ws =>
    let b := partB r in
    let i := Z.to_nat (partI r) in
    let x := IZR (signedJ r) * wn i in
    if (partJ r <? kn i)%Z then Some (x, ws, us)
    else if Nat.eqb i 0 then
      match tail us with
      | Some (u, us) => Some (if (b =? 1)%Z then - u else u, ws, us)
      | None => None
      end
    else match us with
      | [] => None
      | u :: us =>
        let f0 := fn (i - 1) in
        let f1 := fn i in
        if Rlt_dec (u * (f0 - f1)) (exp (- (1 / 2) * x * x) - f1) then Some (x, ws, us) else normFloat ws us
      end
  end.
(** 125-131; a nonpositive deviation panics *)
Definition roundedSample (center stdDev : R) (ws : list Z) (us : list R) : option Z :=
  if Rle_dec stdDev 0 then None else
  match normFloat ws us with Some (x, _, _) => Some (roundZ (center + x * stdDev)) | None => None end.
End NormFloat.

(** * gaussian_cosac.go *)

(** 24-47: one pass of the loop in sampleRound with normal value [y] (already scaled), bit [b]
    and uniform value [r]; [None] is another pass *)
Definition cosacStep (cFrac stdDev y : R) (b : bool) (r : R) : option Z :=
  let yRound := if b then (roundZ y + 1)%Z else (roundZ y - 1)%Z in
  let cmp := if b then Rleb (- (1 / 2)) (IZR yRound) else Rleb (IZR yRound) (1 / 2) in
  if cmp then
    if Rlt_dec r (exp (- ((IZR yRound + cFrac) * (IZR yRound + cFrac) - y * y) / (2 * stdDev * stdDev)))
    then Some yRound else None
  else None.
(** the loop; a draw not used by a pass that fails the comparison is skipped too *)
Fixpoint sampleRound (cFrac stdDev : R) (ds : list (R * bool * R)) : option Z :=
  match ds with
  | [] => None
  | (y, b, r) :: ds =>
    match cosacStep cFrac stdDev y b r with Some z => Some z | None => sampleRound cFrac stdDev ds end
  end.
(** 50-59 *)
Definition cosacSample (center stdDev r : R) (ds : list (R * bool * R)) : option Z :=
  let cInt := roundZ center in
  let cFrac := IZR cInt - center in
  if Rlt_dec r (exp (- (cFrac * cFrac) / (2 * stdDev * stdDev)) / (sqrt (2 * PI) * stdDev)) then Some cInt
  else match sampleRound cFrac stdDev ds with Some z => Some (z + cInt)%Z | None => None end.
