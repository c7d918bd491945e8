(** math/csprng: the uniform sampler, the Twin-CDT sampler and the bit-level float of SampleFloat.
    AES-CTR is an arbitrary key stream [ks]: byte i of the stream of one seed.  Bytes and words
    are Z.  Panics are [None]. *)
From Coq Require Import ZArith SpecFloat.
From mathcomp Require Import all_ssreflect.
From Verif Require Import JindoIntModel.
Set Implicit Arguments. Unset Strict Implicit. Unset Printing Implicit Defensive.
Delimit Scope Z_scope with Z.

(** uniform.go 12 *)
Definition bufSize : nat := 8192.
(** uniform.go 16-21; [prngPos] is the number of key stream bytes the cipher has given out *)
Record sampler := Sampler { prngPos : nat; sbuf : seq Z; sptr : nat }.
(** uniform.go 38-54 *)
Definition NewUniformSamplerWithSeed : sampler := Sampler 0 (nseq bufSize 0%Z) bufSize.

Section Stream.
Variable ks : nat -> Z.

(** crypto/cipher Stream.XORKeyStream(dst, src) with dst = src *)
Definition XORKeyStream (pos : nat) (src : seq Z) : seq Z :=
  mkseq (fun i => Z.lxor (nth 0%Z src i) (ks (pos + i))) (size src).

(** uniform.go 58-61: the new contents of p *)
Definition Read (s : sampler) (p : seq Z) : seq Z * sampler :=
  (XORKeyStream (prngPos s) p, Sampler (prngPos s + size p) (sbuf s) (sptr s)).

(** uniform.go 64-68 *)
Definition refill (s : sampler) : sampler :=
  if sptr s == bufSize then Sampler (prngPos s + size (sbuf s)) (XORKeyStream (prngPos s) (sbuf s)) 0
  else s.
(** uniform.go 70-78 *)
Definition leWord (b : nat -> Z) : Z :=
  let r := 0%Z in
  let r := Z.lor r (b 0) in
  let r := Z.lor r (Z.shiftl (b 1) 8) in
  let r := Z.lor r (Z.shiftl (b 2) 16) in
  let r := Z.lor r (Z.shiftl (b 3) 24) in
  let r := Z.lor r (Z.shiftl (b 4) 32) in
  let r := Z.lor r (Z.shiftl (b 5) 40) in
  let r := Z.lor r (Z.shiftl (b 6) 48) in
  Z.lor r (Z.shiftl (b 7) 56).
(** uniform.go 64-82; reading past the buffer panics *)
Definition Sample (s : sampler) : option (Z * sampler) :=
  let s1 := refill s in
  if (sptr s1 + 7 < bufSize)%N then
    Some (leWord (fun k => nth 0%Z (sbuf s1) (sptr s1 + k)), Sampler (prngPos s1) (sbuf s1) (sptr s1 + 8))
  else None.

(** uniform.go 85-93.  MaxUint64 % 0 panics.  The loop has no bound in the code, running out of
    [fuel] is [None]. *)
Definition sampleBound (n : Z) : Z := ((W - 1) - (W - 1) mod n)%Z.
Fixpoint sampleLoop (fuel : nat) (n : Z) (s : sampler) : option (Z * sampler) :=
  match fuel with
  | 0 => None
  | fuel'.+1 =>
    if Sample s is Some (r, s') then
      if (r <? sampleBound n)%Z then Some ((r mod n)%Z, s') else sampleLoop fuel' n s'
    else None
  end.
Definition SampleN (fuel : nat) (n : Z) (s : sampler) : option (Z * sampler) :=
  if (n =? 0)%Z then None else sampleLoop fuel n s.

(** k calls of Sample in a row *)
Fixpoint samples (k : nat) (s : sampler) : option (seq Z * sampler) :=
  match k with
  | 0 => Some ([::], s)
  | k'.+1 =>
    if Sample s is Some (r, s') then
      if samples k' s' is Some (l, s'') then Some (r :: l, s'') else None
    else None
  end.

(** a history of calls on one sampler: Sample (without result here) or Read of a buffer *)
Inductive call := CSample | CRead (p : seq Z).
Inductive answer := AWord (r : Z) | ABytes (p : seq Z).
Definition step (s : sampler) (c : call) : option (answer * sampler) :=
  match c with
  | CSample => omap (fun x => (AWord x.1, x.2)) (Sample s)
  | CRead p => let x := Read s p in Some (ABytes x.1, x.2)
  end.
Fixpoint run (s : sampler) (cs : seq call) : option (seq answer * sampler) :=
  if cs is c :: cs' then
    if step s c is Some (a, s') then
      if run s' cs' is Some (l, s'') then Some (a :: l, s'') else None
    else None
  else Some ([::], s).

(** n runs of a drawing loop body, results in order *)
Fixpoint times (A : Type) (n : nat) (f : sampler -> option (A * sampler)) (s : sampler) : option (seq A * sampler) :=
  if n is n'.+1 then
    if f s is Some (a, s') then
      if times n' f s' is Some (l, s'') then Some (a :: l, s'') else None
    else None
  else Some ([::], s).
(** jindo/entities.go 30-32: the limbs l of one coefficient, [ms] the moduli of the ring *)
Fixpoint drawLimbs (fuel : nat) (ms : seq Z) (s : sampler) : option (seq Z * sampler) :=
  if ms is m :: ms' then
    if SampleN fuel m s is Some (v, s') then
      if drawLimbs fuel ms' s' is Some (l, s'') then Some (v :: l, s'') else None
    else None
  else Some ([::], s).
(** jindo/entities.go 24-36, 37-49, 50-62: one matrix; entry i, j, coefficient k, limb l is drawn
    in this nesting order *)
Definition keyMatrix := seq (seq (seq (seq Z))).
Definition drawMatrix (fuel rows cols N : nat) (ms : seq Z) : sampler -> option (keyMatrix * sampler) :=
  times rows (times cols (times N (drawLimbs fuel ms))).
(** jindo/entities.go 13-19 without the copy of the CRS, and the parameters it reads *)
Record commitKey := CommitKey { ckIn : keyMatrix; ckMLWE : keyMatrix; ckOut : keyMatrix }.
Record keyParams := KeyParams { kN : nat; kInRank : nat; kRows : nat; kMLWERank : nat; kOutRank : nat; kDcmpLen : nat;
  kQ : seq Z; kQOut : seq Z }.
(** jindo/entities.go 21-72 *)
Definition NewCommitKey (fuel : nat) (q : keyParams) : option commitKey :=
  if drawMatrix fuel (kInRank q) (kRows q) (kN q) (kQ q) NewUniformSamplerWithSeed is Some (a, s1) then
    if drawMatrix fuel (kInRank q) (kMLWERank q) (kN q) (kQ q) s1 is Some (b, s2) then
      if drawMatrix fuel (kOutRank q) (kDcmpLen q) (kN q) (kQOut q) s2 is Some (c, _) then Some (CommitKey a b c)
      else None
    else None
  else None.
End Stream.

(** * SampleFloat, on the bit-exact IEEE floats of the standard library's SpecFloat (binary64:
    53 bits of precision, maximal exponent 1024). *)
Definition f64prec : Z := 53%Z.
Definition f64emax : Z := 1024%Z.
Definition floatPrec : Z := 52%Z.
(** math.Float64frombits for a finite number that is not subnormal: sign 0, the exponent field
    bits 52..62, the mantissa field bits 0..51 *)
Definition Float64frombits (w : Z) : spec_float :=
  let e := (Z.shiftr w 52 mod 2048)%Z in
  let m := (w mod 2 ^ 52)%Z in
  S754_finite (Z.testbit w 63) (Z.to_pos (2 ^ 52 + m)) (e - 1075).
(** uniform.go 96-100, on the sampled word *)
Definition SampleFloatOf (word : Z) : spec_float :=
  let r := (word mod 2 ^ 52)%Z in
  let rf := Float64frombits (Z.lor r (Z.shiftl (1023 + floatPrec) floatPrec)) in
  let q := SFdiv f64prec f64emax rf (S754_finite false (Z.to_pos (2 ^ 52)) 0) in
  SFsub f64prec f64emax q (S754_finite false (Z.to_pos (2 ^ 52)) (-52)).

(** * Twin-CDT *)

(** slices.BinarySearch of the Go library: the loop halves [lo, hi); the second component says
    whether the element at the position found equals the target *)
Fixpoint bsearch (fuel : nat) (t : seq Z) (u : Z) (lo hi : nat) : nat :=
  if fuel is fuel'.+1 then
    if (lo < hi)%N then
      let h := ((lo + hi) %/ 2)%N in
      if (nth 0%Z t h <? u)%Z then bsearch fuel' t u h.+1 hi else bsearch fuel' t u lo h
    else lo
  else lo.
Definition BinarySearch (t : seq Z) (u : Z) : nat * bool :=
  let i := bsearch (size t).+1 t u 0 (size t) in
  (i, (i < size t)%N && (nth 0%Z t i =? u)%Z).
(** gaussian_twin_cdt.go 85-92 *)
Definition cdtIndex (t : seq Z) (u : Z) : Z :=
  let: (v, ok) := BinarySearch t u in if ok then (Z.of_nat v - 1)%Z else Z.of_nat v.

(** gaussian_twin_cdt.go 77-111.  [tables] are the 128 tables, [cFloor] is int64(floor(center));
    [c0] and [c1] are the indices computed from the fraction.  The weights
    exp(-(x-cFrac)^2/(2 s^2))/norm and the comparison p < cdf are floating point in the code; here
    [below] says for a range lo..hi whether p is below the sum of the weights over that range. *)
Definition TwinSample (tables : seq (seq Z)) (tailLo cFloor : Z) (c0 c1 : nat) (u : Z)
    (below : Z -> Z -> bool) : Z :=
  let v0 := cdtIndex (nth [::] tables c0) u in
  let v1 := cdtIndex (nth [::] tables c1) u in
  if (v0 =? v1)%Z then (v0 + cFloor + tailLo)%Z
  else if below tailLo v0 then (v0 + tailLo + cFloor)%Z else (v1 + tailLo + cFloor)%Z.

(** gaussian_twin_cdt.go 78-82 on an exact fraction: cFrac = num / den in [0, 1] *)
Definition twinC0 (num den : Z) : nat := Z.to_nat (((128 * num) / den) mod 128).
Definition twinC1 (num den : Z) : nat := Z.to_nat ((- ((- (128 * num)) / den)) mod 128).
