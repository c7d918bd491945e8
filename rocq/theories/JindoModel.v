(** The jindo polynomial commitment: encoder, prover, verifier.

    A ring.Poly in NTT and Montgomery form is an element of [RQ] or [RO], see CycModel.v.
    Randomness (samples, masks) is passed in explicitly. *)
From Coq Require Import ZArith.
From mathcomp Require Import all_ssreflect all_algebra zify ssrZ.
From Verif Require Import UintModel JindoIntModel CycModel.
Set Implicit Arguments. Unset Strict Implicit. Unset Printing Implicit Defensive.
Import GRing.Theory.
Delimit Scope Z_scope with Z.
Local Open Scope ring_scope.

(** jindo/params.go 64-122; the standard deviations are not kept (samples are arbitrary), the
    float64 norm bounds are kept as the least integer not below them: for an integer n below
    2^53, float64(n) < bound iff n < ceil(bound).
    [limbs] is the number of words of an element (Limb of bignum.Uint). *)
Record jparams : Type := JParams {
  batch : nat; rank : nat; rows : nat; cols : nat;
  base : Z; exp : nat; slots : nat;
  inRank : nat; outRank : nat; mlweRank : nat;
  logIn : Z; logOut : Z;
  dcmpLen : nat;
  qs : seq Z; qos : seq Z;
  resNm : Z; dcmpNm : Z;
  limbs : nat
}.

Section Jindo.
Variables (F : fieldType) (U : uint F).
Variable P : jparams.
Local Notation d := (slots P * exp P)%N.
Variable inv : Z -> Z -> Z. (* big.Int.ModInverse *)
Variable RQ : cyc d (prodz (qs P)).
Variable RO : cyc d (prodz (qos P)).

(** E.Slice: little-endian words of the canonical value (generated code, element.go 1769) *)
Definition Slice (x : F) : seq Z := mkseq (fun i => (bigInt U x / W ^ Z.of_nat i) mod W)%Z (limbs P).

(** encoder.go 120-146.  [p0] is what pOut holds before; every limb receives the same integers. *)
Definition ecd_digit (i : nat) (st : option (seq Z * seq Z)) (j : nat) : option (seq Z * seq Z) :=
  if st is Some (c, p) then
    if divMod64 c (base P) is Some (c', r) then Some (c', set_nth 0%Z p (j * slots P + i) r) else None
  else None.
Definition ecd_elem (v : seq F) (st : option (seq Z)) (i : nat) : option (seq Z) :=
  if st is Some p then
    if foldl (ecd_digit i) (Some (Slice (nth 0 v i), p)) (iota 0 (exp P).-1) is Some (c, p') then
      Some (set_nth 0%Z p' ((exp P).-1 * slots P + i) (nth 0%Z c 0))
    else None
  else None.
Definition ecd_zero (p : seq Z) (i : nat) : seq Z :=
  foldl (fun p j => set_nth 0%Z p (j * slots P + i) 0%Z) p (iota 0 (exp P)).
Definition baseEncode (p0 : seq Z) (v : seq F) : option (seq Z) :=
  if (slots P < size v)%N then None else
  if foldl (ecd_elem v) (Some p0) (iota 0 (size v)) is Some p then
    Some (foldl ecd_zero p (iota (size v) (slots P - size v)))
  else None.

(** the integer polynomial of a coefficient list, and its class *)
Definition toQ (c : seq Z) : RQ := pr RQ (Poly c).
Definition toO (c : seq Z) : RO := pr RO (Poly c).

(** encoder.go 106-117 *)
Definition encode (v : seq F) : option RQ := omap toQ (baseEncode (nseq d 0%Z) v).

(** encoder.go 188-196: X^slots * pSample, by copying coefficients *)
Definition shiftSample (s : seq Z) : seq Z :=
  mkseq (fun ii => if (ii < slots P)%N then (- nth 0%Z s (d - slots P + ii))%Z else nth 0%Z s (ii - slots P)) d.
(** encoder.go 149-201; [s] are the Gaussian samples, whatever their centres *)
Definition randEncode (v : seq F) (s : seq Z) : option RQ :=
  if baseEncode (nseq d 0%Z) v is Some m then
    Some (toQ m + (toQ (shiftSample s) - toQ s * pr RQ (base P)%:P))
  else None.

(** rns.go 76-105 on a ring element, for ringQ and for ringQOut *)
Definition bigQ (r : RQ) : seq Z := [seq reconstruct inv (qs P) (setBigCoeff (qs P) c) | c <- co r].
Definition bigO (r : RO) : seq Z := [seq reconstruct inv (qos P) (setBigCoeff (qos P) c) | c <- co r].

(** encoder.go 204-219 *)
Definition decodeSlot (z : seq Z) (i : nat) : F :=
  foldl (fun acc j => acc * setBigInt U (base P) + setBigInt U (nth 0%Z z (j * slots P + i))) 0 (rev (iota 0 (exp P))).
Definition decode (r : RQ) : seq F := mkseq (decodeSlot (bigQ r)) (slots P).

(** utils.go 21-46: the digits of encodeChallenge at the multiples of slots *)
Definition chalCoeffs (ds : seq Z) : seq Z :=
  foldl (fun p i => set_nth 0%Z p (i * slots P) (nth 0%Z ds i)) (nseq d 0%Z) (iota 0 (exp P)).
Definition chalPoly (c : Z * Z) : option (seq Z) :=
  omap chalCoeffs (encodeChallenge (base P) (exp P) [:: c.1; c.2]).

(** utils.go 63-72 *)
Definition leftVec (x : F) : seq F :=
  let skip := Exp x (Z.of_nat (cols P * slots P)) in
  let l := set_nth 0 (nseq (rows P) 0) 0 1 in
  let l := foldl (fun l i => set_nth 0 l i (nth 0 l i.-1 * skip)) l (iota 1 (rows P).-1) in
  set_nth 0 l (rows P).-1 x.
(** utils.go 75-82 *)
Definition rightVec (x : F) : seq F :=
  let r := set_nth 0 (nseq (cols P * slots P) 0) 0 1 in
  foldl (fun r i => set_nth 0 r i (nth 0 r i.-1 * x)) r (iota 1 (cols P * slots P).-1).

(** * Commit *)

(** prover.go 65-86; [u] are the random elements; v[0] panics on an empty v (see [Commit]) *)
Definition lastRow (u : seq F) : seq F :=
  set_nth 0 (take (cols P * slots P).-1 u) (cols P * slots P).-1 0.
Definition firstRow (v u : seq F) : seq F :=
  let l := lastRow u in
  let f := set_nth 0 (nseq (cols P * slots P) 0) 0 (nth 0 v 0) in
  foldl (fun f i => set_nth 0 f i
     (if (i < size v)%N then nth 0 v i - nth 0 l i.-1 else 0 - nth 0 l i.-1)) f (iota 1 (cols P * slots P).-1).

(** v[a : b] *)
Definition sub (T : Type) (v : seq T) (a b : nat) : seq T := take (b - a) (drop a v).

(** the randomness of one Commit: [coinU] the blinding row, [coinM i j] the mask vectors,
    [coinS i j] the samples of the encodings, [coinL i j] the MLWE samples *)
Record coins : Type := Coins {
  coinU : seq F;
  coinM : nat -> seq F;
  coinS : nat -> nat -> seq Z;
  coinL : nat -> nat -> seq Z
}.

(** prover.go 89-130: the vector encoded at column i, row j; [None] where the loop broke off
    (idxStart only grows with j), so that the polynomial stays zero *)
Definition cell (v : seq F) (w : coins) (i j : nat) : option (seq F) :=
  let rs := (i * slots P)%N in let re := (i.+1 * slots P)%N in
  if i == cols P then
    if [&& (0 < j)%N, (j < (rows P).-1)%N & (size v < j * cols P * slots P)%N] then None
    else Some (coinM w j)
  else if j == 0%N then Some (sub (firstRow v (coinU w)) rs re)
  else if j == (rows P).-1 then Some (sub (lastRow (coinU w)) rs re)
  else
    let a := (j * cols P * slots P + rs)%N in let b := (j * cols P * slots P + re)%N in
    if (size v < a)%N then None else Some (sub v a (minn b (size v))).
Definition encCell (v : seq F) (w : coins) (i j : nat) : option RQ :=
  if cell v w i j is Some c then randEncode c (coinS w i j) else Some 0.

Record ckey : Type := CKey {
  crs : seq Z;
  ckIn : nat -> nat -> RQ; ckMLWE : nat -> nat -> RQ; ckOut : nat -> nat -> RO
}.
(** entities.go 97-101: InCommit and MLWE as in the code, indexed lists *)
Record opening : Type := Opening {
  oIn : seq RO; oEnc : seq (seq RQ); oMLWE : seq (seq RQ)
}.
Variable ck : ckey.

(** all or nothing: a panic anywhere is a panic *)
Fixpoint allSome (T : Type) (s : seq (option T)) : option (seq T) :=
  if s is a :: s' then
    if a is Some x then omap (cons x) (allSome s') else None
  else Some [::].

Definition mlweCol (w : coins) (i : nat) : seq RQ := mkseq (fun j => toQ (coinL w i j)) (inRank P + mlweRank P).
(** prover.go 147-160: the inner commitment of one column before rounding *)
Definition inner (enc mlwe : seq RQ) (j : nat) : RQ :=
  \sum_(k < rows P) ckIn ck j k * nth 0 enc k + \sum_(k < mlweRank P) ckMLWE ck j k * nth 0 mlwe k
  + nth 0 mlwe (mlweRank P + j).
(** prover.go 162-176; Rsh of big.Int rounds towards minus infinity *)
Definition roundIn (r : RQ) : RO := toO [seq Z.shiftr z (logIn P) | z <- bigQ r].
(** prover.go 187-200 *)
Definition roundOut (r : RO) : RO := toO [seq Z.shiftr z (logOut P) | z <- bigO r].

(** prover.go 45-62, 89-202 *)
Definition outer (inc : seq RO) (i : nat) : RO := \sum_(j < dcmpLen P) ckOut ck i j * nth 0 inc j.
Definition Commit (v : seq F) (w : coins) : option (seq RO * opening) :=
  if (rank P < size v)%N || (size v == 0)%N then None else
  if allSome [seq allSome [seq encCell v w i j | j <- iota 0 (rows P)] | i <- iota 0 (cols P).+1] is Some enc then
    let ml := mkseq (mlweCol w) (cols P).+1 in
    let inc := flatten [seq [seq roundIn (inner (nth [::] enc i) (nth [::] ml i) j) | j <- iota 0 (inRank P)] | i <- iota 0 (cols P).+1] in
    Some (mkseq (fun i => roundOut (outer inc i)) (outRank P), Opening inc enc ml)
  else None.

(** * Transcript *)

(** what is written to SHAKE128 and read from it.  WriteTo and Marshal are injective on what
    they are given, so a hash of the bytes is a hash of these items: [xof l k] is the k-th
    sixteen-byte block read after writing l, as two words. *)
Inductive item : Type := ICrs of seq Z | IO of RO | IQ of RQ | IX of F | IC of (Z * Z).
Variable xof : seq item -> nat -> Z * Z.

Definition writeHead (x : F) (com : seq (seq RO)) : seq item :=
  ICrs (crs ck) :: [seq IO r | r <- flatten com] ++ [:: IX x].
(** prover.go 231-252, verifier.go 66-84: the batching challenges *)
Definition batchBytes (x : F) (com : seq (seq RO)) : seq (Z * Z) :=
  if (1 < batch P)%N then mkseq (xof (writeHead x com)) (batch P) else [::].
(** prover.go 289-299, verifier.go 86-97 *)
Definition chalBytes (x : F) (com : seq (seq RO)) (partial : seq RQ) (mask : RQ) : seq (Z * Z) :=
  mkseq (xof (writeHead x com ++ [seq IC b | b <- batchBytes x com] ++ [seq IQ r | r <- partial] ++ [:: IQ mask])) (cols P).
Definition chalsOf (bs : seq (Z * Z)) : option (seq (seq Z)) := allSome [seq chalPoly b | b <- bs].

(** * Evaluate *)

Record proof : Type := Proof {
  pIn : seq RO; pPartial : seq RQ; pMask : RQ; pEnc : seq RQ; pMLWE : seq RQ
}.

(** prover.go 254-274: the batched opening *)
Definition batchOpen (bt : seq (seq Z)) (o : seq opening) : opening :=
  if (1 < batch P)%N then
    let o0 := nth (Opening [::] [::] [::]) o in
    Opening
      (mkseq (fun j => \sum_(t < batch P) nth 0 (oIn (o0 t)) j * toO (nth [::] bt t)) (dcmpLen P))
      (mkseq (fun i => mkseq (fun j => \sum_(t < batch P) nth 0 (nth [::] (oEnc (o0 t)) i) j * toQ (nth [::] bt t)) (rows P)) (cols P).+1)
      (mkseq (fun i => mkseq (fun j => \sum_(t < batch P) nth 0 (nth [::] (oMLWE (o0 t)) i) j * toQ (nth [::] bt t)) (mlweRank P + inRank P)) (cols P).+1)
  else nth (Opening [::] [::] [::]) o 0.

(** prover.go 205-324.  [evalP] is bigpoly's Evaluate. *)
Definition evalP (v : seq F) (x : F) : F := (Poly v).[x].
Definition Evaluate (x : F) (v : seq (seq F)) (com : seq (seq RO)) (o : seq opening) : option (seq F * proof) :=
  if (size v != size com) || (size v != size o) || (size v != batch P) || has (fun u => (rank P < size u)%N) v then None else
  if chalsOf (batchBytes x com) is Some bt then
  let ob := batchOpen bt o in
  if allSome [seq encode [:: l] | l <- leftVec x] is Some lv then
  let partial := mkseq (fun i => \sum_(j < rows P) nth 0 lv j * nth 0 (nth [::] (oEnc ob) i) j) (cols P) in
  let mask := \sum_(j < rows P) nth 0 lv j * nth 0 (nth [::] (oEnc ob) (cols P)) j in
  if chalsOf (chalBytes x com partial mask) is Some ch then
  let respond m i := nth 0 (nth [::] m (cols P)) i + \sum_(j < cols P) toQ (nth [::] ch j) * nth 0 (nth [::] m j) i in
  Some ([seq evalP u x | u <- v],
        Proof (oIn ob) partial mask (mkseq (respond (oEnc ob)) (rows P)) (mkseq (respond (oMLWE ob)) (mlweRank P + inRank P)))
  else None else None else None.

(** * Verify *)

(** verifier.go 262-282: big.Int.Sqrt is the integer square root *)
Definition sqSum (zs : seq (seq Z)) : Z := foldr (fun z acc => (z * z + acc)%Z) 0%Z (flatten zs).
Definition normOk (zs : seq (seq Z)) (bound : Z) : bool := (Z.sqrt (sqSum zs) <? bound)%Z.

(** verifier.go 136-161 *)
Definition cutOuter (bt : seq (seq Z)) (com : seq (seq RO)) (pf : proof) (i : nat) : RO :=
  (if (1 < batch P)%N then \sum_(t < batch P) nth 0 (nth [::] com t) i * toO (nth [::] bt t) else nth 0 (nth [::] com 0) i)
    * pr RO (2 ^ logOut P)%Z%:P
  - \sum_(j < dcmpLen P) ckOut ck i j * nth 0 (pIn pf) j.
Definition verifyOuter (bt : seq (seq Z)) (com : seq (seq RO)) (pf : proof) : bool :=
  normOk ([seq bigO r | r <- pIn pf] ++ mkseq (fun i => bigO (cutOuter bt com pf i)) (outRank P)) (dcmpNm P).

(** lattigo BasisExtender.ModUpQtoP: adds half the modulus, lifts, subtracts it again *)
Definition modUp (r : RO) : RQ :=
  let Qo := prodz (qos P) in
  toQ [seq ((c + Qo / 2) mod Qo - Qo / 2)%Z | c <- co r].
(** verifier.go 164-200 *)
Definition cutInner (ch : seq (seq Z)) (pf : proof) (i : nat) : RQ :=
  (\sum_(j < cols P) modUp (nth 0 (pIn pf) (j * inRank P + i)) * toQ (nth [::] ch j)
     + modUp (nth 0 (pIn pf) (cols P * inRank P + i))) * pr RQ (2 ^ logIn P)%Z%:P
  - inner (pEnc pf) (pMLWE pf) i.
Definition verifyInner (ch : seq (seq Z)) (pf : proof) : bool :=
  normOk ([seq bigQ r | r <- pEnc pf ++ pMLWE pf] ++ mkseq (fun i => bigQ (cutInner ch pf i)) (inRank P)) (resNm P).

(** verifier.go 203-221 *)
Definition verifyConsistency (lv : seq RQ) (ch : seq (seq Z)) (pf : proof) : bool :=
  \sum_(i < rows P) nth 0 lv i * nth 0 (pEnc pf) i
    - \sum_(i < cols P) toQ (nth [::] ch i) * nth 0 (pPartial pf) i - pMask pf == 0.

(** verifier.go 224-259 *)
Definition yBatch (bt : seq (seq Z)) (y : seq F) : F :=
  if (1 < batch P)%N then \sum_(t < batch P) nth 0 (decode (toQ (nth [::] bt t))) 0 * nth 0 y t else nth 0 y 0.
Definition verifyEval (x : F) (bt : seq (seq Z)) (y : seq F) (pf : proof) : bool :=
  \sum_(i < cols P) \sum_(j < slots P) nth 0 (rightVec x) (i * slots P + j) * nth 0 (decode (nth 0 (pPartial pf) i)) j
    == yBatch bt y.

(** verifier.go 50-133.  Panics: wrong number of commitments or evaluations; a proof list longer
    than NewProof makes it (the writes to pfInv); a shorter one, once the check that reads it is
    reached (the ranks are at least 1). *)
Definition Verify (x : F) (com : seq (seq RO)) (y : seq F) (pf : proof) : option bool :=
  if (size com != batch P) || (size y != batch P) then None else
  if chalsOf (batchBytes x com) is Some bt then
  if chalsOf (chalBytes x com (pPartial pf) (pMask pf)) is Some ch then
  if [|| (cols P < size (pPartial pf))%N, (rows P < size (pEnc pf))%N,
         (mlweRank P + inRank P < size (pMLWE pf))%N | (dcmpLen P < size (pIn pf))%N] then None else
  if (size (pIn pf) < dcmpLen P)%N then None else
  if ~~ verifyOuter bt com pf then Some false else
  if (size (pEnc pf) < rows P)%N || (size (pMLWE pf) < mlweRank P + inRank P)%N then None else
  if ~~ verifyInner ch pf then Some false else
  if allSome [seq encode [:: l] | l <- leftVec x] is Some lv then
  if (size (pPartial pf) < cols P)%N then None else
  if ~~ verifyConsistency lv ch pf then Some false else
  Some (verifyEval x bt y pf)
  else None else None else None.
End Jindo.
