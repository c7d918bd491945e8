(** jindo/params.go NewParameters (the integer bookkeeping) and jindo-modulus/main.go findModulus.
    Floating point: the divisions by n*l are exact for powers of two, everything else computed in
    floats (sizes, norms, bit lengths of the moduli, roots) enters as arbitrary data. *)
From Coq Require Import ZArith.
From mathcomp Require Import all_ssreflect.
Set Implicit Arguments. Unset Strict Implicit. Unset Printing Implicit Defensive.
Delimit Scope Z_scope with Z.

Definition ceilDiv (a b : nat) : nat := (a + (b - 1)) %/ b.

(** What one round of the loop over nn (params.go 149-317) computes in floats: the estimated size,
    the two ranks, and the results of the prime generators, [None] being err != nil. *)
Record candidate := Candidate { cSize : Z; cInRank : nat; cOutRank : nat; cPrimes : option (seq Z); cPrimesOut : option (seq Z) }.

(** params.go 61-123.  [pQ], [pQOut]: the moduli of ringQ and ringQOut, [None] the nil pointer;
    [pNorms] stands for the standard deviations, norm bounds and sizes, tagged with the nn of the
    round that wrote them. *)
Record parameters := Parameters { pRank : nat; pRows : nat; pCols : nat; pSlots : nat; pInRank : nat; pOutRank : nat;
  pDcmpLen : nat; pQ : option (seq Z); pQOut : option (seq Z); pNorms : option nat }.
Definition zeroParameters := Parameters 0 0 0 0 0 0 0 None None None.

(** params.go 138-143 *)
Definition degreeOf (exp : nat) : nat := maxn exp 256.
Definition slotsOf (exp : nat) : nat := degreeOf exp %/ exp.

(** params.go 149-317, one round.  [cand nn] is [None] when the round ends at line 235.
    minSize = Inf is [None]. *)
Definition paramStep (targetN exp : nat) (cand : nat -> option candidate) (st : parameters * option Z) (nn : nat) : parameters * option Z :=
  let: (params, minSize) := st in
  if cand nn is Some c then
    if (if minSize is Some m then (cSize c <? m)%Z else true) then
      let m := ceilDiv targetN (nn * slotsOf exp) in
      let p1 := Parameters (nn * m * slotsOf exp) m.+1 nn (degreeOf exp %/ exp) (cInRank c) (cOutRank c)
                  (nn.+1 * cInRank c) (pQ params) (pQOut params) (pNorms params) in
      (* lines 281-284 and 292-295: continue, keeping what has been written *)
      if cPrimes c is Some q then
        let p2 := Parameters (pRank p1) (pRows p1) (pCols p1) (pSlots p1) (pInRank p1) (pOutRank p1) (pDcmpLen p1) (Some q) (pQOut p1) (pNorms p1) in
        if cPrimesOut c is Some qq then
          (Parameters (pRank p1) (pRows p1) (pCols p1) (pSlots p1) (pInRank p1) (pOutRank p1) (pDcmpLen p1) (Some q) (Some qq) (Some nn), Some (cSize c))
        else (p2, Some (cSize c))
      else (p1, Some (cSize c))
    else st
  else st.
(** params.go 146-149: nn = 1, 2, 4, ... up to maxCols *)
Definition nnList (maxCols : nat) : seq nat := [seq nn <- [seq 2 ^ i | i <- iota 0 maxCols.+1] | (nn <= maxCols)%N].
(** params.go 127-320; the panics for targetN < 1 are [None] *)
Definition NewParameters (targetN exp : nat) (cand : nat -> option candidate) : option parameters :=
  if (targetN < 1)%N then None
  else Some (foldl (paramStep targetN exp cand) (zeroParameters, None) (nnList (ceilDiv targetN (slotsOf exp)))).1.

(** params.go 189-223: the loop over mu, with the bit length of q and the value of findMSISRank as
    functions of mu.  No bound in the code; [None] when [fuel] runs out. *)
Definition maxLogQ : Z := 240%Z.
Fixpoint muLoop (fuel mu : nat) (logQ : nat -> Z) (rank : nat -> nat) : option nat :=
  if fuel is fuel'.+1 then
    if (maxLogQ <? logQ mu)%Z then muLoop fuel' mu.+1 logQ rank
    else if rank mu == mu then Some mu else muLoop fuel' mu.+1 logQ rank
  else None.

(** * jindo-modulus/main.go 31-71 *)
Definition maxRank : Z := (2 ^ 30)%Z.
Definition baseBound : Z := (2 ^ 25)%Z.
(** big.Int.BitLen of a positive number *)
Definition BitLen (x : Z) : Z := (Z.log2 x + 1)%Z.
(** lines 46-65 for one b: the conditions in the order of the code *)
Definition baseOK (prime : Z -> bool) (bitStart bitEnd : Z) (k b : Z) : bool :=
  let p := (b ^ k + 1)%Z in
  if (BitLen p <? bitStart)%Z || (bitEnd <=? BitLen p)%Z then false
  else if ~~ prime p then false
  else if ~~ (Z.eqb ((b ^ k) mod (2 * maxRank)) 0)%Z then false
  else if (baseBound <? b)%Z then false
  else true.
(** lines 45-67: b = bStart .. bEnd *)
Definition baseLoop (prime : Z -> bool) (bitStart bitEnd k bStart bEnd : Z) : option Z :=
  let bs := [seq (bStart + Z.of_nat i)%Z | i <- iota 0 (Z.to_nat (bEnd - bStart + 1))] in
  let i := find (baseOK prime bitStart bitEnd k) bs in
  if (i < size bs)%N then Some (nth 0%Z bs i) else None.
(** lines 31-71: logk = 1 .. maxLog2 - 1; [bLo k] and [bHi k] are the float roots of lines 39-40.
    The last answer nil, 0, 0 is [None]. *)
Fixpoint kLoop (prime : Z -> bool) (bitStart bitEnd : Z) (bLo bHi : Z -> Z) (ks : seq nat) : option (Z * Z * Z) :=
  if ks is logk :: ks' then
    let k := (2 ^ Z.of_nat logk)%Z in
    if (baseBound <? bLo k)%Z then kLoop prime bitStart bitEnd bLo bHi ks'
    else if baseLoop prime bitStart bitEnd k (bLo k) (bHi k) is Some b then Some ((b ^ k + 1)%Z, b, k)
    else kLoop prime bitStart bitEnd bLo bHi ks'
  else None.
Definition findModulus (prime : Z -> bool) (bitStart bitEnd : Z) (bLo bHi : Z -> Z) : option (Z * Z * Z) :=
  let maxLog2 := Z.to_nat (Z.log2_up bitEnd) in
  kLoop prime bitStart bitEnd bLo bHi (iota 1 (maxLog2 - 1)).
