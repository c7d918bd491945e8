(** buckler Prove and Verify as a whole, over an abstract polynomial commitment scheme and
    an arbitrary hash function. *)
From Coq Require Import ZArith.
From mathcomp Require Import all_ssreflect all_algebra.
From Verif Require Import UintModel BigpolyModel RingProofs NormModel BucklerModel.
Set Implicit Arguments. Unset Strict Implicit. Unset Printing Implicit Defensive.
Import GRing.Theory.
Local Open Scope ring_scope.
Delimit Scope Z_scope with Z.

Definition bytes := seq nat.

(** * Fiat-Shamir transcript (gnark-crypto/fiat-shamir, documented behaviour).
    Challenge names are numbered by position:
    0 projConst, 1 arithBatchConst, 2 linCheckBatchConst, 3 linCheckConst,
    4 sumCheckBatchConst, 5 evalPoint (prover.go 113-120). *)
Section Transcript.
Variable H : bytes -> bytes.
Variable name : nat -> bytes.

Record transcript := Tr { tbind_of : nat -> seq bytes; tval : nat -> option bytes; tprev : option (nat * bytes) }.
Definition tr0 : transcript := Tr (fun _ => [::]) (fun _ => None) None.

(** Bind: an error (ignored by the callers) if the challenge was already computed *)
Definition Bind (st : transcript) (id : nat) (b : bytes) : transcript :=
  if tval st id is Some _ then st
  else Tr (fun k => if k == id then rcons (tbind_of st k) b else tbind_of st k) (tval st) (tprev st).

Definition BindAll (st : transcript) (id : nat) (bs : seq bytes) : transcript :=
  foldl (fun st b => Bind st id b) st bs.

(** ComputeChallenge: hash of name, previous challenge value (for positions > 0; it must be
    the one computed last) and the bound values in order *)
Definition ComputeChallenge (st : transcript) (id : nat) : option (bytes * transcript) :=
  if tval st id is Some v then Some (v, st) else
  let upd v := (v, Tr (tbind_of st) (fun k => if k == id then Some v else tval st k) (Some (id, v))) in
  if id is id'.+1 then
    if tprev st is Some (p, pv) then
      if p == id' then Some (upd (H (name id ++ pv ++ flatten (tbind_of st id)))) else None
    else None
  else Some (upd (H (name id ++ flatten (tbind_of st id)))).
End Transcript.

Section Protocol.
Variables (F : fieldType) (U : uint F).

(** The polynomial commitment scheme as Buckler uses it (jindo Prover/Verifier).  [coin] is
    the randomness of one call. *)
Record pcs := Pcs {
  com : Type; opn : Type; epf : Type; coin : Type;
  pRank : nat;
  pCommit : coin -> seq F -> com * opn;
  pSer : com -> bytes;                                        (* WriteRawTo *)
  pEvaluate : coin -> F -> seq (seq F) -> seq com -> seq opn -> seq F * epf;
  pVerify : F -> seq com -> seq F -> epf -> bool
}.

Variables (P : pcs) (H : bytes -> bytes) (name : nat -> bytes).
Variables (setBytes : bytes -> F) (marshal : F -> bytes).
(** SHAKE128 of projConst, as the 128 x rank bit matrix (prover.go 166-176) *)
Variable xofProj : nat -> bytes -> seq (seq bool).

(** entities.go 9-17 *)
Record proof := Proof {
  pfWitness : seq (com P); pfLinSum : F; pfSumSum : F; pfEvals : seq F; pfEval : epf P
}.

(** All random draws of one Prove call, and the map iteration orders *)
Record coins := Coins {
  kW : nat -> F; kLin : nat -> F; kSum : nat -> F; kC : nat -> coin P; kE : coin P;
  ordInf : seq nat; ordTwo : seq nat; ordProj : seq nat; ordProjD : seq nat
}.

Section WithCircuit.
Variables (T TE : transformer F) (x : context F).
Local Notation N := (crank x).
Local Notation E := (trank TE).

(** The commitment number i of polynomial p; polyProver.Commit panics on the empty slice
    (jindo/prover.go 75 reads v[0]) and on slices longer than the PCS rank. *)
Definition commitOK (p : seq F) : bool := (0 < size p <= pRank P)%N.

(** prover.go 133-148, 194-204: the polynomial committed for witness i *)
Definition wEcd (k : coins) (w : seq (seq F)) (i : nat) : seq F := randEncode T E (kW k i) (nth [::] w i).
Definition comPoly (p : seq F) : seq F := take N.+1 p.

Definition firstRound (i : nat) : bool := i \notin cwSecond x.

(** prover.go 42-353, from the walked witnesses [pw0], [w0] on; the second component lists
    the six challenges, which the code does not return *)
Definition ProveC (k : coins) (pw0 w0 : seq (seq F)) : option (proof * seq bytes) :=
  (* block copies, and RandEncode's write to Coeffs[N] *)
  if ~~ (8 %| N)%N || ~~ (8 %| E)%N || ((0 < cwCnt x) && (E <= N))%N then None else
  let pw := padw N (cpwCnt x) pw0 in
  let w := padw N (cwCnt x) w0 in
  if fillInf U N (cinf x) (ordInf k) w is Some w then
  if fillTwo U N (ctwo x) (ordTwo k) 0 pw w is Some (pw, w) then
  let pwEcdNTT := [seq fwdNTT TE (encode T E v) | v <- pw] in
  let wc1 i := pCommit (kC k i) (comPoly (wEcd k w i)) in
  let st := BindAll tr0 0 [seq pSer (wc1 i).1 | i <- iota 0 (cwCnt x) & firstRound i] in
  if ComputeChallenge H name st 0 is Some (projConst, st) then
  let proj := xofProj N projConst in
  if (if chasProj x then
        if (N < 128)%N then None else
        fillProjD U N (cprojD x) (ordProjD k) (fillProj proj (cproj x) (ordProj k) w)
      else Some w) is Some w2 then
  (* first-round polynomials are those committed before the projection *)
  let ecd i := wEcd k (if firstRound i then w else w2) i in
  let wPolys := [seq comPoly (ecd i) | i <- iota 0 (cwCnt x)] in
  let wN := [seq fwdNTT TE (ecd i) | i <- iota 0 (cwCnt x)] in
  let wComs := [seq pCommit (kC k i) (comPoly (ecd i)) | i <- iota 0 (cwCnt x)] in
  let st := BindAll st 1 [seq pSer (pCommit (kC k i) (comPoly (ecd i))).1 | i <- cwSecond x] in
  (* masks *)
  let: (linMask, linSum) := sumCheckMask TE x (kLin k) (2 * N) in
  let linMaskP := take (2 * N) linMask in
  let linCom := pCommit (kC k (cwCnt x)) linMaskP in
  let st := if hasLin x then BindAll st 1 [:: pSer linCom.1; marshal linSum] else st in
  let i1 := (cwCnt x + hasLin x)%N in
  let: (sumMask, sumSum) := sumCheckMask TE x (kSum k) (csumMax x) in
  let sumMaskP := take (csumMax x) sumMask in
  let sumCom := pCommit (kC k i1) sumMaskP in
  let st := if hasSum x then BindAll st 1 [:: pSer sumCom.1; marshal sumSum] else st in
  let i2 := (i1 + hasSum x)%N in
  if ComputeChallenge H name st 1 is Some (arithBytes, st) then
  if (if hasArith x then omap (fun q => [:: q])
        (prv_arithCheck TE x (setBytes arithBytes) pwEcdNTT wN) else Some [::]) is Some aPolys then
  let aComs := [seq pCommit (kC k i2) q | q <- aPolys] in
  let st := BindAll st 5 [seq pSer c.1 | c <- aComs] in
  let i3 := (i2 + size aPolys)%N in
  if ComputeChallenge H name st 2 is Some (linBytes, st) then
  if ComputeChallenge H name st 3 is Some (linCBytes, st) then
  if (if hasLin x then omap (fun q => [:: q.1.1; q.1.2; q.2])
        (prv_linCheck U T TE x (pRank P) proj (setBytes linBytes) (setBytes linCBytes) linMask wN)
      else Some [::]) is Some lPolys then
  let lComs := [seq pCommit (kC k (i3 + j)%N) (nth [::] lPolys j) | j <- iota 0 (size lPolys)] in
  let st := BindAll st 5 [seq pSer c.1 | c <- lComs] in
  let i4 := (i3 + size lPolys)%N in
  if ComputeChallenge H name st 4 is Some (sumBytes, st) then
  if (if hasSum x then omap (fun q => [:: q.1.1; q.1.2; q.2])
        (prv_sumCheck TE x (pRank P) (setBytes sumBytes) sumMask pwEcdNTT wN)
      else Some [::]) is Some sPolys then
  let sComs := [seq pCommit (kC k (i4 + j)%N) (nth [::] sPolys j) | j <- iota 0 (size sPolys)] in
  let st := BindAll st 5 [seq pSer c.1 | c <- sComs] in
  if ComputeChallenge H name st 5 is Some (evalBytes, st) then
  let polys := wPolys ++ (if hasLin x then [:: linMaskP] else [::])
    ++ (if hasSum x then [:: sumMaskP] else [::]) ++ aPolys ++ lPolys ++ sPolys in
  let cos := wComs ++ (if hasLin x then [:: linCom] else [::])
    ++ (if hasSum x then [:: sumCom] else [::]) ++ aComs ++ lComs ++ sComs in
  (* the panics of Commit, which in Go happen at each call *)
  if ~~ all commitOK polys then None else
  let: (evals, epf) := pEvaluate (kE k) (setBytes evalBytes) polys [seq c.1 | c <- cos] [seq c.2 | c <- cos] in
  (* a sum that is not computed is a nil pointer in the proof; here 0 *)
  Some (Proof [seq c.1 | c <- cos] (if hasLin x then linSum else 0) (if hasSum x then sumSum else 0) evals epf,
        [:: projConst; arithBytes; linBytes; linCBytes; sumBytes; evalBytes])
  else None else None else None else None else None else None else None else None else None
  else None else None else None.

Definition Prove (k : coins) (pw0 w0 : seq (seq F)) : option proof := omap (@fst _ _) (ProveC k pw0 w0).

(** verifier.go 29-217, from the walked public witnesses [pw0] on.  [Some b]: returns b;
    [None]: panics (index out of range).  The challenges are listed as for the prover. *)
Definition VerifyC (ordTwo : seq nat) (pw0 : seq (seq F)) (pf : proof) : option (bool * seq bytes) :=
  if ~~ (8 %| N)%N then None else
  let pw := padw N (cpwCnt x) pw0 in
  if fillPw U N (ctwo x) ordTwo pw is Some pw then
  let pwEcd := [seq encode T E v | v <- pw] in
  let nm := (hasLin x + hasSum x)%N in
  (* verifier.go 76-141: pf.Witness[i], pf.Evals[roundComIdx] *)
  if (size (pfWitness pf) < cwCnt x + nm)%N then None else
  if (0 < nm)%N && (size (pfEvals pf) < cwCnt x + nm)%N then None else
  let ser := [seq pSer c | c <- pfWitness pf] in
  let st := BindAll tr0 0 [seq nth [::] ser i | i <- iota 0 (cwCnt x) & firstRound i] in
  if ComputeChallenge H name st 0 is Some (projConst, st) then
  let proj := xofProj N projConst in
  let st := BindAll st 1 [seq nth [::] ser i | i <- cwSecond x] in
  let linMaskE := (pfEvals pf)`_(cwCnt x) in
  let st := if hasLin x then BindAll st 1 [:: nth [::] ser (cwCnt x); marshal (pfLinSum pf)] else st in
  let i1 := (cwCnt x + hasLin x)%N in
  let sumMaskE := (pfEvals pf)`_i1 in
  let st := if hasSum x then BindAll st 1 [:: nth [::] ser i1; marshal (pfSumSum pf)] else st in
  let i2 := (i1 + hasSum x)%N in
  if ComputeChallenge H name st 1 is Some (arithBytes, st) then
  if ComputeChallenge H name st 2 is Some (linBytes, st) then
  if ComputeChallenge H name st 3 is Some (linCBytes, st) then
  if ComputeChallenge H name st 4 is Some (sumBytes, st) then
  let st := BindAll st 5 (drop i2 ser) in
  if ComputeChallenge H name st 5 is Some (evalBytes, st) then
  let chs := [:: projConst; arithBytes; linBytes; linCBytes; sumBytes; evalBytes] in
  let pt := setBytes evalBytes in
  let evals := pfEvals pf in
  (* jindo/verifier.go 52-55 panics on wrong lengths *)
  if (size (pfWitness pf) != batch x) || (size evals != batch x) then None else
  if ~~ pVerify pt (pfWitness pf) evals (pfEval pf) then Some (false, chs) else
  let vanish := Exp pt (Z.of_nat N) - setBigInt U 1 in
  let pwEvals := [seq evalSlice p pt | p <- pwEcd] in
  if hasArith x && ~~ vrf_arithCheck x (setBytes arithBytes) vanish evals`_i2 evals pwEvals
  then Some (false, chs) else
  let i3 := (i2 + hasArith x)%N in
  if hasLin x && ~~ vrf_linCheck U T TE x (pRank P) proj (setBytes linBytes) (setBytes linCBytes)
       linMaskE pt vanish (pfLinSum pf) evals`_i3 evals`_(i3 + 1) evals`_(i3 + 2) evals
  then Some (false, chs) else
  let i4 := (i3 + (if hasLin x then 3 else 0))%N in
  if hasSum x && ~~ vrf_sumCheck x (pRank P) (setBytes sumBytes) sumMaskE pt vanish (pfSumSum pf)
       evals`_i4 evals`_(i4 + 1) evals`_(i4 + 2) evals pwEvals
  then Some (false, chs) else Some (true, chs)
  else Some (false, [::]) else Some (false, [::]) else Some (false, [::])
  else Some (false, [::]) else Some (false, [::]) else Some (false, [::])
  else None.

Definition Verify (ordTwo : seq nat) (pw0 : seq (seq F)) (pf : proof) : option bool :=
  omap (@fst _ _) (VerifyC ordTwo pw0 pf).
End WithCircuit.
End Protocol.
