(** buckler: constraints, context, prover and verifier.

    Conventions.  A witness (or public witness) handed to the context during Define is a
    placeholder; the model writes its number (what witnessToID returns, see WalkModel.v for
    the encoding) instead.  Vectors are [seq F].  Operations of the cyclic evaluator are the
    coefficient-wise operations that Prop_Bigpoly.v (C05) shows them to be.  Go maps are
    association lists; a [range] over a map visits the keys in an arbitrary order, which is
    a parameter.  [None] is a panic. *)
From Coq Require Import ZArith.
From mathcomp Require Import all_ssreflect all_algebra.
From Verif Require Import UintModel BigpolyModel RingProofs NormModel.
Set Implicit Arguments. Unset Strict Implicit. Unset Printing Implicit Defensive.
Import GRing.Theory.
Local Open Scope ring_scope.
Delimit Scope Z_scope with Z.

(** * Association lists (Go maps) *)
Section Assoc.
Variables (K : eqType) (A : Type).
Fixpoint aget (m : seq (K * A)) (k : K) : option A :=
  match m with [::] => None | (k', x) :: m' => if k' == k then Some x else aget m' k end.
Fixpoint aset (m : seq (K * A)) (k : K) (x : A) : seq (K * A) :=
  match m with
  | [::] => [:: (k, x)]
  | (k', y) :: m' => if k' == k then (k, x) :: m' else (k', y) :: aset m' k x
  end.
Definition akeys (m : seq (K * A)) : seq K := [seq kx.1 | kx <- m].
End Assoc.

Section Buckler.
Variables (F : fieldType) (U : uint F).

(** * Coefficient-wise operations (base_op.go; pointer level in VecModel.v) *)
Definition addv (a b : seq F) : seq F := [seq x.1 + x.2 | x <- zip a b].
Definition subv (a b : seq F) : seq F := [seq x.1 - x.2 | x <- zip a b].
Definition scalev (c : F) (a : seq F) : seq F := [seq x * c | x <- a].

(** * constraint.go *)

(** constraint.go 6-12: the parallel slices as one list of terms *)
Record term := Term { tcoeff : F; tpw : option nat; twit : seq nat }.
Definition constraint := seq term.

(** constraint.go 33-53 (wRank is never read and is left out) *)
Definition AddTermWithConst (c : constraint) (coeff : F) (pw : option nat) (w : seq nat) : constraint :=
  rcons c (Term coeff pw w).

(** constraint.go 17-20, 25-28 *)
Definition AddTerm c pw w := AddTermWithConst c (setBigInt U 1) pw w.
Definition SubTerm c pw w := AddTermWithConst c (setBigInt U (-1)) pw w.

(** constraint.go 56-69 *)
Definition termDeg (rank : nat) (t : term) : nat :=
  ((if tpw t is Some _ then rank - 1 else 0) + size (twit t) * rank)%N.
Definition maxRank (rank : nat) (c : constraint) : nat :=
  (foldl (fun m t => if m < termDeg rank t then termDeg rank t else m) 0 c)%N.+1.

(** * Linear checkers: identity (pointer) and behaviour.  [OUser] is any implementation of
    the interface: what TransformTo/TransposeTo leave in vOut, given vOut and v. *)
Inductive cobj :=
  | OUser of (seq F -> seq F -> seq F) & (seq F -> seq F -> seq F)
  | OProj
  | ORecomp of seq F.
Record checker := Chk { caddr : nat + nat; cobj_of : cobj }.

(** linear.go 109-123: TransformTo of projChecker, with the current matrix *)
Definition proj_row (row : seq bool) (v : seq F) : F :=
  foldl (fun acc j => if nth false row j then acc + v`_j else acc) 0 (iota 0 (size row)).
Definition proj_transform (proj : seq (seq bool)) (vOut v : seq F) : seq F :=
  foldl (fun o i => set_nth 0 o i (if (i < size proj)%N then proj_row (nth [::] proj i) v else 0))
    vOut (iota 0 (maxn (size proj) (size vOut))).

(** linear.go 125-137: TransposeTo of projChecker *)
Definition proj_transpose (proj : seq (seq bool)) (vOut v : seq F) : seq F :=
  let n := size (nth [::] proj 0) in
  let o := foldl (fun o i => set_nth 0 o i 0) vOut (iota 0 n) in
  foldl (fun o i =>
    foldl (fun o j => if nth false (nth [::] proj i) j then set_nth 0 o j (o`_j + v`_i) else o)
      o (iota 0 (size (nth [::] proj i)))) o (iota 0 (size proj)).

(** linear.go 156-170 *)
Definition recomp_transform (base vOut v : seq F) : seq F :=
  let n := (size vOut %/ size base)%N in
  let o := foldl (fun o i => set_nth 0 o i
      (foldl (fun acc j => acc + base`_j * v`_(i * size base + j)) 0 (iota 0 (size base))))
    vOut (iota 0 n) in
  foldl (fun o i => set_nth 0 o i 0) o (iota n (size vOut - n)).

(** linear.go 172-180 *)
Definition recomp_transpose (base vOut v : seq F) : seq F :=
  let n := (size vOut %/ size base)%N in
  let o := foldl (fun o i => foldl (fun o j =>
      set_nth 0 o (i * size base + j)%N (base`_j * v`_i)) o (iota 0 (size base)))
    vOut (iota 0 n) in
  foldl (fun o i => set_nth 0 o i 0) o (iota (n * size base)%N (size vOut - n * size base)%N).

Definition TransformTo (proj : seq (seq bool)) (o : cobj) (vOut v : seq F) : seq F :=
  match o with
  | OUser tf _ => tf vOut v
  | OProj => proj_transform proj vOut v
  | ORecomp base => recomp_transform base vOut v
  end.
Definition TransposeTo (proj : seq (seq bool)) (o : cobj) (vOut v : seq F) : seq F :=
  match o with
  | OUser _ tr => tr vOut v
  | OProj => proj_transpose proj vOut v
  | ORecomp base => recomp_transpose base vOut v
  end.

(** * context.go *)

(** context.go 12-51.  infDcmpBound/infDcmpWitness, the four twoDcmp maps and the two
    projInfDcmp maps are always written together with the same key and are paired here.
    circType is not modelled. *)
Record context := Ctx {
  crank : nat; cpwCnt : nat; cwCnt : nat; cwSecond : seq nat;
  carithMax : nat; csumMax : nat;
  carith : seq constraint; csum : seq constraint; csums : seq Z;
  clinChk : seq checker; clin : seq ((nat + nat) * seq (nat * nat));
  cinf : seq (nat * (seq nat * Z));
  ctwo : seq (nat * (Z * nat * nat * nat));       (* bound, base, mask, witness *)
  chasProj : bool; cproj : seq (nat * nat); cprojD : seq (nat * (Z * nat))
}.

(** context.go 54-76 *)
Definition newContext rank pwCnt wCnt : context :=
  Ctx rank pwCnt wCnt [::] 0 0 [::] [::] [::] [::] [::] [::] [::] false [::] [::].

(** context.go 79-82 *)
Definition AddArithmeticConstraint (x : context) (c : constraint) : context :=
  Ctx (crank x) (cpwCnt x) (cwCnt x) (cwSecond x) (maxn (carithMax x) (maxRank (crank x) c)) (csumMax x)
    (rcons (carith x) c) (csum x) (csums x) (clinChk x) (clin x) (cinf x) (ctwo x)
    (chasProj x) (cproj x) (cprojD x).

(** context.go 85-94 *)
Definition AddSumCheckConstraintBig (x : context) (c : constraint) (s : Z) : context :=
  Ctx (crank x) (cpwCnt x) (cwCnt x) (cwSecond x) (carithMax x) (maxn (csumMax x) (maxRank (crank x) c))
    (carith x) (rcons (csum x) c) (rcons (csums x) s) (clinChk x) (clin x) (cinf x) (ctwo x)
    (chasProj x) (cproj x) (cprojD x).

(** context.go 97-109 *)
Definition AddLinearConstraint (x : context) (wOut wIn : nat) (chk : checker) : context :=
  let am := if (carithMax x < 2 * crank x - 1)%N then (2 * crank x - 1)%N else carithMax x in
  let old := aget (clin x) (caddr chk) in
  let chks := if old is None then rcons (clinChk x) chk else clinChk x in
  let l := aset (clin x) (caddr chk) (rcons (odflt [::] old) (wOut, wIn)) in
  Ctx (crank x) (cpwCnt x) (cwCnt x) (cwSecond x) am (csumMax x)
    (carith x) (csum x) (csums x) chks l (cinf x) (ctwo x) (chasProj x) (cproj x) (cprojD x).

Definition set_cnt (x : context) pwCnt wCnt : context :=
  Ctx (crank x) pwCnt wCnt (cwSecond x) (carithMax x) (csumMax x)
    (carith x) (csum x) (csums x) (clinChk x) (clin x) (cinf x) (ctwo x)
    (chasProj x) (cproj x) (cprojD x).
Definition set_inf (x : context) m : context :=
  Ctx (crank x) (cpwCnt x) (cwCnt x) (cwSecond x) (carithMax x) (csumMax x)
    (carith x) (csum x) (csums x) (clinChk x) (clin x) m (ctwo x) (chasProj x) (cproj x) (cprojD x).
Definition set_two (x : context) m : context :=
  Ctx (crank x) (cpwCnt x) (cwCnt x) (cwSecond x) (carithMax x) (csumMax x)
    (carith x) (csum x) (csums x) (clinChk x) (clin x) (cinf x) m (chasProj x) (cproj x) (cprojD x).
Definition set_proj (x : context) b p d sec : context :=
  Ctx (crank x) (cpwCnt x) (cwCnt x) sec (carithMax x) (csumMax x)
    (carith x) (csum x) (csums x) (clinChk x) (clin x) (cinf x) (ctwo x) b p d.

(** context.go 122-124 *)
Definition zeroC (w : nat) : constraint := AddTermWithConst [::] (setBigInt U 1) None [:: w].
(** context.go 127-129, 147-149 *)
Definition ternaryC (w : nat) : constraint :=
  AddTermWithConst (AddTermWithConst [::] (setBigInt U 1) None [:: w; w; w])
    (setBigInt U (-1)) None [:: w].
(** context.go 153-158 *)
Definition dcmpC (w : nat) (base : seq Z) (wD : seq nat) : constraint :=
  foldl (fun c i => AddTermWithConst c (- setBigInt U (nth 0%Z base i)) None [:: nth 0%N wD i])
    (AddTermWithConst [::] (setBigInt U 1) None [:: w]) (iota 0 (size base)).

(** context.go 117-161 *)
Definition AddInfNormConstraintBig (x : context) (w : nat) (bound : Z) : option context :=
  if (bound <? 0)%Z then Some x
  else if (bound =? 0)%Z then Some (AddArithmeticConstraint x (zeroC w))
  else if (bound =? 1)%Z then Some (AddArithmeticConstraint x (ternaryC w))
  else if decomposeBase bound is Some base then
    let wD := iota (cwCnt x) (size base) in
    let x := set_cnt (set_inf x (aset (cinf x) w (wD, bound))) (cpwCnt x) (cwCnt x + size base)%N in
    let x := foldl (fun x d => AddArithmeticConstraint x (ternaryC d)) x wD in
    Some (AddArithmeticConstraint x (dcmpC w base wD))
  else None.

(** context.go 186-188 *)
Definition binC (wD pwMask : nat) : constraint :=
  AddTermWithConst (AddTermWithConst [::] (setBigInt U 1) None [:: wD; wD])
    (setBigInt U (-1)) (Some pwMask) [:: wD].
(** context.go 191-193 *)
Definition sqC (w wD pwBase : nat) : constraint :=
  AddTermWithConst (AddTermWithConst [::] (setBigInt U 1) None [:: w; w])
    (setBigInt U (-1)) (Some pwBase) [:: wD].

(** context.go 171-196 *)
Definition AddSqNormConstraintBig (x : context) (w : nat) (bound : Z) : context :=
  let wD := cwCnt x in let pwBase := cpwCnt x in let pwMask := (cpwCnt x).+1 in
  let x := set_cnt x (cpwCnt x + 2)%N (cwCnt x).+1 in
  let x := set_two x (aset (ctwo x) w (bound, pwBase, pwMask, wD)) in
  let x := AddArithmeticConstraint x (binC wD pwMask) in
  AddSumCheckConstraintBig x (sqC w wD pwBase) 0.

(** context.go 206-228; newProjRecomposeChecker (linear.go 145-155) calls decomposeBase *)
Definition AddApproxInfNormConstraintBig (x : context) (w : nat) (bound : Z) : option context :=
  let wProj := cwCnt x in let wProjD := (cwCnt x).+1 in
  let x1 := set_cnt (set_proj x true (cproj x) (cprojD x) (cwSecond x)) (cpwCnt x) (cwCnt x + 2)%N in
  let x2 := AddLinearConstraint x1 wProj w (Chk (inr 0%N) OProj) in
  let slack := (Z.of_nat (crank x) * bound)%Z in
  if decomposeBase slack is Some base then
    let x3 := set_proj x2 true (aset (cproj x) w wProj) (aset (cprojD x) wProj (slack, wProjD))
                (cwSecond x) in
    let x4 := AddLinearConstraint x3 wProj wProjD
                (Chk (inr wProj.+1) (ORecomp [seq setBigInt U b | b <- base])) in
    Some (set_proj x4 true (cproj x4) (cprojD x4) (cwSecond x ++ [:: wProj; wProjD]))
  else None.

(** context.go 273-285; clin is the map linCheckConstraints *)
Definition hasArith (x : context) := (0 < size (carith x))%N.
Definition hasLin (x : context) := (0 < size (clin x))%N.
Definition hasSum (x : context) := (0 < size (csum x))%N.

(** context.go 231-245 *)
Definition batch (x : context) : nat :=
  (cwCnt x + (if hasArith x then 1 else 0) + (if hasLin x then 4 else 0)
   + (if hasSum x then 4 else 0))%N.

(** context.go 248-270.  [maxRank c - rank] may be negative in Go; it is then below the
    running maximum, which is what truncated subtraction gives. *)
Definition commitRank (x : context) : nat :=
  let r := if (0 < cwCnt x)%N then (crank x).+1 else 0%N in
  let r := foldl (fun r c => maxn r (maxRank (crank x) c - crank x)%N) r (carith x) in
  let r := if hasLin x then maxn r (2 * crank x)%N else r in
  foldl (fun r c => maxn r (maxRank (crank x) c + crank x + 1)%N) r (csum x).

(** compile.go 180: 1 << bits.Len(uint(max(..)-1)).  bits.Len of m > 0 is log2 m + 1; with
    no constraint at all the argument wraps to 2^64-1 and the shift by 64 gives 0. *)
Definition bitsLen (m : nat) : nat := if m is 0%N then 0%N else (trunc_log 2 m).+1.
Definition embRank (x : context) : nat :=
  let m := maxn (carithMax x) (csumMax x) in
  if m is m'.+1 then (2 ^ bitsLen m')%N else 0%N.

(** * encoder.go.  [T] is the cyclic transformer of the witness rank N, [E] embedRank. *)
Section Encoder.
Variables (T : transformer F) (E : nat).

(** encoder.go 32-38: Encode, i.e. EncodeTo on any pOut of length E; [None] is the fault of
    the block copy in InvNTTTo.  [old] are the previous coefficients. *)
Definition EncodeTo (old v : seq F) : option (seq F) :=
  let N := trank T in
  if InvNTTTo T (take N old) (take N v) is Some c
  then Some (c ++ nseq (size old - N) 0) else None.

(** the same without the fault, which depends on the length only (C14) *)
Definition encode (v : seq F) : seq F := invNTT T (take (trank T) v) ++ nseq (E - trank T) 0.

(** encoder.go 50-54; [r] is the coin of MustSetRandom.  The write to Coeffs[N] needs N < E. *)
Definition randEncode (r : F) (v : seq F) : seq F :=
  let N := trank T in
  let c := set_nth 0 (encode v) N r in
  set_nth 0 c 0 (c`_0 - c`_N).
End Encoder.

(** * Filling in the auxiliary witnesses: prover.go 54-111 *)
Definition get2 (w : seq (seq F)) (id i : nat) : F := (nth [::] w id)`_i.
Definition set2 (w : seq (seq F)) (id i : nat) (x : F) : seq (seq F) :=
  set_nth [::] w id (set_nth 0 (nth [::] w id) i x).

(** prover.go 70-71 *)
Definition modOf : Z := (bigInt U (setBigInt U (-1)) + 1)%Z.

(** prover.go 54-68: slots the walk did not fill get zero vectors *)
Definition padw (rank cnt : nat) (w : seq (seq F)) : seq (seq F) :=
  w ++ nseq (cnt - size w) (nseq rank 0).

(** prover.go 77-86, one map entry *)
Definition fillInf1 (rank : nat) (w : seq (seq F)) (id : nat) (e : seq nat * Z) : option (seq (seq F)) :=
  if decomposeBase e.2 is Some base then
    Some (foldl (fun w i =>
      let dcmp := decomposeBig (bigInt U (get2 w id i)) base modOf in
      foldl (fun w j => set2 w (nth 0%N e.1 j) i (setBigInt U (nth 0%Z dcmp j))) w (iota 0 (size e.1)))
      w (iota 0 rank))
  else None.

Fixpoint fillInf (rank : nat) (m : seq (nat * (seq nat * Z))) (ord : seq nat) (w : seq (seq F))
  : option (seq (seq F)) :=
  match ord with
  | [::] => Some w
  | id :: ord' =>
    if aget m id is Some e then
      if fillInf1 rank w id e is Some w' then fillInf rank m ord' w' else None
    else fillInf rank m ord' w
  end.

(** prover.go 92-97 and verifier.go 49-58: the public base and mask vectors *)
Definition fillPw1 (rank : nat) (pw : seq (seq F)) (e : Z * nat * nat * nat) : option (seq (seq F)) :=
  let: (bound, pwBase, pwMask, _) := e in
  if decomposeBase bound is Some base then
    if (rank < size base)%N then None else
    Some (foldl (fun pw i => set2 (set2 pw pwBase i (setBigInt U (nth 0%Z base i))) pwMask i (setBigInt U 1))
      pw (iota 0 (size base)))
  else None.

(** prover.go 89-111.  [sqNm] is declared outside the loop and carried from one entry to the
    next. *)
Definition fillTwo1 (rank : nat) (sqNm : Z) (pw w : seq (seq F)) (id : nat) (e : Z * nat * nat * nat)
  : option (Z * seq (seq F) * seq (seq F)) :=
  let: (bound, pwBase, pwMask, wD) := e in
  if decomposeBase bound is Some base then
    if fillPw1 rank pw e is Some pw then
      let sqNm := foldl (fun s i => let b := bigInt U (get2 w id i) in (s + b * b)%Z) sqNm (iota 0 rank) in
      let sqNm := (sqNm mod modOf)%Z in
      let dcmp := decomposeBig sqNm base modOf in
      Some (sqNm, pw, foldl (fun w i => set2 w wD i (setBigInt U (nth 0%Z dcmp i))) w (iota 0 (size dcmp)))
    else None
  else None.

Fixpoint fillTwo (rank : nat) (m : seq (nat * (Z * nat * nat * nat))) (ord : seq nat)
    (sqNm : Z) (pw w : seq (seq F)) : option (seq (seq F) * seq (seq F)) :=
  match ord with
  | [::] => Some (pw, w)
  | id :: ord' =>
    if aget m id is Some e then
      if fillTwo1 rank sqNm pw w id e is Some (sqNm', pw', w')
      then fillTwo rank m ord' sqNm' pw' w' else None
    else fillTwo rank m ord' sqNm pw w
  end.

Fixpoint fillPw (rank : nat) (m : seq (nat * (Z * nat * nat * nat))) (ord : seq nat) (pw : seq (seq F))
  : option (seq (seq F)) :=
  match ord with
  | [::] => Some pw
  | id :: ord' =>
    if aget m id is Some e then
      if fillPw1 rank pw e is Some pw' then fillPw rank m ord' pw' else None
    else fillPw rank m ord' pw
  end.

(** prover.go 178-180: projected witnesses *)
Definition fillProj (proj : seq (seq bool)) (m : seq (nat * nat)) (ord : seq nat) (w : seq (seq F))
  : seq (seq F) :=
  foldl (fun w id => if aget m id is Some wp
    then set_nth [::] w wp (proj_transform proj (nth [::] w wp) (nth [::] w id)) else w) w ord.

(** prover.go 182-192.  Needs 128 * len(base) <= rank, else the index panics. *)
Fixpoint fillProjD (rank : nat) (m : seq (nat * (Z * nat))) (ord : seq nat) (w : seq (seq F))
  : option (seq (seq F)) :=
  match ord with
  | [::] => Some w
  | id :: ord' =>
    if aget m id is Some (bound, wD) then
      if decomposeBase bound is Some base then
        if (rank < 128 * size base)%N then None else
        fillProjD rank m ord' (foldl (fun w i =>
          let dcmp := decomposeBig (bigInt U (get2 w id i)) base modOf in
          foldl (fun w j => set2 w wD (i * size base + j)%N (setBigInt U (nth 0%Z dcmp j)))
            w (iota 0 (size base))) w (iota 0 128))
      else None
    else fillProjD rank m ord' w
  end.

(** * The checks of the prover (prover.go 355-485).  [T] : transformer of the witness rank,
    [TE] : transformer of the embedding rank E. *)
Section Checks.
Variables (T TE : transformer F) (x : context).
Local Notation N := (crank x).
Local Notation E := (trank TE).

(** prover.go 363-374, one term *)
Definition prv_term (pwN wN : seq (seq F)) (t : term) : seq F :=
  let tm := nseq E (tcoeff t) in
  let tm := if tpw t is Some j then mulv tm (nth [::] pwN j) else tm in
  foldl (fun tm j => mulv tm (nth [::] wN j)) tm (twit t).

(** prover.go 355-379: every constraint is multiplied by the same batchConst *)
Definition prv_evalCircuit (b : F) (cs : seq constraint) (pwN wN : seq (seq F)) : seq F :=
  foldl (fun out c =>
    let ev := foldl (fun ev t => addv ev (prv_term pwN wN t)) (nseq E 0) c in
    addv out (scalev b ev)) (nseq E 0) cs.

(** prover.go 381-397; [coins] are the values drawn by MustSetRandom *)
Definition sumCheckMask (coins : nat -> F) (maskRank : nat) : seq F * F :=
  let mask := mkseq coins N ++ nseq (E - N) 0 in
  let maskSum := mask`_0 in
  (foldl (fun m i => let m := set_nth 0 m i (coins i) in
     set_nth 0 m (i - N)%N (m`_(i - N) - m`_i)) mask (iota N (maskRank - N)), maskSum).

(** cyclic.go 18-37 on a coefficient slice of length E (block copy: see C14) *)
Definition quorem (p : seq F) : seq F * seq F :=
  foldl (quorem_step N) (nseq E 0, p) (rev (iota N (E - N))).

(** prover.go 399-404; [None]: the slice bound arithCheckMaxRank - rank is negative *)
Definition prv_arithCheck (b : F) (pwN wN : seq (seq F)) : option (seq F) :=
  let ev := invNTT TE (prv_evalCircuit b (carith x) pwN wN) in
  if (carithMax x < N)%N then None else Some (take (carithMax x - N) (quorem ev).1).

(** prover.go 409-413, verifier.go 258-262 *)
Definition linCheckVec (a : F) : seq F :=
  foldl (fun v i => rcons v (v`_(i - 1) * a)) [:: setBigInt U 1] (iota 1 (N - 1)).

(** prover.go 446-456, 470-481: remLo and its shifted copy remHi; [R] is the PCS rank.
    A negative R - (rank-1) would panic. *)
Definition remLoHi (R : nat) (rem : seq F) : option (seq F * seq F) :=
  let lo := mkseq (fun i => rem`_i.+1) (N - 1) in
  if (R < N - 1)%N then None else Some (lo, nseq (R - (N - 1)) 0 ++ lo).

(** prover.go 425-438: the loop over checkers and constraints; the state is
    (eval, linCheckVecTr) *)
Definition prv_linLoop (proj : seq (seq bool)) (b : F) (vec vecN : seq F) (wN : seq (seq F)) : seq F :=
  (foldl (fun st chk =>
    let: (ev, vtr) := st in
    let vtr := TransposeTo proj (cobj_of chk) vtr vec in
    let trN := fwdNTT TE (encode T E vtr) in
    (foldl (fun ev io =>
       let tm := mulv trN (nth [::] wN io.2) in
       let tm := subv tm (mulv vecN (nth [::] wN io.1)) in
       addv (scalev b ev) tm) ev (odflt [::] (aget (clin x) (caddr chk))), vtr))
    (nseq E 0, nseq N 0) (clinChk x)).1.

(** prover.go 406-459 *)
Definition prv_linCheck (R : nat) (proj : seq (seq bool)) (b a : F) (mask : seq F) (wN : seq (seq F))
  : option (seq F * seq F * seq F) :=
  let vec := linCheckVec a in
  let vecN := fwdNTT TE (encode T E vec) in
  let ev := scalev b (prv_linLoop proj b vec vecN wN) in
  let ev := addv (invNTT TE ev) mask in
  let: (q, r) := quorem ev in
  if remLoHi R r is Some (lo, hi) then Some (take N q, lo, hi) else None.

(** prover.go 461-485 *)
Definition prv_sumCheck (R : nat) (b : F) (mask : seq F) (pwN wN : seq (seq F))
  : option (seq F * seq F * seq F) :=
  let ev := scalev b (prv_evalCircuit b (csum x) pwN wN) in
  let ev := addv (invNTT TE ev) mask in
  let: (q, r) := quorem ev in
  if (csumMax x < N)%N then None else
  if remLoHi R r is Some (lo, hi) then Some (take (csumMax x - N) q, lo, hi) else None.

(** * The checks of the verifier (verifier.go 219-315) *)

(** verifier.go 225-233 *)
Definition vrf_term (evals pwEvals : seq F) (t : term) : F :=
  let tm := tcoeff t in
  let tm := if tpw t is Some j then tm * pwEvals`_j else tm in
  foldl (fun tm j => tm * evals`_j) tm (twit t).

(** verifier.go 219-240 *)
Definition vrf_evalCircuit (b : F) (cs : seq constraint) (evals pwEvals : seq F) : F :=
  foldl (fun out c =>
    let ev := foldl (fun ev t => ev + vrf_term evals pwEvals t) 0 c in
    out + ev * b) 0 cs.

(** verifier.go 242-247 *)
Definition vrf_arithCheck (b vanish quo : F) (evals pwEvals : seq F) : bool :=
  vrf_evalCircuit b (carith x) evals pwEvals == quo * vanish.

(** verifier.go 271-283 *)
Definition vrf_linLoop (proj : seq (seq bool)) (b pt : F) (vec : seq F) (vecE : F) (evals : seq F) : F :=
  (foldl (fun st chk =>
    let: (ev, vtr) := st in
    let vtr := TransposeTo proj (cobj_of chk) vtr vec in
    let trE := evalSlice (encode T E vtr) pt in
    (foldl (fun ev io =>
       let tm := trE * evals`_(io.2) in
       let tm := tm - vecE * evals`_(io.1) in
       ev * b + tm) ev (odflt [::] (aget (clin x) (caddr chk))), vtr))
    (0, nseq N 0) (clinChk x)).1.

(** verifier.go 249-294 *)
Definition vrf_linCheck (R : nat) (proj : seq (seq bool)) (b a maskE pt vanish maskSum quo lo hi : F)
    (evals : seq F) : bool :=
  if hi != Exp pt (Z.of_nat (R - (N - 1))) * lo then false else
  let vec := linCheckVec a in
  let vecE := evalSlice (encode T E vec) pt in
  let ev := vrf_linLoop proj b pt vec vecE evals * b + maskE in
  ev == quo * vanish + lo * pt + maskSum.

(** verifier.go 296-315 *)
Definition vrf_sumCheck (R : nat) (b maskE pt vanish maskSum quo lo hi : F) (evals pwEvals : seq F) : bool :=
  if hi != Exp pt (Z.of_nat (R - (N - 1))) * lo then false else
  let ev := vrf_evalCircuit b (csum x) evals pwEvals * b + maskE in
  ev == quo * vanish + lo * pt + maskSum.
End Checks.
End Buckler.
