(** The circuits shipped with the code: examples/mult/main.go, examples/bfv/main.go and the
    test circuit of buckler/buckler_test.go.  Each one is a struct, a Define method and the
    values an honest user assigns.  Definitions only. *)
From Coq Require Import ZArith.
From mathcomp Require Import all_ssreflect all_algebra.
From Verif Require Import UintModel BigpolyModel RingProofs NormModel BucklerModel DefineModel CheckerModel WalkModel.
Set Implicit Arguments. Unset Strict Implicit. Unset Printing Implicit Defensive.
Import GRing.Theory.
Local Open Scope ring_scope.
Delimit Scope Z_scope with Z.

Section Examples.
Variables (F : fieldType) (U : uint F).
Local Notation sb := (setBigInt U).

(** compile.go 34-40 where Define hands a placeholder to the context *)
Definition wid (w : seq F) : nat := Z.to_nat (witnessToID U w).

(** A field of interface type LinearChecker: nil, or a pointer (number [nfAddr]) to the
    checker that NewNTTChecker returned; [nfView] is that struct as reflect sees it. *)
Record nttField := NttField { nfAddr : nat; nfChk : nttChecker F; nfView : cv F }.
Definition fieldV (f : option nttField) : cv F := if f is Some f then VIface (VPtr (nfView f)) else VNil.
(** the two methods; a fault (never with vectors of the right length) leaves vOut alone *)
Definition nttTf (c : nttChecker F) (vOut v : seq F) : seq F := odflt vOut (nttTransformTo c vOut v).
Definition nttTr (c : nttChecker F) (vOut v : seq F) : seq F := odflt vOut (nttTransposeTo c vOut v).
Definition linNTT (f : nttField) (wOut wIn : seq F) : cmd F :=
  CLin (wid wOut) (wid wIn) (nfAddr f) (nttTf (nfChk f)) (nttTr (nfChk f)).
(** context.go 112-114: AddInfNormConstraint; the bound is a uint64 *)
Definition infNorm (w : seq F) (bound : Z) : cmd F := CInf (wid w) bound.

(** * examples/mult/main.go *)

(** main.go 35-45 *)
Record multC := MultC { mNTT : option nttField; mYNTT : seq F; mX : seq F; mZ : seq F; mXNTT : seq F; mZNTT : seq F }.
Definition multV (c : multC) : cv F :=
  VStruct [:: fieldV (mNTT c); VPub (mYNTT c); VWit (mX c); VWit (mZ c); VWit (mXNTT c); VWit (mZNTT c)].

(** main.go 48-68.  A nil checker is not modelled: no calls. *)
Definition multArith (c : multC) : constraint F :=
  AddTermWithConst (AddTermWithConst [::] (sb 1) (Some (wid (mYNTT c))) [:: wid (mXNTT c)])
    (sb (-1)) None [:: wid (mZNTT c)].
Definition multDefine (c : multC) : seq (cmd F) :=
  if mNTT c is Some f then
    [:: linNTT f (mXNTT c) (mX c); linNTT f (mZNTT c) (mZ c); CArith (multArith c); infNorm (mX c) 5]
  else [::].

(** Compile (compile.go 160-173) on a circuit of this type: the walk, then Define on the
    struct the walk left *)
Definition multCompile (rank : nat) (c : multC) : option (context F) :=
  let: (v, (pwCnt, wCnt), _) := compileWalk U (multV c) in
  if v is VPtr (VStruct [:: _; VPub yn; VWit x; VWit z; VWit xn; VWit zn]) then
    define U (newContext F rank pwCnt wCnt) (multDefine (MultC (mNTT c) yn x z xn zn))
  else None.

(** main.go 75-86 and 101-109: the honest assignment for X and Y (NTT, Mul and InvNTT of the
    evaluator by what they compute, C03-C05) *)
Definition multAssign (T : transformer F) (X Y : seq F) : multC :=
  let zn := mulv (fwdNTT T X) (fwdNTT T Y) in
  MultC None (fwdNTT T Y) X (invNTT T zn) (fwdNTT T X) zn.
(** main.go 118-120 *)
Definition multPublic (yn : seq F) : multC := MultC None yn [::] [::] [::] [::].

(** * examples/bfv/main.go *)

(** main.go 30-47; Delta is a *big.Int, [bDeltaV] how reflect sees it *)
Record bfvC := BfvC { bNTT : option nttField; bT : Z; bErr : Z; bC0 : seq F; bC1 : seq F; bSk : seq F;
  bDelta : Z; bDeltaV : cv F; bMsgNTT : seq F; bMsg : seq F; bErrNTT : seq F; bErrC : seq F }.
Definition bfvV (c : bfvC) : cv F :=
  VStruct [:: fieldV (bNTT c); VOther; VOther; VOther; VArr [:: VPub (bC0 c); VPub (bC1 c)]; VWit (bSk c);
    bDeltaV c; VWit (bMsgNTT c); VWit (bMsg c); VWit (bErrNTT c); VWit (bErrC c)].

(** main.go 49-69; PlaintextModulus-1 is on uint64 *)
Definition bfvArith (c : bfvC) : constraint F :=
  AddTermWithConst (AddTermWithConst (AddTermWithConst (AddTermWithConst [::]
    (sb 1) (Some (wid (bC0 c))) [::])
    (sb 1) (Some (wid (bC1 c))) [:: wid (bSk c)])
    (sb (- bDelta c)) None [:: wid (bMsgNTT c)])
    (sb (-1)) None [:: wid (bErrNTT c)].
Definition bfvDefine (c : bfvC) : seq (cmd F) :=
  if bNTT c is Some f then
    [:: linNTT f (bMsgNTT c) (bMsg c); linNTT f (bErrNTT c) (bErrC c); CArith (bfvArith c);
        infNorm (bMsg c) ((bT c - 1) mod w64); infNorm (bErrC c) (bErr c)]
  else [::].
Definition bfvCompile (rank : nat) (c : bfvC) : option (context F) :=
  let: (v, (pwCnt, wCnt), _) := compileWalk U (bfvV c) in
  if v is VPtr (VStruct [:: _; _; _; _; VArr [:: VPub c0; VPub c1]; VWit sk; _; VWit mn; VWit m; VWit en; VWit e]) then
    define U (newContext F rank pwCnt wCnt)
      (bfvDefine (BfvC (bNTT c) (bT c) (bErr c) c0 c1 sk (bDelta c) (bDeltaV c) mn m en e))
  else None.
(** main.go 194-204 and 213-215: the assignment; Degree and the bounds are not set in it *)
Definition bfvAssign (c0 c1 sk mn m en e : seq F) : bfvC := BfvC None 0 0 c0 c1 sk 0 VNil mn m en e.
Definition bfvPublic (c0 c1 : seq F) : bfvC := bfvAssign c0 c1 [::] [::] [::] [::] [::].

(** main.go 131-164: what main computes from the centred coefficients of the ciphertext, the
    key and the plaintext, the modulus Q of lattigo's ring and the inverse [invT] of t modulo Q:
    the switched ciphertext, key and message in zp, the switched scaling factor and the error
    (MulTo, AddTo, ScalarMulSubTo of the evaluator by what they compute, C05) *)
Definition bfvDelta (invT Q : Z) : Z := (invT * modulus U / Q)%Z.
Definition bfvErrNTT (delta : Z) (c0n c1n sn mn : seq F) : seq F :=
  subv (addv (mulv c1n sn) c0n) [seq a * sb delta | a <- mn].
Definition bfvMain (T : transformer F) (rank : nat) (c0 c1 s m : seq Z) (invT Q : Z) : option bfvC :=
  if ModSwitchTo U rank c0 Q is Some p0 then
  if ModSwitchTo U rank c1 Q is Some p1 then
  let c0n := fwdNTT T (coeffs p0) in let c1n := fwdNTT T (coeffs p1) in
  let sn := fwdNTT T [seq sb x | x <- s] in
  let mc := [seq sb x | x <- m] in
  let en := bfvErrNTT (bfvDelta invT Q) c0n c1n sn (fwdNTT T mc) in
  Some (bfvAssign c0n c1n sn (fwdNTT T mc) mc en (invNTT T en))
  else None else None.
(** main.go 168: the bound compiled into the circuit; both summands are uint64 *)
Definition bfvErrBound (rank : nat) (t : Z) : Z := ((Z.of_nat rank + t) mod w64)%Z.

(** * buckler/buckler_test.go: PublicKeyCircuit *)

(** buckler_test.go 17-27 *)
Record pkC := PkC { kNTT : option nttField; kSk : seq F; kSkNTT : seq F; kPk0 : seq F; kPk1 : seq F;
  kNoise : seq F; kNoiseNTT : seq F }.
Definition pkV (c : pkC) : cv F :=
  VStruct [:: fieldV (kNTT c); VWit (kSk c); VWit (kSkNTT c); VArr [:: VPub (kPk0 c); VPub (kPk1 c)];
    VWit (kNoise c); VWit (kNoiseNTT c)].
(** buckler_test.go 29-44 *)
Definition pkArith (c : pkC) : constraint F :=
  AddTermWithConst (AddTermWithConst (AddTermWithConst [::]
    (sb 1) (Some (wid (kPk1 c))) [::])
    (sb (-1)) (Some (wid (kPk0 c))) [:: wid (kSkNTT c)])
    (sb (-1)) None [:: wid (kNoiseNTT c)].
Definition pkDefine (c : pkC) : seq (cmd F) :=
  if kNTT c is Some f then
    [:: linNTT f (kSkNTT c) (kSk c); linNTT f (kNoiseNTT c) (kNoise c); CArith (pkArith c);
        infNorm (kSk c) 1; infNorm (kNoise c) 1]
  else [::].
Definition pkCompile (rank : nat) (c : pkC) : option (context F) :=
  let: (v, (pwCnt, wCnt), _) := compileWalk U (pkV c) in
  if v is VPtr (VStruct [:: _; VWit sk; VWit skn; VArr [:: VPub p0; VPub p1]; VWit ns; VWit nsn]) then
    define U (newContext F rank pwCnt wCnt) (pkDefine (PkC (kNTT c) sk skn p0 p1 ns nsn))
  else None.
End Examples.
