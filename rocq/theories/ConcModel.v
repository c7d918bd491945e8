(** Several Prove and Verify calls that share one compiled circuit.  Compile hands the same
    context to the prover and the verifier (compile.go), and the context owns one projChecker whose
    matrix [proj] every call overwrites and later reads (prover.go 169-178 and 432, verifier.go
    102-110 and 278).  Everything else a call touches is its own.

    The model: a call is a program over the shared cells; one step is one access to one cell.
    Simplified: after its writes a call reads every cell once and works with these values (the code
    reads a cell once per use of the projection), and Go's memory model is taken to be sequentially
    consistent. *)
From Coq Require Import ZArith.
From mathcomp Require Import all_ssreflect all_algebra.
From Verif Require Import UintModel BigpolyModel BucklerModel ProtocolModel.
Set Implicit Arguments. Unset Strict Implicit. Unset Printing Implicit Defensive.
Delimit Scope Z_scope with Z.

(** * Programs over shared cells and their interleavings *)
Section Programs.
Variable A : Type.

Definition cell := (nat * nat)%type.
Definition mem := cell -> bool.
Definition upd (m : mem) (c : cell) (b : bool) : mem := fun c' => if c' == c then b else m c'.

Inductive prog := Ret of A | Wr of cell & bool & prog | Rd of cell & (bool -> prog).

Definition step1 (m : mem) (p : prog) : mem * prog :=
  match p with Ret _ => (m, p) | Wr c b p' => (upd m c b, p') | Rd c k => (m, k (m c)) end.

(** thread number i makes a step, if there is such a thread *)
Definition step (st : mem * seq prog) (i : nat) : mem * seq prog :=
  if drop i st.2 is p :: rest then let: (m, p') := step1 st.1 p in (m, take i st.2 ++ p' :: rest) else st.
(** a schedule says which thread makes the next step *)
Definition runSched (sched : seq nat) (st : mem * seq prog) : mem * seq prog := foldl step st sched.

Definition result (p : prog) : option A := if p is Ret a then Some a else None.
Definition resultOf (i : nat) (st : mem * seq prog) : option A :=
  if drop i st.2 is p :: _ then result p else None.

(** * A call that fills the matrix and then uses it *)
Definition bitAt (M : seq (seq bool)) (c : cell) : bool := nth false (nth [::] M c.1) c.2.
(** prover.go 171-176: for j < rank, for i < 128 *)
Definition wcells (r : nat) : seq cell := [seq (i, j) | j <- iota 0 r, i <- iota 0 128].
(** linear.go 113-119: row by row *)
Definition rcells (r : nat) : seq cell := [seq (i, j) | i <- iota 0 128, j <- iota 0 r].
Definition writeAll (cs : seq cell) (M : seq (seq bool)) (k : prog) : prog :=
  foldr (fun c p => Wr c (bitAt M c) p) k cs.
Fixpoint readAll (cs : seq cell) (bits : seq bool) (k : seq bool -> prog) : prog :=
  if cs is c :: cs' then Rd c (fun b => readAll cs' (rcons bits b) k) else k bits.
Definition useMatrix (r : nat) (f : seq (seq bool) -> A) (bits : seq bool) : prog :=
  Ret (f (reshape (nseq 128 r) bits)).
Definition projCall (r : nat) (M : seq (seq bool)) (f : seq (seq bool) -> A) : prog :=
  writeAll (wcells r) M (readAll (rcells r) [::] (useMatrix r f)).
End Programs.

(** * The calls of Buckler *)
Section Calls.
Variables (F : fieldType) (U : uint F) (P : pcs F) (H : bytes -> bytes) (name : nat -> bytes).
Variables (setBytes : bytes -> F) (marshal : F -> bytes) (xofProj : nat -> bytes -> seq (seq bool)).
Variables (T TE : transformer F) (x : context F).

Inductive call :=
  | DoProve of coins P & seq (seq F) & seq (seq F)
  | DoVerify of seq nat & seq (seq F) & proof P.
Definition outcome := (option (proof P) + option bool)%type.

(** what a call returns when the matrix it uses is given by [xof] *)
Definition outcomeWith (xof : nat -> bytes -> seq (seq bool)) (c : call) : outcome :=
  match c with
  | DoProve k pw w => inl (Prove U H name setBytes marshal xof T TE x k pw w)
  | DoVerify ord pw pf => inr (Verify U H name setBytes marshal xof T TE x ord pw pf)
  end.

(** the challenge projConst, when the call gets that far: prover.go 42-163, verifier.go 29-97 *)
Definition projConstOf (c : call) : option bytes :=
  let N := crank x in
  match c with
  | DoProve k pw0 w0 =>
    if ~~ (8 %| N)%N || ~~ (8 %| trank TE)%N || ((0 < cwCnt x) && (trank TE <= N))%N then None else
    if fillInf U N (cinf x) (ordInf k) (padw N (cwCnt x) w0) is Some w then
    if fillTwo U N (ctwo x) (ordTwo k) 0%Z (padw N (cpwCnt x) pw0) w is Some (pw, w) then
    let wc1 i := pCommit (kC k i) (comPoly x (wEcd T TE k w i)) in
    let st := BindAll tr0 0 [seq pSer (wc1 i).1 | i <- iota 0 (cwCnt x) & firstRound x i] in
    omap (@fst _ _) (ComputeChallenge H name st 0) else None else None
  | DoVerify ord pw0 pf =>
    let nm := (hasLin x + hasSum x)%N in
    if ~~ (8 %| N)%N then None else
    if fillPw U N (ctwo x) ord (padw N (cpwCnt x) pw0) is Some _ then
    if (size (pfWitness pf) < cwCnt x + nm)%N then None else
    if (0 < nm)%N && (size (pfEvals pf) < cwCnt x + nm)%N then None else
    let ser := [seq pSer c | c <- pfWitness pf] in
    let st := BindAll tr0 0 [seq nth [::] ser i | i <- iota 0 (cwCnt x) & firstRound x i] in
    omap (@fst _ _) (ComputeChallenge H name st 0) else None
  end.

(** the program of a call: without a projection there is nothing shared *)
Definition progOf (c : call) : prog outcome :=
  if chasProj x then
    if projConstOf c is Some pc then
      projCall (crank x) (xofProj (crank x) pc) (fun M => outcomeWith (fun _ _ => M) c)
    else Ret (outcomeWith xofProj c)
  else Ret (outcomeWith xofProj c).
End Calls.
