(** buckler/compile.go: placeholders and the three reflection walks over a circuit value.
    Definitions only. *)
From Coq Require Import ZArith.
From mathcomp Require Import all_ssreflect all_algebra.
From Verif Require Import UintModel CheckerModel.
Set Implicit Arguments. Unset Strict Implicit. Unset Printing Implicit Defensive.
Delimit Scope Z_scope with Z.

Section Walk.
Variables (F : fieldType) (U : uint F).

(** compile.go 18-32.  The shift and the addition are on uint64. *)
Definition idToWit (id : Z) : seq F := [:: setBigInt U ((2 * ((id + 1) mod w64)) mod w64)%Z].
Definition idToPub (id : Z) : seq F := [:: setBigInt U (((2 * ((id + 1) mod w64)) mod w64 + 1) mod w64)%Z].

(** compile.go 34-40: the low limb of the value, shifted right, minus one *)
Definition witnessToID (w : seq F) : Z :=
  ((Z.shiftr (bigInt U (nth 0%R w 0) mod w64) 1 - 1) mod w64)%Z.

(** A Go value as reflect sees it.  [VPub]/[VWit]: a slice of type PublicWitness/Witness.
    [VUnexp]: the value of an unexported struct field.  [VOther]: a value of any kind the
    walks do not look into.  Trees only: a value reachable through two pointers, or a cycle,
    is not represented, and unexported embedded structs count as unexported fields. *)
Inductive cv :=
  | VPub of seq F | VWit of seq F
  | VNil                                   (* nil pointer or interface *)
  | VPtr of cv | VIface of cv
  | VStruct of seq cv | VSlice of seq cv | VArr of seq cv
  | VUnexp of cv
  | VOther.

(** compile.go 49-86.  [addr]: the value is addressable (what a pointer or a slice leads to
    is, what an interface holds is not, fields and array elements inherit it); [ro]: it was
    reached through an unexported field.  CanSet is [addr && ~~ ro].  The result is the
    value after the assignments, the counters (pwCnt, wCnt), and whether this call returned
    an error; the recursive calls' errors are discarded, as in the code. *)
Fixpoint firstWalk (addr ro : bool) (v : cv) (st : nat * nat) : cv * (nat * nat) * bool :=
  let go := fix go (addr : bool) (l : seq cv) (st : nat * nat) : seq cv * (nat * nat) :=
    match l with
    | [::] => ([::], st)
    | u :: l => let: (u', st, _) := firstWalk addr ro u st in
                let: (l', st) := go addr l st in (u' :: l', st)
    end in
  match v with
  | VPub _ => if addr && ~~ ro then (VPub (idToPub (Z.of_nat st.1)), (st.1.+1, st.2), false) else (v, st, true)
  | VWit _ => if addr && ~~ ro then (VWit (idToWit (Z.of_nat st.2)), (st.1, st.2.+1), false) else (v, st, true)
  | VNil => (v, st, false)
  | VPtr u => let: (u', st, _) := firstWalk true ro u st in (VPtr u', st, false)
  | VIface u => let: (u', st, _) := firstWalk false ro u st in (VIface u', st, false)
  | VStruct l => let: (l', st) := go addr l st in (VStruct l', st, false)
  | VSlice l => let: (l', st) := go true l st in (VSlice l', st, false)
  | VArr l => let: (l', st) := go addr l st in (VArr l', st, false)
  | VUnexp u => let: (u', st, e) := firstWalk addr true u st in (VUnexp u', st, e)
  | VOther => (v, st, false)
  end.

(** the arrays pw and sw and the two counters *)
Record pst := Pst { ppw : seq (seq F); psw : seq (seq F); ppc : nat; pwc : nat }.

(** compile.go 89-126.  [None] is a panic: pw[w.pwCnt] out of range, or Interface() on a
    value reached through an unexported field.  The boolean is the error of this call. *)
Fixpoint prvWalk (rank : nat) (ro : bool) (v : cv) (st : pst) : option (pst * bool) :=
  let go := fix go (l : seq cv) (st : pst) : option pst :=
    match l with
    | [::] => Some st
    | u :: l => if prvWalk rank ro u st is Some (st, _) then go l st else None
    end in
  match v with
  | VPub x =>
    if ro || (size (ppw st) <= ppc st)%N then None else
    let pw := set_nth [::] (ppw st) (ppc st) x in
    if size x != rank then Some (Pst pw (psw st) (ppc st) (pwc st), true)
    else Some (Pst pw (psw st) (ppc st).+1 (pwc st), false)
  | VWit x =>
    if ro || (size (psw st) <= pwc st)%N then None else
    let sw := set_nth [::] (psw st) (pwc st) x in
    if size x != rank then Some (Pst (ppw st) sw (ppc st) (pwc st), true)
    else Some (Pst (ppw st) sw (ppc st) (pwc st).+1, false)
  | VNil | VOther => Some (st, false)
  | VPtr u | VIface u => if prvWalk rank ro u st is Some (st, _) then Some (st, false) else None
  | VStruct l | VSlice l | VArr l => if go l st is Some st then Some (st, false) else None
  | VUnexp u => prvWalk rank true u st
  end.

(** compile.go 129-158.  A Witness is walked as a slice of field elements, in which there is
    nothing to find. *)
Fixpoint vrfWalk (rank : nat) (ro : bool) (v : cv) (st : seq (seq F) * nat) : option (seq (seq F) * nat * bool) :=
  let go := fix go (l : seq cv) (st : seq (seq F) * nat) : option (seq (seq F) * nat) :=
    match l with
    | [::] => Some st
    | u :: l => if vrfWalk rank ro u st is Some (st, _) then go l st else None
    end in
  match v with
  | VPub x =>
    if ro || (size st.1 <= st.2)%N then None else
    let pw := set_nth [::] st.1 st.2 x in
    if size x != rank then Some (pw, st.2, true) else Some (pw, st.2.+1, false)
  | VWit _ | VNil | VOther => Some (st, false)
  | VPtr u | VIface u => if vrfWalk rank ro u st is Some (st, _) then Some (st, false) else None
  | VStruct l | VSlice l | VArr l => if go l st is Some st then Some (st, false) else None
  | VUnexp u => vrfWalk rank true u st
  end.

(** compile.go 165-173: the circuit is a pointer; the counters start at 0 *)
Definition compileWalk (c : cv) := firstWalk false false (VPtr c) (0, 0).

(** prover.go 48-68: the arrays of the context's sizes (the walk's counts plus what Define
    added), the walk, then zero vectors from the counters on.  [inl tt]: an error is
    returned; [None]: panic. *)
Definition zerosFrom (rank cnt total : nat) (a : seq (seq F)) : seq (seq F) :=
  take cnt a ++ nseq (total - cnt) (nseq rank 0%R).
Definition proveInputs (rank pwCnt wCnt : nat) (c : cv) : option (unit + seq (seq F) * seq (seq F)) :=
  if prvWalk rank false (VPtr c) (Pst (nseq pwCnt [::]) (nseq wCnt [::]) 0 0) is Some (st, err)
  then Some (if err then inl tt else
    inr (zerosFrom rank (ppc st) pwCnt (ppw st), zerosFrom rank (pwc st) wCnt (psw st)))
  else None.

(** verifier.go 36-47 *)
Definition verifyInputs (rank pwCnt : nat) (c : cv) : option (unit + seq (seq F)) :=
  if vrfWalk rank false (VPtr c) (nseq pwCnt [::], 0) is Some (st, err)
  then Some (if err then inl tt else inr (zerosFrom rank st.2 pwCnt st.1))
  else None.
End Walk.
Arguments VNil {F}. Arguments VOther {F}.
