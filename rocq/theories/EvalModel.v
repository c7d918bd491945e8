(** Programs of calls to a bigpoly evaluator: every polynomial object has its own coefficients, an
    object may be input and output of the same call.  math/bigpoly/base_op.go 49-211 on VecModel.v. *)
From Coq Require ZArith.
From mathcomp Require Import all_ssreflect all_algebra.
From Verif Require Import UintModel BigpolyModel VecModel.
Set Implicit Arguments. Unset Strict Implicit. Unset Printing Implicit Defensive.

(** the calls; o, a, b are polynomial objects, c is a scalar, o is written *)
Inductive call :=
  | CAdd (o a b : nat) | CSub (o a b : nat) | CNeg (o a : nat)
  | CScal (o a c : nat) | CScalAdd (o a c : nat) | CScalSub (o a c : nat)
  | CMul (o a b : nat) | CMulAdd (o a b : nat) | CMulSub (o a b : nat)
  | CNTT (o a : nat) | CInvNTT (o a : nat).

Section Run.
Variables (F : fieldType) (T : transformer F) (rank : nat).
(** the slice of each object, the pointer of each scalar, the slice of the pooled polynomial *)
Variables (sl : nat -> slice) (sp : nat -> nat) (buf : slice).
(** the memory and the IsNTT flags *)
Definition state := (heap F * (nat -> bool))%type.
Definition setf (fl : nat -> bool) (o : nat) (b : bool) : nat -> bool := fun v => if v == o then b else fl v.
Definition reads (h : heap F) (s : slice) : seq F := [seq h a | a <- s].
Definition writes (h : heap F) (s : slice) (w : seq F) : heap F := foldl (fun h p => store h p.1 p.2) h (zip s w).
(** base_op.go 181-189 and 199-211: the transforms write all elements of pOut *)
Definition NTTObj (h : heap F) (pOut p : pobj) : option (heap F * bool) :=
  if ~~ unaryOperable rank pOut p then None else
  if pntt p then None else
  if FwdNTTTo T (reads h (pc pOut)) (reads h (pc p)) is Some w then Some (writes h (pc pOut) w, true) else None.
Definition InvNTTObj (h : heap F) (pOut p : pobj) : option (heap F * bool) :=
  if ~~ unaryOperable rank pOut p then None else
  if ~~ pntt p then None else
  if InvNTTTo T (reads h (pc pOut)) (reads h (pc p)) is Some w then Some (writes h (pc pOut) w, false) else None.
(** one call; None is a panic *)
Definition step (s : state) (i : call) : option state :=
  let: (h, fl) := s in
  let ob v := Pobj (sl v) (fl v) in
  let upd o r := if r is Some hb then Some (hb.1, setf fl o hb.2) else None in
  match i with
  | CAdd o a b => upd o (AddTo rank h (ob o) (ob a) (ob b))
  | CSub o a b => upd o (SubTo rank h (ob o) (ob a) (ob b))
  | CNeg o a => upd o (NegTo rank h (ob o) (ob a))
  | CScal o a c => upd o (ScalarMulTo rank h (ob o) (ob a) (sp c))
  | CScalAdd o a c => upd o (ScalarMulAddTo rank h buf (ob o) (ob a) (sp c))
  | CScalSub o a c => upd o (ScalarMulSubTo rank h buf (ob o) (ob a) (sp c))
  | CMul o a b => upd o (MulTo rank h (ob o) (ob a) (ob b))
  | CMulAdd o a b => upd o (MulAddTo rank h buf (ob o) (ob a) (ob b))
  | CMulSub o a b => upd o (MulSubTo rank h buf (ob o) (ob a) (ob b))
  | CNTT o a => upd o (NTTObj h (ob o) (ob a))
  | CInvNTT o a => upd o (InvNTTObj h (ob o) (ob a))
  end.
Fixpoint run (p : seq call) (s : state) : option state :=
  if p is i :: p' then if step s i is Some s' then run p' s' else None else Some s.
End Run.

(** Programs of the cyclotomic evaluator, which also has AutTo (cyclotomic.go 29-82). *)
Inductive ccall := CBase (i : call) | CAut (o a : nat) (idx : ZArith.BinInt.Z).

Section CRun.
Variables (F : fieldType) (T : transformer F) (rank : nat).
Variables (sl : nat -> slice) (sp : nat -> nat) (buf : slice).
(** AutTo of BigpolyModel.v on the heap.  In both branches p is read into the pooled polynomial before pOut
    is written, so pOut may be p.  The pooled polynomial keeps the permuted coefficients (54-59), resp. the
    bit-reversed values (71-72; the rank is a multiple of 8, so CopyFrom copies all of them).  bitReverseInPlace
    swaps the pointers of the elements; here it swaps the values, which differs only in the addresses of the
    elements within one object. *)
Definition AutObj (h : heap F) (pOut p : pobj) (idx : ZArith.BinInt.Z) : option (heap F * bool) :=
  let b := reads h buf in
  if AutTo rank b (Poly_t (reads h (pc pOut)) (pntt pOut)) (Poly_t (reads h (pc p)) (pntt p)) idx is Some q then
    let b' := if pntt p then bitReverseInPlace 0%R (reads h (pc p)) else autTo rank b (reads h (pc p)) (normIdx rank idx) in
    Some (writes (writes h buf b') (pc pOut) (coeffs q), isNTT q)
  else None.
Definition cstep (s : state F) (i : ccall) : option (state F) :=
  match i with
  | CBase i => step T rank sl sp buf s i
  | CAut o a idx =>
    let: (h, fl) := s in
    if AutObj h (Pobj (sl o) (fl o)) (Pobj (sl a) (fl a)) idx is Some hb then Some (hb.1, setf fl o hb.2) else None
  end.
Fixpoint crun (p : seq ccall) (s : state F) : option (state F) :=
  if p is i :: p' then if cstep s i is Some s' then crun p' s' else None else Some s.
End CRun.
