(** The unrolled text of examples/mult/zp, word by word, continued: Halve, Select, NotEqual,
    FitsOnOneWord, Cmp, BitLen.  One let per assignment; montReduceSigned
    is cut into its rounds.  The theorems say that the recursions of the model are these texts. *)
From Coq Require Import ZArith.
From mathcomp Require Import all_ssreflect.
From Verif Require Import JindoIntModel ZpModel ElemModel ZpUnrolledTac.
Set Implicit Arguments. Unset Strict Implicit. Unset Printing Implicit Defensive.
Delimit Scope Z_scope with Z.
Section Text.
Variables q0 q1 qInvNeg : Z.
(** element.go 331-333 *)
Definition smaller (z_0 z_1 : Z) : bool := ((z_1 <? q1)%Z || ((z_1 =? q1)%Z && ((z_0 <? q0)%Z))).
(** element.go 204-206 *)
Definition notEqual (z_0 z_1 x_0 x_1 : Z) : Z := (Z.lor (Z.lxor z_1 x_1) (Z.lxor z_0 x_0)).
(** element.go 233-235 *)
Definition fitsOnOneWord (z_0 z_1 : Z) : bool := (z_1 =? 0)%Z.
(** element.go 242-256, from the third line on *)
Definition cmp (z_0 z_1 x_0 x_1 : Z) : Z :=
  if (x_1 <? z_1)%Z then 1%Z else if (z_1 <? x_1)%Z then (-1)%Z else
  if (x_0 <? z_0)%Z then 1%Z else if (z_0 <? x_0)%Z then (-1)%Z else 0%Z.
(** element.go 601-606 *)
Definition bitLen_ (z_0 z_1 : Z) : nat :=
  if ~~ (z_1 =? 0)%Z then (64 + bitLen z_1)%N else bitLen z_0.
(** element.go 448-453; x0 is x, x1 is y *)
Definition select (c : Z) (x_0 x_1 y_0 y_1 : Z) : seq Z :=
  let cC := (Z.shiftr (Z.lor c (toInt64 (- c))) 63 mod W)%Z in
  let z_0 := Z.lxor x_0 (Z.land cC (Z.lxor x_0 y_0)) in
  let z_1 := Z.lxor x_1 (Z.land cC (Z.lxor x_1 y_1)) in
  [:: z_0; z_1].
(** element.go 343-362 *)
Definition halve (z_0 z_1 : Z) : seq Z :=
  let carry := 0%Z in
  let: (z_0, z_1, carry) := if (Z.land z_0 1 =? 1)%Z then
  let: (z_0, carry) := Add64 z_0 q0 0%Z in
  let: (z_1, carry) := Add64 z_1 q1 carry in
  (z_0, z_1, carry) else
  (z_0, z_1, carry) in
  let z_0 := Z.lor (Z.shiftr z_0 1) (Z.shiftl z_1 63 mod W)%Z in
  let z_1 := Z.shiftr z_1 1 in
  if ~~ (carry =? 0)%Z then
  let z_1 := Z.lor z_1 (2 ^ 63)%Z in
  [:: z_0; z_1] else
  [:: z_0; z_1].
End Text.
Lemma less2 q0 q1 x0 x1 : less [:: x0; x1] [:: q0; q1] = smaller q0 q1 x0 x1.
Proof. by rewrite /less /smaller /= andbF orbF. Qed.
Theorem textMult_NotEqual x0 x1 y0 y1 :
  NotEqual [:: x0; x1] [:: y0; y1] =
  notEqual x0 x1 y0 y1.
Proof. rewrite /NotEqual /notEqual; cbn [zip map foldr fst snd]; by rewrite Z.lor_0_r (Z.lor_comm (Z.lxor x0 _) _). Qed.
Theorem textMult_FitsOnOneWord x0 x1 :
  FitsOnOneWord [:: x0; x1] =
  fitsOnOneWord x0 x1.
Proof. rewrite /FitsOnOneWord /fitsOnOneWord; cbn [behead foldr]; by rewrite Z.lor_0_r . Qed.
Theorem textMult_cmpLimbs x0 x1 y0 y1 :
  cmpLimbs [:: x0; x1] [:: y0; y1] =
  cmp x0 x1 y0 y1.
Proof. by rewrite /cmpLimbs /cmp; cbn [zip foldl fst snd]. Qed.
Theorem textMult_BitLen x0 x1 :
  BitLenWords [:: x0; x1] =
  bitLen_ x0 x1.
Proof. rewrite /BitLenWords /bitLen_; cbn [zip foldl fst snd size iota]; case: (x1 =? 0)%Z; [|by []]; by rewrite /bitLen; case: (x0 =? 0)%Z. Qed.
Theorem textMult_Select c x0 x1 y0 y1 :
  Select c [:: x0; x1] [:: y0; y1] =
  select c x0 x1 y0 y1.
Proof. by []. Qed.
Theorem textMult_Halve q0 q1 qi r one co k x0 x1 :
  Halve (Gen [:: q0; q1] qi r one co k true true) [:: x0; x1] =
  halve q0 q1 x0 x1.
Proof. halving. Qed.
