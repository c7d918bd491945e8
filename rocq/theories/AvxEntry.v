(** vector_amd64.go of jindo/internal/zp and examples/bfv/zp (the same text): the methods of Vector
    that the amd64 build replaces, around the programs of AvxText.v.  Mul and ScalarMul, whose
    programs (element_4w_amd64.s from line 1050) are not transcribed, are left out.

    A vector is a pointer and a length.  The machine at the call is arbitrary; the results of Sum
    and InnerProduct are stored at the pointer [res]. *)
From Coq Require Import ZArith.
From mathcomp Require Import all_ssreflect zify ssrZ.
From Verif Require Import JindoIntModel ZpModel ZpConst VectorModel AsmModel AsmEntry AvxModel AvxText.
Set Implicit Arguments. Unset Strict Implicit. Unset Printing Implicit Defensive.
Delimit Scope Z_scope with Z.

(** element.go 75 of the two packages *)
Definition mu (g : gen) : Z := (if (nth 0 (qs g) 0 =? 1) then 16397932919 else 547881326230805)%Z.

Section Entry.
Variables (g : gen) (junk : Z -> Z -> Z -> Z) (s : vst).
Definition vec : Type := (Z * nat)%type.
(** the elements of a vector *)
Definition elems (m : memory) (v : vec) : seq (seq Z) := mkseq (fun i => m (v.1 + 32 * Z.of_nat i)%Z) v.2.

(** element_4w_amd64.s 465-506 *)
Definition asm_addVec (res a b n : Z) : option vst :=
  let e := callEnv g junk [:: res; a; b; n] in
  loop e (Z.to_nat n) BX addVec_body (vexec e addVec_head s).
(** 509-567 *)
Definition asm_subVec (res a b n : Z) : option vst :=
  let e := callEnv g junk [:: res; a; b; n] in
  loop e (Z.to_nat n) BX subVec_body (vexec e subVec_head s).
(** 652-777 *)
Definition sumVec_tail (e : env) (s : vst) : vst :=
  vexec e sumVec_end
    (jcs (fun s => jcs (vexec e sumVec_last) (vexec e sumVec_sub2 s))
       (vexec e sumVec_sub1 (vexec e (sumVec_barrett (mu g)) (vexec e sumVec_carry (vexec e sumVec_gather s))))).
(** 570-777 *)
Definition asm_sumVec (res a n : Z) : option vst :=
  let e := callEnv g junk [:: res; a; n] in
  if loop e (Z.to_nat n) CX sumVec_one (vexec e sumVec_head s) is Some s then
    if loop e (Z.to_nat n) R14 sumVec_eight s is Some s then Some (sumVec_tail e s) else None
  else None.
(** 833-1048 *)
Definition innerProd_tail (e : env) (s : vst) : vst :=
  let s := vexec e innerProd_low (vexec e innerProd_acc s) in
  let s := vexec e innerProd_m3 (vexec e innerProd_m2 (vexec e innerProd_m1 (vexec e innerProd_m0 s))) in
  let s := vexec e innerProd_sub1 (vexec e (innerProd_barrett (mu g)) (vexec e innerProd_high s)) in
  jcs (fun s => jcs (vexec e innerProd_last) (vexec e innerProd_sub2 s)) s.
(** 780-1048 *)
Definition asm_innerProdVec (res a b n : Z) : option vst :=
  let e := callEnv g junk [:: res; a; b; n] in
  let s := testq (vexec e innerProd_head s) in
  if (getr (sc s) CX =? 0)%Z then Some s else
  if loop e (Z.to_nat n) CX innerProd_body s is Some s then Some (innerProd_tail e s) else None.

(** vector_amd64.go 17-23 and 30-35: None is a panic, on an empty vector that of taking the address of its first element *)
Definition amd_Add (vector a b : vec) : option memory :=
  if (a.2 != b.2) || (a.2 != vector.2) then None else
  if (vector.2 == 0)%N then None else
  omap (fun s => mem (sc s)) (asm_addVec vector.1 a.1 b.1 (Z.of_nat a.2)).
Definition amd_Sub (vector a b : vec) : option memory :=
  if (a.2 != b.2) || (a.2 != vector.2) then None else
  if (vector.2 == 0)%N then None else
  omap (fun s => mem (sc s)) (asm_subVec vector.1 a.1 b.1 (Z.of_nat a.2)).
(** 74-88 *)
Definition amd_Sum (supportAVX512 : bool) (res : Z) (vector : vec) : option (seq Z) :=
  if (vector.2 == 0)%N then Some (nseq (Limbs g) 0%Z) else
  if ~~ supportAVX512 || (vector.2 <= 16 * 7)%N || (2 ^ 32 - 1 <=? Z.of_nat vector.2)%Z
  then Some (sumVec g (elems (mem (sc s)) vector))
  else omap (fun s => mem (sc s) res) (asm_sumVec res vector.1 (Z.of_nat vector.2)).
(** 95-113 *)
Definition amd_InnerProduct (supportAVX512 : bool) (res : Z) (vector other : vec) : option (seq Z) :=
  if (vector.2 == 0)%N then Some (nseq (Limbs g) 0%Z) else
  if vector.2 != other.2 then None else
  if ~~ supportAVX512 || (2 ^ 32 - 1 <=? Z.of_nat vector.2)%Z
  then innerProductVec g (elems (mem (sc s)) vector) (elems (mem (sc s)) other)
  else omap (fun s => mem (sc s) res) (asm_innerProdVec res vector.1 other.1 (Z.of_nat vector.2)).
End Entry.
