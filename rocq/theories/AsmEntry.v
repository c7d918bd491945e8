(** The functions that element_amd64.go and element_arm64.go declare without a body, as Go code
    sees them: the programs of AsmText*.v and ArmText*.v run on the memory of the caller, from
    arbitrary contents of registers, flags and frame.  zp110 has two words, jindo/internal/zp and
    examples/bfv/zp four (the same files), zp440 seven; the other packages have no assembly. *)
From Coq Require Import ZArith.
From mathcomp Require Import all_ssreflect zify ssrZ.
From Verif Require Import JindoIntModel ZpModel ZpConst AsmModel AsmText2 AsmText4 AsmText7 ArmText2 ArmText4.
Set Implicit Arguments. Unset Strict Implicit. Unset Printing Implicit Defensive.
Delimit Scope Z_scope with Z.

(** the words of MulBy13, element_purego.go 26-29 of zp110, 26-31 of jindo/internal/zp and
    examples/bfv/zp, 26-34 of zp440 *)
Definition thirteenM (g : gen) : seq Z :=
  match Limbs g with
  | 2%N => [:: 14781150427581278322; 7304965095100]
  | 4%N =>
    if (nth 0 (qs g) 0 =? 1) then [:: 18446744073709551567; 13060621202776610126; 17977528907282356895; 3059542435078888372]
    else [:: 4983795937637216810; 4957760211019898909; 18055971042978149671; 43934779568091]
  | _ => [:: 18446744073709545417; 10740819892753137663; 3740184575741202493; 620165582820036886; 6311242946064028990;
             956792027910969390; 17339628691949226]
  end%Z.

Section Amd64.
(** the package, ·supportAdx (element_amd64.go 15), the flags nobody reads, the machine at the call *)
Variables (g : gen) (supportAdx : bool) (junk : Z -> Z -> Z -> Z) (s : st).
Definition callEnv (args : seq Z) : env := Env (qs g) (qInvNeg g) args junk.
Definition pick (T : Type) (a b c : T) : T := match Limbs g with 2%N => a | 4%N => b | _ => c end.
Definition run (args : seq Z) (a b c : seq instr) : memory := mem (exec (callEnv args) (pick a b c) s).
(** element_2w_amd64.s 146-224, 4w 208-306, 7w 312-428: without ADX the function _mulGeneric is called *)
Definition amd_mul (res x y : Z) : memory :=
  if supportAdx then run [:: res; x; y] AsmText2.mul AsmText4.mul AsmText7.mul
  else put (mem s) res (mulGeneric g (mem s x) (mem s y)).
(** element_amd64.go 46-53, 58-62 *)
Definition amd_Mul (z x y : Z) : memory := amd_mul z x y.
Definition amd_Square (z x : Z) : memory := amd_mul z x x.
(** 2w 226-296, 4w 308-460, 7w 430-780: without ADX the function _fromMontGeneric is called *)
Definition amd_fromMont (res : Z) : memory :=
  if supportAdx then run [:: res] AsmText2.fromMont AsmText4.fromMont AsmText7.fromMont
  else put (mem s) res (ZpModel.fromMont g (mem s res)).
(** 2w 14-24, 4w 20-34, 7w 29-49 *)
Definition amd_reduce (res : Z) : memory := run [:: res] AsmText2.reduce AsmText4.reduce AsmText7.reduce.
(** 2w 27-45, 4w 37-63, 7w 52-90 *)
Definition amd_MulBy3 (x : Z) : memory := run [:: x] AsmText2.MulBy3 AsmText4.MulBy3 AsmText7.MulBy3.
(** 2w 48-72, 4w 66-100, 7w 93-142 *)
Definition amd_MulBy5 (x : Z) : memory := run [:: x] AsmText2.MulBy5 AsmText4.MulBy5 AsmText7.MulBy5.
(** 2w 75-113, 4w 103-157, 7w 145-223 *)
Definition amd_MulBy13 (x : Z) : memory := run [:: x] AsmText2.MulBy13 AsmText4.MulBy13 AsmText7.MulBy13.
(** 2w 116-143, 4w 160-205, 7w 226-309 *)
Definition amd_Butterfly (a b : Z) : memory :=
  let e := callEnv [:: a; b] in
  mem (pick (exec e AsmText2.Butterfly s) (exec e AsmText4.Butterfly s)
            (exec e AsmText7.Butterfly_c (execCS e AsmText7.Butterfly_b (exec e AsmText7.Butterfly_a s)))).
End Amd64.

Section Arm64.
Variables (g : gen) (junk : Z -> Z -> Z -> Z) (s : xst).
Definition runx (args : seq Z) (a b : seq xinstr) : memory :=
  xmem (execx (callEnv g junk args) (if Limbs g == 2%N then a else b) s).
(** element_2w_arm64.s 38-90, 4w 55-140 *)
Definition arm_mul (res x y : Z) : memory := runx [:: res; x; y] ArmText2.mul ArmText4.mul.
(** element_arm64.go 28-31, 36-40 *)
Definition arm_Mul (z x y : Z) : memory := arm_mul z x y.
Definition arm_Square (z x : Z) : memory := arm_mul z x x.
(** 2w 93-106, 4w 143-163 *)
Definition arm_reduce (res : Z) : memory := runx [:: res] ArmText2.reduce ArmText4.reduce.
(** 2w 8-33, 4w 8-50 *)
Definition arm_Butterfly (a b : Z) : memory := runx [:: a; b] ArmText2.Butterfly ArmText4.Butterfly.
End Arm64.
