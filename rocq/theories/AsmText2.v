(** buckler/internal/zp110/asm/element_2w/element_2w_amd64.s,
    written by a script from the file; one definition per macro and per function. *)
From Coq Require Import ZArith.
From mathcomp Require Import all_ssreflect.
From Verif Require Import AsmModel.
Set Implicit Arguments. Unset Strict Implicit. Unset Printing Implicit Defensive.

(** 6-12 *)
Definition REDUCE (ra0 ra1 rb0 rb1 q0 q1 : opnd) : seq instr :=
  [:: MOVQ ra0 rb0; SUBQ q0 ra0; MOVQ ra1 rb1; SBBQ q1 ra1; CMOVQCS rb0 ra0; CMOVQCS rb1 ra1].
(** 166-169 *)
Definition MACC (in0 in1 in2 : opnd) : seq instr :=
  [:: ADCXQ in0 in1; MULXQ in2 AX in0; ADOXQ AX in1].
(** 171-181 *)
Definition DIV_SHIFT : seq instr :=
  [:: MOVQ cqInv DX; IMULQ R14 DX; XORQ AX AX; MULXQ (qE 0) AX R8; ADCXQ R14 AX; MOVQ R8 R14] ++
  MACC R13 R14 (qE 1) ++
  [:: MOVQ imm0 AX; ADCXQ AX R13; ADOXQ BP R13].
(** 183-190 *)
Definition MUL_WORD_0 : seq instr :=
  [:: XORQ AX AX; MULXQ BX R14 R13; MULXQ SI AX BP; ADOXQ AX R13; MOVQ imm0 AX; ADOXQ AX BP] ++
  DIV_SHIFT.
(** 192-200 *)
Definition MUL_WORD_N : seq instr :=
  [:: XORQ AX AX; MULXQ BX AX BP; ADOXQ AX R14] ++
  MACC BP R13 SI ++
  [:: MOVQ imm0 AX; ADCXQ AX BP; ADOXQ AX BP] ++
  DIV_SHIFT.
(** 14-24 *)
Definition reduce : seq instr :=
  [:: MOVQ (FP 0) AX; MOVQ (At 0 AX) DX; MOVQ (At 1 AX) CX] ++
  REDUCE DX CX BX SI (qE 0) (qE 1) ++
  [:: MOVQ DX (At 0 AX); MOVQ CX (At 1 AX)].
(** 27-45 *)
Definition MulBy3 : seq instr :=
  [:: MOVQ (FP 0) AX; MOVQ (At 0 AX) DX; MOVQ (At 1 AX) CX; ADDQ DX DX; ADCQ CX CX] ++
  REDUCE DX CX BX SI (qE 0) (qE 1) ++
  [:: ADDQ (At 0 AX) DX; ADCQ (At 1 AX) CX] ++
  REDUCE DX CX DI R8 (qE 0) (qE 1) ++
  [:: MOVQ DX (At 0 AX); MOVQ CX (At 1 AX)].
(** 48-72 *)
Definition MulBy5 : seq instr :=
  [:: MOVQ (FP 0) AX; MOVQ (At 0 AX) DX; MOVQ (At 1 AX) CX; ADDQ DX DX; ADCQ CX CX] ++
  REDUCE DX CX BX SI (qE 0) (qE 1) ++
  [:: ADDQ DX DX; ADCQ CX CX] ++
  REDUCE DX CX DI R8 (qE 0) (qE 1) ++
  [:: ADDQ (At 0 AX) DX; ADCQ (At 1 AX) CX] ++
  REDUCE DX CX R9 R10 (qE 0) (qE 1) ++
  [:: MOVQ DX (At 0 AX); MOVQ CX (At 1 AX)].
(** 75-113 *)
Definition MulBy13 : seq instr :=
  [:: MOVQ (FP 0) AX; MOVQ (At 0 AX) DX; MOVQ (At 1 AX) CX; ADDQ DX DX; ADCQ CX CX] ++
  REDUCE DX CX BX SI (qE 0) (qE 1) ++
  [:: ADDQ DX DX; ADCQ CX CX] ++
  REDUCE DX CX DI R8 (qE 0) (qE 1) ++
  [:: MOVQ DX DI; MOVQ CX R8; ADDQ DX DX; ADCQ CX CX] ++
  REDUCE DX CX BX SI (qE 0) (qE 1) ++
  [:: ADDQ DI DX; ADCQ R8 CX] ++
  REDUCE DX CX BX SI (qE 0) (qE 1) ++
  [:: ADDQ (At 0 AX) DX; ADCQ (At 1 AX) CX] ++
  REDUCE DX CX BX SI (qE 0) (qE 1) ++
  [:: MOVQ DX (At 0 AX); MOVQ CX (At 1 AX)].
(** 116-143 *)
Definition Butterfly : seq instr :=
  [:: MOVQ (FP 0) R15; MOVQ (At 0 R15) DX; MOVQ (At 1 R15) CX; MOVQ DX BX; MOVQ CX SI; XORQ R15 R15; MOVQ (FP 1) AX;
    ADDQ (At 0 AX) DX; ADCQ (At 1 AX) CX; SUBQ (At 0 AX) BX; SBBQ (At 1 AX) SI; MOVQ (cq 0) DI; MOVQ (cq 1) R8;
    CMOVQCC R15 DI; CMOVQCC R15 R8; ADDQ DI BX; ADCQ R8 SI; MOVQ BX (At 0 AX); MOVQ SI (At 1 AX)] ++
  REDUCE DX CX BX SI (qE 0) (qE 1) ++
  [:: MOVQ (FP 0) R15; MOVQ DX (At 0 R15); MOVQ CX (At 1 R15)].
(** 146-214, after the test of supportAdx *)
Definition mul : seq instr :=
  [:: MOVQ (FP 1) CX; MOVQ (At 0 CX) BX; MOVQ (At 1 CX) SI; MOVQ (FP 2) DI; MOVQ (At 0 DI) DX] ++
  MUL_WORD_0 ++
  [:: MOVQ (At 1 DI) DX] ++
  MUL_WORD_N ++
  REDUCE R14 R13 R9 R10 (qE 0) (qE 1) ++
  [:: MOVQ (FP 0) AX; MOVQ R14 (At 0 AX); MOVQ R13 (At 1 AX)].
(** one round of fromMont (248-263): the script found all 2 rounds to be the same text *)
Definition fromMont_round : seq instr :=
  [:: MOVQ cqInv DX; IMULQ R13 DX; XORQ AX AX; MULXQ (qE 0) AX BP; ADCXQ R13 AX; MOVQ BP R13; ADCXQ R14 R13;
    MULXQ (qE 1) AX R14; ADOXQ AX R13; MOVQ imm0 AX; ADCXQ AX R14; ADOXQ AX R14].
(** 226-290, after the test of supportAdx *)
Definition fromMont : seq instr :=
  [:: MOVQ (FP 0) DX; MOVQ (At 0 DX) R13; MOVQ (At 1 DX) R14; XORQ DX DX] ++
  fromMont_round ++
  [:: XORQ DX DX] ++
  fromMont_round ++
  REDUCE R13 R14 CX BX (qE 0) (qE 1) ++
  [:: MOVQ (FP 0) AX; MOVQ R13 (At 0 AX); MOVQ R14 (At 1 AX)].
