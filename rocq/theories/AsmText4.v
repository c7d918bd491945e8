(** jindo/internal/zp/asm/element_4w/element_4w_amd64.s (examples/bfv/zp has the same file), lines 1-464,
    written by a script from the file; one definition per macro and per function. *)
From Coq Require Import ZArith.
From mathcomp Require Import all_ssreflect.
From Verif Require Import AsmModel.
Set Implicit Arguments. Unset Strict Implicit. Unset Printing Implicit Defensive.

(** 6-18 *)
Definition REDUCE (ra0 ra1 ra2 ra3 rb0 rb1 rb2 rb3 q0 q1 q2 q3 : opnd) : seq instr :=
  [:: MOVQ ra0 rb0; SUBQ q0 ra0; MOVQ ra1 rb1; SBBQ q1 ra1; MOVQ ra2 rb2; SBBQ q2 ra2; MOVQ ra3 rb3; SBBQ q3 ra3;
    CMOVQCS rb0 ra0; CMOVQCS rb1 ra1; CMOVQCS rb2 ra2; CMOVQCS rb3 ra3].
(** 234-237 *)
Definition MACC (in0 in1 in2 : opnd) : seq instr :=
  [:: ADCXQ in0 in1; MULXQ in2 AX in0; ADOXQ AX in1].
(** 239-251 *)
Definition DIV_SHIFT : seq instr :=
  [:: MOVQ cqInv DX; IMULQ R14 DX; XORQ AX AX; MULXQ (qE 0) AX R12; ADCXQ R14 AX; MOVQ R12 R14] ++
  MACC R13 R14 (qE 1) ++
  MACC CX R13 (qE 2) ++
  MACC BX CX (qE 3) ++
  [:: MOVQ imm0 AX; ADCXQ AX BX; ADOXQ BP BX].
(** 253-264 *)
Definition MUL_WORD_0 : seq instr :=
  [:: XORQ AX AX; MULXQ DI R14 R13; MULXQ R8 AX CX; ADOXQ AX R13; MULXQ R9 AX BX; ADOXQ AX CX; MULXQ R10 AX BP;
    ADOXQ AX BX; MOVQ imm0 AX; ADOXQ AX BP] ++
  DIV_SHIFT.
(** 266-276 *)
Definition MUL_WORD_N : seq instr :=
  [:: XORQ AX AX; MULXQ DI AX BP; ADOXQ AX R14] ++
  MACC BP R13 R8 ++
  MACC BP CX R9 ++
  MACC BP BX R10 ++
  [:: MOVQ imm0 AX; ADCXQ AX BP; ADOXQ AX BP] ++
  DIV_SHIFT.
(** 20-34 *)
Definition reduce : seq instr :=
  [:: MOVQ (FP 0) AX; MOVQ (At 0 AX) DX; MOVQ (At 1 AX) CX; MOVQ (At 2 AX) BX; MOVQ (At 3 AX) SI] ++
  REDUCE DX CX BX SI DI R8 R9 R10 (qE 0) (qE 1) (qE 2) (qE 3) ++
  [:: MOVQ DX (At 0 AX); MOVQ CX (At 1 AX); MOVQ BX (At 2 AX); MOVQ SI (At 3 AX)].
(** 37-63 *)
Definition MulBy3 : seq instr :=
  [:: MOVQ (FP 0) AX; MOVQ (At 0 AX) DX; MOVQ (At 1 AX) CX; MOVQ (At 2 AX) BX; MOVQ (At 3 AX) SI; ADDQ DX DX;
    ADCQ CX CX; ADCQ BX BX; ADCQ SI SI] ++
  REDUCE DX CX BX SI DI R8 R9 R10 (qE 0) (qE 1) (qE 2) (qE 3) ++
  [:: ADDQ (At 0 AX) DX; ADCQ (At 1 AX) CX; ADCQ (At 2 AX) BX; ADCQ (At 3 AX) SI] ++
  REDUCE DX CX BX SI R11 R12 R13 R14 (qE 0) (qE 1) (qE 2) (qE 3) ++
  [:: MOVQ DX (At 0 AX); MOVQ CX (At 1 AX); MOVQ BX (At 2 AX); MOVQ SI (At 3 AX)].
(** 66-100 *)
Definition MulBy5 : seq instr :=
  [:: MOVQ (FP 0) AX; MOVQ (At 0 AX) DX; MOVQ (At 1 AX) CX; MOVQ (At 2 AX) BX; MOVQ (At 3 AX) SI; ADDQ DX DX;
    ADCQ CX CX; ADCQ BX BX; ADCQ SI SI] ++
  REDUCE DX CX BX SI DI R8 R9 R10 (qE 0) (qE 1) (qE 2) (qE 3) ++
  [:: ADDQ DX DX; ADCQ CX CX; ADCQ BX BX; ADCQ SI SI] ++
  REDUCE DX CX BX SI R11 R12 R13 R14 (qE 0) (qE 1) (qE 2) (qE 3) ++
  [:: ADDQ (At 0 AX) DX; ADCQ (At 1 AX) CX; ADCQ (At 2 AX) BX; ADCQ (At 3 AX) SI] ++
  REDUCE DX CX BX SI DI R8 R9 R10 (qE 0) (qE 1) (qE 2) (qE 3) ++
  [:: MOVQ DX (At 0 AX); MOVQ CX (At 1 AX); MOVQ BX (At 2 AX); MOVQ SI (At 3 AX)].
(** 103-157 *)
Definition MulBy13 : seq instr :=
  [:: MOVQ (FP 0) AX; MOVQ (At 0 AX) DX; MOVQ (At 1 AX) CX; MOVQ (At 2 AX) BX; MOVQ (At 3 AX) SI; ADDQ DX DX;
    ADCQ CX CX; ADCQ BX BX; ADCQ SI SI] ++
  REDUCE DX CX BX SI DI R8 R9 R10 (qE 0) (qE 1) (qE 2) (qE 3) ++
  [:: ADDQ DX DX; ADCQ CX CX; ADCQ BX BX; ADCQ SI SI] ++
  REDUCE DX CX BX SI R11 R12 R13 R14 (qE 0) (qE 1) (qE 2) (qE 3) ++
  [:: MOVQ DX R11; MOVQ CX R12; MOVQ BX R13; MOVQ SI R14; ADDQ DX DX; ADCQ CX CX; ADCQ BX BX; ADCQ SI SI] ++
  REDUCE DX CX BX SI DI R8 R9 R10 (qE 0) (qE 1) (qE 2) (qE 3) ++
  [:: ADDQ R11 DX; ADCQ R12 CX; ADCQ R13 BX; ADCQ R14 SI] ++
  REDUCE DX CX BX SI DI R8 R9 R10 (qE 0) (qE 1) (qE 2) (qE 3) ++
  [:: ADDQ (At 0 AX) DX; ADCQ (At 1 AX) CX; ADCQ (At 2 AX) BX; ADCQ (At 3 AX) SI] ++
  REDUCE DX CX BX SI DI R8 R9 R10 (qE 0) (qE 1) (qE 2) (qE 3) ++
  [:: MOVQ DX (At 0 AX); MOVQ CX (At 1 AX); MOVQ BX (At 2 AX); MOVQ SI (At 3 AX)].
(** 160-205 *)
Definition Butterfly : seq instr :=
  [:: MOVQ (FP 0) R15; MOVQ (At 0 R15) DX; MOVQ (At 1 R15) CX; MOVQ (At 2 R15) BX; MOVQ (At 3 R15) SI; MOVQ DX DI;
    MOVQ CX R8; MOVQ BX R9; MOVQ SI R10; XORQ R15 R15; MOVQ (FP 1) AX; ADDQ (At 0 AX) DX; ADCQ (At 1 AX) CX;
    ADCQ (At 2 AX) BX; ADCQ (At 3 AX) SI; SUBQ (At 0 AX) DI; SBBQ (At 1 AX) R8; SBBQ (At 2 AX) R9;
    SBBQ (At 3 AX) R10; MOVQ (cq 0) R11; MOVQ (cq 1) R12; MOVQ (cq 2) R13; MOVQ (cq 3) R14; CMOVQCC R15 R11;
    CMOVQCC R15 R12; CMOVQCC R15 R13; CMOVQCC R15 R14; ADDQ R11 DI; ADCQ R12 R8; ADCQ R13 R9; ADCQ R14 R10;
    MOVQ DI (At 0 AX); MOVQ R8 (At 1 AX); MOVQ R9 (At 2 AX); MOVQ R10 (At 3 AX)] ++
  REDUCE DX CX BX SI DI R8 R9 R10 (qE 0) (qE 1) (qE 2) (qE 3) ++
  [:: MOVQ (FP 0) R15; MOVQ DX (At 0 R15); MOVQ CX (At 1 R15); MOVQ BX (At 2 R15); MOVQ SI (At 3 R15)].
(** 208-296, after the test of supportAdx *)
Definition mul : seq instr :=
  [:: MOVQ (FP 1) SI; MOVQ (At 0 SI) DI; MOVQ (At 1 SI) R8; MOVQ (At 2 SI) R9; MOVQ (At 3 SI) R10; MOVQ (FP 2) R11;
    MOVQ (At 0 R11) DX] ++
  MUL_WORD_0 ++
  [:: MOVQ (At 1 R11) DX] ++
  MUL_WORD_N ++
  [:: MOVQ (At 2 R11) DX] ++
  MUL_WORD_N ++
  [:: MOVQ (At 3 R11) DX] ++
  MUL_WORD_N ++
  REDUCE R14 R13 CX BX SI R12 R11 DI (qE 0) (qE 1) (qE 2) (qE 3) ++
  [:: MOVQ (FP 0) AX; MOVQ R14 (At 0 AX); MOVQ R13 (At 1 AX); MOVQ CX (At 2 AX); MOVQ BX (At 3 AX)].
(** one round of fromMont (332-357): the script found all 4 rounds to be the same text *)
Definition fromMont_round : seq instr :=
  [:: MOVQ cqInv DX; IMULQ R13 DX; XORQ AX AX; MULXQ (qE 0) AX BP; ADCXQ R13 AX; MOVQ BP R13; ADCXQ R14 R13;
    MULXQ (qE 1) AX R14; ADOXQ AX R13; ADCXQ CX R14; MULXQ (qE 2) AX CX; ADOXQ AX R14; ADCXQ BX CX;
    MULXQ (qE 3) AX BX; ADOXQ AX CX; MOVQ imm0 AX; ADCXQ AX BX; ADOXQ AX BX].
(** 308-454, after the test of supportAdx *)
Definition fromMont : seq instr :=
  [:: MOVQ (FP 0) DX; MOVQ (At 0 DX) R13; MOVQ (At 1 DX) R14; MOVQ (At 2 DX) CX; MOVQ (At 3 DX) BX; XORQ DX DX] ++
  fromMont_round ++
  [:: XORQ DX DX] ++
  fromMont_round ++
  [:: XORQ DX DX] ++
  fromMont_round ++
  [:: XORQ DX DX] ++
  fromMont_round ++
  REDUCE R13 R14 CX BX SI DI R8 R9 (qE 0) (qE 1) (qE 2) (qE 3) ++
  [:: MOVQ (FP 0) AX; MOVQ R13 (At 0 AX); MOVQ R14 (At 1 AX); MOVQ CX (At 2 AX); MOVQ BX (At 3 AX)].
