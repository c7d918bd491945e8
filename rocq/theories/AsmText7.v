(** buckler/internal/zp440/asm/element_7w/element_7w_amd64.s,
    written by a script from the file; one definition per macro and per function. *)
From Coq Require Import ZArith.
From mathcomp Require Import all_ssreflect.
From Verif Require Import AsmModel.
Set Implicit Arguments. Unset Strict Implicit. Unset Printing Implicit Defensive.

(** 6-27 *)
Definition REDUCE (ra0 ra1 ra2 ra3 ra4 ra5 ra6 rb0 rb1 rb2 rb3 rb4 rb5 rb6 q0 q1 q2 q3 q4 q5 q6 : opnd) : seq instr :=
  [:: MOVQ ra0 rb0; SUBQ q0 ra0; MOVQ ra1 rb1; SBBQ q1 ra1; MOVQ ra2 rb2; SBBQ q2 ra2; MOVQ ra3 rb3; SBBQ q3 ra3;
    MOVQ ra4 rb4; SBBQ q4 ra4; MOVQ ra5 rb5; SBBQ q5 ra5; MOVQ ra6 rb6; SBBQ q6 ra6; CMOVQCS rb0 ra0;
    CMOVQCS rb1 ra1; CMOVQCS rb2 ra2; CMOVQCS rb3 ra3; CMOVQCS rb4 ra4; CMOVQCS rb5 ra5; CMOVQCS rb6 ra6].
(** 335-338 *)
Definition MACC (in0 in1 in2 : opnd) : seq instr :=
  [:: ADCXQ in0 in1; MULXQ in2 AX in0; ADOXQ AX in1].
(** 340-355 *)
Definition DIV_SHIFT : seq instr :=
  [:: MOVQ cqInv DX; IMULQ R14 DX; XORQ AX AX; MULXQ (qE 0) AX R10; ADCXQ R14 AX; MOVQ R10 R14] ++
  MACC R13 R14 (qE 1) ++
  MACC CX R13 (qE 2) ++
  MACC BX CX (qE 3) ++
  MACC SI BX (qE 4) ++
  MACC DI SI (qE 5) ++
  MACC R8 DI (qE 6) ++
  [:: MOVQ imm0 AX; ADCXQ AX R8; ADOXQ BP R8].
(** 357-374 *)
Definition MUL_WORD_0 : seq instr :=
  [:: XORQ AX AX; MULXQ R11 R14 R13; MULXQ (At 1 R9) AX CX; ADOXQ AX R13; MULXQ (At 2 R9) AX BX; ADOXQ AX CX;
    MULXQ (At 3 R9) AX SI; ADOXQ AX BX; MULXQ (At 4 R9) AX DI; ADOXQ AX SI; MULXQ (At 5 R9) AX R8; ADOXQ AX DI;
    MULXQ (At 6 R9) AX BP; ADOXQ AX R8; MOVQ imm0 AX; ADOXQ AX BP] ++
  DIV_SHIFT.
(** 376-389 *)
Definition MUL_WORD_N : seq instr :=
  [:: XORQ AX AX; MULXQ R11 AX BP; ADOXQ AX R14] ++
  MACC BP R13 (At 1 R9) ++
  MACC BP CX (At 2 R9) ++
  MACC BP BX (At 3 R9) ++
  MACC BP SI (At 4 R9) ++
  MACC BP DI (At 5 R9) ++
  MACC BP R8 (At 6 R9) ++
  [:: MOVQ imm0 AX; ADCXQ AX BP; ADOXQ AX BP] ++
  DIV_SHIFT.
(** 29-49 *)
Definition reduce : seq instr :=
  [:: MOVQ (FP 0) AX; MOVQ (At 0 AX) DX; MOVQ (At 1 AX) CX; MOVQ (At 2 AX) BX; MOVQ (At 3 AX) SI; MOVQ (At 4 AX) DI;
    MOVQ (At 5 AX) R8; MOVQ (At 6 AX) R9] ++
  REDUCE DX CX BX SI DI R8 R9 R10 R11 R12 R13 R14 (Sl 0) (Sl 1) (qE 0) (qE 1) (qE 2) (qE 3) (qE 4) (qE 5) (qE 6) ++
  [:: MOVQ DX (At 0 AX); MOVQ CX (At 1 AX); MOVQ BX (At 2 AX); MOVQ SI (At 3 AX); MOVQ DI (At 4 AX);
    MOVQ R8 (At 5 AX); MOVQ R9 (At 6 AX)].
(** 52-90 *)
Definition MulBy3 : seq instr :=
  [:: MOVQ (FP 0) AX; MOVQ (At 0 AX) DX; MOVQ (At 1 AX) CX; MOVQ (At 2 AX) BX; MOVQ (At 3 AX) SI; MOVQ (At 4 AX) DI;
    MOVQ (At 5 AX) R8; MOVQ (At 6 AX) R9; ADDQ DX DX; ADCQ CX CX; ADCQ BX BX; ADCQ SI SI; ADCQ DI DI; ADCQ R8 R8;
    ADCQ R9 R9] ++
  REDUCE DX CX BX SI DI R8 R9 R10 R11 R12 R13 R14 (Sl 0) (Sl 1) (qE 0) (qE 1) (qE 2) (qE 3) (qE 4) (qE 5) (qE 6) ++
  [:: ADDQ (At 0 AX) DX; ADCQ (At 1 AX) CX; ADCQ (At 2 AX) BX; ADCQ (At 3 AX) SI; ADCQ (At 4 AX) DI;
    ADCQ (At 5 AX) R8; ADCQ (At 6 AX) R9] ++
  REDUCE DX CX BX SI DI R8 R9 R10 R11 R12 R13 R14 (Sl 0) (Sl 1) (qE 0) (qE 1) (qE 2) (qE 3) (qE 4) (qE 5) (qE 6) ++
  [:: MOVQ DX (At 0 AX); MOVQ CX (At 1 AX); MOVQ BX (At 2 AX); MOVQ SI (At 3 AX); MOVQ DI (At 4 AX);
    MOVQ R8 (At 5 AX); MOVQ R9 (At 6 AX)].
(** 93-142 *)
Definition MulBy5 : seq instr :=
  [:: MOVQ (FP 0) AX; MOVQ (At 0 AX) DX; MOVQ (At 1 AX) CX; MOVQ (At 2 AX) BX; MOVQ (At 3 AX) SI; MOVQ (At 4 AX) DI;
    MOVQ (At 5 AX) R8; MOVQ (At 6 AX) R9; ADDQ DX DX; ADCQ CX CX; ADCQ BX BX; ADCQ SI SI; ADCQ DI DI; ADCQ R8 R8;
    ADCQ R9 R9] ++
  REDUCE DX CX BX SI DI R8 R9 R10 R11 R12 R13 R14 (Sl 0) (Sl 1) (qE 0) (qE 1) (qE 2) (qE 3) (qE 4) (qE 5) (qE 6) ++
  [:: ADDQ DX DX; ADCQ CX CX; ADCQ BX BX; ADCQ SI SI; ADCQ DI DI; ADCQ R8 R8; ADCQ R9 R9] ++
  REDUCE DX CX BX SI DI R8 R9 R10 R11 R12 R13 R14 (Sl 0) (Sl 1) (qE 0) (qE 1) (qE 2) (qE 3) (qE 4) (qE 5) (qE 6) ++
  [:: ADDQ (At 0 AX) DX; ADCQ (At 1 AX) CX; ADCQ (At 2 AX) BX; ADCQ (At 3 AX) SI; ADCQ (At 4 AX) DI;
    ADCQ (At 5 AX) R8; ADCQ (At 6 AX) R9] ++
  REDUCE DX CX BX SI DI R8 R9 R10 R11 R12 R13 R14 (Sl 0) (Sl 1) (qE 0) (qE 1) (qE 2) (qE 3) (qE 4) (qE 5) (qE 6) ++
  [:: MOVQ DX (At 0 AX); MOVQ CX (At 1 AX); MOVQ BX (At 2 AX); MOVQ SI (At 3 AX); MOVQ DI (At 4 AX);
    MOVQ R8 (At 5 AX); MOVQ R9 (At 6 AX)].
(** 145-223 *)
Definition MulBy13 : seq instr :=
  [:: MOVQ (FP 0) AX; MOVQ (At 0 AX) DX; MOVQ (At 1 AX) CX; MOVQ (At 2 AX) BX; MOVQ (At 3 AX) SI; MOVQ (At 4 AX) DI;
    MOVQ (At 5 AX) R8; MOVQ (At 6 AX) R9; ADDQ DX DX; ADCQ CX CX; ADCQ BX BX; ADCQ SI SI; ADCQ DI DI; ADCQ R8 R8;
    ADCQ R9 R9] ++
  REDUCE DX CX BX SI DI R8 R9 R10 R11 R12 R13 R14 (Sl 0) (Sl 1) (qE 0) (qE 1) (qE 2) (qE 3) (qE 4) (qE 5) (qE 6) ++
  [:: ADDQ DX DX; ADCQ CX CX; ADCQ BX BX; ADCQ SI SI; ADCQ DI DI; ADCQ R8 R8; ADCQ R9 R9] ++
  REDUCE DX CX BX SI DI R8 R9 (Sl 2) (Sl 3) (Sl 4) (Sl 5) (Sl 6) (Sl 7) (Sl 8) (qE 0) (qE 1) (qE 2) (qE 3) (qE 4) (qE
    5) (qE 6) ++
  [:: MOVQ DX (Sl 2); MOVQ CX (Sl 3); MOVQ BX (Sl 4); MOVQ SI (Sl 5); MOVQ DI (Sl 6); MOVQ R8 (Sl 7); MOVQ R9 (Sl 8);
    ADDQ DX DX; ADCQ CX CX; ADCQ BX BX; ADCQ SI SI; ADCQ DI DI; ADCQ R8 R8; ADCQ R9 R9] ++
  REDUCE DX CX BX SI DI R8 R9 R10 R11 R12 R13 R14 (Sl 0) (Sl 1) (qE 0) (qE 1) (qE 2) (qE 3) (qE 4) (qE 5) (qE 6) ++
  [:: ADDQ (Sl 2) DX; ADCQ (Sl 3) CX; ADCQ (Sl 4) BX; ADCQ (Sl 5) SI; ADCQ (Sl 6) DI; ADCQ (Sl 7) R8;
    ADCQ (Sl 8) R9] ++
  REDUCE DX CX BX SI DI R8 R9 R10 R11 R12 R13 R14 (Sl 0) (Sl 1) (qE 0) (qE 1) (qE 2) (qE 3) (qE 4) (qE 5) (qE 6) ++
  [:: ADDQ (At 0 AX) DX; ADCQ (At 1 AX) CX; ADCQ (At 2 AX) BX; ADCQ (At 3 AX) SI; ADCQ (At 4 AX) DI;
    ADCQ (At 5 AX) R8; ADCQ (At 6 AX) R9] ++
  REDUCE DX CX BX SI DI R8 R9 R10 R11 R12 R13 R14 (Sl 0) (Sl 1) (qE 0) (qE 1) (qE 2) (qE 3) (qE 4) (qE 5) (qE 6) ++
  [:: MOVQ DX (At 0 AX); MOVQ CX (At 1 AX); MOVQ BX (At 2 AX); MOVQ SI (At 3 AX); MOVQ DI (At 4 AX);
    MOVQ R8 (At 5 AX); MOVQ R9 (At 6 AX)].
(** 226-264, before JCC *)
Definition Butterfly_a : seq instr :=
  [:: MOVQ (FP 1) AX; MOVQ (At 0 AX) DX; MOVQ (At 1 AX) CX; MOVQ (At 2 AX) BX; MOVQ (At 3 AX) SI; MOVQ (At 4 AX) DI;
    MOVQ (At 5 AX) R8; MOVQ (At 6 AX) R9; MOVQ (FP 0) AX; ADDQ (At 0 AX) DX; ADCQ (At 1 AX) CX; ADCQ (At 2 AX) BX;
    ADCQ (At 3 AX) SI; ADCQ (At 4 AX) DI; ADCQ (At 5 AX) R8; ADCQ (At 6 AX) R9; MOVQ DX R10; MOVQ CX R11;
    MOVQ BX R12; MOVQ SI R13; MOVQ DI R14; MOVQ R8 (Sl 0); MOVQ R9 (Sl 1); MOVQ (At 0 AX) DX; MOVQ (At 1 AX) CX;
    MOVQ (At 2 AX) BX; MOVQ (At 3 AX) SI; MOVQ (At 4 AX) DI; MOVQ (At 5 AX) R8; MOVQ (At 6 AX) R9; MOVQ (FP 1) AX;
    SUBQ (At 0 AX) DX; SBBQ (At 1 AX) CX; SBBQ (At 2 AX) BX; SBBQ (At 3 AX) SI; SBBQ (At 4 AX) DI; SBBQ (At 5 AX) R8;
    SBBQ (At 6 AX) R9].
(** 265-280, skipped when the carry flag is clear *)
Definition Butterfly_b : seq instr :=
  [:: MOVQ (cq 0) AX; ADDQ AX DX; MOVQ (cq 1) AX; ADCQ AX CX; MOVQ (cq 2) AX; ADCQ AX BX; MOVQ (cq 3) AX; ADCQ AX SI;
    MOVQ (cq 4) AX; ADCQ AX DI; MOVQ (cq 5) AX; ADCQ AX R8; MOVQ (cq 6) AX; ADCQ AX R9].
(** 281-309 *)
Definition Butterfly_c : seq instr :=
  [:: MOVQ (FP 1) AX; MOVQ DX (At 0 AX); MOVQ CX (At 1 AX); MOVQ BX (At 2 AX); MOVQ SI (At 3 AX); MOVQ DI (At 4 AX);
    MOVQ R8 (At 5 AX); MOVQ R9 (At 6 AX); MOVQ R10 DX; MOVQ R11 CX; MOVQ R12 BX; MOVQ R13 SI; MOVQ R14 DI;
    MOVQ (Sl 0) R8; MOVQ (Sl 1) R9] ++
  REDUCE DX CX BX SI DI R8 R9 R10 R11 R12 R13 R14 (Sl 0) (Sl 1) (qE 0) (qE 1) (qE 2) (qE 3) (qE 4) (qE 5) (qE 6) ++
  [:: MOVQ (FP 0) AX; MOVQ DX (At 0 AX); MOVQ CX (At 1 AX); MOVQ BX (At 2 AX); MOVQ SI (At 3 AX); MOVQ DI (At 4 AX);
    MOVQ R8 (At 5 AX); MOVQ R9 (At 6 AX)].
(** 312-418, after the test of supportAdx *)
Definition mul : seq instr :=
  [:: MOVQ (FP 1) R9; MOVQ (At 0 R9) R11; MOVQ (FP 2) R12; MOVQ (At 0 R12) DX] ++
  MUL_WORD_0 ++
  [:: MOVQ (At 1 R12) DX] ++
  MUL_WORD_N ++
  [:: MOVQ (At 2 R12) DX] ++
  MUL_WORD_N ++
  [:: MOVQ (At 3 R12) DX] ++
  MUL_WORD_N ++
  [:: MOVQ (At 4 R12) DX] ++
  MUL_WORD_N ++
  [:: MOVQ (At 5 R12) DX] ++
  MUL_WORD_N ++
  [:: MOVQ (At 6 R12) DX] ++
  MUL_WORD_N ++
  REDUCE R14 R13 CX BX SI DI R8 R10 R9 R12 R11 AX DX (Sl 0) (qE 0) (qE 1) (qE 2) (qE 3) (qE 4) (qE 5) (qE 6) ++
  [:: MOVQ (FP 0) AX; MOVQ R14 (At 0 AX); MOVQ R13 (At 1 AX); MOVQ CX (At 2 AX); MOVQ BX (At 3 AX);
    MOVQ SI (At 4 AX); MOVQ DI (At 5 AX); MOVQ R8 (At 6 AX)].
(** one round of fromMont (457-497): the script found all 7 rounds to be the same text *)
Definition fromMont_round : seq instr :=
  [:: MOVQ cqInv DX; IMULQ R13 DX; XORQ AX AX; MULXQ (qE 0) AX BP; ADCXQ R13 AX; MOVQ BP R13; ADCXQ R14 R13;
    MULXQ (qE 1) AX R14; ADOXQ AX R13; ADCXQ CX R14; MULXQ (qE 2) AX CX; ADOXQ AX R14; ADCXQ BX CX;
    MULXQ (qE 3) AX BX; ADOXQ AX CX; ADCXQ SI BX; MULXQ (qE 4) AX SI; ADOXQ AX BX; ADCXQ DI SI; MULXQ (qE 5) AX DI;
    ADOXQ AX SI; ADCXQ R8 DI; MULXQ (qE 6) AX R8; ADOXQ AX DI; MOVQ imm0 AX; ADCXQ AX R8; ADOXQ AX R8].
(** 430-774, after the test of supportAdx *)
Definition fromMont : seq instr :=
  [:: MOVQ (FP 0) DX; MOVQ (At 0 DX) R13; MOVQ (At 1 DX) R14; MOVQ (At 2 DX) CX; MOVQ (At 3 DX) BX; MOVQ (At 4 DX) SI;
    MOVQ (At 5 DX) DI; MOVQ (At 6 DX) R8; XORQ DX DX] ++
  fromMont_round ++
  [:: XORQ DX DX] ++
  fromMont_round ++
  [:: XORQ DX DX] ++
  fromMont_round ++
  [:: XORQ DX DX] ++
  fromMont_round ++
  [:: XORQ DX DX] ++
  fromMont_round ++
  [:: XORQ DX DX] ++
  fromMont_round ++
  [:: XORQ DX DX] ++
  fromMont_round ++
  REDUCE R13 R14 CX BX SI DI R8 R9 R10 R11 R12 DX AX (Sl 0) (qE 0) (qE 1) (qE 2) (qE 3) (qE 4) (qE 5) (qE 6) ++
  [:: MOVQ (FP 0) AX; MOVQ R13 (At 0 AX); MOVQ R14 (At 1 AX); MOVQ CX (At 2 AX); MOVQ BX (At 3 AX);
    MOVQ SI (At 4 AX); MOVQ DI (At 5 AX); MOVQ R8 (At 6 AX)].
