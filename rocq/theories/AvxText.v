(** The vector routines of jindo/internal/zp/asm/element_4w/element_4w_amd64.s (the same file in
    examples/bfv/zp): addVec, subVec, sumVec, innerProdVec; produced from the text of that file,
    whose lines are cited.  Labels and jumps are in AvxEntry.v.  [mu] is the constant mu of
    element.go 75. *)
From Coq Require Import ZArith.
From mathcomp Require Import all_ssreflect.
From Verif Require Import AsmModel AvxModel.
Set Implicit Arguments. Unset Strict Implicit. Unset Printing Implicit Defensive.
#[local] Arguments cons {T} & _ _.
(** 466-469 *)
Definition addVec_head : seq vinstr :=
  [:: MOVQ (FP 0) CX; MOVQ (FP 1) AX; MOVQ (FP 2) DX; MOVQ (FP 3) BX].
(** 479-502 *)
Definition addVec_body : seq vinstr :=
  [:: MOVQ (At 0 AX) SI; MOVQ (At 1 AX) DI; MOVQ (At 2 AX) R8; MOVQ (At 3 AX) R9; ADDQ (At 0 DX) SI;
      ADCQ (At 1 DX) DI; ADCQ (At 2 DX) R8; ADCQ (At 3 DX) R9; MOVQ SI R10; SUBQ (qE 0) SI; MOVQ DI R11;
      SBBQ (qE 1) DI; MOVQ R8 R12; SBBQ (qE 2) R8; MOVQ R9 R13; SBBQ (qE 3) R9; CMOVQCS R10 SI; CMOVQCS R11 DI;
      CMOVQCS R12 R8; CMOVQCS R13 R9; MOVQ SI (At 0 CX); MOVQ DI (At 1 CX); MOVQ R8 (At 2 CX); MOVQ R9 (At 3 CX);
      ADDI 32 AX; ADDI 32 DX; ADDI 32 CX; DECQ BX].
(** 510-514 *)
Definition subVec_head : seq vinstr :=
  [:: MOVQ (FP 0) CX; MOVQ (FP 1) AX; MOVQ (FP 2) DX; MOVQ (FP 3) BX; XORQ SI SI].
(** 524-563 *)
Definition subVec_body : seq vinstr :=
  [:: MOVQ (At 0 AX) DI; MOVQ (At 1 AX) R8; MOVQ (At 2 AX) R9; MOVQ (At 3 AX) R10; SUBQ (At 0 DX) DI;
      SBBQ (At 1 DX) R8; SBBQ (At 2 DX) R9; SBBQ (At 3 DX) R10; MOVQ (cq 0) R11; MOVQ (cq 1) R12; MOVQ (cq 2) R13;
      MOVQ (cq 3) R14; CMOVQCC SI R11; CMOVQCC SI R12; CMOVQCC SI R13; CMOVQCC SI R14; ADDQ R11 DI; ADCQ R12 R8;
      ADCQ R13 R9; ADCQ R14 R10; MOVQ DI (At 0 CX); MOVQ R8 (At 1 CX); MOVQ R9 (At 2 CX); MOVQ R10 (At 3 CX);
      ADDI 32 AX; ADDI 32 DX; ADDI 32 CX; DECQ BX].
(** 598-615 *)
Definition sumVec_head : seq vinstr :=
  [:: MOVQ (FP 1) R13; MOVQ (FP 2) R14; VPXORQ 0 0 0; VMOVDQA64 0 1; VMOVDQA64 0 2; VMOVDQA64 0 3; VMOVDQA64 0 4;
      VMOVDQA64 0 5; VMOVDQA64 0 6; VMOVDQA64 0 7; MOVQ R14 CX; ANDI 7 CX; SHRI 3 R14].
(** 620-623 *)
Definition sumVec_one : seq vinstr :=
  [:: VPMOVZXDQm 0 R13 8; VPADDQ 8 0 0; ADDI 32 R13; DECQ CX].
(** 629-649 *)
Definition sumVec_eight : seq vinstr :=
  [:: VPMOVZXDQm 0 R13 8; VPMOVZXDQm 1 R13 9; VPMOVZXDQm 2 R13 10; VPMOVZXDQm 3 R13 11; VPMOVZXDQm 4 R13 12;
      VPMOVZXDQm 5 R13 13; VPMOVZXDQm 6 R13 14; VPMOVZXDQm 7 R13 15; VPADDQ 8 0 0; VPADDQ 9 1 1; VPADDQ 10 2 2;
      VPADDQ 11 3 3; VPADDQ 12 4 4; VPADDQ 13 5 5; VPADDQ 14 6 6; VPADDQ 15 7 7; ADDI 256 R13; DECQ R14].
(** 654-685 *)
Definition sumVec_gather : seq vinstr :=
  [:: VPADDQ 7 6 6; VPADDQ 6 5 5; VPADDQ 5 4 4; VPADDQ 4 3 3; VPADDQ 3 2 2; VPADDQ 2 1 1; VPADDQ 1 0 0; VMOVQ 0 BX;
      VALIGNQ 1 0 0 0; VMOVQ 0 SI; VALIGNQ 1 0 0 0; VMOVQ 0 DI; VALIGNQ 1 0 0 0; VMOVQ 0 R8; VALIGNQ 1 0 0 0;
      VMOVQ 0 R9; VALIGNQ 1 0 0 0; VMOVQ 0 R10; VALIGNQ 1 0 0 0; VMOVQ 0 R11; VALIGNQ 1 0 0 0; VMOVQ 0 R12].
(** 691-717 *)
Definition sumVec_carry : seq vinstr :=
  [:: MOVQ SI CX; ANDI 4294967295 CX; SHLI 32 CX; SHRI 32 SI; MOVQ R8 R14; ANDI 4294967295 R14; SHLI 32 R14;
      SHRI 32 R8; MOVQ R10 R13; ANDI 4294967295 R13; SHLI 32 R13; SHRI 32 R10; MOVQ R12 (Sl 0);
      ANDI 4294967295 (Sl 0); SHLI 32 (Sl 0); SHRI 32 R12; XORQ AX AX; ADOXQ CX BX; ADOXQ R14 DI; ADCXQ SI DI;
      ADOXQ R13 R9; ADCXQ R8 R9; ADOXQ (Sl 0) R11; ADCXQ R10 R11; ADOXQ AX R12; ADCXQ AX R12].
(** 727-743 *)
Definition sumVec_barrett (mu : Z) : seq vinstr :=
  [:: MOVI mu SI; MOVQ R11 AX; SHRD 32 R12 AX; MULQ SI; MULXQ (qE 0) AX SI; SUBQ AX BX; SBBQ SI DI;
      MULXQ (qE 2) AX SI; SBBQ AX R9; SBBQ SI R11; SBBQ imm0 R12; MULXQ (qE 1) AX SI; SUBQ AX DI; SBBQ SI R9;
      MULXQ (qE 3) AX SI; SBBQ AX R11; SBBQ SI R12].
(** 744-752 *)
Definition sumVec_sub1 : seq vinstr :=
  [:: MOVQ BX R8; MOVQ DI R10; MOVQ R9 CX; MOVQ R11 R14; SUBQ (qE 0) BX; SBBQ (qE 1) DI; SBBQ (qE 2) R9;
      SBBQ (qE 3) R11; SBBQ imm0 R12].
(** 754-762 *)
Definition sumVec_sub2 : seq vinstr :=
  [:: MOVQ BX R8; MOVQ DI R10; MOVQ R9 CX; MOVQ R11 R14; SUBQ (qE 0) BX; SBBQ (qE 1) DI; SBBQ (qE 2) R9;
      SBBQ (qE 3) R11; SBBQ imm0 R12].
(** 764-767 *)
Definition sumVec_last : seq vinstr :=
  [:: MOVQ BX R8; MOVQ DI R10; MOVQ R9 CX; MOVQ R11 R14].
(** 770-774 *)
Definition sumVec_end : seq vinstr :=
  [:: MOVQ (FP 0) SI; MOVQ R8 (At 0 SI); MOVQ R10 (At 1 SI); MOVQ CX (At 2 SI); MOVQ R14 (At 3 SI)].
(** 781-803 *)
Definition innerProd_head : seq vinstr :=
  [:: MOVQ (FP 1) R13; MOVQ (FP 2) R14; MOVQ (FP 3) CX; VPCMPEQB 0; VPMOVZXDQ 0 5; VPXORQ 16 16 16; VMOVDQA64 16 17;
      VMOVDQA64 16 18; VMOVDQA64 16 19; VMOVDQA64 16 20; VMOVDQA64 16 21; VMOVDQA64 16 22; VMOVDQA64 16 23;
      VMOVDQA64 16 24; VMOVDQA64 16 25; VMOVDQA64 16 26; VMOVDQA64 16 27; VMOVDQA64 16 28; VMOVDQA64 16 29;
      VMOVDQA64 16 30; VMOVDQA64 16 31].
(** 810-811 *)
Definition innerProd_load : seq vinstr :=
  [:: VPMOVZXDQm 0 R14 4; ADDI 32 R14].
(** 814-828 *)
Definition MAC (i in1 in2 : nat) : seq vinstr :=
  [:: VPMULUDQb i R13 4 2; VPSRLQ 32 2 3; VPANDQ 5 2 2; VPADDQ 2 in1 in1; VPADDQ 3 in2 in2].
(** 807-831 *)
Definition innerProd_body : seq vinstr :=
  innerProd_load ++ MAC 0 16 24 ++ MAC 1 17 25 ++ MAC 2 18 26 ++ MAC 3 19 27 ++ MAC 4 20 28 ++ MAC 5 21 29 ++
  MAC 6 22 30 ++ MAC 7 23 31 ++ [:: ADDI 32 R13; DECQ CX].
(** 835-851 *)
Definition innerProd_acc0 : seq vinstr :=
  [:: MOVI 5461 AX; KMOVD AX 1; MOVI 1 AX; KMOVD AX 2; VALIGNDZ 16 16 16 2 0; KSHIFTLW 1 2 2; VPSRLQ 32 16 2;
      VALIGNDZ 2 16 16 1 16; VPADDQ 2 16 16; VPANDQ 5 24 2; VPADDQ 2 16 16; VPANDQ 5 17 2; VPADDQ 2 16 16;
      VALIGND 15 16 16 2 0; KSHIFTLW 1 2 2].
(** 854-867 *)
Definition ADDPP (in0 in1 in2 in3 in4 : nat) : seq vinstr :=
  [:: VPSRLQ 32 16 2; VALIGNDZ 2 16 16 1 16; VPADDQ 2 16 16; VPSRLQ 32 in0 in0; VPADDQ in0 16 16; VPSRLQ 32 in1 in1;
      VPADDQ in1 16 16; VPANDQ 5 in2 2; VPADDQ 2 16 16; VPANDQ 5 in3 2; VPADDQ 2 16 16;
      VALIGND (16 - in4) 16 16 2 0; KADDW 2 2 2].
(** 875-885 *)
Definition innerProd_acc8 : seq vinstr :=
  [:: VPSRLQ 32 16 2; VALIGNDZ 2 16 16 1 16; VPADDQ 2 16 16; VPSRLQ 32 30 30; VPADDQ 30 16 16; VPSRLQ 32 23 23;
      VPADDQ 23 16 16; VPANDQ 5 31 2; VPADDQ 2 16 16; VALIGND 8 16 16 2 0; KSHIFTLW 1 2 2].
(** 886-892 *)
Definition innerProd_acc9 : seq vinstr :=
  [:: VPSRLQ 32 16 2; VALIGNDZ 2 16 16 1 16; VPADDQ 2 16 16; VPSRLQ 32 31 31; VPADDQ 31 16 16; VALIGND 7 16 16 2 0;
      KSHIFTLW 1 2 2].
(** 894-899 *)
Definition ADDPP2 (in0 : nat) : seq vinstr :=
  [:: VPSRLQ 32 16 2; VALIGNDZ 2 16 16 1 16; VPADDQ 2 16 16; VALIGND (16 - in0) 16 16 2 0; KSHIFTLW 1 2 2].
(** 907-910 *)
Definition innerProd_top : seq vinstr :=
  [:: VPSRLQ 32 16 2; VALIGNDZ 2 16 16 1 16; VPADDQ 2 16 16; VMOVDQA64Z 16 1 1].
(** 833-910 *)
Definition innerProd_acc : seq vinstr :=
  innerProd_acc0 ++
  ADDPP 24 17 25 18 2 ++ ADDPP 25 18 26 19 3 ++ ADDPP 26 19 27 20 4 ++ ADDPP 27 20 28 21 5 ++ ADDPP 28 21 29 22 6 ++
  ADDPP 29 22 30 23 7 ++ innerProd_acc8 ++ innerProd_acc9 ++
  ADDPP2 10 ++ ADDPP2 11 ++ ADDPP2 12 ++ ADDPP2 13 ++ ADDPP2 14 ++ ADDPP2 15 ++ innerProd_top.
(** 913-921 *)
Definition innerProd_low : seq vinstr :=
  [:: VMOVQ 0 SI; VALIGNQ 1 0 1 0; VMOVQ 0 DI; VALIGNQ 1 0 0 0; VMOVQ 0 R8; VALIGNQ 1 0 0 0; VMOVQ 0 R9;
      VALIGNQ 1 0 0 0; XORQ BX BX].
(** 922-937 *)
Definition innerProd_m0 : seq vinstr :=
  [:: MOVQ cqInv DX; MULXQ SI DX R10; MULXQ (qE 0) AX R10; ADDQ AX SI; ADCQ R10 DI; MULXQ (qE 2) AX R10; ADCQ AX R8;
      ADCQ R10 R9; ADCQ imm0 BX; MULXQ (qE 1) AX R10; ADDQ AX DI; ADCQ R10 R8; MULXQ (qE 3) AX R10; ADCQ AX R9;
      ADCQ R10 BX; ADCQ imm0 SI].
(** 938-953 *)
Definition innerProd_m1 : seq vinstr :=
  [:: MOVQ cqInv DX; MULXQ DI DX R10; MULXQ (qE 0) AX R10; ADDQ AX DI; ADCQ R10 R8; MULXQ (qE 2) AX R10; ADCQ AX R9;
      ADCQ R10 BX; ADCQ imm0 SI; MULXQ (qE 1) AX R10; ADDQ AX R8; ADCQ R10 R9; MULXQ (qE 3) AX R10; ADCQ AX BX;
      ADCQ R10 SI; ADCQ imm0 DI].
(** 954-969 *)
Definition innerProd_m2 : seq vinstr :=
  [:: MOVQ cqInv DX; MULXQ R8 DX R10; MULXQ (qE 0) AX R10; ADDQ AX R8; ADCQ R10 R9; MULXQ (qE 2) AX R10; ADCQ AX BX;
      ADCQ R10 SI; ADCQ imm0 DI; MULXQ (qE 1) AX R10; ADDQ AX R9; ADCQ R10 BX; MULXQ (qE 3) AX R10; ADCQ AX SI;
      ADCQ R10 DI; ADCQ imm0 R8].
(** 970-985 *)
Definition innerProd_m3 : seq vinstr :=
  [:: MOVQ cqInv DX; MULXQ R9 DX R10; MULXQ (qE 0) AX R10; ADDQ AX R9; ADCQ R10 BX; MULXQ (qE 2) AX R10; ADCQ AX SI;
      ADCQ R10 DI; ADCQ imm0 R8; MULXQ (qE 1) AX R10; ADDQ AX BX; ADCQ R10 SI; MULXQ (qE 3) AX R10; ADCQ AX DI;
      ADCQ R10 R8; ADCQ imm0 R9].
(** 986-999 *)
Definition innerProd_high : seq vinstr :=
  [:: VMOVQ 0 AX; ADDQ AX BX; VALIGNQ 1 0 0 0; VMOVQ 0 AX; ADCQ AX SI; VALIGNQ 1 0 0 0; VMOVQ 0 AX; ADCQ AX DI;
      VALIGNQ 1 0 0 0; VMOVQ 0 AX; ADCQ AX R8; VALIGNQ 1 0 0 0; VMOVQ 0 AX; ADCQ AX R9].
(** 1002-1018 *)
Definition innerProd_barrett (mu : Z) : seq vinstr :=
  [:: MOVQ R8 AX; SHRD 32 R9 AX; MOVI mu DX; MULQ DX; MULXQ (qE 0) AX R10; SUBQ AX BX; SBBQ R10 SI;
      MULXQ (qE 2) AX R10; SBBQ AX DI; SBBQ R10 R8; SBBQ imm0 R9; MULXQ (qE 1) AX R10; SUBQ AX SI; SBBQ R10 DI;
      MULXQ (qE 3) AX R10; SBBQ AX R8; SBBQ R10 R9].
(** 1021-1030 *)
Definition innerProd_sub1 : seq vinstr :=
  [:: MOVQ (FP 0) R11; MOVQ BX (At 0 R11); MOVQ SI (At 1 R11); MOVQ DI (At 2 R11); MOVQ R8 (At 3 R11);
      SUBQ (qE 0) BX; SBBQ (qE 1) SI; SBBQ (qE 2) DI; SBBQ (qE 3) R8; SBBQ imm0 R9].
(** 1032-1040 *)
Definition innerProd_sub2 : seq vinstr :=
  [:: MOVQ BX (At 0 R11); MOVQ SI (At 1 R11); MOVQ DI (At 2 R11); MOVQ R8 (At 3 R11); SUBQ (qE 0) BX; SBBQ (qE 1) SI;
      SBBQ (qE 2) DI; SBBQ (qE 3) R8; SBBQ imm0 R9].
(** 1042-1045 *)
Definition innerProd_last : seq vinstr :=
  [:: MOVQ BX (At 0 R11); MOVQ SI (At 1 R11); MOVQ DI (At 2 R11); MOVQ R8 (At 3 R11)].
