(** jindo/internal/zp/asm/element_4w/element_4w_arm64.s (examples/bfv/zp has the same file),
    written by a script from the file; one definition per macro and per function. *)
From Coq Require Import ZArith.
From mathcomp Require Import all_ssreflect.
From Verif Require Import AsmModel.
Set Implicit Arguments. Unset Strict Implicit. Unset Printing Implicit Defensive.

(** 56-73 *)
Definition DIVSHIFT : seq xinstr :=
  [:: MUL X13 X12 X0; ADDS X0 X6 X6; MUL X14 X12 X0; ADCS X0 X7 X7; MUL X15 X12 X0; ADCS X0 X8 X8; MUL X16 X12 X0;
    ADCS X0 X9 X9; ADC X10 ZR X10; UMULH X13 X12 X0; ADDS X0 X7 X6; UMULH X14 X12 X0; ADCS X0 X8 X7;
    UMULH X15 X12 X0; ADCS X0 X9 X8; UMULH X16 X12 X0; ADCS X0 X10 X9].
(** 75-94 *)
Definition MUL_WORD_N : seq xinstr :=
  [:: MUL X2 X1 X0; ADDS X0 X6 X6; MUL X6 X11 X12; MUL X3 X1 X0; ADCS X0 X7 X7; MUL X4 X1 X0; ADCS X0 X8 X8;
    MUL X5 X1 X0; ADCS X0 X9 X9; ADC ZR ZR X10; UMULH X2 X1 X0; ADDS X0 X7 X7; UMULH X3 X1 X0; ADCS X0 X8 X8;
    UMULH X4 X1 X0; ADCS X0 X9 X9; UMULH X5 X1 X0; ADC X0 X10 X10] ++
  DIVSHIFT.
(** 96-110 *)
Definition MUL_WORD_0 : seq xinstr :=
  [:: MUL X2 X1 X6; MUL X3 X1 X7; MUL X4 X1 X8; MUL X5 X1 X9; UMULH X2 X1 X0; ADDS X0 X7 X7; UMULH X3 X1 X0;
    ADCS X0 X8 X8; UMULH X4 X1 X0; ADCS X0 X9 X9; UMULH X5 X1 X0; ADC X0 ZR X10; MUL X6 X11 X12] ++
  DIVSHIFT.
(** 8-50 *)
Definition Butterfly : seq xinstr :=
  [:: LDP (XFP 0) X16 X17; LDP (XAt 0 X16) X0 X1; LDP (XAt 2 X16) X2 X3; LDP (XAt 0 X17) X4 X5; LDP (XAt 2 X17) X6 X7;
    ADDS X0 X4 X8; ADCS X1 X5 X9; ADCS X2 X6 X10; ADC X3 X7 X11; SUBS X4 X0 X4; SBCS X5 X1 X5; SBCS X6 X2 X6;
    SBCS X7 X3 X7; LDP (XqE 0) X0 X1; CSEL_CS ZR X0 X12; CSEL_CS ZR X1 X13; LDP (XqE 2) X2 X3; CSEL_CS ZR X2 X14;
    CSEL_CS ZR X3 X15; ADDS X4 X12 X4; ADCS X5 X13 X5; STP X4 X5 0 X17; ADCS X6 X14 X6; ADC X7 X15 X7;
    STP X6 X7 2 X17; SUBS X0 X8 X0; SBCS X1 X9 X1; SBCS X2 X10 X2; SBCS X3 X11 X3; CSEL_CS X0 X8 X8;
    CSEL_CS X1 X9 X9; STP X8 X9 0 X16; CSEL_CS X2 X10 X10; CSEL_CS X3 X11 X11; STP X10 X11 2 X16].
(** 55-140 *)
Definition mul : seq xinstr :=
  [:: MOVD (XFP 2) X17; MOVD (XFP 1) X0; LDP (XAt 0 X0) X2 X3; LDP (XAt 2 X0) X4 X5; MOVD (XAt 0 X17) X1;
    MOVD XqInv X11; LDP (XqE 0) X13 X14; LDP (XqE 2) X15 X16] ++
  MUL_WORD_0 ++
  [:: MOVD (XAt 1 X17) X1] ++
  MUL_WORD_N ++
  [:: MOVD (XAt 2 X17) X1] ++
  MUL_WORD_N ++
  [:: MOVD (XAt 3 X17) X1] ++
  MUL_WORD_N ++
  [:: SUBS X13 X6 X13; SBCS X14 X7 X14; SBCS X15 X8 X15; SBCS X16 X9 X16; MOVD (XFP 0) X0; CSEL_CS X13 X6 X6;
    CSEL_CS X14 X7 X7; STP X6 X7 0 X0; CSEL_CS X15 X8 X8; CSEL_CS X16 X9 X9; STP X8 X9 2 X0].
(** 143-163 *)
Definition reduce : seq xinstr :=
  [:: LDP (XqE 0) X4 X5; LDP (XqE 2) X6 X7; MOVD (XFP 0) X8; LDP (XAt 0 X8) X0 X1; LDP (XAt 2 X8) X2 X3; SUBS X4 X0 X4;
    SBCS X5 X1 X5; SBCS X6 X2 X6; SBCS X7 X3 X7; CSEL_CS X4 X0 X0; CSEL_CS X5 X1 X1; STP X0 X1 0 X8;
    CSEL_CS X6 X2 X2; CSEL_CS X7 X3 X3; STP X2 X3 2 X8].
