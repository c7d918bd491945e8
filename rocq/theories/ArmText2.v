(** buckler/internal/zp110/asm/element_2w/element_2w_arm64.s,
    written by a script from the file; one definition per macro and per function. *)
From Coq Require Import ZArith.
From mathcomp Require Import all_ssreflect.
From Verif Require Import AsmModel.
Set Implicit Arguments. Unset Strict Implicit. Unset Printing Implicit Defensive.

(** 39-48 *)
Definition DIVSHIFT : seq xinstr :=
  [:: MUL X9 X8 X0; ADDS X0 X4 X4; MUL X10 X8 X0; ADCS X0 X5 X5; ADC X6 ZR X6; UMULH X9 X8 X0; ADDS X0 X5 X4;
    UMULH X10 X8 X0; ADCS X0 X6 X5].
(** 50-61 *)
Definition MUL_WORD_N : seq xinstr :=
  [:: MUL X2 X1 X0; ADDS X0 X4 X4; MUL X4 X7 X8; MUL X3 X1 X0; ADCS X0 X5 X5; ADC ZR ZR X6; UMULH X2 X1 X0;
    ADDS X0 X5 X5; UMULH X3 X1 X0; ADC X0 X6 X6] ++
  DIVSHIFT.
(** 63-71 *)
Definition MUL_WORD_0 : seq xinstr :=
  [:: MUL X2 X1 X4; MUL X3 X1 X5; UMULH X2 X1 X0; ADDS X0 X5 X5; UMULH X3 X1 X0; ADC X0 ZR X6; MUL X4 X7 X8] ++
  DIVSHIFT.
(** 8-33 *)
Definition Butterfly : seq xinstr :=
  [:: LDP (XFP 0) X8 X9; LDP (XAt 0 X8) X0 X1; LDP (XAt 0 X9) X2 X3; ADDS X0 X2 X4; ADC X1 X3 X5; SUBS X2 X0 X2;
    SBCS X3 X1 X3; LDP (XqE 0) X0 X1; CSEL_CS ZR X0 X6; CSEL_CS ZR X1 X7; ADDS X2 X6 X2; ADC X3 X7 X3;
    STP X2 X3 0 X9; SUBS X0 X4 X0; SBCS X1 X5 X1; CSEL_CS X0 X4 X4; CSEL_CS X1 X5 X5; STP X4 X5 0 X8].
(** 38-90 *)
Definition mul : seq xinstr :=
  [:: MOVD (XFP 2) X11; MOVD (XFP 1) X0; LDP (XAt 0 X0) X2 X3; MOVD (XAt 0 X11) X1; MOVD XqInv X7;
    LDP (XqE 0) X9 X10] ++
  MUL_WORD_0 ++
  [:: MOVD (XAt 1 X11) X1] ++
  MUL_WORD_N ++
  [:: SUBS X9 X4 X9; SBCS X10 X5 X10; MOVD (XFP 0) X0; CSEL_CS X9 X4 X4; CSEL_CS X10 X5 X5; STP X4 X5 0 X0].
(** 93-106 *)
Definition reduce : seq xinstr :=
  [:: LDP (XqE 0) X2 X3; MOVD (XFP 0) X4; LDP (XAt 0 X4) X0 X1; SUBS X2 X0 X2; SBCS X3 X1 X3; CSEL_CS X2 X0 X0;
    CSEL_CS X3 X1 X1; STP X0 X1 0 X4].
