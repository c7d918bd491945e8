(** A model of the part of amd64 and arm64 that the assembly of the field types uses:
    buckler/internal/zp110/asm/element_2w, jindo/internal/zp/asm/element_4w,
    examples/bfv/zp/asm/element_4w and buckler/internal/zp440/asm/element_7w, files
    element_*_amd64.s and element_*_arm64.s, in Go's assembler syntax (source first, destination
    last).  The programs are in AsmText*.v.

    Words are Z in [0, 2^64); a pointer is a Z as well.  Memory maps the address of an element to
    its words: two *Uint are the same pointer or do not overlap, and a function reaches the words
    of an element only through a pointer to its first word.  The frame of a function (s0-8(SP), ...)
    overlaps nothing else.  Flags the programs never read (the overflow flag of ADDQ, both flags
    of IMULQ) are left to an arbitrary function [junk] of the operands. *)
From Coq Require Import ZArith.
From mathcomp Require Import all_ssreflect zify ssrZ.
From Verif Require Import JindoIntModel ZpModel.
Set Implicit Arguments. Unset Strict Implicit. Unset Printing Implicit Defensive.
Delimit Scope Z_scope with Z.

Definition memory := Z -> seq Z.
Definition load (m : memory) (p : Z) (i : nat) : Z := nth 0%Z (m p) i.
Definition store (m : memory) (p : Z) (i : nat) (v : Z) : memory :=
  fun p' => if (p' =? p)%Z then set_nth 0%Z (m p) i v else m p'.
(** the memory with one more element at p *)
Definition put (m : memory) (p : Z) (x : seq Z) : memory := fun p' => if (p' =? p)%Z then x else m p'.

(** what a function sees besides registers and memory: ·qElement and the constants q0, q1, ...
    (element.go 45-54), qInvNeg (68), the arguments x+0(FP), y+8(FP), ... *)
Record env := Env { eq_ : seq Z; eqi : Z; fp : seq Z; junk : Z -> Z -> Z -> Z }.

(** * the Go functions the assembly replaces, element_purego.go of zp110 *)
(** 13-16 *)
Definition mulBy3 (g : gen) (x : seq Z) : seq Z := Add g (Double g x) x.
(** 19-22 *)
Definition mulBy5 (g : gen) (x : seq Z) : seq Z := Add g (Double g (Double g x)) x.
(** 25-31: [y] is the constant of the package *)
Definition mulBy13 (g : gen) (y x : seq Z) : seq Z := Mul g x y.
(** element.go 569-573: t := *a; a.Add(a, b); b.Sub(&t, b) *)
Definition butterflyGeneric (g : gen) (m : memory) (a b : Z) : memory :=
  let t := m a in
  let m := put m a (Add g (m a) (m b)) in
  put m b (Sub g t (m b)).
(** what the assembly of MulBy13 computes: 8x + 4x + x *)
Definition thirteen (g : gen) (x : seq Z) : seq Z :=
  let x4 := Double g (Double g x) in Add g (Add g (Double g x4) x4) x.

(** * amd64 *)
Inductive reg := AX | BX | CX | DX | SI | DI | BP | R8 | R9 | R10 | R11 | R12 | R13 | R14 | R15.
(** operands: registers; 8i(r); ·qElement+8i(SB); $const_qi; $const_qInvNeg; $0; x+8i(FP);
    the slots s0-8(SP), s1-16(SP), ... of the frame *)
Inductive opnd :=
  | Rg of reg | At of nat & reg | qE of nat | cq of nat | cqInv | imm0 | FP of nat | Sl of nat.
Coercion Rg : reg >-> opnd.
Inductive instr :=
  | MOVQ of opnd & opnd
  | ADDQ of opnd & opnd
  | ADCQ of opnd & opnd
  | SUBQ of opnd & opnd
  | SBBQ of opnd & opnd
  | XORQ of opnd & opnd
  | IMULQ of opnd & opnd
  | MULXQ of opnd & opnd & opnd
  | ADCXQ of opnd & opnd
  | ADOXQ of opnd & opnd
  | CMOVQCS of opnd & opnd
  | CMOVQCC of opnd & opnd.

Record st := St {
  ax : Z; bx : Z; cx : Z; dx : Z; si : Z; di : Z; bp : Z;
  r8 : Z; r9 : Z; r10 : Z; r11 : Z; r12 : Z; r13 : Z; r14 : Z; r15 : Z;
  cf : Z; of_ : Z;
  s0 : Z; s1 : Z; s2 : Z; s3 : Z; s4 : Z; s5 : Z; s6 : Z; s7 : Z; s8 : Z;
  mem : memory }.

Definition getr (s : st) (r : reg) : Z :=
  match r with
  | AX => ax s | BX => bx s | CX => cx s | DX => dx s | SI => si s | DI => di s | BP => bp s
  | R8 => r8 s | R9 => r9 s | R10 => r10 s | R11 => r11 s | R12 => r12 s | R13 => r13 s | R14 => r14 s | R15 => r15 s
  end.
Definition setr (s : st) (r : reg) (v : Z) : st :=
  let: St a b c d si di bp r8 r9 r10 r11 r12 r13 r14 r15 cf of_ s0 s1 s2 s3 s4 s5 s6 s7 s8 m := s in
  match r with
  | AX => St v b c d si di bp r8 r9 r10 r11 r12 r13 r14 r15 cf of_ s0 s1 s2 s3 s4 s5 s6 s7 s8 m
  | BX => St a v c d si di bp r8 r9 r10 r11 r12 r13 r14 r15 cf of_ s0 s1 s2 s3 s4 s5 s6 s7 s8 m
  | CX => St a b v d si di bp r8 r9 r10 r11 r12 r13 r14 r15 cf of_ s0 s1 s2 s3 s4 s5 s6 s7 s8 m
  | DX => St a b c v si di bp r8 r9 r10 r11 r12 r13 r14 r15 cf of_ s0 s1 s2 s3 s4 s5 s6 s7 s8 m
  | SI => St a b c d v di bp r8 r9 r10 r11 r12 r13 r14 r15 cf of_ s0 s1 s2 s3 s4 s5 s6 s7 s8 m
  | DI => St a b c d si v bp r8 r9 r10 r11 r12 r13 r14 r15 cf of_ s0 s1 s2 s3 s4 s5 s6 s7 s8 m
  | BP => St a b c d si di v r8 r9 r10 r11 r12 r13 r14 r15 cf of_ s0 s1 s2 s3 s4 s5 s6 s7 s8 m
  | R8 => St a b c d si di bp v r9 r10 r11 r12 r13 r14 r15 cf of_ s0 s1 s2 s3 s4 s5 s6 s7 s8 m
  | R9 => St a b c d si di bp r8 v r10 r11 r12 r13 r14 r15 cf of_ s0 s1 s2 s3 s4 s5 s6 s7 s8 m
  | R10 => St a b c d si di bp r8 r9 v r11 r12 r13 r14 r15 cf of_ s0 s1 s2 s3 s4 s5 s6 s7 s8 m
  | R11 => St a b c d si di bp r8 r9 r10 v r12 r13 r14 r15 cf of_ s0 s1 s2 s3 s4 s5 s6 s7 s8 m
  | R12 => St a b c d si di bp r8 r9 r10 r11 v r13 r14 r15 cf of_ s0 s1 s2 s3 s4 s5 s6 s7 s8 m
  | R13 => St a b c d si di bp r8 r9 r10 r11 r12 v r14 r15 cf of_ s0 s1 s2 s3 s4 s5 s6 s7 s8 m
  | R14 => St a b c d si di bp r8 r9 r10 r11 r12 r13 v r15 cf of_ s0 s1 s2 s3 s4 s5 s6 s7 s8 m
  | R15 => St a b c d si di bp r8 r9 r10 r11 r12 r13 r14 v cf of_ s0 s1 s2 s3 s4 s5 s6 s7 s8 m
  end.
Definition gets (s : st) (i : nat) : Z :=
  match i with
  | 0 => s0 s | 1 => s1 s | 2 => s2 s | 3 => s3 s | 4 => s4 s | 5 => s5 s | 6 => s6 s | 7 => s7 s | _ => s8 s
  end.
Definition sets (s : st) (i : nat) (v : Z) : st :=
  let: St a b c d si di bp r8 r9 r10 r11 r12 r13 r14 r15 cf of_ s0 s1 s2 s3 s4 s5 s6 s7 s8 m := s in
  match i with
  | 0 => St a b c d si di bp r8 r9 r10 r11 r12 r13 r14 r15 cf of_ v s1 s2 s3 s4 s5 s6 s7 s8 m
  | 1 => St a b c d si di bp r8 r9 r10 r11 r12 r13 r14 r15 cf of_ s0 v s2 s3 s4 s5 s6 s7 s8 m
  | 2 => St a b c d si di bp r8 r9 r10 r11 r12 r13 r14 r15 cf of_ s0 s1 v s3 s4 s5 s6 s7 s8 m
  | 3 => St a b c d si di bp r8 r9 r10 r11 r12 r13 r14 r15 cf of_ s0 s1 s2 v s4 s5 s6 s7 s8 m
  | 4 => St a b c d si di bp r8 r9 r10 r11 r12 r13 r14 r15 cf of_ s0 s1 s2 s3 v s5 s6 s7 s8 m
  | 5 => St a b c d si di bp r8 r9 r10 r11 r12 r13 r14 r15 cf of_ s0 s1 s2 s3 s4 v s6 s7 s8 m
  | 6 => St a b c d si di bp r8 r9 r10 r11 r12 r13 r14 r15 cf of_ s0 s1 s2 s3 s4 s5 v s7 s8 m
  | 7 => St a b c d si di bp r8 r9 r10 r11 r12 r13 r14 r15 cf of_ s0 s1 s2 s3 s4 s5 s6 v s8 m
  | _ => St a b c d si di bp r8 r9 r10 r11 r12 r13 r14 r15 cf of_ s0 s1 s2 s3 s4 s5 s6 s7 v m
  end.
Definition setm (s : st) (m : memory) : st :=
  let: St a b c d si di bp r8 r9 r10 r11 r12 r13 r14 r15 cf of_ s0 s1 s2 s3 s4 s5 s6 s7 s8 _ := s in
  St a b c d si di bp r8 r9 r10 r11 r12 r13 r14 r15 cf of_ s0 s1 s2 s3 s4 s5 s6 s7 s8 m.
Definition setf (s : st) (c o : Z) : st :=
  let: St a b c' d si di bp r8 r9 r10 r11 r12 r13 r14 r15 _ _ s0 s1 s2 s3 s4 s5 s6 s7 s8 m := s in
  St a b c' d si di bp r8 r9 r10 r11 r12 r13 r14 r15 c o s0 s1 s2 s3 s4 s5 s6 s7 s8 m.

Section Amd64.
Variable e : env.
Definition rd (s : st) (o : opnd) : Z :=
  match o with
  | Rg r => getr s r
  | At i r => load (mem s) (getr s r) i
  | qE i | cq i => nth 0%Z (eq_ e) i
  | cqInv => eqi e
  | imm0 => 0%Z
  | FP i => nth 0%Z (fp e) i
  | Sl i => gets s i
  end.
Definition wr (s : st) (o : opnd) (v : Z) : st :=
  match o with
  | Rg r => setr s r v
  | At i r => setm s (store (mem s) (getr s r) i v)
  | Sl i => sets s i v
  | _ => s
  end.
Definition step (s : st) (i : instr) : st :=
  match i with
  | MOVQ a b => wr s b (rd s a)
  | ADDQ a b => let: (z, c) := Add64 (rd s b) (rd s a) 0 in wr (setf s c (junk e (rd s b) (rd s a) 0)) b z
  | ADCQ a b => let: (z, c) := Add64 (rd s b) (rd s a) (cf s) in wr (setf s c (junk e (rd s b) (rd s a) (cf s))) b z
  | SUBQ a b => let: (z, c) := Sub64 (rd s b) (rd s a) 0 in wr (setf s c (junk e (rd s b) (rd s a) 0)) b z
  | SBBQ a b => let: (z, c) := Sub64 (rd s b) (rd s a) (cf s) in wr (setf s c (junk e (rd s b) (rd s a) (cf s))) b z
  | XORQ a b => wr (setf s 0 0) b (Z.lxor (rd s b) (rd s a))
  | IMULQ a b => wr (setf s (junk e (rd s b) (rd s a) 1) (junk e (rd s b) (rd s a) 2)) b ((rd s b * rd s a) mod W)%Z
  | MULXQ a lo hi => let: (h, l) := Mul64 (dx s) (rd s a) in wr (wr s lo l) hi h
  | ADCXQ a b => let: (z, c) := Add64 (rd s b) (rd s a) (cf s) in wr (setf s c (of_ s)) b z
  | ADOXQ a b => let: (z, c) := Add64 (rd s b) (rd s a) (of_ s) in wr (setf s (cf s) c) b z
  | CMOVQCS a b => wr s b (if (cf s =? 1)%Z then rd s a else rd s b)
  | CMOVQCC a b => wr s b (if (cf s =? 0)%Z then rd s a else rd s b)
  end.
Definition exec (p : seq instr) (s : st) : st := foldl step s p.
(** JCC over a block: the block runs when the carry flag is set *)
Definition execCS (p : seq instr) (s : st) : st := if (cf s =? 0)%Z then s else exec p s.
End Amd64.

(** * arm64 *)
Inductive xreg := X0 | X1 | X2 | X3 | X4 | X5 | X6 | X7 | X8 | X9 | X10 | X11 | X12 | X13 | X14 | X15 | X16 | X17 | ZR.
(** operands of LDP, STP and MOVD; CSEL appears with the condition CS only *)
Inductive xop := XAt of nat & xreg | XqE of nat | XqInv | XFP of nat.
Inductive xinstr :=
  | MOVD of xop & xreg
  | LDP of xop & xreg & xreg
  | STP of xreg & xreg & nat & xreg
  | ADDS of xreg & xreg & xreg
  | ADCS of xreg & xreg & xreg
  | ADC of xreg & xreg & xreg
  | SUBS of xreg & xreg & xreg
  | SBCS of xreg & xreg & xreg
  | MUL of xreg & xreg & xreg
  | UMULH of xreg & xreg & xreg
  | CSEL_CS of xreg & xreg & xreg.

Record xst := XSt {
  x0 : Z; x1 : Z; x2 : Z; x3 : Z; x4 : Z; x5 : Z; x6 : Z; x7 : Z; x8 : Z;
  x9 : Z; x10 : Z; x11 : Z; x12 : Z; x13 : Z; x14 : Z; x15 : Z; x16 : Z; x17 : Z;
  xc : Z; xmem : memory }.
Definition getx (s : xst) (r : xreg) : Z :=
  match r with
  | X0 => x0 s | X1 => x1 s | X2 => x2 s | X3 => x3 s | X4 => x4 s | X5 => x5 s | X6 => x6 s | X7 => x7 s | X8 => x8 s
  | X9 => x9 s | X10 => x10 s | X11 => x11 s | X12 => x12 s | X13 => x13 s | X14 => x14 s | X15 => x15 s | X16 => x16 s
  | X17 => x17 s | ZR => 0%Z
  end.
Definition setx (s : xst) (r : xreg) (v : Z) : xst :=
  let: XSt x0 x1 x2 x3 x4 x5 x6 x7 x8 x9 x10 x11 x12 x13 x14 x15 x16 x17 c m := s in
  match r with
  | X0 => XSt v x1 x2 x3 x4 x5 x6 x7 x8 x9 x10 x11 x12 x13 x14 x15 x16 x17 c m
  | X1 => XSt x0 v x2 x3 x4 x5 x6 x7 x8 x9 x10 x11 x12 x13 x14 x15 x16 x17 c m
  | X2 => XSt x0 x1 v x3 x4 x5 x6 x7 x8 x9 x10 x11 x12 x13 x14 x15 x16 x17 c m
  | X3 => XSt x0 x1 x2 v x4 x5 x6 x7 x8 x9 x10 x11 x12 x13 x14 x15 x16 x17 c m
  | X4 => XSt x0 x1 x2 x3 v x5 x6 x7 x8 x9 x10 x11 x12 x13 x14 x15 x16 x17 c m
  | X5 => XSt x0 x1 x2 x3 x4 v x6 x7 x8 x9 x10 x11 x12 x13 x14 x15 x16 x17 c m
  | X6 => XSt x0 x1 x2 x3 x4 x5 v x7 x8 x9 x10 x11 x12 x13 x14 x15 x16 x17 c m
  | X7 => XSt x0 x1 x2 x3 x4 x5 x6 v x8 x9 x10 x11 x12 x13 x14 x15 x16 x17 c m
  | X8 => XSt x0 x1 x2 x3 x4 x5 x6 x7 v x9 x10 x11 x12 x13 x14 x15 x16 x17 c m
  | X9 => XSt x0 x1 x2 x3 x4 x5 x6 x7 x8 v x10 x11 x12 x13 x14 x15 x16 x17 c m
  | X10 => XSt x0 x1 x2 x3 x4 x5 x6 x7 x8 x9 v x11 x12 x13 x14 x15 x16 x17 c m
  | X11 => XSt x0 x1 x2 x3 x4 x5 x6 x7 x8 x9 x10 v x12 x13 x14 x15 x16 x17 c m
  | X12 => XSt x0 x1 x2 x3 x4 x5 x6 x7 x8 x9 x10 x11 v x13 x14 x15 x16 x17 c m
  | X13 => XSt x0 x1 x2 x3 x4 x5 x6 x7 x8 x9 x10 x11 x12 v x14 x15 x16 x17 c m
  | X14 => XSt x0 x1 x2 x3 x4 x5 x6 x7 x8 x9 x10 x11 x12 x13 v x15 x16 x17 c m
  | X15 => XSt x0 x1 x2 x3 x4 x5 x6 x7 x8 x9 x10 x11 x12 x13 x14 v x16 x17 c m
  | X16 => XSt x0 x1 x2 x3 x4 x5 x6 x7 x8 x9 x10 x11 x12 x13 x14 x15 v x17 c m
  | X17 => XSt x0 x1 x2 x3 x4 x5 x6 x7 x8 x9 x10 x11 x12 x13 x14 x15 x16 v c m
  | ZR => s
  end.
Definition setc (s : xst) (c : Z) : xst :=
  let: XSt x0 x1 x2 x3 x4 x5 x6 x7 x8 x9 x10 x11 x12 x13 x14 x15 x16 x17 _ m := s in
  XSt x0 x1 x2 x3 x4 x5 x6 x7 x8 x9 x10 x11 x12 x13 x14 x15 x16 x17 c m.
Definition setxm (s : xst) (m : memory) : xst :=
  let: XSt x0 x1 x2 x3 x4 x5 x6 x7 x8 x9 x10 x11 x12 x13 x14 x15 x16 x17 c _ := s in
  XSt x0 x1 x2 x3 x4 x5 x6 x7 x8 x9 x10 x11 x12 x13 x14 x15 x16 x17 c m.

Section Arm64.
Variable e : env.
(** word i of an operand (0, or 1 for the second half of a pair) *)
Definition rdx (s : xst) (o : xop) (i : nat) : Z :=
  match o with
  | XAt k r => load (xmem s) (getx s r) (k + i)
  | XqE k => nth 0%Z (eq_ e) (k + i)
  | XqInv => eqi e
  | XFP k => nth 0%Z (fp e) (k + i)
  end.
(** the carry flag after a subtraction is the negation of the borrow *)
Definition nb (b : Z) : Z := (1 - b)%Z.
Definition stepx (s : xst) (i : xinstr) : xst :=
  match i with
  | MOVD o r => setx s r (rdx s o 0)
  | LDP o r r' => setx (setx s r (rdx s o 0)) r' (rdx s o 1)
  | STP r r' k p => setxm s (store (store (xmem s) (getx s p) k (getx s r)) (getx s p) k.+1 (getx s r'))
  | ADDS a b d => let: (z, c) := Add64 (getx s a) (getx s b) 0 in setc (setx s d z) c
  | ADCS a b d => let: (z, c) := Add64 (getx s a) (getx s b) (xc s) in setc (setx s d z) c
  | ADC a b d => let: (z, _) := Add64 (getx s a) (getx s b) (xc s) in setx s d z
  | SUBS a b d => let: (z, c) := Sub64 (getx s b) (getx s a) 0 in setc (setx s d z) (nb c)
  | SBCS a b d => let: (z, c) := Sub64 (getx s b) (getx s a) (nb (xc s)) in setc (setx s d z) (nb c)
  | MUL a b d => let: (_, l) := Mul64 (getx s b) (getx s a) in setx s d l
  | UMULH a b d => let: (h, _) := Mul64 (getx s b) (getx s a) in setx s d h
  | CSEL_CS a b d => setx s d (if (xc s =? 1)%Z then getx s a else getx s b)
  end.
Definition execx (p : seq xinstr) (s : xst) : xst := foldl stepx s p.
End Arm64.
