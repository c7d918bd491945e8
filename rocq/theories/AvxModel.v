(** The part of amd64 with AVX512 that the vector routines of jindo/internal/zp/asm/element_4w and
    examples/bfv/zp/asm/element_4w use (the same file element_4w_amd64.s), on top of AsmModel.v.
    The programs are in AvxText.v, in Go's operand order (sources first, destination last).

    A Z register is its eight quadwords, lane 0 the lowest; only the values at lanes 0..7 of the
    function count.  A mask register is its value.  Memory is that of AsmModel.v: the element at a
    byte address, so that the elements of a vector at p are at p, p+32, p+64, ...; two vectors of
    one call start at a distance that is a multiple of 32 or do not overlap, which is so for slices
    of Go.  Prefetches are left out.  Flags nobody reads are arbitrary, as in AsmModel.v. *)
From Coq Require Import ZArith.
From mathcomp Require Import all_ssreflect zify ssrZ.
From Verif Require Import JindoIntModel ZpModel AsmModel.
Set Implicit Arguments. Unset Strict Implicit. Unset Printing Implicit Defensive.
Delimit Scope Z_scope with Z.

Definition D : Z := (2 ^ 32)%Z.
(** the low and the high half of a quadword *)
Definition lo32 (a : Z) : Z := (a mod D)%Z.
Definition hi32 (a : Z) : Z := (a / D)%Z.
Definition lane := nat -> Z.
(** dword i of a register, and the register with given dwords *)
Definition dword (z : lane) (i : nat) : Z := if odd i then hi32 (z i./2) else lo32 (z i./2).
Definition ofDwords (d : nat -> Z) : lane := fun j => (d j.*2 + D * d j.*2.+1)%Z.
(** dword i of the element x *)
Definition digit (x : seq Z) (i : nat) : Z := dword (nth 0%Z x) i.
(** bit i of a mask *)
Definition bit (k : Z) (i : nat) : bool := Z.testbit k (Z.of_nat i).

Inductive vinstr :=
  | Sc of instr
  (** ADDQ $c, r; DECQ r; ANDQ $c, o; SHLQ $c, o; SHRQ $c, o; SHRQ $c, hi, r; MULQ r; MOVQ $c, r *)
  | ADDI of Z & reg
  | DECQ of reg
  | ANDI of Z & opnd
  | SHLI of Z & opnd
  | SHRI of Z & opnd
  | SHRD of Z & reg & reg
  | MULQ of reg
  | MOVI of Z & reg
  (** VMOVQ Xi, r: the lowest lane *)
  | VMOVQ of nat & reg
  (** VMOVDQA64 a, d; VMOVDQA64.Z a, k, d *)
  | VMOVDQA64 of nat & nat
  | VMOVDQA64Z of nat & nat & nat
  (** VXORPS a, b, d and VPXORQ a, b, d *)
  | VPXORQ of nat & nat & nat
  | VPANDQ of nat & nat & nat
  | VPADDQ of nat & nat & nat
  | VPSRLQ of Z & nat & nat
  (** VPCMPEQB a, a, a: all ones, then VPMOVZXDQ Ya, d *)
  | VPCMPEQB of nat
  | VPMOVZXDQ of nat & nat
  (** VPMOVZXDQ 32i(r), d *)
  | VPMOVZXDQm of nat & reg & nat
  (** VPMULUDQ.BCST 4i(r), a, d: the low dword of the quadword at 4i(r) times the low dwords of a *)
  | VPMULUDQb of nat & reg & nat & nat
  (** VALIGNQ $c, lo, hi, d; VALIGND $c, lo, hi, k, d; VALIGND.Z $c, lo, hi, k, d *)
  | VALIGNQ of nat & nat & nat & nat
  | VALIGND of nat & nat & nat & nat & nat
  | VALIGNDZ of nat & nat & nat & nat & nat
  (** KMOVD r, k; KSHIFTLW $c, a, k; KADDW a, b, k *)
  | KMOVD of reg & nat
  | KSHIFTLW of Z & nat & nat
  | KADDW of nat & nat & nat.
Coercion Sc : instr >-> vinstr.

Record vst := VSt { sc : st; zr : nat -> lane; kr : nat -> Z }.
Definition upd (T : Type) (f : nat -> T) (i : nat) (v : T) : nat -> T := fun k => if Nat.eqb k i then v else f k.
Definition zset (s : vst) (i : nat) (v : lane) : vst := let: VSt c z k := s in VSt c (upd z i v) k.
Definition kset (s : vst) (i : nat) (v : Z) : vst := let: VSt c z k := s in VSt c z (upd k i v).
Definition onsc (f : st -> st) (s : vst) : vst := let: VSt c z k := s in VSt (f c) z k.

Section Avx.
Variable e : env.
(** the scalar instructions that AsmModel.v lacks *)
Definition addi (c : Z) (r : reg) (s : st) : st :=
  let: (z, k) := Add64 (getr s r) c 0 in setr (setf s k (junk e (getr s r) c 0)) r z.
Definition decq (r : reg) (s : st) : st :=
  let: (z, _) := Sub64 (getr s r) 1 0 in setr (setf s (cf s) (junk e (getr s r) 1 0)) r z.
Definition andi (c : Z) (o : opnd) (s : st) : st := wr (setf s 0 0) o (Z.land (rd e s o) c).
Definition shli (c : Z) (o : opnd) (s : st) : st :=
  wr (setf s (junk e (rd e s o) c 1) (junk e (rd e s o) c 2)) o ((rd e s o * 2 ^ c) mod W)%Z.
Definition shri (c : Z) (o : opnd) (s : st) : st :=
  wr (setf s (junk e (rd e s o) c 1) (junk e (rd e s o) c 2)) o (rd e s o / 2 ^ c)%Z.
(** the low word of hi:r shifted right *)
Definition shrd (c : Z) (hi r : reg) (s : st) : st :=
  setr (setf s (junk e (getr s r) c 1) (junk e (getr s r) c 2)) r
       (getr s r / 2 ^ c + (getr s hi * 2 ^ (64 - c)) mod W)%Z.
Definition mulq (r : reg) (s : st) : st :=
  let: (h, l) := Mul64 (ax s) (getr s r) in
  setr (setr (setf s (junk e (ax s) (getr s r) 1) (junk e (ax s) (getr s r) 2)) AX l) DX h.
Definition movi (c : Z) (r : reg) (s : st) : st := setr s r c.

(** index c of the concatenation hi:lo of two registers of n parts *)
Definition cat2 (n : nat) (lo hi : nat -> Z) (c : nat) : Z := if (c < n)%N then lo c else hi (c - n)%N.
Definition valignq (c : nat) (lo hi : lane) : lane := fun j => cat2 8 lo hi (j + c %% 8).
Definition valignd (c : nat) (lo hi : lane) (k : Z) (old : lane) : lane :=
  ofDwords (fun i => if bit k i then cat2 16 (dword lo) (dword hi) (i + c %% 16) else dword old i).

Definition vstep (s : vst) (i : vinstr) : vst :=
  match i with
  | Sc i => onsc (fun s => step e s i) s
  | ADDI c r => onsc (addi c r) s
  | DECQ r => onsc (decq r) s
  | ANDI c o => onsc (andi c o) s
  | SHLI c o => onsc (shli c o) s
  | SHRI c o => onsc (shri c o) s
  | SHRD c h r => onsc (shrd c h r) s
  | MULQ r => onsc (mulq r) s
  | MOVI c r => onsc (movi c r) s
  | VMOVQ x r => onsc (movi (zr s x 0%N) r) s
  | VMOVDQA64 a d => zset s d (zr s a)
  | VMOVDQA64Z a k d => zset s d (fun j => if bit (kr s k) j then zr s a j else 0%Z)
  | VPXORQ a b d => zset s d (fun j => Z.lxor (zr s a j) (zr s b j))
  | VPANDQ a b d => zset s d (fun j => Z.land (zr s a j) (zr s b j))
  | VPADDQ a b d => zset s d (fun j => ((zr s a j + zr s b j) mod W)%Z)
  | VPSRLQ c a d => zset s d (fun j => (zr s a j / 2 ^ c)%Z)
  | VPCMPEQB a => zset s a (fun j => if (j < 4)%N then (W - 1)%Z else 0%Z)
  | VPMOVZXDQ a d => zset s d (fun j => dword (zr s a) j)
  | VPMOVZXDQm i r d => zset s d (digit (mem (sc s) (getr (sc s) r + 32 * Z.of_nat i)%Z))
  | VPMULUDQb i r a d =>
    zset s d (fun j => (digit (mem (sc s) (getr (sc s) r)) i * lo32 (zr s a j))%Z)
  | VALIGNQ c lo hi d => zset s d (valignq c (zr s lo) (zr s hi))
  | VALIGND c lo hi k d => zset s d (valignd c (zr s lo) (zr s hi) (kr s k) (zr s d))
  | VALIGNDZ c lo hi k d => zset s d (valignd c (zr s lo) (zr s hi) (kr s k) (fun=> 0%Z))
  | KMOVD r k => kset s k (getr (sc s) r mod 2 ^ 32)%Z
  | KSHIFTLW c a k => kset s k ((kr s a * 2 ^ c) mod 2 ^ 16)%Z
  | KADDW a b k => kset s k ((kr s a + kr s b) mod 2 ^ 16)%Z
  end.
Definition vexec (p : seq vinstr) (s : vst) : vst := foldl vstep s p.
(** TESTQ r, r clears both flags *)
Definition testq (s : vst) : vst := onsc (fun s => setf s 0 0) s.
(** l: TESTQ r, r; JEQ done; body; JMP l; done: -- None when [fuel] does not suffice *)
Fixpoint loop (fuel : nat) (r : reg) (body : seq vinstr) (s : vst) : option vst :=
  let s := testq s in
  if (getr (sc s) r =? 0)%Z then Some s else
  if fuel is f.+1 then loop f r body (vexec body s) else None.
(** JCS over the rest *)
Definition jcs (rest : vst -> vst) (s : vst) : vst := if (cf (sc s) =? 1)%Z then s else rest s.
End Avx.
