(** More methods of the seven generated packages: Hash, SetInterface and the sort.Interface methods
    of Vector.  Line numbers are those of jindo/internal/zp/element.go and vector.go; the other
    packages have the same text. *)
From Coq Require Import ZArith.
From mathcomp Require Import all_ssreflect zify ssrZ.
From Verif Require Import JindoIntModel ZpModel ElemModel.
Set Implicit Arguments. Unset Strict Implicit. Unset Printing Implicit Defensive.
Delimit Scope Z_scope with Z.

Section Gen.
Variable g : gen.
(** 41: the constant Bits is the bit length of the modulus in every package (ex_bits in Prop_Api.v) *)
Definition bitsC : nat := bitLen (modulusOf g).
(** 726-727: Bytes = 1 + (Bits-1)/8, L = 16 + Bytes *)
Definition hashL : nat := (16 + (1 + (bitsC - 1) %/ 8))%N.

(** a returned value, a returned error, a panic *)
Inductive outcome (A : Type) := Ok of A | Err | Panic.
(** int is 64 bits wide *)
Definition wrap (v : Z) : Z := ((v + 2 ^ 63) mod 2 ^ 64 - 2 ^ 63)%Z.
(** 723-749; [expand] is hash.ExpandMsgXmd of gnark-crypto, None its error.  big.Int.SetBytes reads
    big-endian; make panics on a negative length, slicing past the end of the bytes panics *)
Definition Hash (expand : seq Z -> seq Z -> Z -> option (seq Z)) (msg dst : seq Z) (count : Z) : outcome (seq (seq Z)) :=
  let lenInBytes := wrap (count * Z.of_nat hashL) in
  if expand msg dst lenInBytes is Some b then
    if (count <? 0)%Z then Panic _ else
    if (Z.of_nat (size b) <? count * Z.of_nat hashL)%Z then Panic _ else
    Ok (mkseq (fun i => SetBigInt g (foldl (fun acc d => acc * 256 + d)%Z 0%Z (take hashL (drop (i * hashL) b)))) (Z.to_nat count))
  else Err _.

(** the dynamic types of an interface{} that SetInterface looks at (136-183); a nil pointer is None *)
Inductive iface :=
  | INil
  | IUint of seq Z | IUintP of option (seq Z)
  | Iuint8 of Z | Iuint16 of Z | Iuint32 of Z | Iuint of Z | Iuint64 of Z
  | Iint8 of Z | Iint16 of Z | Iint32 of Z | Iint64 of Z | Iint of Z
  | Istring of seq Z | IBigP of option Z | IBig of Z | Ibytes of seq Z
  | IOther.
(** 136-183: the new value of z, None for a returned error (z is then not written); the conversions
    to uint64 and int64 keep the value; [parse] is big.Int.SetString *)
Definition SetInterface (parse : seq Z -> option Z) (i1 : iface) : option (seq Z) :=
  match i1 with
  | INil => None
  | IUint c1 => Some c1
  | IUintP None => None
  | IUintP (Some c1) => Some c1
  | Iuint8 c1 | Iuint16 c1 | Iuint32 c1 | Iuint c1 => Some (SetUint64 g c1)
  | Iuint64 c1 => Some (SetUint64 g c1)
  | Iint8 c1 | Iint16 c1 | Iint32 c1 => Some (SetInt64 g c1)
  | Iint64 c1 => Some (SetInt64 g c1)
  | Iint c1 => Some (SetInt64 g c1)
  | Istring c1 => SetString g parse c1
  | IBigP None => None
  | IBigP (Some c1) => Some (SetBigInt g c1)
  | IBig c1 => Some (SetBigInt g c1)
  | Ibytes c1 => Some (SetBytes g c1)
  | IOther => None
  end.

(** vector.go 259-273; None is the panic of an index out of range *)
Definition Len (v : seq (seq Z)) : nat := size v.
Definition Less (v : seq (seq Z)) (i j : nat) : option bool :=
  if (i < size v)%N && (j < size v)%N then Some (Cmp g (nth [::] v i) (nth [::] v j) =? -1)%Z else None.
Definition Swap (v : seq (seq Z)) (i j : nat) : option (seq (seq Z)) :=
  if (i < size v)%N && (j < size v)%N then Some (set_nth [::] (set_nth [::] v i (nth [::] v j)) j (nth [::] v i)) else None.
End Gen.
(** what a caller of Swap makes of a vector *)
Fixpoint swaps (l : seq (nat * nat)) (v : seq (seq Z)) : option (seq (seq Z)) :=
  if l is ij :: l' then if Swap v ij.1 ij.2 is Some v' then swaps l' v' else None else Some v.
