(** The generated field types (gnark-crypto's code): buckler/internal/zp110, zp220, zp440,
    zp880, jindo/internal/zp, examples/bfv/zp, examples/mult/zp, files element.go,
    element_purego.go and arith.go.  Line numbers are those of buckler/internal/zp220 unless said
    otherwise.

    An element is the list of its limbs, least significant first, every limb a Z in [0, 2^64).
    The code is unrolled; the model writes each unrolled sequence of the same statement as one
    recursion over the limbs, so that one text covers the 2, 4, 7 and 14 limb packages.
    ZpUnrolled*.v and ZpText*.v hold the unrolled texts; C87 and C109 in Prop_Unrolled.v show that
    the recursions are those texts.  The code works in place; the functions below return the new value.
    The assembly variants (element_amd64.s, element_arm64.s) are in AsmModel.v. *)
From Coq Require Import ZArith.
From mathcomp Require Import all_ssreflect.
From Verif Require Import JindoIntModel.
Set Implicit Arguments. Unset Strict Implicit. Unset Printing Implicit Defensive.
Delimit Scope Z_scope with Z.

(** * math/bits and arith.go *)

(** math/bits.Add64, Sub64, Mul64 *)
Definition Add64 (x y c : Z) : Z * Z := (((x + y + c) mod W)%Z, ((x + y + c) / W)%Z).
Definition Sub64 (x y b : Z) : Z * Z := (((x - y - b) mod W)%Z, (if x - y - b <? 0 then 1 else 0)%Z).
Definition Mul64 (x y : Z) : Z * Z := ((x * y / W)%Z, ((x * y) mod W)%Z).

(** arith.go 14-20 *)
Definition madd0 (a b c : Z) : Z :=
  let: (hi, lo) := Mul64 a b in
  let: (_, carry) := Add64 lo c 0 in
  (Add64 hi 0 carry).1.

(** arith.go 23-29 *)
Definition madd1 (a b c : Z) : Z * Z :=
  let: (hi, lo) := Mul64 a b in
  let: (lo, carry) := Add64 lo c 0 in
  ((Add64 hi 0 carry).1, lo).

(** arith.go 32-40 *)
Definition madd2 (a b c d : Z) : Z * Z :=
  let: (hi, lo) := Mul64 a b in
  let: (c, carry) := Add64 c d 0 in
  let hi := (Add64 hi 0 carry).1 in
  let: (lo, carry) := Add64 lo c 0 in
  ((Add64 hi 0 carry).1, lo).

(** * the constants of one generated package *)
Record gen : Type := Gen {
  qs : seq Z;        (* q0, q1, ... (45-51) *)
  qInvNeg : Z;       (* 72 *)
  rSquare : seq Z;   (* 784-789 *)
  oneM : seq Z;      (* SetOne 195-201, IsOne 227-229 *)
  corr : seq Z;      (* inversionCorrectionFactorWord (1386-1389) *)
  invIters : nat;    (* invIterationsN (1390) *)
  addCarry : bool;   (* Add and Double look at the last carry: zp880 and examples/mult/zp *)
  mulCios : bool     (* Mul is the text of _mulGeneric: zp880 and examples/mult/zp *)
}.
Definition Limbs (g : gen) : nat := size (qs g).

(** * chains of one statement over the limbs *)

(** z[i], c = bits.Add64(x[i], y[i], c) *)
Fixpoint addChain (x y : seq Z) (c : Z) : seq Z * Z :=
  match x, y with
  | a :: x', b :: y' => let: (z, c) := Add64 a b c in let: (zs, c) := addChain x' y' c in (z :: zs, c)
  | _, _ => ([::], c)
  end.
(** z[i], b = bits.Sub64(x[i], y[i], b) *)
Fixpoint subChain (x y : seq Z) (b : Z) : seq Z * Z :=
  match x, y with
  | a :: x', d :: y' => let: (z, b) := Sub64 a d b in let: (zs, b) := subChain x' y' b in (z :: zs, b)
  | _, _ => ([::], b)
  end.
(** C, t[i] = madd2(a, x[i], t[i], C) *)
Fixpoint madd2Chain (a : Z) (x t : seq Z) (C : Z) : seq Z * Z :=
  match x, t with
  | b :: x', c :: t' => let: (C, z) := madd2 a b c C in let: (zs, C) := madd2Chain a x' t' C in (z :: zs, C)
  | _, _ => ([::], C)
  end.
(** C, t[i] = madd1(a, x[i], C) *)
Fixpoint madd1Chain (a : Z) (x : seq Z) (C : Z) : seq Z * Z :=
  match x with
  | b :: x' => let: (C, z) := madd1 a b C in let: (zs, C) := madd1Chain a x' C in (z :: zs, C)
  | _ => ([::], C)
  end.
(** u[i], c[i] = bits.Mul64(v, y[i]) *)
Definition his (v : Z) (y : seq Z) : seq Z := [seq (Mul64 v d).1 | d <- y].
Definition los (v : Z) (y : seq Z) : seq Z := [seq (Mul64 v d).2 | d <- y].

Definition hd0 (x : seq Z) : Z := nth 0%Z x 0.
Definition lst (x : seq Z) : Z := last 0%Z x.
Definition but (x : seq Z) : seq Z := take (size x).-1 x.

Section Gen.
Variable g : gen.
Notation q := (qs g).
Notation n := (Limbs g).

(** 222-224 *)
Definition IsZero (z : seq Z) : bool := (foldr Z.lor 0 z =? 0)%Z.
(** 217-219, 212-214 *)
Definition NotEqual (z x : seq Z) : Z := foldr Z.lor 0%Z [seq Z.lxor p.1 p.2 | p <- zip z x].
Definition Equal (z x : seq Z) : bool := (NotEqual z x =? 0)%Z.
(** 227-229 *)
Definition IsOne (z : seq Z) : bool := (NotEqual z (oneM g) =? 0)%Z.

(** 358-360: z[3] < q3 || (z[3] == q3 && (z[2] < q2 || ...)); the fold starts from limb 0 *)
Definition less (z y : seq Z) : bool :=
  foldl (fun acc p => (p.1 <? p.2)%Z || ((p.1 =? p.2)%Z && acc)) false (zip z y).
Definition smallerThanModulus (z : seq Z) : bool := less z q.

(** 655-665, and the ends of Add, Double, Mul, fromMont *)
Definition reduce (z : seq Z) : seq Z := if smallerThanModulus z then z else (subChain z q 0).1.

(** 397-413; examples/mult/zp 367-390 *)
Definition addWith (x y : seq Z) : seq Z :=
  let: (z, carry) := addChain x y 0 in
  if addCarry g && ~~ (carry =? 0)%Z then (subChain z q 0).1 else reduce z.
Definition Add (x y : seq Z) : seq Z := addWith x y.
(** 417-433 *)
Definition Double (x : seq Z) : seq Z := addWith x x.
(** 437-450 *)
Definition Sub (x y : seq Z) : seq Z :=
  let: (z, b) := subChain x y 0 in
  if ~~ (b =? 0)%Z then (addChain z q 0).1 else z.
(** 454-465 *)
Definition Neg (x : seq Z) : seq Z := if IsZero x then nseq n 0%Z else (subChain q x 0).1.

(** 370-387 (and examples/mult/zp 342-362, which keeps the carry of the addition) *)
Fixpoint shr1 (z : seq Z) (top : Z) : seq Z :=
  match z with
  | [::] => [::]
  | [:: a] => [:: Z.lor (Z.shiftr a 1) (Z.shiftl top 63 mod W)%Z]
  | a :: ((b :: _) as z') => Z.lor (Z.shiftr a 1) (Z.shiftl b 63 mod W)%Z :: shr1 z' top
  end.
Definition Halve (z : seq Z) : seq Z :=
  if (Z.land (hd0 z) 1 =? 1)%Z then
    let: (z, carry) := addChain z q 0 in shr1 z (if addCarry g && ~~ (carry =? 0)%Z then 1 else 0)%Z
  else shr1 z 0.

(** 481-603 (_mulGeneric), and Mul of zp880 (element_purego.go 52-) and of examples/mult/zp *)
Definition ciosReduce (ts : seq Z) (tn D : Z) : seq Z * Z :=
  let m := ((hd0 ts * qInvNeg g) mod W)%Z in
  let C := madd0 m (hd0 q) (hd0 ts) in
  let: (ts, C) := madd2Chain m (behead q) (behead ts) C in
  let: (tl, C) := Add64 tn C 0 in
  (rcons ts tl, (Add64 0 D C).1).
Definition ciosFirst (x : seq Z) (v : Z) : seq Z * Z :=
  let: (C, t0) := Mul64 v (hd0 x) in
  let: (ts, C) := madd1Chain v (behead x) C in
  let: (tn, D) := Add64 0 C 0 in
  ciosReduce (t0 :: ts) tn D.
Definition ciosRound (x : seq Z) (st : seq Z * Z) (v : Z) : seq Z * Z :=
  let: (ts, tn) := st in
  let: (C, t0) := madd1 v (hd0 x) (hd0 ts) in
  let: (ts, C) := madd2Chain v (behead x) (behead ts) C in
  let: (tn, D) := Add64 tn C 0 in
  ciosReduce (t0 :: ts) tn D.
Definition mulGeneric (x y : seq Z) : seq Z :=
  let: (ts, tn) := foldl (ciosRound x) (ciosFirst x (hd0 y)) (behead y) in
  if ~~ (tn =? 0)%Z then (subChain ts q 0).1 else reduce ts.

(** element_purego.go 44-214: the rounds of Mul for a modulus with a spare bit.  [purReduce] is
    the part of a round from "m := qInvNeg * t0" on. *)
Definition purReduce (t : seq Z) (c2 : Z) : seq Z :=
  let m := ((qInvNeg g * hd0 t) mod W)%Z in
  let u := his m q in
  let c1 := los m q in
  let: (_, c0) := Add64 (hd0 t) (hd0 c1) 0 in
  let: (t', c0) := addChain (rcons (but (behead t)) 0%Z) (behead c1) c0 in
  let ul := (Add64 (lst u) 0 c0).1 in
  let: (t', c0) := addChain (but u) t' 0 in
  let c2 := (Add64 c2 0 c0).1 in
  let: (tm, c0) := Add64 (lst t) (lst t') 0 in
  rcons (rcons (but t') tm) (Add64 ul c2 c0).1.
Definition purFirst (y : seq Z) (v : Z) : seq Z :=
  let u := his v y in
  let t := los v y in
  let: (t', c0) := addChain (but u) (behead t) 0 in
  let c2 := (Add64 (lst u) 0 c0).1 in
  purReduce (hd0 t :: t') c2.
Definition purRound (y : seq Z) (t : seq Z) (v : Z) : seq Z :=
  let u := his v y in
  let: (t, c0) := addChain (los v y) t 0 in
  let c2 := (Add64 0 0 c0).1 in
  let: (t', c0) := addChain (but u) (behead t) 0 in
  let c2 := (Add64 (lst u) c2 c0).1 in
  purReduce (hd0 t :: t') c2.
Definition mulPure (x y : seq Z) : seq Z := reduce (foldl (purRound y) (purFirst y (hd0 x)) (behead x)).

Definition Mul (x y : seq Z) : seq Z := if mulCios g then mulGeneric x y else mulPure x y.
(** element_purego.go 217-389: the same text with y = x *)
Definition Square (x : seq Z) : seq Z := Mul x x.

(** 604-653 *)
Definition montRound (z : seq Z) : seq Z :=
  let m := ((hd0 z * qInvNeg g) mod W)%Z in
  let C := madd0 m (hd0 q) (hd0 z) in
  let: (zs, C) := madd2Chain m (behead q) (behead z) C in
  rcons zs C.
Definition fromMont (z : seq Z) : seq Z := reduce (iter n montRound z).
(** 793-795 *)
Definition toMont (z : seq Z) : seq Z := Mul z (rSquare g).

(** * conversions *)

(** 866-870, 239-241 *)
Definition Bits (z : seq Z) : seq Z := fromMont z.
Definition Uint64 (z : seq Z) : Z := nth 0%Z (Bits z) 0.
(** 232-236, 246-249 *)
Definition FitsOnOneWord (z : seq Z) : bool := (foldr Z.lor 0 (behead z) =? 0)%Z.
Definition IsUint64 (z : seq Z) : bool := FitsOnOneWord (fromMont z).

(** 255-279 *)
Definition cmpLimbs (z x : seq Z) : Z :=
  foldl (fun acc p => if (p.2 <? p.1)%Z then 1%Z else if (p.1 <? p.2)%Z then (-1)%Z else acc) 0%Z (zip z x).
Definition Cmp (z x : seq Z) : Z := cmpLimbs (Bits z) (Bits x).

(** 94-99, 87-91 *)
Definition SetUint64 (v : Z) : seq Z := toMont (v :: nseq n.-1 0%Z).
(** 101-113: v is an int64; [v >> 63] is the arithmetic shift, the conversion to uint64 drops
    the overflow *)
Definition absInt64 (v : Z) : Z := let m := Z.shiftr v 63 in ((Z.lxor v m - m) mod W)%Z.
Definition SetInt64 (v : Z) : seq Z :=
  let m := Z.shiftr v 63 in
  let z := SetUint64 (absInt64 v) in
  if ~~ (m =? 0)%Z then Neg z else z.

(** 961-978: big.Int.Bits gives the words of v without leading zeros; z is zero before the copy *)
Fixpoint bigWords (fuel : nat) (v : Z) : seq Z :=
  if fuel is fuel'.+1 then if (v =? 0)%Z then [::] else (v mod W)%Z :: bigWords fuel' (v / W)%Z else [::].
Definition copyWords (k : nat) (w : seq Z) : seq Z := mkseq (fun i => nth 0%Z w i) k.

(** the integer of a list of words; toBigInt (804-817) writes the words in big-endian order and
    reads them back with big.Int.SetBytes *)
Fixpoint wordsVal (x : seq Z) : Z := if x is a :: x' then (a + W * wordsVal x')%Z else 0%Z.
Definition modulusOf : Z := wordsVal q. (* _modulus, 53-58 and 77-81 *)

Definition setBig (v : Z) : seq Z := toMont (copyWords n (bigWords n v)).
(** 931-958 *)
Definition SetBigInt (v : Z) : seq Z :=
  if (v =? modulusOf)%Z then nseq n 0%Z
  else if (v <? modulusOf)%Z && (0 <=? v)%Z then setBig v
  else setBig (v mod modulusOf)%Z.
(** 849-853 *)
Definition BigInt (z : seq Z) : Z := wordsVal (fromMont z).

(** encoding/binary: BigEndian.PutUint64, BigEndian.Uint64, on lists of bytes *)
Definition putBE (w : Z) : seq Z := mkseq (fun i => (Z.shiftr w (8 * Z.of_nat (7 - i)) mod 256)%Z) 8.
Definition getBE (b : seq Z) : Z := foldl (fun acc d => Z.lor (Z.shiftl acc 8) d) 0%Z b.

(** 1093-1099, 873-876, 879-882: the limbs from the most significant one on *)
Definition Marshal (z : seq Z) : seq Z := flatten [seq putBE w | w <- rev (fromMont z)].
(** 1078-1091 *)
Definition beElement (b : seq Z) : option (seq Z) :=
  let z := rev [seq getBE w | w <- reshape (nseq n 8) b] in
  if smallerThanModulus z then Some (toMont z) else None.
(** 891-914: big.Int.SetBytes reads big-endian *)
Definition SetBytes (e : seq Z) : seq Z :=
  let slow := SetBigInt (foldl (fun acc d => acc * 256 + d)%Z 0%Z e) in
  if size e == (8 * n)%N then if beElement e is Some v then v else slow else slow.
(** 918-929; None is the returned error *)
Definition SetBytesCanonical (e : seq Z) : option (seq Z) := if size e == (8 * n)%N then beElement e else None.

(** 1769-1773: the limbs of fromMont are written into res[0..n) *)
Definition Slice (z res : seq Z) : seq Z := fromMont z ++ drop n res.

(** 303-345: [src] is the stream of random bytes, [pos] the number already used.  Every attempt
    reads k bytes, clears the unused bits of the last one and takes the bytes as little-endian
    limbs (the bytes from k on are zero).  The loop has no bound; [fuel] attempts are granted. *)
Definition bitLen (e : Z) : nat := if (e =? 0)%Z then 0 else (Z.to_nat (Z.log2 e)).+1.
Definition randBytes : nat := ((bitLen modulusOf + 7) %/ 8)%N.
Definition topMask : Z :=
  let b := (bitLen modulusOf %% 8)%N in (2 ^ Z.of_nat (if b == 0%N then 8%N else b) - 1)%Z.
Definition candidate (src : nat -> Z) (pos : nat) : seq Z :=
  let byte i := if (i < randBytes)%N then
      (if i == randBytes.-1 then Z.land (src (pos + i)) topMask else src (pos + i)) else 0%Z in
  mkseq (fun j => foldr (fun i acc => Z.lor (byte (8 * j + i)%N) (Z.shiftl acc 8)) 0%Z (iota 0 8)) n.
Fixpoint SetRandom (fuel : nat) (src : nat -> Z) (pos : nat) : option (seq Z * nat) :=
  if fuel is fuel'.+1 then
    let z := candidate src pos in
    if smallerThanModulus z then Some (z, pos + randBytes)%N else SetRandom fuel' src (pos + randBytes)
  else None.
End Gen.

(** * inverses *)
Section Inv.
Variable g : gen.
Notation q := (qs g).
Notation n := (Limbs g).

(** 1550-1565: e = q - 2; the bits from BitLen - 2 down to 0 *)
Definition powBits (x : seq Z) (e : Z) (bits : seq nat) : seq Z :=
  foldl (fun z i => let z := Square g z in if Z.testbit e (Z.of_nat i) then Mul g z x else z) x bits.
Definition inverseExp (x : seq Z) : seq Z :=
  let e := (modulusOf g - 2)%Z in
  powBits x e (rev (iota 0 (bitLen e).-1)).

(** int64 arithmetic: the representative in [-2^63, 2^63) *)
Definition toInt64 (z : Z) : Z := ((z + 2 ^ 63) mod W - 2 ^ 63)%Z.

(** 708-719 *)
Definition BitLen (z : seq Z) : nat := bitLen (wordsVal z).

(** 1569-1590 *)
Definition approximate (x : seq Z) (nBits : nat) : Z :=
  if (nBits <= 64)%N then hd0 x else
  let lo := Z.land (Z.ones 31) (hd0 x) in
  let hiWordIndex := ((nBits - 1) %/ 64)%N in
  let avail := (nBits - hiWordIndex * 64)%N in
  let used := minn avail 33 in
  let mask := (Z.lxor (Z.ones 64) (Z.ones (Z.of_nat (avail - used))))%Z in
  let hi := (Z.shiftl (Z.land (nth 0%Z x hiWordIndex) mask) (Z.of_nat (64 - avail)) mod W)%Z in
  let mask := (Z.lxor (Z.ones 64) (Z.ones (Z.of_nat (31 + used))))%Z in
  let mid := Z.shiftr (Z.land mask (nth 0%Z x (hiWordIndex - 1))) (Z.of_nat used) in
  Z.lor (Z.lor lo mid) hi.

(** 1713-1723 *)
Definition negL (x : seq Z) (xHi : Z) : seq Z * Z :=
  let: (x, b) := subChain (nseq (size x) 0%Z) x 0 in
  (x, (Sub64 0 xHi b).1).
(** 1726-1742 *)
Definition mulWNonModular (x : seq Z) (y : Z) : seq Z * Z :=
  let w := absInt64 y in
  let: (c, z0) := Mul64 (hd0 x) w in
  let: (zs, c) := madd1Chain w (behead x) c in
  if (y <? 0)%Z then negL (z0 :: zs) c else (z0 :: zs, c).
(** 1746-1761 *)
Definition linearCombNonModular (x : seq Z) (xC : Z) (y : seq Z) (yC : Z) : seq Z * Z :=
  let: (yT, yHi) := mulWNonModular y yC in
  let: (xT, xHi) := mulWNonModular x xC in
  let: (z, carry) := addChain xT yT 0 in
  (z, (Add64 xHi yHi carry).1).

(** 1604-1694: [t] holds t[i..]; each round drops its first word.  The last round leaves the
    result in z. *)
Definition sosRound (t : seq Z) (last : bool) : seq Z :=
  let m := ((hd0 t * qInvNeg g) mod W)%Z in
  let C := madd0 m (hd0 q) (hd0 t) in
  let: (ts, C) := madd2Chain m (behead q) (take n.-1 (behead t)) C in
  let rest := drop n t in
  if last then rcons ts C else ts ++ ((hd0 rest + C) mod W)%Z :: behead rest.
Definition montReduceSigned (x : seq Z) (xHi : Z) : seq Z :=
  let mustNeg := ~~ (Z.land xHi (2 ^ 63) =? 0)%Z in
  let xHi := Z.land xHi (2 ^ 63 - 1) in
  let t := sosRound (x ++ xHi :: nseq (n - 2) 0%Z) false in
  let t := iter (n - 2) (fun t => sosRound t false) t in
  let z := reduce g (sosRound t true) in
  if mustNeg then
    let: (z, b) := subChain z ((2 ^ 63)%Z :: nseq n.-1 0%Z) 0 in
    if ~~ (b =? 0)%Z then (addChain (rcons (but z) (W - 1)%Z) q 0).1 else z
  else z.
(** 1595-1600 *)
Definition linearComb (x : seq Z) (xC : Z) (y : seq Z) (yC : Z) : seq Z :=
  let: (z, hi) := linearCombNonModular x xC y yC in montReduceSigned z hi.

(** 1704-1710 *)
Definition updateFactorsDecompose (c : Z) : Z * Z :=
  let c := toInt64 (c + 9223372034707292159) in
  ((Z.land c (Z.ones 32) - 2147483647)%Z, (Z.land (Z.shiftr c 32) (Z.ones 32) - 2147483647)%Z).

(** 1431-1455: approxLowBitsN = 31 steps on the approximations *)
Definition innerStep (st : Z * Z * Z * Z) (_ : nat) : Z * Z * Z * Z :=
  let: (aA, bA, c0, c1) := st in
  let: (aA, bA, c0, c1) :=
    if (Z.land aA 1 =? 0)%Z then ((aA / 2)%Z, bA, c0, c1)
    else let: (s, borrow) := Sub64 aA bA 0 in
      let: (s, bA, c0, c1) := if (borrow =? 1)%Z then (((bA - aA) mod W)%Z, aA, c1, c0) else (s, bA, c0, c1) in
      ((s / 2)%Z, bA, toInt64 (c0 - c1), c1) in
  (aA, bA, c0, toInt64 (c1 * 2)).

(** 1472-1475: shift of [z | hi] to the right by 31 bits *)
Fixpoint shr31 (z : seq Z) (hi : Z) : seq Z :=
  match z with
  | [::] => [::]
  | [:: a] => [:: Z.lor (Z.shiftr a 31) (Z.shiftl hi 33 mod W)%Z]
  | a :: ((b :: _) as z') => Z.lor (Z.shiftr a 31) (Z.shiftl b 33 mod W)%Z :: shr31 z' hi
  end.

(** 1459-1475, 1478-1490: one of the two updates; gives the new limbs and the factors *)
Definition update (s : seq Z) (f : Z) (b : seq Z) (h : Z) : seq Z * Z * Z :=
  let: (a, aHi) := linearCombNonModular s f b h in
  if ~~ (Z.land aHi (2 ^ 63) =? 0)%Z then
    let: (a, aHi) := negL a aHi in (shr31 a aHi, toInt64 (- f), toInt64 (- h))
  else (shr31 a aHi, f, h).

Record invState : Type := InvState {
  iA : seq Z; iB : seq Z; iU : seq Z; iV : seq Z; iP : Z * Z * Z * Z; iI : nat
}.

(** 1424-1517: one pass through the outer loop *)
Definition invStep (st : invState) : invState :=
  let: InvState a b u v (pf0, pg0, pf1, pg1) i := st in
  let nb := maxn (BitLen a) (BitLen b) in
  let: (_, _, c0, c1) := foldl innerStep (approximate a nb, approximate b nb, 1%Z, (2 ^ 32)%Z) (iota 0 31) in
  let s := a in
  let: (f0, g0) := updateFactorsDecompose c0 in
  let: (a, f0, g0) := update s f0 b g0 in
  let: (f1, g1) := updateFactorsDecompose c1 in
  let: (b, f1, g1) := update s f1 b g1 in
  if odd i then
    let F0 := toInt64 (f0 * pf0 + g0 * pf1) in
    let G0 := toInt64 (f0 * pg0 + g0 * pg1) in
    let F1 := toInt64 (f1 * pf0 + g1 * pf1) in
    let G1 := toInt64 (f1 * pg0 + g1 * pg1) in
    InvState a b (linearComb u F0 v G0) (linearComb u F1 v G1) (pf0, pg0, pf1, pg1) i.+1
  else InvState a b u v (f0, g0, f1, g1) i.+1.

(** 1424: for i = 0; i&1 == 1 || !a.IsZero(); i++; the code has no bound on the number of
    passes, [fuel] is the number granted *)
Fixpoint invLoop (fuel : nat) (st : invState) : option invState :=
  if odd (iI st) || ~~ IsZero (iA st) then
    if fuel is fuel'.+1 then invLoop fuel' (invStep st) else None
  else Some st.

(** 1523-1528: one multiplication by 2^62 for every pair of passes not made *)
Definition padLoop (v : seq Z) (i : nat) : seq Z :=
  iter (uphalf (invIters g - i)) (fun v => Mul g v ((2 ^ 62)%Z :: nseq n.-1 0%Z)) v.

(** 1396-1547 *)
Definition Inverse (fuel : nat) (x : seq Z) : option (seq Z) :=
  let z0 := nseq n 0%Z in
  if invLoop fuel (InvState x q (1%Z :: nseq n.-1 0%Z) z0 (0, 0, 0, 0)%Z 0) is Some st then
    let v := padLoop (iV st) (iI st) in
    let z := Mul g v (corr g) in
    let w := Mul g x z in
    Some (if ~~ IsOne g w && ~~ IsZero x then inverseExp x else z)
  else None.

(** 669-698; [inv] is Inverse *)
Definition batchForward (a : seq (seq Z)) : seq (seq Z) * seq Z :=
  foldl (fun st x => let: (res, acc) := st in
    if IsZero x then (rcons res (nseq n 0%Z), acc) else (rcons res acc, Mul g acc x)) ([::], oneM g) a.
Definition batchBackward (a res : seq (seq Z)) (acc : seq Z) : seq (seq Z) :=
  (foldr (fun p st => let: (out, acc) := st in
    if IsZero p.1 then (p.2 :: out, acc) else (Mul g p.2 acc :: out, Mul g acc p.1)) ([::], acc) (zip a res)).1.
Definition BatchInvert (inv : seq Z -> seq Z) (a : seq (seq Z)) : seq (seq Z) :=
  let: (res, acc) := batchForward a in batchBackward a res (inv acc).
End Inv.
