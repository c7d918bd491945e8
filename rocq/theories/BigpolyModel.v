(** Model of math/bigpoly: ntt.go, vec.go (bit reversal), poly.go, cyclic.go,
    cyclotomic.go.  Slices of field elements are [seq F]; writing entry [i] is
    [set_nth 0 v i x].  A Go panic (or an out-of-bounds unsafe access) is [None].
    Definitions only. *)
From Coq Require Import ZArith.
From mathcomp Require Import all_ssreflect all_algebra.
From Verif Require Import UintModel.
Set Implicit Arguments. Unset Strict Implicit. Unset Printing Implicit Defensive.
Import GRing.Theory.
Local Open Scope ring_scope.
Delimit Scope Z_scope with Z.

(** math/bigpoly/utils.go 4-6 *)
Definition isPowerOfTwo (n : nat) : bool :=
  (0 < n)%N && (Z.land (Z.of_nat n) (Z.of_nat n - 1) =? 0)%Z.

(** [for x := lo; x < hi; x += step] as the list of values of [x]. *)
Definition range_step (lo hi step : nat) : seq nat :=
  [seq (lo + step * i)%N | i <- iota 0 ((hi - lo + step.-1) %/ step)].

Section BitReverse.
Variables (T : Type) (x0 : T).

(** vec.go 127-130: [for j >= bit { j -= bit; bit >>= 1 }] *)
Fixpoint br_inner (fuel j bit : nat) : nat * nat :=
  match fuel with
  | 0 => (j, bit)
  | f.+1 => if (bit <= j)%N then br_inner f (j - bit)%N bit./2 else (j, bit)
  end.

(** vec.go 125-135: body of the loop for one [i]; state is ([v], [j]) *)
Definition br_step (st : seq T * nat) (i : nat) : seq T * nat :=
  let: (v, j) := st in
  let n := size v in
  let: (j, bit) := br_inner n j n./2 in
  let j := (j + bit)%N in
  if (i < j)%N
  then (set_nth x0 (set_nth x0 v i (nth x0 v j)) j (nth x0 v i), j)
  else (v, j).

(** vec.go 123-136 *)
Definition bitReverseInPlace (v : seq T) : seq T :=
  (foldl br_step (v, 0%N) (iota 1 (size v).-1)).1.
End BitReverse.

Section NTT.
Variable F : fieldType.
Implicit Types (p v tw : seq F).

(** ntt.go 254-259, [u] and [v] being the entries [j] and [k] of [p] *)
Definition butterfly p (j k : nat) (w : F) : seq F :=
  let p := set_nth 0 p k (p`_k * w) in
  let p := set_nth 0 p j (p`_j + p`_k) in
  let p := set_nth 0 p k (p`_k + p`_k) in
  set_nth 0 p k (p`_j - p`_k).

(** ntt.go 365-370 *)
Definition invButterfly p (j k : nat) (w : F) : seq F :=
  let p := set_nth 0 p j (p`_j + p`_k) in
  let p := set_nth 0 p k (p`_k + p`_k) in
  let p := set_nth 0 p k (p`_j - p`_k) in
  set_nth 0 p k (p`_k * w).

(** ntt.go 267-273: one stage of the reference transform; [bf] is [butterfly] or
    (lines 377-383) [invButterfly] *)
Definition ref_stage (bf : seq F -> nat -> nat -> F -> seq F) tw (m t : nat) p :=
  foldl (fun p i =>
    let j1 := (i * t).*2 in
    foldl (fun p j => bf p j (j + t)%N tw`_(m + i)) p (iota j1 t))
    p (iota 0 m).

(** ntt.go 264-274: [t := N; for m := 1; m <= N/2; m <<= 1 { t >>= 1; ... }] *)
Fixpoint ntt_ref_loop (fuel N : nat) tw (m t : nat) p :=
  match fuel with
  | 0 => p
  | f.+1 =>
    if (m <= N./2)%N
    then let t := t./2 in ntt_ref_loop f N tw m.*2 t (ref_stage butterfly tw m t p)
    else p
  end.

(** ntt.go 261-275 *)
Definition nttInPlaceRef p tw := ntt_ref_loop (size p) (size p) tw 1 (size p) p.

(** ntt.go 375-385: [t := 1; for m := N/2; m >= 1; m >>= 1 { ...; t <<= 1 }] *)
Fixpoint intt_ref_loop (fuel : nat) twInv (m t : nat) p :=
  match fuel with
  | 0 => p
  | f.+1 =>
    if (1 <= m)%N
    then intt_ref_loop f twInv m./2 t.*2 (ref_stage invButterfly twInv m t p)
    else p
  end.

(** ntt.go 372-386 *)
Definition inttInPlaceRef p twInv := intt_ref_loop (size p) twInv (size p)./2 1 p.

(** ntt.go 282-293, 303-314: eight butterflies on [c0 = p[j..j+8)], [c1 = p[j+t..j+t+8)] *)
Definition block8 (bf : seq F -> nat -> nat -> F -> seq F) (j t : nat) (w : F) p :=
  foldl (fun p k => bf p (j + k)%N (j + t + k)%N w) p (iota 0 8).

(** ntt.go 281-294 and 452-465 *)
Definition unroll_first bf tw (N t : nat) p :=
  foldl (fun p j => block8 bf j t tw`_1 p) p (range_step 0 N./2 8).

(** ntt.go 298-316 and 430-448 *)
Definition unroll_stage bf tw (m t : nat) p :=
  foldl (fun p i =>
    let j1 := (i * t).*2 in
    let j2 := (j1 + t)%N in
    foldl (fun p j => block8 bf j t tw`_(m + i) p) p (range_step j1 j2 8))
    p (iota 0 m).

(** ntt.go 296-317 *)
Fixpoint unroll_loop (fuel N : nat) tw (m t : nat) p :=
  match fuel with
  | 0 => p
  | f.+1 =>
    if (m <= N %/ 16)%N
    then let t := t./2 in unroll_loop f N tw m.*2 t (unroll_stage butterfly tw m t p)
    else p
  end.

(** ntt.go 320-329 and 417-426: t = 4, m = N/8 *)
Definition unroll_t4 (bf : seq F -> nat -> nat -> F -> seq F) tw (N : nat) p :=
  foldl (fun p i =>
    let j := (8 * i)%N in
    let p := bf p (j + 0)%N (j + 4)%N tw`_(i + N %/ 8) in
    let p := bf p (j + 1)%N (j + 5)%N tw`_(i + N %/ 8) in
    let p := bf p (j + 2)%N (j + 6)%N tw`_(i + N %/ 8) in
    bf p (j + 3)%N (j + 7)%N tw`_(i + N %/ 8)) p (iota 0 (N %/ 8)).

(** ntt.go 332-342 and 404-414: t = 2, m = N/4 *)
Definition unroll_t2 (bf : seq F -> nat -> nat -> F -> seq F) tw (N : nat) p :=
  foldl (fun p i =>
    let j := (4 * i)%N in
    let p := bf p (j + 0)%N (j + 2)%N tw`_(i + N %/ 4) in
    let p := bf p (j + 1)%N (j + 3)%N tw`_(i + N %/ 4) in
    let p := bf p (j + 4)%N (j + 6)%N tw`_(i + N %/ 4 + 1) in
    bf p (j + 5)%N (j + 7)%N tw`_(i + N %/ 4 + 1)) p (range_step 0 (N %/ 4) 2).

(** ntt.go 345-354 and 392-401: t = 1, m = N/2 *)
Definition unroll_t1 (bf : seq F -> nat -> nat -> F -> seq F) tw (N : nat) p :=
  foldl (fun p i =>
    let j := (2 * i)%N in
    let p := bf p (j + 0)%N (j + 1)%N tw`_(i + N %/ 2 + 0) in
    let p := bf p (j + 2)%N (j + 3)%N tw`_(i + N %/ 2 + 1) in
    let p := bf p (j + 4)%N (j + 5)%N tw`_(i + N %/ 2 + 2) in
    bf p (j + 6)%N (j + 7)%N tw`_(i + N %/ 2 + 3)) p (range_step 0 (N %/ 2) 4).

(** ntt.go 277-355 *)
Definition nttInPlaceUnroll p tw :=
  let N := size p in
  let t := (N %/ 2)%N in
  let p := unroll_first butterfly tw N t p in
  let p := unroll_loop N N tw 2 t p in
  let p := unroll_t4 butterfly tw N p in
  let p := unroll_t2 butterfly tw N p in
  unroll_t1 butterfly tw N p.

(** ntt.go 428-450: returns the data and the final [t] *)
Fixpoint inv_unroll_loop (fuel : nat) twInv (m t : nat) p : seq F * nat :=
  match fuel with
  | 0 => (p, t)
  | f.+1 =>
    if (2 <= m)%N
    then inv_unroll_loop f twInv m./2 t.*2 (unroll_stage invButterfly twInv m t p)
    else (p, t)
  end.

(** ntt.go 388-466 *)
Definition inttInPlaceUnroll p twInv :=
  let N := size p in
  let p := unroll_t1 invButterfly twInv N p in
  let p := unroll_t2 invButterfly twInv N p in
  let p := unroll_t4 invButterfly twInv N p in
  let: (p, t) := inv_unroll_loop N twInv (N %/ 16)%N 8 p in
  unroll_first invButterfly twInv N t p.

(** ntt.go 246-252 *)
Definition nttInPlace p tw :=
  if (size p < 32)%N then nttInPlaceRef p tw else nttInPlaceUnroll p tw.

(** ntt.go 357-363 *)
Definition inttInPlace p twInv :=
  if (size p < 32)%N then inttInPlaceRef p twInv else inttInPlaceUnroll p twInv.

(** vec.go 77-97 on values: eight-blocks then the tail.  The pointer-level version,
    with aliasing, is in VecModel.v. *)
Definition scalarMulVec (xOut x0 : seq F) (c : F) : seq F :=
  let M := (8 * (size xOut %/ 8))%N in
  let x := foldl (fun x i =>
    foldl (fun x k => set_nth 0 x (i + k)%N (x0`_(i + k) * c)) x (iota 0 8))
    xOut (range_step 0 M 8) in
  foldl (fun x i => set_nth 0 x i (x0`_i * c)) x (iota M (size xOut - M)).

(** ntt.go 20-22, 147-149 *)
Record transformer := Transformer {
  trank : nat;
  ttw : seq F;
  ttwInv : seq F;
  trankInv : F
}.

(** ntt.go 99-112 (and 119-132, 207-220, 227-240; poly.go 45-58): copy in blocks of
    eight through unsafe pointers.  [None] when a block leaves one of the slices. *)
Fixpoint copy8_loop (ixs : seq nat) (vOut v : seq F) : option (seq F) :=
  match ixs with
  | [::] => Some vOut
  | i :: ixs' =>
    if (i + 8 <= size vOut)%N && (i + 8 <= size v)%N
    then copy8_loop ixs'
           (foldl (fun x k => set_nth 0 x (i + k)%N v`_(i + k)) vOut (iota 0 8)) v
    else None
  end.
Definition copy8 (vOut v : seq F) : option (seq F) :=
  copy8_loop (range_step 0 (size vOut) 8) vOut v.

(** ntt.go 98-115 and 206-223 *)
Definition FwdNTTTo (ntt : transformer) (vOut v : seq F) : option (seq F) :=
  if copy8 vOut v is Some x then Some (nttInPlace x (ttw ntt)) else None.

(** ntt.go 118-136 and 226-244 *)
Definition InvNTTTo (ntt : transformer) (vOut v : seq F) : option (seq F) :=
  if copy8 vOut v is Some x then
    let x := inttInPlace x (ttwInv ntt) in
    Some (scalarMulVec x x (trankInv ntt))
  else None.

(** The same two functions without the copy loop's bounds question; used by the
    models of the callers (the copy is the identity on slices of equal length
    divisible by eight, Prop_Bigpoly). *)
Definition fwdNTT (ntt : transformer) (v : seq F) : seq F := nttInPlace v (ttw ntt).
Definition invNTT (ntt : transformer) (v : seq F) : seq F :=
  let x := inttInPlace v (ttwInv ntt) in scalarMulVec x x (trankInv ntt).

(** ntt.go 58-63 and 185-190: [n] successive powers written one after the other *)
Definition powers_table (g : F) (n : nat) : seq F :=
  foldl (fun tw i => set_nth 0 tw i (tw`_(i - 1) * g))
    (set_nth 0 (nseq n 0) 0 1) (iota 1 n.-1).

(** ntt.go 71-76: [for m := 1; m <= rank/2; m <<= 1 { for i < m { tw[m+i] = ref[i] } }] *)
Fixpoint spread_up (fuel rank m : nat) (ref tw : seq F) : seq F :=
  match fuel with
  | 0 => tw
  | f.+1 =>
    if (m <= rank./2)%N
    then spread_up f rank m.*2 ref
           (foldl (fun tw i => set_nth 0 tw (m + i)%N ref`_i) tw (iota 0 m))
    else tw
  end.

(** ntt.go 79-84: the same table filled from [m = rank/2] downwards *)
Fixpoint spread_down (fuel m : nat) (ref tw : seq F) : seq F :=
  match fuel with
  | 0 => tw
  | f.+1 =>
    if (1 <= m)%N
    then spread_down f m./2 ref
           (foldl (fun tw i => set_nth 0 tw (m + i)%N ref`_i) tw (iota 0 m))
    else tw
  end.
End NTT.

(** ntt.go 46-53 and 173-180: search for [x] with [x^(t1*t2) <> 1 mod p]; the result
    is [gBig], or 0 (the value of a fresh element) when the loop ends without break. *)
Fixpoint root_search (fuel : nat) (x pBig t1 t2 : Z) : Z :=
  match fuel with
  | 0 => 0%Z
  | f.+1 =>
    if (x <? pBig)%Z then
      let gBig := (x ^ t1 mod pBig)%Z in
      let gPowBig := (gBig ^ t2 mod pBig)%Z in
      if (gPowBig =? 1)%Z then root_search f (x + 1)%Z pBig t1 t2 else gBig
    else 0%Z
  end.

Section Constructors.
Variables (F : fieldType) (U : uint F).

(** ntt.go 33-34: BigInt(SetBigInt(-1)) *)
Definition pNegOne : Z := bigInt U (setBigInt U (-1)).

(** ntt.go 40-53 / 167-180: the root used by a transformer *)
Definition find_root (t1 t2 : Z) : F :=
  let pBig := (pNegOne + 1)%Z in
  setBigInt U (root_search (Z.to_nat pBig) 2 pBig t1 t2).

(** ntt.go 26-95.  For rank 1 the write twRef[0] on an empty slice panics. *)
Definition NewCyclicTransformer (rank : nat) : option (transformer F) :=
  if ~~ isPowerOfTwo rank then None else
  if ~~ (pNegOne mod Z.of_nat (2 * rank) =? 0)%Z then None else
  let t1 := (pNegOne / Z.of_nat rank)%Z in
  let t2 := Z.of_nat rank./2 in
  let g := find_root t1 t2 in
  let gInv := g^-1 in
  if (rank %/ 2 == 0)%N then None else
  let twRef := bitReverseInPlace 0 (powers_table g (rank %/ 2)) in
  let twInvRef := bitReverseInPlace 0 (powers_table gInv (rank %/ 2)) in
  let tw := spread_up rank rank 1 twRef (nseq rank 0) in
  let twInv := spread_down rank (rank %/ 2) twInvRef (nseq rank 0) in
  let rankInv := (setBigInt U (Z.of_nat rank))^-1 in
  Some (Transformer rank tw twInv rankInv).

(** ntt.go 153-203 *)
Definition NewCyclotomicTransformer (rank : nat) : option (transformer F) :=
  if ~~ isPowerOfTwo rank then None else
  if ~~ (pNegOne mod Z.of_nat (2 * rank) =? 0)%Z then None else
  let t1 := (pNegOne / Z.of_nat (2 * rank))%Z in
  let t2 := Z.of_nat rank in
  let g := find_root t1 t2 in
  let gInv := g^-1 in
  let tw := bitReverseInPlace 0 (powers_table g rank) in
  let twInv := bitReverseInPlace 0 (powers_table gInv rank) in
  let rankInv := (setBigInt U (Z.of_nat rank))^-1 in
  Some (Transformer rank tw twInv rankInv).
End Constructors.

(** poly.go 11-14 *)
Record poly_t (F : fieldType) := Poly_t { coeffs : seq F; isNTT : bool }.

Section Poly.
Variable F : fieldType.

(** poly.go 64-76; [None] is the panic on NTT form *)
Definition Evaluate (p : poly_t F) (x : F) : option F :=
  if isNTT p then None
  else Some (foldl (fun z c => z * x + c) 0 (rev (coeffs p))).

(** The Horner loop of [Evaluate] on a coefficient slice. *)
Definition evalSlice (c : seq F) (x : F) : F := foldl (fun z c => z * x + c) 0 (rev c).

(** cyclic.go 30-34: one iteration, [q] and [r] being quo.Coeffs and rem.Coeffs *)
Definition quorem_step (N : nat) (qr : seq F * seq F) (i : nat) : seq F * seq F :=
  let: (q, r) := qr in
  let q := set_nth 0 q (i - N)%N (q`_(i - N) + r`_i) in
  let r := set_nth 0 r (i - N)%N (r`_(i - N) + r`_i) in
  let r := set_nth 0 r i 0 in
  (q, r).

(** cyclic.go 18-37; the result is (quo.Coeffs, rem.Coeffs).  [None]: the two panics, or
    rem.CopyFrom(p) leaving the slice. *)
Definition QuoRemByVanishing (rank : nat) (p : poly_t F) (N : nat)
  : option (seq F * seq F) :=
  if size (coeffs p) != rank then None else
  if isNTT p then None else
  if copy8 (nseq rank 0) (coeffs p) is Some r then
    Some (foldl (quorem_step N) (nseq rank 0, r) (rev (iota N (rank - N))))
  else None.

(** cyclotomic.go 53-60; [buf] is the pooled buffer with arbitrary old contents *)
Definition autTo (rank : nat) (buf p : seq F) (idx : nat) : seq F :=
  foldl (fun b i =>
    let j := ((i * idx) %% (2 * rank))%N in
    if (j < rank)%N then set_nth 0 b j p`_i else set_nth 0 b (j - rank)%N (- p`_i))
    buf (iota 0 rank).

(** cyclotomic.go 72-80; [buf] is pBuf after CopyFrom, [out] the old contents of pOut *)
Definition autNTTTo (rank : nat) (out buf : seq F) (idx : nat) : seq F :=
  let buf := bitReverseInPlace 0 buf in
  let out := foldl (fun o i =>
    let j := (((2 * i + 1) * idx) %% (2 * rank))%N in
    let j := (j - 1)./2 in
    set_nth 0 o i buf`_j) out (iota 0 rank) in
  bitReverseInPlace 0 out.

(** cyclotomic.go 36-39: Go's [%] truncates towards zero *)
Definition normIdx (rank : nat) (idx : Z) : nat :=
  let idx := Z.rem idx (Z.of_nat (2 * rank)) in
  Z.to_nat (if (idx <? 0)%Z then idx + Z.of_nat (2 * rank) else idx)%Z.

(** cyclotomic.go 29-46; [buf] is the pooled polynomial.  pOut is not an alias of p in
    this model (the code goes through the buffer in both branches). *)
Definition AutTo (rank : nat) (buf : seq F) (pOut p : poly_t F) (idx : Z)
  : option (poly_t F) :=
  if (size (coeffs pOut) != rank) || (size (coeffs p) != rank) then None else
  if (Z.rem idx 2 =? 0)%Z then None else
  let i := normIdx rank idx in
  if isNTT p
  then if copy8 buf (coeffs p) is Some b
       then Some (Poly_t (autNTTTo rank (coeffs pOut) b i) true) else None
  else if copy8 (coeffs pOut) (autTo rank buf (coeffs p) i) is Some o
       then Some (Poly_t o false) else None.

(** cyclotomic.go 111-121, one coefficient.  Euclidean Mod/Div of math/big with a
    positive modulus are [Z.modulo]/[Z.div]. *)
Definition modSwitchCoeff (q qBig x : Z) : Z :=
  let c := (x * q)%Z in
  let cRem := (c mod qBig)%Z in
  let cRem := if (Z.shiftr qBig 1 <? cRem)%Z then (cRem - qBig)%Z else cRem in
  let c := (c - cRem)%Z in
  ((c / qBig) mod q)%Z.

(** cyclotomic.go 99-124 *)
Definition ModSwitchTo (U : uint F) (rank : nat) (pBig : seq Z) (qBig : Z)
  : option (poly_t F) :=
  if size pBig != rank then None else
  let q := (bigInt U (setBigInt U (-1)) + 1)%Z in
  Some (Poly_t [seq setBigInt U (modSwitchCoeff q qBig x) | x <- pBig] false).
End Poly.
