(** The generated field types: C67 - C70, C82 - C86.

    The statements speak of the seven packages by their published moduli, of elements as lists of
    words, and of the integer that BigInt gives for an element. *)
From Coq Require Import ZArith Znumtheory Lia.
From mathcomp Require Import all_ssreflect zify ssrZ.
From Verif Require Import JindoIntModel ZpModel ZpConst ZpProofs ZpField ZpConv ZpInv ZpTerm.
Set Implicit Arguments. Unset Strict Implicit. Unset Printing Implicit Defensive.
Delimit Scope Z_scope with Z.
Local Arguments Z.mul : simpl never.
Local Arguments Z.add : simpl never.
Local Arguments Z.sub : simpl never.
Local Arguments Z.div : simpl never.
Local Arguments Z.modulo : simpl never.
Local Arguments Z.pow : simpl never.
Local Arguments Z.of_nat : simpl never.

(** * Specification *)

(** the packages and the moduli they publish *)
Definition packages : seq (gen * Z) :=
  [:: (zp110, zp110_modulus); (zp220, zp220_modulus); (zp440, zp440_modulus); (zp880, zp880_modulus);
      (jindoZp, jindoZp_modulus); (bfvZp, bfvZp_modulus); (multZp, multZp_modulus)].
(** the ones whose Inverse is the binary gcd: all but the last *)
Definition gcdPackages : seq (gen * Z) :=
  [:: (zp110, zp110_modulus); (zp220, zp220_modulus); (zp440, zp440_modulus); (zp880, zp880_modulus);
      (jindoZp, jindoZp_modulus); (bfvZp, bfvZp_modulus)].

(** the integer of a list of words, the least significant first *)
Definition intOf (x : seq Z) : Z := \big[Z.add/0%Z]_(i < size x) (nth 0%Z x i * 2 ^ (64 * Z.of_nat i))%Z.
Definition isWords (n : nat) (x : seq Z) : Prop :=
  size x = n /\ forall i, (i < n)%N -> (0 <= nth 0%Z x i < 2 ^ 64)%Z.
(** a reduced element of a package with n words and modulus p *)
Definition elt (n : nat) (p : Z) (x : seq Z) : Prop := isWords n x /\ (intOf x < p)%Z.
(** the integer of a list of bytes, the most significant first *)
Definition bigEndian (b : seq Z) : Z := \big[Z.add/0%Z]_(i < size b) (nth 0%Z b i * 256 ^ Z.of_nat (size b - i.+1))%Z.
Definition littleEndian (b : seq Z) : Z := \big[Z.add/0%Z]_(i < size b) (nth 0%Z b i * 256 ^ Z.of_nat i)%Z.
Definition isBytes (b : seq Z) : Prop := forall i, (i < size b)%N -> (0 <= nth 0%Z b i < 256)%Z.

(** * The specification and the vocabulary of the proofs *)
Lemma big_scale k (f : nat -> Z) c :
  (\big[Z.add/0]_(i < k) (f i * c) = (\big[Z.add/0]_(i < k) f i) * c)%Z.
Proof.
elim: k f => [|k IH] f; first by rewrite !big_ord0.
by rewrite !big_ord_recl Z.mul_add_distr_r; congr (_ + _)%Z; exact: (IH (fun i => f i.+1)).
Qed.
Lemma intOfE x : intOf x = wordsVal x.
Proof.
rewrite /intOf; elim: x => [|a x IH]; first by rewrite big_ord0.
rewrite /= big_ord_recl /= -IH -[W]/(2 ^ 64)%Z Z.mul_comm.
rewrite (Z.mul_comm (2 ^ 64)) -(@big_scale _ (fun i => nth 0 x i * 2 ^ (64 * Z.of_nat i))%Z).
congr (_ + _)%Z; first by rewrite -[(64 * Z.of_nat 0)%Z]/0%Z Z.pow_0_r; lia.
apply: eq_bigr => i _; rewrite /bump /= -Z.mul_assoc -Z.pow_add_r; [|lia|lia].
by congr (_ * 2 ^ _)%Z; lia.
Qed.
Lemma leE b : littleEndian b = leVal b.
Proof.
rewrite /littleEndian; elim: b => [|a x IH]; first by rewrite big_ord0.
rewrite /= big_ord_recl /= -IH.
rewrite (Z.mul_comm 256) -(@big_scale _ (fun i => nth 0 x i * 256 ^ (Z.of_nat i))%Z).
congr (_ + _)%Z; first by rewrite Z.pow_0_r; lia.
apply: eq_bigr => i _; rewrite /bump /= add1n -Z.mul_assoc Nat2Z.inj_succ Z.pow_succ_r; lia.
Qed.
Lemma beE b : bigEndian b = beVal b.
Proof.
rewrite /bigEndian; elim: b => [|a b IH]; first by rewrite big_ord0.
rewrite -[RHS]/(beVal ([:: a] ++ b)) beVal_cat -IH /= big_ord_recl /= subn1 /=; congr (_ + _)%Z.
Qed.
Lemma isWordsE n x : isWords n x <-> (size x = n /\ all word x).
Proof.
split=> -[hs h]; split=> //; last by move=> i hi; apply/wordP; apply: (all_nthP 0%Z h); rewrite hs.
by apply/(all_nthP 0%Z) => i hi; apply/wordP; apply: h; rewrite -hs.
Qed.
Lemma isBytesE b : isBytes b <-> all byte b.
Proof.
split=> h; last by move=> i hi; apply/byteP; exact: (all_nthP 0%Z h).
by apply/(all_nthP 0%Z) => i hi; apply/byteP; apply: h.
Qed.

(** the constants of the packages *)
Definition okGenb (g : gen) (p : Z) : bool :=
  [&& (1 < Limbs g)%N, all word (qs g), (B (Limbs g).-1 <=? wordsVal (qs g))%Z, word (qInvNeg g),
      ((hd0 (qs g) * qInvNeg g + 1) mod W =? 0)%Z,
      [&& size (rSquare g) == Limbs g, all word (rSquare g) & (wordsVal (rSquare g) =? B (Limbs g + Limbs g) mod wordsVal (qs g))%Z],
      [&& size (oneM g) == Limbs g, all word (oneM g) & (wordsVal (oneM g) =? B (Limbs g) mod wordsVal (qs g))%Z],
      addCarry g || (2 * wordsVal (qs g) <=? B (Limbs g))%Z,
      mulCios g || (2 * wordsVal (qs g) <=? B (Limbs g))%Z & (wordsVal (qs g) =? p)%Z].
Definition okInvb (g : gen) : bool :=
  [&& (2 * wordsVal (qs g) <=? B (Limbs g))%Z, size (corr g) == Limbs g, all word (corr g) &
      (wordsVal (corr g) <? wordsVal (qs g))%Z].
Lemma okGenbP g p : okGenb g p -> okGen g /\ wordsVal (qs g) = p.
Proof.
case/and5P => h1 h2 /Z.leb_le h3 h4 /and5P[/Z.eqb_eq h5 /and3P[/eqP h6 h7 /Z.eqb_eq h8] /and3P[/eqP h9 h10 /Z.eqb_eq h11] h12].
by case/andP=> h13 /Z.eqb_eq h14; split.
Qed.
Lemma okInvbP g : okInvb g -> okInv g.
Proof.
by case/and4P => /Z.leb_le h1 /eqP h2 h3 /Z.ltb_lt h4; split.
Qed.
Lemma packages_ok : all (fun gp => okGenb gp.1 gp.2) packages.
Proof. by vm_compute. Qed.
Lemma gcdPackages_ok : all (fun gp => okInvb gp.1) gcdPackages.
Proof. by vm_compute. Qed.

Lemma In_all (T : Type) (P : T -> bool) (l : seq T) x : all P l -> List.In x l -> P x.
Proof. by elim: l => //= a l IH /andP[ha hl] [<-|/(IH hl)]. Qed.
Lemma pkg_ok g p : List.In (g, p) packages -> okGen g /\ wordsVal (qs g) = p.
Proof. by move/(In_all packages_ok) => /okGenbP. Qed.
Lemma gcd_sub g p : List.In (g, p) gcdPackages -> List.In (g, p) packages.
Proof. rewrite /gcdPackages /packages /=; tauto. Qed.
Lemma gcd_ok g p : List.In (g, p) gcdPackages -> okInv g.
Proof. by move/(In_all gcdPackages_ok) => /okInvbP. Qed.
Lemma eltE g p x : wordsVal (qs g) = p -> elt (Limbs g) p x <-> red g x.
Proof. by move=> <-; rewrite /elt isWordsE intOfE. Qed.
Lemma wordsE g x : isWords (Limbs g) x <-> limbs g x.
Proof. exact: isWordsE. Qed.
Lemma BE k : B k = (2 ^ (64 * Z.of_nat k))%Z.
Proof.
elim: k => [|k IH] //; rewrite BS IH -[W]/(2 ^ 64)%Z -Z.pow_add_r; try lia.
by congr (2 ^ _)%Z; lia.
Qed.
Lemma prime_nat p : Znumtheory.prime p -> prime.prime (Z.to_nat p).
Proof.
move=> /prime_alt [h1 h2]; apply/primeP; split; first by lia.
move=> d hd; apply/orP; have hp0 : (0 < Z.to_nat p)%N by lia.
have hle := dvdn_leq hp0 hd; have hd0 := dvdn_gt0 hp0 hd.
case: (d =P 1%N) => [_|d1]; first by left.
case: (d =P Z.to_nat p) => [_|d2]; first by right.
exfalso; apply: (h2 (Z.of_nat d)); first by lia.
by case/dvdnP: hd => m hm; exists (Z.of_nat m); rewrite -Nat2Z.inj_mul -[(m * d)%coq_nat]/(muln m d) -hm; lia.
Qed.

(** * C67: Mul *)
Theorem C67_Mul g p x y : List.In (g, p) packages -> elt (Limbs g) p x -> elt (Limbs g) p y ->
  [/\ elt (Limbs g) p (Mul g x y),
      BigInt g (Mul g x y) = ((BigInt g x * BigInt g y) mod p)%Z &
      ((intOf (Mul g x y) * 2 ^ (64 * Z.of_nat (Limbs g))) mod p = (intOf x * intOf y) mod p)%Z].
Proof.
move=> /pkg_ok [ok e] /(eltE _ e) hx /(eltE _ e) hy.
have [h1 h2] := MulR ok hx hy; rewrite -{2 3 4}e; split; [exact/(eltE _ e)|exact: h2|].
have [_ h3] := Mul_val ok (mulPre_red hx hy).
by rewrite !intOfE -BE -(eqq_modE h3) Z.mul_comm.
Qed.
(** the textbook variant and Square give the same element *)
Theorem C67_mulGeneric g p x y : List.In (g, p) packages -> elt (Limbs g) p x -> elt (Limbs g) p y ->
  mulGeneric g x y = Mul g x y.
Proof.
move=> /pkg_ok [ok e] /(eltE _ e) hx /(eltE _ e) hy.
have [h1 h2] := MulR ok hx hy; have [h3 h4] := mulGenericP' ok hx (proj1 hy).
by apply: (ev_inj ok h3 h1); rewrite h2 h4.
Qed.
Theorem C67_Square g p x : List.In (g, p) packages -> elt (Limbs g) p x ->
  elt (Limbs g) p (Square g x) /\ BigInt g (Square g x) = (BigInt g x ^ 2 mod p)%Z.
Proof. by move=> hg hx; have [h1 h2 _] := C67_Mul hg hx hx; split=> //; rewrite Z.pow_2_r. Qed.

(** * C68: Add, Double, Sub, Neg *)
Theorem C68_Add g p x y : List.In (g, p) packages -> elt (Limbs g) p x -> elt (Limbs g) p y ->
  elt (Limbs g) p (Add g x y) /\ BigInt g (Add g x y) = ((BigInt g x + BigInt g y) mod p)%Z.
Proof.
move=> /pkg_ok [ok e] /(eltE _ e) hx /(eltE _ e) hy; have [h1 h2] := AddP ok hx hy.
by split; [exact/(eltE _ e)|rewrite -e; exact: h2].
Qed.
Theorem C68_Double g p x : List.In (g, p) packages -> elt (Limbs g) p x ->
  elt (Limbs g) p (Double g x) /\ BigInt g (Double g x) = ((2 * BigInt g x) mod p)%Z.
Proof.
move=> /pkg_ok [ok e] /(eltE _ e) hx; have [h1 h2] := DoubleP ok hx.
by split; [exact/(eltE _ e)|rewrite -e; exact: h2].
Qed.
Theorem C68_Sub g p x y : List.In (g, p) packages -> elt (Limbs g) p x -> elt (Limbs g) p y ->
  elt (Limbs g) p (Sub g x y) /\ BigInt g (Sub g x y) = ((BigInt g x - BigInt g y) mod p)%Z.
Proof.
move=> /pkg_ok [ok e] /(eltE _ e) hx /(eltE _ e) hy; have [h1 h2] := SubP' ok hx hy.
by split; [exact/(eltE _ e)|rewrite -e; exact: h2].
Qed.
Theorem C68_Neg g p x : List.In (g, p) packages -> elt (Limbs g) p x ->
  elt (Limbs g) p (Neg g x) /\ BigInt g (Neg g x) = ((- BigInt g x) mod p)%Z.
Proof.
move=> /pkg_ok [ok e] /(eltE _ e) hx; have [h1 h2] := NegP' ok hx.
by split; [exact/(eltE _ e)|rewrite -e; exact: h2].
Qed.

(** * C69: conversions *)
Theorem C69_BigInt g p x : List.In (g, p) packages -> elt (Limbs g) p x ->
  [/\ (0 <= BigInt g x < p)%Z, ((BigInt g x * 2 ^ (64 * Z.of_nat (Limbs g))) mod p = intOf x)%Z &
      SetBigInt g (BigInt g x) = x].
Proof.
move=> /pkg_ok [ok e] /(eltE _ e) hx; have hr := ev_range ok (proj1 hx).
rewrite -e; split=> //.
- have h := ev_val ok (proj1 hx); have hxr := limbs_range (proj1 hx).
  rewrite intOfE -(@Z.mod_small (wordsVal x) (wordsVal (qs g))); last by case: hx => _; lia.
  by rewrite -(eqq_modE h) -BE Z.mul_comm.
- have [h1 h2] := SetBigIntP ok (BigInt g x).
  by apply: (ev_inj ok h1 hx); rewrite h2 Z.mod_small.
Qed.
Theorem C69_SetBigInt g p v : List.In (g, p) packages ->
  elt (Limbs g) p (SetBigInt g v) /\ BigInt g (SetBigInt g v) = (v mod p)%Z.
Proof.
move=> /pkg_ok [ok e]; have [h1 h2] := SetBigIntP ok v.
by split; [exact/(eltE _ e)|rewrite -e; exact: h2].
Qed.
Theorem C69_SetUint64 g p v : List.In (g, p) packages -> (0 <= v < 2 ^ 64)%Z ->
  elt (Limbs g) p (SetUint64 g v) /\ BigInt g (SetUint64 g v) = (v mod p)%Z.
Proof.
move=> /pkg_ok [ok e] hv; have [|h1 h2] := @SetUint64P _ ok v; first exact/wordP.
by split; [exact/(eltE _ e)|rewrite -e; exact: h2].
Qed.
Theorem C69_SetInt64 g p v : List.In (g, p) packages -> (- 2 ^ 63 <= v < 2 ^ 63)%Z ->
  elt (Limbs g) p (SetInt64 g v) /\ BigInt g (SetInt64 g v) = (v mod p)%Z.
Proof.
move=> /pkg_ok [ok e] hv; have [h1 h2] := SetInt64P ok hv.
by split; [exact/(eltE _ e)|rewrite -e; exact: h2].
Qed.
(** Slice writes the words of the integer in front and leaves the rest of the slice *)
Theorem C69_Slice g p x res : List.In (g, p) packages -> elt (Limbs g) p x -> (Limbs g <= size res)%N ->
  [/\ size (Slice g x res) = size res, isWords (Limbs g) (take (Limbs g) (Slice g x res)),
      intOf (take (Limbs g) (Slice g x res)) = BigInt g x &
      drop (Limbs g) (Slice g x res) = drop (Limbs g) res].
Proof.
move=> /pkg_ok [ok e] /(eltE _ e) hx hs; have [[h1 h2] _] := fromMontP ok (proj1 hx).
rewrite /Slice take_size_cat ?drop_size_cat; try by case: h1.
by split=> //; [rewrite size_cat (proj1 h1) size_drop subnKC|exact/wordsE|rewrite intOfE].
Qed.
Theorem C69_Marshal g p x : List.In (g, p) packages -> elt (Limbs g) p x ->
  [/\ size (Marshal g x) = (8 * Limbs g)%N, isBytes (Marshal g x), bigEndian (Marshal g x) = BigInt g x,
      SetBytes g (Marshal g x) = x & SetBytesCanonical g (Marshal g x) = Some x].
Proof.
move=> /pkg_ok [ok e] /(eltE _ e) hx; have [h1 h2 h3] := MarshalP ok (proj1 hx).
split=> //; [exact/isBytesE|by rewrite beE|exact: SetBytesMarshal|].
have hr := ev_range ok (proj1 hx).
have := SetBytesCanonicalP ok h2; case: SetBytesCanonical => [z [_ _ h4 h5]|]; last by rewrite h1 h3; lia.
by congr Some; apply: (ev_inj ok h4 hx); rewrite h5.
Qed.
Theorem C69_SetBytes g p e : List.In (g, p) packages -> isBytes e ->
  elt (Limbs g) p (SetBytes g e) /\ BigInt g (SetBytes g e) = (bigEndian e mod p)%Z.
Proof.
move=> /pkg_ok [ok ep] /isBytesE he; have [h1 h2] := SetBytesP ok he.
by split; [exact/(eltE _ ep)|rewrite -ep beE; exact: h2].
Qed.
Theorem C69_SetBytesCanonical g p e : List.In (g, p) packages -> isBytes e ->
  if SetBytesCanonical g e is Some z then
    [/\ size e = (8 * Limbs g)%N, (bigEndian e < p)%Z, elt (Limbs g) p z & BigInt g z = bigEndian e]
  else size e <> (8 * Limbs g)%N \/ (p <= bigEndian e)%Z.
Proof.
move=> /pkg_ok [ok ep] /isBytesE he; have := SetBytesCanonicalP ok he.
rewrite beE -ep; case: SetBytesCanonical => // z [h1 h2 h3 h4]; split=> //; exact/(eltE _ erefl).
Qed.
Theorem C69_Uint64 g p x : List.In (g, p) packages -> elt (Limbs g) p x ->
  Uint64 g x = (BigInt g x mod 2 ^ 64)%Z /\ (IsUint64 g x <-> (BigInt g x < 2 ^ 64)%Z).
Proof.
move=> /pkg_ok [ok e] /(eltE _ e) [hx _]; split; first exact: Uint64P.
by rewrite (IsUint64P ok hx); split=> /Z.ltb_spec0.
Qed.

(** * C70: Cmp; C82: Equal, IsZero, IsOne *)
Theorem C70_Cmp g p x y : List.In (g, p) packages -> elt (Limbs g) p x -> elt (Limbs g) p y ->
  [/\ Cmp g x y = 0%Z <-> x = y, Cmp g x y = (-1)%Z <-> (BigInt g x < BigInt g y)%Z,
      Cmp g x y = 1%Z <-> (BigInt g y < BigInt g x)%Z & (Cmp g x y = 0 <-> BigInt g x = BigInt g y)%Z].
Proof.
move=> /pkg_ok [ok e] /(eltE _ e) hx /(eltE _ e) hy.
rewrite (CmpP ok (proj1 hx) (proj1 hy)) -[ev g x]/(BigInt g x) -[ev g y]/(BigInt g y).
have hinj : BigInt g x = BigInt g y -> x = y by exact: ev_inj.
have hE : x = y -> BigInt g x = BigInt g y by move=> ->.
move: (BigInt g x) (BigInt g y) hinj hE => a b hinj hE.
case: Z.ltb_spec => h1; last case: Z.ltb_spec => h2.
all: by split; split=> h; try lia; try (by have := hE h; lia); apply: hinj; lia.
Qed.
Theorem C82_Equal g p x y : List.In (g, p) packages -> elt (Limbs g) p x -> elt (Limbs g) p y ->
  Equal x y <-> BigInt g x = BigInt g y.
Proof.
move=> /pkg_ok [ok e] /(eltE _ e) hx /(eltE _ e) hy; have [[h1 h2] _] := hx; have [[h3 h4] _] := hy.
rewrite /Equal NotEqual_val ?h1 ?h3 //; split=> [/Z.eqb_spec h|h].
- by rewrite (limbs_inj (proj1 hx) (proj1 hy) h).
- by rewrite (ev_inj ok hx hy h); apply/Z.eqb_spec.
Qed.
Theorem C82_IsZero g p x : List.In (g, p) packages -> elt (Limbs g) p x -> IsZero x <-> BigInt g x = 0%Z.
Proof.
move=> /pkg_ok [ok e] /(eltE _ e) hx; rewrite (IsZeroP (proj1 hx)) -(ev_eq0 ok hx).
by split=> /Z.eqb_spec.
Qed.
Theorem C82_IsOne g p x : List.In (g, p) packages -> elt (Limbs g) p x -> IsOne g x <-> BigInt g x = 1%Z.
Proof.
by move=> /pkg_ok [ok e] /(eltE _ e) hx; rewrite (IsOneE ok hx); split=> /Z.eqb_spec.
Qed.

(** * C83: Inverse *)

(** The loop of the binary gcd ends: the number of passes granted below is enough for every element, and
    granting more changes nothing.  This part does not use that the modulus is prime. *)
Theorem C83_Inverse_ends g p x : List.In (g, p) gcdPackages -> elt (Limbs g) p x ->
  exists z, forall fuel, ((64 * Limbs g + 2) ^ 2 <= fuel)%N -> Inverse g fuel x = Some z.
Proof.
move=> hg; have [ok e] := pkg_ok (gcd_sub hg).
by move=> /(eltE _ e) hx; have := Inverse_ends ok hx; rewrite addn2.
Qed.
Theorem C83_Inverse g p x : List.In (g, p) gcdPackages -> Znumtheory.prime p -> elt (Limbs g) p x ->
  exists z, [/\ forall fuel, ((64 * Limbs g + 2) ^ 2 <= fuel)%N -> Inverse g fuel x = Some z, elt (Limbs g) p z &
    if (BigInt g x =? 0)%Z then BigInt g z = 0%Z else ((BigInt g x * BigInt g z) mod p = 1)%Z].
Proof.
move=> hg /prime_nat hp hx; have [z hz] := C83_Inverse_ends hg hx; exists z.
have [ok e] := pkg_ok (gcd_sub hg); have oki := gcd_ok hg.
move: hx => /(eltE _ e) hx; rewrite -e in hp *.
by have [h1 h2] := InverseP ok oki hp hx (hz _ (leqnn _)); split=> //; exact/(eltE _ erefl).
Qed.
(** examples/mult/zp/element.go 1105-1111, with the meaning of big.Int.ModInverse *)
Definition modInverse (inv : Z -> Z -> Z) : Prop := forall a m, (1 < m)%Z ->
  if (Z.gcd a m =? 1)%Z then (0 <= inv a m < m)%Z /\ ((a * inv a m) mod m = 1)%Z else inv a m = a.
Definition InverseBig (inv : Z -> Z -> Z) (g : gen) (x : seq Z) : seq Z :=
  SetBigInt g (inv (BigInt g x) (modulusOf g)).
Theorem C83_InverseBig inv g p x : List.In (g, p) packages -> Znumtheory.prime p -> modInverse inv ->
  elt (Limbs g) p x ->
  elt (Limbs g) p (InverseBig inv g x) /\
  if (BigInt g x =? 0)%Z then BigInt g (InverseBig inv g x) = 0%Z
  else ((BigInt g x * BigInt g (InverseBig inv g x)) mod p = 1)%Z.
Proof.
move=> hg hp hinv hx; have [hr _ _] := C69_BigInt hg hx; have [ok e] := pkg_ok hg.
rewrite /InverseBig /modulusOf e; have [h1 h2] := C69_SetBigInt (inv (BigInt g x) p) hg.
split=> //; rewrite h2; have hp1 : (1 < p)%Z by case: hp.
have := hinv (BigInt g x) p hp1; case: (Z.eqb_spec (BigInt g x) 0) => h0.
  rewrite h0 Z.gcd_0_l; case: Z.eqb_spec => [h|_ ->]; [lia|by rewrite Z.mod_0_l; lia].
have -> : (Z.gcd (BigInt g x) p =? 1)%Z.
  apply/Z.eqb_spec; apply/Zgcd_1_rel_prime; apply: rel_prime_le_prime => //; lia.
by case=> h3 h4; rewrite Z.mul_mod_idemp_r //; lia.
Qed.

(** * C84: BatchInvert *)
Theorem C84_BatchInvert g p inv a : List.In (g, p) packages -> Znumtheory.prime p ->
  (forall x, elt (Limbs g) p x -> BigInt g x <> 0%Z ->
     elt (Limbs g) p (inv x) /\ ((BigInt g x * BigInt g (inv x)) mod p = 1)%Z) ->
  (forall x, x \in a -> elt (Limbs g) p x) ->
  size (BatchInvert g inv a) = size a /\
  forall i, (i < size a)%N ->
    elt (Limbs g) p (nth [::] (BatchInvert g inv a) i) /\
    if (BigInt g (nth [::] a i) =? 0)%Z then BigInt g (nth [::] (BatchInvert g inv a) i) = 0%Z
    else ((BigInt g (nth [::] a i) * BigInt g (nth [::] (BatchInvert g inv a) i)) mod p = 1)%Z.
Proof.
move=> /pkg_ok [ok e] /prime_nat hp hinv ha; rewrite -e in hp hinv ha *.
have hinv' x : red g x -> ev g x <> 0%Z -> red g (inv x) /\ ((ev g x * ev g (inv x)) mod wordsVal (qs g) = 1)%Z.
  by move=> /(eltE _ erefl) hx h0; have [h1 h2] := hinv x hx h0; split=> //; exact/(eltE _ erefl).
have ha' x : x \in a -> red g x by move/ha => /(eltE _ erefl).
have [h1 h2] := BatchInvertP ok hp hinv' ha'; split=> // i /h2 [h3 h4]; split=> //; exact/(eltE _ erefl).
Qed.
(** With the Inverse of the package: BatchInvert is elementwise inversion. *)
Theorem C84_BatchInvert_Inverse g p fuel a : List.In (g, p) gcdPackages -> Znumtheory.prime p ->
  ((64 * Limbs g + 2) ^ 2 <= fuel)%N -> (forall x, x \in a -> elt (Limbs g) p x) ->
  size (BatchInvert g (fun x => odflt [::] (Inverse g fuel x)) a) = size a /\
  forall i, (i < size a)%N ->
    Inverse g fuel (nth [::] a i) = Some (nth [::] (BatchInvert g (fun x => odflt [::] (Inverse g fuel x)) a) i).
Proof.
move=> hg hp hf ha; set inv := fun x => _.
have hinv x : elt (Limbs g) p x -> elt (Limbs g) p (inv x) /\
    if (BigInt g x =? 0)%Z then BigInt g (inv x) = 0%Z else ((BigInt g x * BigInt g (inv x)) mod p = 1)%Z.
  by move=> /(C83_Inverse hg hp) [z [/(_ _ hf) h1 h2 h3]]; rewrite /inv h1.
have [|h1 h2] := C84_BatchInvert (gcd_sub hg) hp (inv := inv) _ ha.
  by move=> x /hinv [h3 h4] h0; split=> //; move: h4; case: Z.eqb_spec.
split=> // i hi; have [h3 h4] := h2 i hi; have hx := ha _ (mem_nth [::] hi).
have [h5 h6] := hinv _ hx; have [z [/(_ _ hf) ez _ _]] := C83_Inverse hg hp hx.
have e1 : inv (nth [::] a i) = z by rewrite /inv ez.
rewrite ez -e1; congr Some.
set y := nth _ (BatchInvert _ _ _) i in h3 h4 *.
suff hb : BigInt g (inv (nth [::] a i)) = BigInt g y.
  by have [ok e] := pkg_ok (gcd_sub hg); apply: (ev_inj ok) => //; exact/(eltE _ e).
have [r1 _ _] := C69_BigInt (gcd_sub hg) h3; have [r2 _ _] := C69_BigInt (gcd_sub hg) h5.
move: h4 h6 r1 r2; case: Z.eqb_spec => h0; first by move=> -> ->.
move: (BigInt g (nth _ _ _)) (BigInt g y) (BigInt g (inv _)) => u v w; clear => h1 h2 h3 h4.
rewrite -(Z.mod_small v p) // -(Z.mod_small w p) //.
rewrite -(Z.mul_1_l v) -(Z.mul_1_r w) -{1}h1 -h2.
by rewrite Z.mul_mod_idemp_r 1?Z.mul_mod_idemp_l; [congr (_ mod _)%Z; ring|lia|lia].
Qed.

(** * C85: SetRandom *)

(** the bytes read in one attempt *)
Definition attempt (src : nat -> Z) (pos k : nat) : seq Z := mkseq (fun i => src (pos + i)%N) k.
(** bit length of the modulus *)
Definition nbits (p : Z) : nat := (Z.to_nat (Z.log2 p)).+1.
Theorem C85_SetRandom g p fuel src pos z pos' : List.In (g, p) packages ->
  (forall i, (0 <= src i < 256)%Z) -> SetRandom g fuel src pos = Some (z, pos') ->
  let len := ((nbits p + 7) %/ 8)%N in
  let cand j := (littleEndian (attempt src (pos + j * len) len) mod 2 ^ Z.of_nat (nbits p))%Z in
  elt (Limbs g) p z /\
  exists k, [/\ pos' = (pos + k.+1 * len)%N, intOf z = cand k, (cand k < p)%Z & forall j, (j < k)%N -> (p <= cand j)%Z].
Proof.
move=> /pkg_ok [ok e] hs hr len cand.
have hs' i : byte (src i) by apply/byteP.
have hb : bitLen (wordsVal (qs g)) = nbits p.
  by rewrite /bitLen e /nbits; case: Z.eqb_spec => // h; have := q_gt0 ok; rewrite e h.
have hl : randBytes g = len by rewrite /randBytes /modulusOf hb.
have [h1 [k [h2 h3 h4 h5]]] := SetRandomP ok hs' hr.
rewrite hl in h3 h4 h5.
have hc j : wordsVal (candidate g src (pos + j * len)) = cand j.
  by have [_ ->] := candidateP ok (pos + j * len) hs'; rewrite hb hl /cand leE.
split; first exact/(eltE _ e); exists k; split=> //.
- by rewrite intOfE h4 hc.
- by rewrite -hc -h4 -e; case: h1.
- by move=> j /h5; rewrite hc e.
Qed.

(** * C86: Halve *)
Theorem C86_Halve g p x : List.In (g, p) packages -> elt (Limbs g) p x ->
  elt (Limbs g) p (Halve g x) /\ ((2 * BigInt g (Halve g x)) mod p = BigInt g x)%Z.
Proof.
move=> /pkg_ok [ok e] /(eltE _ e) hx; have [h1 h2] := HalveP ok hx.
by split; [exact/(eltE _ e)|rewrite -e; exact: h2].
Qed.

(** * Concrete cases *)
Definition ex7 : seq Z := SetUint64 zp110 7.
Definition exm5 : seq Z := SetInt64 zp110 (-5).
Lemma in110 : List.In (zp110, zp110_modulus) packages. Proof. by left. Qed.
Example ex_elt : elt (Limbs zp110) zp110_modulus ex7 /\ elt (Limbs zp110) zp110_modulus exm5.
Proof. by split; [apply: (proj1 (C69_SetUint64 in110 _))|apply: (proj1 (C69_SetInt64 in110 _))]. Qed.
(** the representatives themselves: not 7 and p - 5 but these times 2^128 *)
Example ex_mont : (ex7 == [:: 7; 0]%Z) = false /\ BigInt zp110 ex7 = 7%Z /\ BigInt zp110 exm5 = (zp110_modulus - 5)%Z.
Proof. by vm_compute. Qed.
Example ex_ops : [/\ BigInt zp110 (Mul zp110 ex7 exm5) = (zp110_modulus - 35)%Z,
  BigInt zp110 (Add zp110 ex7 exm5) = 2%Z, BigInt zp110 (Sub zp110 exm5 ex7) = (zp110_modulus - 12)%Z,
  BigInt zp110 (Neg zp110 exm5) = 5%Z & BigInt zp110 (Halve zp110 ex7) = ((zp110_modulus + 7) / 2)%Z].
Proof. by vm_compute. Qed.
Example ex_bytes : [/\ Marshal zp110 ex7 = rcons (nseq 15 0%Z) 7%Z, Slice zp110 ex7 [:: 1; 2; 3]%Z = [:: 7; 0; 3]%Z,
  BigInt zp110 (SetBytes zp110 (nseq 20 255%Z)) = ((2 ^ 160 - 1) mod zp110_modulus)%Z,
  SetBytesCanonical zp110 (nseq 16 255%Z) = None & Cmp zp110 ex7 exm5 = (-1)%Z].
Proof. by vm_compute. Qed.
(** the loop of Inverse ends on both, and the theorem applies *)
Example ex_inverse : exists z, Inverse zp110 20 exm5 = Some z /\ ((BigInt zp110 exm5 * BigInt zp110 z) mod zp110_modulus = 1)%Z.
Proof. by exists (odflt [::] (Inverse zp110 20 exm5)); vm_compute. Qed.
Example ex_inverse0 : Inverse zp110 20 (SetUint64 zp110 0) = Some [:: 0; 0]%Z.
Proof. by vm_compute. Qed.
Example ex_batch : let inv x := odflt [::] (Inverse zp110 20 x) in
  map (fun x => BigInt zp110 (Mul zp110 x ex7)) (BatchInvert zp110 inv [:: ex7; SetUint64 zp110 0; exm5]) =
  [:: 1; 0; BigInt zp110 (Mul zp110 ex7 (inv exm5))]%Z.
Proof. by vm_compute. Qed.
(** two attempts: all bits set is above the modulus *)
Example ex_random : SetRandom zp110 5 (fun i => if (i < 14)%N then 255%Z else 1%Z) 0 =
  Some ([:: 0x0101010101010101; 0x010101010101]%Z, 28%N).
Proof. by vm_compute. Qed.

Print Assumptions C67_Mul.
Print Assumptions C67_mulGeneric.
Print Assumptions C67_Square.
Print Assumptions C68_Add.
Print Assumptions C68_Double.
Print Assumptions C68_Sub.
Print Assumptions C68_Neg.
Print Assumptions C69_BigInt.
Print Assumptions C69_SetBigInt.
Print Assumptions C69_SetUint64.
Print Assumptions C69_SetInt64.
Print Assumptions C69_Slice.
Print Assumptions C69_Marshal.
Print Assumptions C69_SetBytes.
Print Assumptions C69_SetBytesCanonical.
Print Assumptions C69_Uint64.
Print Assumptions C70_Cmp.
Print Assumptions C82_Equal.
Print Assumptions C82_IsZero.
Print Assumptions C82_IsOne.
Print Assumptions C83_Inverse_ends.
Print Assumptions C83_Inverse.
Print Assumptions C83_InverseBig.
Print Assumptions C84_BatchInvert.
Print Assumptions C84_BatchInvert_Inverse.
Print Assumptions C85_SetRandom.
Print Assumptions C86_Halve.
