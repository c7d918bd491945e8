(** The moduli are prime (C98), and the generated element types are the prime fields that the
    generic code is written for (C99).

    The certificates are checked with the 63-bit integers of the standard library, so the theorems
    of this file list its primitives and their specifications. *)
From Coq Require Import ZArith Znumtheory Lia.
From mathcomp Require Import all_ssreflect all_algebra zify ssrZ.
From Verif Require Import UintModel UintFp BigpolyModel ZpModel ZpConst Prop_Bigpoly Prop_Zp PrimeCert.
Set Implicit Arguments. Unset Strict Implicit. Unset Printing Implicit Defensive.
Import GRing.Theory.
Delimit Scope Z_scope with Z.
Local Arguments Z.mul : simpl never.
Local Arguments Z.add : simpl never.
Local Arguments Z.sub : simpl never.
Local Arguments Z.div : simpl never.
Local Arguments Z.modulo : simpl never.
Local Arguments Z.pow : simpl never.
Local Arguments Z.of_nat : simpl never.

(** * C98: the published moduli are prime *)
Theorem C98_prime g p : List.In (g, p) packages -> Znumtheory.prime p.
Proof.
rewrite /packages /=; do ![case=> [[_ <-]|]] => //.
- exact: zp110_prime.
- exact: zp220_prime.
- exact: zp440_prime.
- exact: zp880_prime.
- exact: jindoZp_prime.
- exact: bfvZp_prime.
- exact: multZp_prime.
Qed.
(** so Inverse inverts, with no assumption on the modulus *)
Theorem C98_Inverse g p x : List.In (g, p) gcdPackages -> elt (Limbs g) p x ->
  exists z, [/\ forall fuel, ((64 * Limbs g + 2) ^ 2 <= fuel)%N -> Inverse g fuel x = Some z, elt (Limbs g) p z &
    if (BigInt g x =? 0)%Z then BigInt g z = 0%Z else ((BigInt g x * BigInt g z) mod p = 1)%Z].
Proof. by move=> hg; apply: C83_Inverse => //; apply: C98_prime (gcd_sub hg). Qed.
Theorem C98_InverseBig inv g p x : List.In (g, p) packages -> modInverse inv -> elt (Limbs g) p x ->
  elt (Limbs g) p (InverseBig inv g x) /\
  if (BigInt g x =? 0)%Z then BigInt g (InverseBig inv g x) = 0%Z
  else ((BigInt g x * BigInt g (InverseBig inv g x)) mod p = 1)%Z.
Proof. by move=> hg; apply: C83_InverseBig => //; apply: C98_prime hg. Qed.
Theorem C98_BatchInvert g p fuel a : List.In (g, p) gcdPackages ->
  ((64 * Limbs g + 2) ^ 2 <= fuel)%N -> (forall x, x \in a -> elt (Limbs g) p x) ->
  size (BatchInvert g (fun x => odflt [::] (Inverse g fuel x)) a) = size a /\
  forall i, (i < size a)%N ->
    Inverse g fuel (nth [::] a i) = Some (nth [::] (BatchInvert g (fun x => odflt [::] (Inverse g fuel x)) a) i).
Proof. by move=> hg; apply: C84_BatchInvert_Inverse => //; apply: C98_prime (gcd_sub hg). Qed.

(** * C99: the element types are prime fields *)

(** the power of two in p - 1 *)
Definition adicity : seq (Z * nat) :=
  [:: (zp110_modulus, 40); (zp220_modulus, 80); (zp440_modulus, 96); (zp880_modulus, 64);
      (jindoZp_modulus, 64); (bfvZp_modulus, 48); (multZp_modulus, 40)]%N.
Lemma adicityP p v : List.In (p, v) adicity -> exists o, Z.odd o = true /\ (p - 1 = 2 ^ Z.of_nat v * o)%Z.
Proof.
by rewrite /adicity /=; do ![case=> [[<- <-]|]] => //;
  match goal with |- exists o, _ /\ (?a = ?b * o)%Z => exists (a / b)%Z; vm_compute end.
Qed.
Lemma pow2_div n v o : Z.odd o -> (Z.of_nat (2 ^ n.+1) | 2 ^ Z.of_nat v * o)%Z <-> (n < v)%N.
Proof.
move=> ho; have -> : Z.of_nat (2 ^ n.+1) = (2 ^ Z.of_nat n.+1)%Z.
  by elim: n.+1 => // k IH; rewrite expnS Nat2Z.inj_mul IH (Nat2Z.inj_succ k) Z.pow_succ_r //; lia.
split=> [[c e]|h].
- rewrite ltnNge; apply/negP => h; move: e.
  have -> : (Z.of_nat n.+1 = Z.of_nat v + Z.succ (Z.of_nat (n - v)))%Z by lia.
  rewrite Z.pow_add_r ?Z.pow_succ_r; try lia.
  move=> e; have h2 : (0 < 2 ^ Z.of_nat v)%Z by apply: Z.pow_pos_nonneg; lia.
  have e2 : o = (2 * (c * 2 ^ Z.of_nat (n - v)))%Z.
    by apply: (Z.mul_reg_l _ _ (2 ^ Z.of_nat v)); lia.
  by move: ho; rewrite e2 Z.odd_mul.
- exists (2 ^ Z.of_nat (v - n.+1) * o)%Z.
  have -> : (Z.of_nat v = Z.of_nat (v - n.+1) + Z.of_nat n.+1)%Z by lia.
  by rewrite Z.pow_add_r; lia.
Qed.
Section Field.
Variables (g : gen) (p : Z) (hg : List.In (g, p) packages).

Lemma modPrime : prime.prime (Z.to_nat p). Proof. exact: prime_nat (C98_prime hg). Qed.
(** the field of integers modulo p, as an instance of the contract that the generic code is modelled for *)
Local Notation FF := [fieldType of 'F_(Z.to_nat p)].
Definition fieldOf : uint FF := uintFp modPrime.
(** the field element of a list of words *)
Definition el (x : seq Z) : FF := setBigInt fieldOf (BigInt g x).

Theorem C99_modulus : modulus fieldOf = p.
Proof. by rewrite /= Z2Nat.id //; have := prime_ge_2 _ (C98_prime hg); lia. Qed.
Lemma el_bigInt x : elt (Limbs g) p x -> bigInt fieldOf (el x) = BigInt g x.
Proof.
by move=> hx; have [hr _ _] := C69_BigInt hg hx; rewrite /el bigInt_setBigInt C99_modulus Z.mod_small.
Qed.
Lemma set_mod z : setBigInt fieldOf (z mod p) = setBigInt fieldOf z.
Proof. by rewrite -[RHS](setBigInt_bigInt fieldOf) bigInt_setBigInt C99_modulus. Qed.
Lemma set_zero : setBigInt fieldOf 0 = 0%R.
Proof. by have := setBigInt_add fieldOf 0 0; rewrite -{1}[setBigInt _ _]addr0 => /addrI. Qed.
Lemma set_opp z : setBigInt fieldOf (- z) = (- setBigInt fieldOf z)%R.
Proof.
by apply/eqP; rewrite -addr_eq0 -setBigInt_add (_ : (- z + z = 0)%Z) ?set_zero //; lia.
Qed.
Lemma set_sub a b : setBigInt fieldOf (a - b) = (setBigInt fieldOf a - setBigInt fieldOf b)%R.
Proof. by rewrite -Z.add_opp_r setBigInt_add set_opp. Qed.

(** every field element is one reduced list of words and conversely *)
Theorem C99_bijective :
  (forall x y, elt (Limbs g) p x -> elt (Limbs g) p y -> el x = el y -> x = y) /\
  (forall f, exists2 x, elt (Limbs g) p x & el x = f).
Proof.
split=> [x y hx hy e|f].
- have [_ _ <-] := C69_BigInt hg hx; have [_ _ <-] := C69_BigInt hg hy.
  by rewrite -(el_bigInt hx) -(el_bigInt hy) e.
- have [h1 h2] := C69_SetBigInt (bigInt fieldOf f) hg; exists (SetBigInt g (bigInt fieldOf f)) => //.
  by rewrite /el h2 set_mod setBigInt_bigInt.
Qed.
Theorem C99_conversions :
  [/\ forall x, elt (Limbs g) p x -> bigInt fieldOf (el x) = BigInt g x,
      forall z, el (SetBigInt g z) = setBigInt fieldOf z,
      forall z, (0 <= z < 2 ^ 64)%Z -> el (SetUint64 g z) = setBigInt fieldOf z &
      forall z, (- 2 ^ 63 <= z < 2 ^ 63)%Z -> el (SetInt64 g z) = setBigInt fieldOf z].
Proof.
split=> [x|z|z hz|z hz]; first exact: el_bigInt.
- by have [_ h] := C69_SetBigInt z hg; rewrite /el h set_mod.
- by have [_ h] := C69_SetUint64 hg hz; rewrite /el h set_mod.
- by have [_ h] := C69_SetInt64 hg hz; rewrite /el h set_mod.
Qed.
Theorem C99_operations x y : elt (Limbs g) p x -> elt (Limbs g) p y ->
  [/\ el (Add g x y) = el x + el y, el (Sub g x y) = el x - el y, el (Mul g x y) = el x * el y,
      el (Neg g x) = - el x & Cmp g x y = 0%Z <-> el x = el y]%R.
Proof.
move=> hx hy; split.
- by have [_ h] := C68_Add hg hx hy; rewrite {1}/el h set_mod setBigInt_add.
- by have [_ h] := C68_Sub hg hx hy; rewrite {1}/el h set_mod set_sub.
- by have [_ h _] := C67_Mul hg hx hy; rewrite {1}/el h set_mod setBigInt_mul.
- by have [_ h] := C68_Neg hg hx; rewrite {1}/el h set_mod set_opp.
- have [h _ _ _] := C70_Cmp hg hx hy; rewrite h; split=> [->//|]; exact: (proj1 C99_bijective).
Qed.
Theorem C99_more_operations x : elt (Limbs g) p x ->
  [/\ el (Double g x) = el x *+ 2, el (Square g x) = el x ^+ 2, el (Halve g x) = el x / 2%:R,
      IsZero x <-> el x = 0 & IsOne g x <-> el x = 1]%R.
Proof.
move=> hx; have e1 : setBigInt fieldOf 2 = 2%:R%R by rewrite (setBigInt_add fieldOf 1 1) setBigInt_one.
have hz : (setBigInt fieldOf 0 = 0)%R by exact: set_zero.
have hinj a : (0 <= a < p)%Z -> BigInt g x = a <-> el x = setBigInt fieldOf a.
  move=> ha; rewrite -(el_bigInt hx); split=> [<-|->]; first by rewrite setBigInt_bigInt.
  by rewrite bigInt_setBigInt C99_modulus Z.mod_small.
have hp : (2 < p)%Z by move: hg; rewrite /packages /=; do ![case=> [[_ <-]|]] => //; vm_compute.
split.
- by have [_ h] := C68_Double hg hx; rewrite {1}/el h set_mod setBigInt_mul e1 mulr_natl.
- by have [_ h] := C67_Square hg hx; rewrite {1}/el h set_mod Z.pow_2_r setBigInt_mul expr2.
- have [_ h] := C86_Halve hg hx.
  have h2 : (2%:R != 0 :> FF)%R.
    rewrite -e1 -hz; apply/eqP => /(f_equal (bigInt fieldOf)).
    by rewrite !bigInt_setBigInt C99_modulus !Z.mod_small //; lia.
  by apply: (mulIf h2); rewrite mulfVK // /el -e1 -setBigInt_mul Z.mul_comm -set_mod h.
- by rewrite (C82_IsZero hg hx) hinj ?hz //; lia.
- by rewrite (C82_IsOne hg hx) hinj ?setBigInt_one //; lia.
Qed.

(** an element with the inverse property is the inverse of the field *)
Lemma el_inv x z : elt (Limbs g) p x -> elt (Limbs g) p z ->
  (if (BigInt g x =? 0)%Z then BigInt g z = 0%Z else ((BigInt g x * BigInt g z) mod p = 1)%Z) ->
  el z = (el x)^-1%R.
Proof.
move=> hx hz; case: Z.eqb_spec => h0 h.
- by rewrite /el h h0 set_zero invr0.
- have e : (el x * el z = 1)%R by rewrite /el -setBigInt_mul -set_mod h setBigInt_one.
  have hx0 : (el x != 0)%R by apply/eqP=> e0; move/eqP: e; rewrite e0 mul0r eq_sym oner_eq0.
  by apply: (mulfI hx0); rewrite e divff.
Qed.
Theorem C99_Inverse x : List.In (g, p) gcdPackages -> elt (Limbs g) p x ->
  exists z, [/\ forall fuel, ((64 * Limbs g + 2) ^ 2 <= fuel)%N -> Inverse g fuel x = Some z, elt (Limbs g) p z &
    el z = (el x)^-1%R].
Proof.
move=> hc hx; have [z [h1 h2 h3]] := C98_Inverse hc hx; exists z; split=> //; exact: el_inv.
Qed.
Theorem C99_InverseBig inv x : modInverse inv -> elt (Limbs g) p x -> el (InverseBig inv g x) = (el x)^-1%R.
Proof. by move=> hi hx; have [h1 h2] := C98_InverseBig hg hi hx; exact: el_inv. Qed.

(** The transforms exist for exactly the powers of two below the power of two in p - 1. *)
Theorem C99_ranks v rank : List.In (p, v) adicity ->
  ((exists T, NewCyclotomicTransformer fieldOf rank = Some T) <-> exists2 n, rank = (2 ^ n)%N & (n < v)%N) /\
  ((exists T, NewCyclicTransformer fieldOf rank = Some T) <-> exists2 n, rank = (2 ^ n)%N & (0 < n < v)%N).
Proof.
move=> hv; have [o [ho eo]] := adicityP hv.
have hd n : (Z.of_nat (2 * 2 ^ n) | modulus fieldOf - 1)%Z <-> (n < v)%N by rewrite C99_modulus eo -expnS; exact: pow2_div.
split.
- rewrite C06_cyclotomic_constructor; split=> [[[n ->] /hd]|[n -> hn]]; first by exists n.
  by split; [exists n|apply/hd].
- rewrite C06_cyclic_constructor; split=> [[[n ->] [h2 /hd hn]]|[n -> /andP[h0 hn]]].
  + by exists n => //; rewrite hn andbT; case: n h2 {hn}.
  + split; first by exists n.
    by split; [case: n h0 {hn} => // n _; rewrite expnS leq_pmulr // expn_gt0|apply/hd].
Qed.
End Field.

(** * Examples *)
(** neighbouring numbers of the same shape are not prime, so the statement is about these moduli *)
Example ex_prime : [/\ Znumtheory.prime zp880_modulus, (zp880_modulus = 13694 ^ 64 + 1)%Z,
  ~ Znumtheory.prime (zp880_modulus - 2) & ~ Znumtheory.prime (13694 ^ 48 + 1)].
Proof.
split.
- by apply: (@C98_prime zp880); rewrite /packages /=; do 3!right; left.
- by vm_compute.
- case=> _ h; have [|_ _ h1] := h 13693%Z; first by vm_compute.
  have : (13693 | 1)%Z by apply: h1; [exact: Z.divide_refl|exists ((zp880_modulus - 2) / 13693)%Z; vm_compute].
  by move/Z.divide_1_r_nonneg => /(_ ltac:(by [])).
- case=> _ h; have [|_ _ h1] := h (13694 ^ 16 + 1)%Z; first by vm_compute.
  have : (13694 ^ 16 + 1 | 1)%Z.
    by apply: h1; [exact: Z.divide_refl|exists ((13694 ^ 48 + 1) / (13694 ^ 16 + 1))%Z; vm_compute].
  by move/Z.divide_1_r_nonneg => /(_ ltac:(by [])).
Qed.
Lemma in110 : List.In (zp110, zp110_modulus) packages. Proof. by left. Qed.
(** the words of ex7 are not those of 7; the product of 7 and -5 is -35 in the field *)
Example ex_field : [/\ el in110 ex7 = setBigInt (fieldOf in110) 7,
  (el in110 (Mul zp110 ex7 exm5) = setBigInt (fieldOf in110) (-35))%R & ex7 <> [:: 7; 0]%Z].
Proof.
split; last by vm_compute.
- have e : BigInt zp110 ex7 = 7%Z by vm_compute.
  rewrite /el e; exact: erefl.
- have e : BigInt zp110 (Mul zp110 ex7 exm5) = (-35 mod zp110_modulus)%Z by vm_compute.
  rewrite /el e; exact: set_mod.
Qed.
(** the transforms of the degree 2^14 exist over zp110, those of degree 2^40 do not *)
Example ex_ranks : (exists T, NewCyclotomicTransformer (fieldOf in110) (2 ^ 14) = Some T) /\
  ~ (exists T, NewCyclotomicTransformer (fieldOf in110) (2 ^ 40) = Some T).
Proof.
have h r := proj1 (@C99_ranks _ _ in110 40 r (or_introl erefl)); split; first by apply/h; exists 14%N.
move/h => [n /eqP]; rewrite eqn_exp2l // => /eqP <-; by rewrite ltnn.
Qed.

Print Assumptions C98_prime.
Print Assumptions C98_Inverse.
Print Assumptions C98_InverseBig.
Print Assumptions C98_BatchInvert.
Print Assumptions C99_modulus.
Print Assumptions C99_bijective.
Print Assumptions C99_conversions.
Print Assumptions C99_operations.
Print Assumptions C99_more_operations.
Print Assumptions C99_Inverse.
Print Assumptions C99_InverseBig.
Print Assumptions C99_ranks.
