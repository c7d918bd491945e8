(** Square roots in the generated element types (C106).

    The moduli must be prime, so the theorems list the assumptions of Prop_Prime.v. *)
From Coq Require Import ZArith Znumtheory Zpow_facts Lia Uint63.
From mathcomp Require Import all_ssreflect all_algebra all_field zify ssrZ.
From Verif Require Import UintModel UintFp ZpModel ZpConst ElemModel Prop_Zp PrimeCheck PrimeCert Prop_Prime Prop_Elem.
Set Implicit Arguments. Unset Strict Implicit. Unset Printing Implicit Defensive.
Import GRing.Theory.
Delimit Scope Z_scope with Z.
Local Arguments Z.mul : simpl never.
Local Arguments Z.add : simpl never.
Local Arguments Z.sub : simpl never.
Local Arguments Z.div : simpl never.
Local Arguments Z.modulo : simpl never.
Local Arguments Z.pow : simpl never.
Local Arguments Z.of_nat : simpl never.

(** * Powers *)
Section Tonelli.
Variables (g : gen) (p : Z) (hg : List.In (g, p) packages).
Local Notation FF := [fieldType of 'F_(Z.to_nat p)].
Local Notation el := (@el g p hg).
Local Notation elt := (elt (Limbs g) p).
Local Open Scope ring_scope.

Lemma mulE x y : elt x -> elt y -> elt (Mul g x y) /\ el (Mul g x y) = el x * el y.
Proof. by move=> hx hy; have [h1 _ _] := C67_Mul hg hx hy; have [_ _ h2 _ _] := C99_operations hg hx hy. Qed.
Lemma squareE x : elt x -> elt (Square g x) /\ el (Square g x) = el x ^+ 2.
Proof. by move=> hx; have [h1 _] := C67_Square hg hx; have [_ h2 _ _ _] := C99_more_operations hg hx. Qed.
Lemma isOneE x : elt x -> IsOne g x = (el x == 1).
Proof. by move=> hx; have [_ _ _ _ h] := C99_more_operations hg hx; apply/idP/eqP => /h. Qed.
Lemma isZeroE x : elt x -> IsZero x = (el x == 0).
Proof. by move=> hx; have [_ _ _ h _] := C99_more_operations hg hx; apply/idP/eqP => /h. Qed.
Lemma iterE k x : elt x -> elt (iter k (Square g) x) /\ el (iter k (Square g) x) = el x ^+ (2 ^ k).
Proof.
move=> hx; elim: k => [|k [h1 h2]] /=; first by rewrite expr1.
by have [h3 h4] := squareE h1; split=> //; rewrite h4 h2 -exprM expnS mulnC.
Qed.
Lemma set_pow z k : setBigInt (fieldOf hg) (z ^ Z.of_nat k)%Z = setBigInt (fieldOf hg) z ^+ k.
Proof.
elim: k => [|k IH]; first by rewrite Z.pow_0_r setBigInt_one expr0.
by rewrite Nat2Z.inj_succ Z.pow_succ_r ?exprS -?IH ?setBigInt_mul //; lia.
Qed.
Lemma expE inv x k : elt x -> elt (Exp g inv x (Z.of_nat k)) /\ el (Exp g inv x (Z.of_nat k)) = el x ^+ k.
Proof.
move=> hx; have [h1 h2] := C105_Exp inv hg hx (Nat2Z.is_nonneg k); split=> //.
by rewrite /Prop_Prime.el h2 set_mod set_pow.
Qed.
Lemma zeroE : elt (nseq (Limbs g) 0%Z) /\ el (nseq (Limbs g) 0%Z) = 0.
Proof.
have hz : elt (nseq (Limbs g) 0%Z).
  split; first by split=> [|i hi]; rewrite ?size_nseq ?nth_nseq ?hi.
  rewrite intOfE (_ : wordsVal _ = 0%Z); first by have := pkg_gt1 hg; lia.
  by elim: (Limbs g) => //= k ->; rewrite Z.mul_0_r.
split=> //; apply/eqP; rewrite -isZeroE // /IsZero; apply/Z.eqb_spec; clear hz.
by elim: (Limbs g) => //= k ->.
Qed.

(** * The loops *)
Lemma orderLoopP fuel t m k : elt t -> el t ^+ (2 ^ k) = 1 -> (k <= fuel)%N ->
  exists j, [/\ (j <= k)%N, orderLoop g fuel t m = Some (m + j)%N, el t ^+ (2 ^ j) = 1 &
    (0 < j)%N -> el t ^+ (2 ^ j.-1) = -1].
Proof.
elim: fuel t m k => [|fuel IH] t m k ht e hk; rewrite /= isOneE //.
  move: hk e; rewrite leqn0 => /eqP ->; rewrite expr1 => ->; rewrite eqxx.
  by exists 0%N; split; rewrite ?addn0 ?expr1.
case: eqP => [e1|ne]; first by exists 0%N; split; rewrite ?addn0 ?expr1.
case: k hk e => [|k] hk e; first by case: ne; rewrite -e expr1.
have [h1 h2] := squareE ht.
have e2 : el (Square g t) ^+ (2 ^ k) = 1 by rewrite h2 -exprM -expnS.
have [j [h3 h4 h5 h6]] := IH _ m.+1 _ h1 e2 hk; exists j.+1; split=> //.
- by rewrite h4 addSnnS.
- by rewrite expnS exprM -h2.
- move=> _ /=; case: j h3 h4 h5 h6 => [|j] h3 h4 h5 h6.
    rewrite expr1; move: h5; rewrite h2 expr1 => /eqP; rewrite sqrf_eq1 => /orP[/eqP//|/eqP//].
  by rewrite expnS exprM -h2; exact: h6.
Qed.
Lemma sqrtLoopP fuel (X : FF) y b gg r : elt y -> elt b -> elt gg -> el y ^+ 2 = X * el b ->
  el b ^+ (2 ^ r) = 1 -> el gg ^+ (2 ^ r) = -1 -> (r < fuel)%N ->
  exists2 z, sqrtLoop g fuel y b gg r.+1 = Some z & elt z /\ el z ^+ 2 = X.
Proof.
elim: fuel X y b gg r => // fuel IH X y b gg r hy hb hgg e1 e2 e3 hr.
have [j [h1 h2 h3 h4]] := orderLoopP 0 hb e2 (ltnW hr).
rewrite /= -/(orderLoop g fuel.+1 b 0) h2 add0n; case: eqP => [j0|/eqP].
  by exists y => //; split=> //; move: h3; rewrite j0 expr1 e1 => ->; rewrite mulr1.
rewrite -lt0n => j0; set t := iter _ _ _.
have [ht1 ht2] := iterE (r.+1 - j - 1) hgg; rewrite -/t in ht1 ht2.
have [hq1 hq2] := squareE ht1; have [hy1 hy2] := mulE hy ht1; have [hb1 hb2] := mulE hb hq1.
have e4 : el (Square g t) ^+ (2 ^ j.-1) = -1.
  rewrite hq2 ht2 -!exprM -e3; congr (_ ^+ _).
  by rewrite -expnS -expnD; congr (2 ^ _)%N; lia.
have hf : (j.-1 < fuel)%N by lia.
have e5 : el (Mul g b (Square g t)) ^+ (2 ^ j.-1) = 1 by rewrite hb2 exprMn h4 // e4 mulrNN mulr1.
have e6 : el (Mul g y t) ^+ 2 = X * el (Mul g b (Square g t)).
  by rewrite hy2 hb2 exprMn e1 hq2 mulrA.
by have := IH X _ _ _ j.-1 hy1 hb1 hq1 e6 e5 e4 hf; rewrite prednK.
Qed.

(** * Sqrt *)
Variables (c : sqc) (S R : nat).
Hypotheses (eS : sqExp c = Z.of_nat S) (eR : sqR c = R.+1).
Hypothesis ep : Z.to_nat p = ((2 * S).+1 * 2 ^ R.+1).+1.
Hypotheses (hG : elt (sqG c)) (eG : el (sqG c) ^+ (2 ^ R) = -1).

Lemma fermat (x : FF) : x != 0 -> x ^+ (2 * ((2 * S).+1 * 2 ^ R)) = 1.
Proof.
move=> hx; have := expf_card x; rewrite (etrans (card_Fp (modPrime hg)) ep) exprS -{3}[x]mulr1 => /(mulfI hx) <-; congr (_ ^+ _).
by rewrite expnS mulnCA.
Qed.
Lemma SqrtP fuel x : elt x -> (R < fuel)%N ->
  match Sqrt g c fuel x with
  | Some (Some y) => elt y /\ el y ^+ 2 = el x
  | Some None => (forall y, y ^+ 2 <> el x) /\ el x ^+ ((2 * S).+1 * 2 ^ R) != 1
  | None => False
  end.
Proof.
move=> hx hf; rewrite /Sqrt eS eR [R.+1.-1]/=.
have [hw1 hw2] := expE id S hx; set w := Exp _ _ _ _ in hw1 hw2 *.
have [hy1 hy2] := mulE hx hw1; set y := Mul g x w in hy1 hy2 *.
have [hb1 hb2] := mulE hw1 hy1; set b := Mul g w y in hb1 hb2 *.
have [ht1 ht2] := iterE R hb1; set t := iter _ _ _ in ht1 ht2 *.
have eb : el b = el x ^+ (2 * S).+1 by rewrite hb2 hy2 hw2 mulrCA -exprD addnn -mul2n exprS.
have et : el t = el x ^+ ((2 * S).+1 * 2 ^ R) by rewrite ht2 eb exprM.
rewrite isZeroE //; case: eqP => [t0|/eqP nt0].
  have [h1 h2] := zeroE; split=> //; rewrite h2 expr2 mul0r.
  by apply/esym/eqP; move/eqP: t0; rewrite et expf_eq0 => /andP[].
rewrite isOneE //; case: eqP => [t1|/eqP nt1] /=; last first.
  split=> [z ez|]; last by rewrite -et.
   case/negP: nt1; rewrite et -ez -exprM; apply/eqP; apply: fermat.
  apply: contra nt0 => /eqP z0; rewrite et expf_eq0 muln_gt0 expn_gt0 /=.
  by rewrite -ez z0 expr2 mul0r.
have h1 : el y ^+ 2 = el x * el b.
  by rewrite eb hy2 hw2 exprMn -exprM -exprD -exprS; congr (_ ^+ _); lia.
have h2 : el b ^+ (2 ^ R) = 1 by rewrite -ht2 t1.
by have [z -> //] := sqrtLoopP hy1 hb1 hG h1 h2 eG hf.
Qed.
End Tonelli.

(** the constants *)
Definition sqOk (gpc : gen * Z * sqc) : bool :=
  let: (g, p, c) := gpc in
  [&& (0 <=? sqExp c)%Z, (0 < sqR c)%N, (p =? (2 * sqExp c + 1) * 2 ^ Z.of_nat (sqR c) + 1)%Z &
      [&& size (sqG c) == Limbs g, all ZpProofs.word (sqG c) & (wordsVal (sqG c) <? wordsVal (qs g))%Z]].
Lemma sq_ok : all sqOk sqrtPackages. Proof. by vm_compute. Qed.
(** the digits of g in the base b with p = b^k + 1; g^(2^(r-1)) is computed with the arithmetic of PrimeCheck.v *)
Definition gDigits : seq (Z * (PrimInt63.int * nat * seq PrimInt63.int)) :=
  [:: (zp110_modulus, (159769600, 4%N, [:: 77219352; 80724523; 80502130; 148165543]));
   (zp220_modulus, (174662656, 8%N, [:: 65877415; 10196118; 43853700; 145819951; 171513702; 25488954; 103559910; 87878299]));
   (zp440_modulus, (182574144, 16%N, [:: 94059032; 88173946; 52394851; 867962; 48928943; 155815602; 156486829; 87924485; 107246885; 29163689; 147873471; 83559621; 17466199; 129462429; 72221812; 8474664]));
   (zp880_modulus, (187525636, 32%N, [:: 185305974; 186413325; 14205138; 20652545; 179756208; 27685142; 117917434; 90769886; 151301677; 136097797; 184483468; 58872203; 167401398; 17408254; 33057842; 159338287; 141510329; 44463131; 127505698; 54285947; 181948738; 71128856; 80724568; 157975131; 71382326; 97767132; 145215472; 115705770; 157087063; 95050916; 101717546; 6877041]));
   (jindoZp_modulus, (60272, 16%N, [:: 8705; 107; 31715; 48635; 58405; 14629; 13327; 41752; 16885; 11075; 11881; 37728; 14388; 51463; 43428; 16397]));
   (bfvZp_modulus, (31432, 16%N, [:: 16607; 12707; 9765; 18711; 9130; 14359; 4260; 17083; 12991; 7938; 30550; 25928; 9287; 17161; 22534; 5488]));
   (multZp_modulus, (60256, 8%N, [:: 49970; 6307; 6968; 16222; 49505; 12426; 53534; 58325]))]%uint63.
Definition ordOk (gpc : gen * Z * sqc) (d : Z * (PrimInt63.int * nat * seq PrimInt63.int)) : bool :=
  let: (g, p, c) := gpc in let: (p', (beta, k, x)) := d in
  [&& [&& (p =? p')%Z, (2 <=? phi beta)%Z, (0 < k)%N & (2 * (Z.of_nat k * (phi beta * phi beta)) <? wB)%Z],
      (p =? phi beta ^ Z.of_nat k + 1)%Z, okD beta k x, (V beta x =? BigInt g (sqG c))%Z &
      if powers beta k x 2 (sqR c).-1 is Some z then eqdigits z (minusOne beta k) else false].
Lemma ord_ok : all (fun gd => ordOk gd.1 gd.2) (zip sqrtPackages gDigits). Proof. by vm_compute. Qed.
Lemma sqG_pow g p c : List.In (g, p, c) sqrtPackages ->
  (BigInt g (sqG c) ^ (2 ^ Z.of_nat (sqR c).-1) mod p = p - 1)%Z.
Proof.
move=> hc; have [d hd] : exists d, List.In ((g, p, c), d) (zip sqrtPackages gDigits).
  move: hc; rewrite /sqrtPackages /gDigits [zip _ _]/= /=.
  do ![case=> [->|]]; try by [].
  - by eexists; left.
  - by eexists; right; left.
  - by eexists; do 2!right; left.
  - by eexists; do 3!right; left.
  - by eexists; do 4!right; left.
  - by eexists; do 5!right; left.
  - by eexists; do 6!right; left.
have := In_all ord_ok hd; case: d {hd} => p' [[beta k] x].
case/and5P => /and4P[_ /Z.leb_le h1 h2 /Z.ltb_lt h3] /Z.eqb_eq h4 h5 /Z.eqb_eq h6.
case E: (powers _ _ _ _ _) => [z|//] /eqdigitsP ez; subst z.
have [_] := powersP h1 h2 h3 h5 E; rewrite minusOneP // h6 -h4 => <-.
have hp := pkg_gt1 (sqrt_sub hc).
by rewrite Z.mod_small; lia.
Qed.

Section Package.
Variables (g : gen) (p : Z) (c : sqc) (hc : List.In (g, p, c) sqrtPackages).
Let hg := sqrt_sub hc.
Lemma sqG_ok : elt (Limbs g) p (sqG c).
Proof.
have /and4P[_ _ _ /and3P[/eqP h1 h2 /Z.ltb_lt h3]] := In_all sq_ok hc.
by have [ok e] := pkg_ok hg; apply/(eltE _ e).
Qed.
Lemma sqG_order : (el hg (sqG c) ^+ (2 ^ (sqR c).-1) = -1)%R.
Proof.
have h := sqG_pow hc; have e2 : (2 ^ Z.of_nat (sqR c).-1 = Z.of_nat (2 ^ (sqR c).-1))%Z.
  by rewrite ZpInv.of_nat_expn.
rewrite /el -set_pow -e2 -(set_mod hg) h set_sub setBigInt_one -(set_mod hg p) Z_mod_same_full set_zero.
by rewrite sub0r.
Qed.
Lemma sq_p : Z.to_nat p = ((2 * Z.to_nat (sqExp c)).+1 * 2 ^ (sqR c).-1.+1).+1.
Proof.
have /and4P[/Z.leb_le h1 h2 /Z.eqb_eq h3 _] := In_all sq_ok hc.
apply: Nat2Z.inj; rewrite prednK // Nat2Z.inj_succ Nat2Z.inj_mul ZpInv.of_nat_expn.
rewrite Z2Nat.id; last by have := pkg_gt1 hg; lia.
rewrite [LHS]h3 (_ : Z.of_nat (2 * Z.to_nat (sqExp c)).+1 = (2 * sqExp c + 1)%Z) //.
by move: (sqExp c) h1; clear; lia.
Qed.

(** [y] squares to [x], as integers modulo p *)
Lemma el_square y x : elt (Limbs g) p x -> elt (Limbs g) p y ->
  (el hg y ^+ 2 = el hg x)%R <-> (BigInt g y ^ 2 mod p = BigInt g x)%Z.
Proof.
move=> hx hy; have [h1 h2] := C67_Square hg hy; have [_ h3 _ _ _] := C99_more_operations hg hy.
rewrite -h2 -h3; split=> [/(proj1 (C99_bijective hg) _ _ h1 hx) ->//|e].
by rewrite /el e.
Qed.
Lemma sqrt_main fuel x : elt (Limbs g) p x -> (sqR c <= fuel)%N ->
  match Sqrt g c fuel x with
  | Some (Some y) => elt (Limbs g) p y /\ (el hg y ^+ 2 = el hg x)%R
  | Some None => (forall y : [fieldType of 'F_(Z.to_nat p)], (y ^+ 2)%R <> el hg x) /\
      (el hg x ^+ ((2 * Z.to_nat (sqExp c)).+1 * 2 ^ (sqR c).-1) != 1)%R
  | None => False
  end.
Proof.
have /and4P[/Z.leb_le h1 h2 _ _] := In_all sq_ok hc.
move=> hx hf; apply: (SqrtP _ _ sq_p sqG_ok sqG_order hx).
- by rewrite Z2Nat.id.
- by rewrite prednK.
- by rewrite prednK.
Qed.
Lemma sqG_nonsquare y : (y ^+ 2 <> el hg (sqG c))%R.
Proof.
move=> e; have := sqG_order; rewrite -e -exprM -expnS => h.
have hy : (y != 0)%R.
  apply/eqP=> y0; move/eqP: h; rewrite y0 expr0n expn_eq0 /= eq_sym oppr_eq0 oner_eq0 //.
have := @fermat _ _ hg _ _ sq_p _ hy.
rewrite mulnCA -expnS mulnC exprM h exprS mulN1r mul2n -addnn exprD -expr2 -exprM mulnC exprM sqrrN !expr1n => h1.
have : setBigInt (fieldOf hg) 2 = 0%R by rewrite (setBigInt_add _ 1 1) setBigInt_one -{1}h1 addNr.
rewrite -(set_zero hg) => /(f_equal (bigInt (fieldOf hg))); rewrite !bigInt_setBigInt C99_modulus.
have hp : (2 < p)%Z by move: hg {h h1 hy e}; rewrite /packages /=; do ![case=> [[_ <-]|]] => //; vm_compute.
by rewrite !Z.mod_small //; lia.
Qed.
End Package.

(** more rounds do not change the result *)
Lemma orderLoop_mono g f f' t m j : orderLoop g f t m = Some j -> (f <= f')%N -> orderLoop g f' t m = Some j.
Proof.
elim: f f' t m => [|f IH] f' t m /=; first by case: f' => [|f'] /=; case: (IsOne g t).
by case: f' => // f' /=; case: (IsOne g t) => // h; exact: IH.
Qed.
Lemma sqrtLoop_mono g f f' y b gg r z : sqrtLoop g f y b gg r = Some z -> (f <= f')%N -> sqrtLoop g f' y b gg r = Some z.
Proof.
elim: f f' y b gg r => // f IH [//|f'] y b gg r h hf; move: h; rewrite [LHS]/= [in X in _ -> X]/=.
rewrite -![if IsOne g b then _ else _]/(orderLoop g _.+1 b 0).
case E: (orderLoop g f.+1 b 0) => [m|//]; rewrite (orderLoop_mono E hf).
by case: ifP => // _ h; exact: IH.
Qed.

(** * C106: Sqrt *)
(** Sqrt ends, gives a root if there is one, and nil otherwise. *)
Theorem C106_Sqrt g p c x : List.In (g, p, c) sqrtPackages -> elt (Limbs g) p x ->
  exists res, (forall fuel, (sqR c <= fuel)%N -> Sqrt g c fuel x = Some res) /\
  match res with
  | Some y => elt (Limbs g) p y /\ (BigInt g y ^ 2 mod p = BigInt g x)%Z
  | None => forall v, (v ^ 2 mod p <> BigInt g x)%Z
  end.
Proof.
move=> hc hx; have hg := sqrt_sub hc; have h0 := sqrt_main hc hx (leqnn (sqR c)).
case E: (Sqrt g c (sqR c) x) h0 => [res|//] h0; exists res; split.
  move=> fuel hf; move: E; rewrite /Sqrt; cbv zeta.
  case: ifP => // _; case: ifP => // _.
  by case E: (sqrtLoop _ (sqR c) _ _ _ _) => [y|//] <-; rewrite (sqrtLoop_mono E hf).
case: res h0 {E} => [y [h1 /(el_square hc hx h1) h2]//|[h _] v e].
case: (h (setBigInt (fieldOf (sqrt_sub hc)) v)).
by rewrite expr2 -setBigInt_mul /el -e set_mod Z.pow_2_r.
Qed.
(** Legendre as a power with the exponent (p - 1) / 2 *)
Lemma legendre_main g p c e x : List.In (g, p, c) sqrtPackages -> elt (Limbs g) p x ->
  e = ((2 * sqExp c + 1) * 2 ^ Z.of_nat (sqR c).-1)%Z ->
  let l := Legendre g e x in
  [/\ l = 0%Z <-> BigInt g x = 0%Z,
      l = 1%Z <-> BigInt g x <> 0%Z /\ exists v, (v ^ 2 mod p = BigInt g x)%Z &
      l = (-1)%Z <-> forall v, (v ^ 2 mod p <> BigInt g x)%Z].
Proof.
move=> hc hx ee; set E := ((2 * Z.to_nat (sqExp c)).+1 * 2 ^ (sqR c).-1)%N.
have eE : e = Z.of_nat E.
  rewrite ee /E Nat2Z.inj_mul ZpInv.of_nat_expn (_ : Z.of_nat (2 * Z.to_nat (sqExp c)).+1 = (2 * sqExp c + 1)%Z) //.
  have /and4P[/Z.leb_le h1 _ _ _] := In_all sq_ok hc.
  by move: (sqExp c) h1; clear; lia.
have E0 : (0 < E)%N by rewrite muln_gt0 expn_gt0.
have hp1 := pkg_gt1 (sqrt_sub hc).
have hb : (el (sqrt_sub hc) x = 0)%R <-> BigInt g x = 0%Z.
  by have [_ _ _ <- _] := C99_more_operations (sqrt_sub hc) hx; exact: (C82_IsZero (sqrt_sub hc) hx).
have [h1 h2] := expE (sqrt_sub hc) id E hx; rewrite -eE in h1 h2.
have hroot v : (v ^ 2 mod p = BigInt g x)%Z -> exists y, (y ^+ 2 = el (sqrt_sub hc) x)%R.
  by move=> ev; exists (setBigInt (fieldOf (sqrt_sub hc)) v); rewrite expr2 -setBigInt_mul /el -ev set_mod Z.pow_2_r.
cbv zeta; rewrite /Legendre; cbv zeta; rewrite (isZeroE (sqrt_sub hc) h1) (isOneE (sqrt_sub hc) h1) h2 expf_eq0 E0 /=.
case: eqP => [/hb x0|nx0].
  split; [by []|by split=> // -[]|].
  by split=> // /(_ 0%Z); rewrite x0 Z.pow_0_l // Z.mod_0_l //; lia.
have x0 : BigInt g x <> 0%Z by move/hb.
have hsq y : (y ^+ 2 = el (sqrt_sub hc) x)%R -> (el (sqrt_sub hc) x ^+ E = 1)%R.
  move=> ey; rewrite -ey -exprM; apply: (@fermat g p (sqrt_sub hc) _ _ (sq_p hc)).
  by apply/eqP=> y0; apply: nx0; rewrite -ey y0 expr2 mul0r.
case: eqP => [x1|nx1]; split; try by split=> //.
- split=> // _; split=> //; have := sqrt_main hc hx (leqnn _).
  case: (Sqrt _ _ _ _) => [[y|]|] // => [[hy /(el_square hc hx hy) ey]|[_]]; first by exists (BigInt g y).
  by rewrite -/E x1 eqxx.
- split=> // h; have := sqrt_main hc hx (leqnn _).
  case: (Sqrt _ _ _ _) => [[y|]|] // => [[hy /(el_square hc hx hy) ey]|[_]]; first by case: (h (BigInt g y)).
  by rewrite -/E x1 eqxx.
- by split=> // -[_ [v /hroot [y /hsq]]].
- by split=> // _ v /hroot [y /hsq].
Qed.
(** the package whose Legendre is a power: examples/mult/zp *)
Theorem C106_Legendre x : elt (Limbs multZp) multZp_modulus x ->
  let l := Legendre multZp multZp_legendre x in
  [/\ l = 0%Z <-> BigInt multZp x = 0%Z,
      l = 1%Z <-> BigInt multZp x <> 0%Z /\ exists v, (v ^ 2 mod multZp_modulus = BigInt multZp x)%Z &
      l = (-1)%Z <-> forall v, (v ^ 2 mod multZp_modulus <> BigInt multZp x)%Z].
Proof.
move=> hx; apply: (@legendre_main multZp multZp_modulus multZp_sq _ x _ hx); last by vm_compute.
by rewrite /sqrtPackages /=; do 6!right; left.
Qed.

(** * C105: the Inverse of the packages is what Exp and Div need *)
Theorem C105_Inverse g p fuel : List.In (g, p) gcdPackages -> ((64 * Limbs g + 2) ^ 2 <= fuel)%N ->
  inverts g p (fun x => odflt [::] (Inverse g fuel x)).
Proof.
by move=> hg hf x hx; have [z [/(_ _ hf) -> h1 h2]] := C98_Inverse hg hx.
Qed.
Theorem C105_InverseBig inv g p : List.In (g, p) packages -> modInverse inv -> inverts g p (InverseBig inv g).
Proof. by move=> hg hi x hx; exact: C98_InverseBig. Qed.

(** * Examples *)
(** the constant g of a package is no square: its power -1 is not 1 *)
Lemma nonsquare g p c fuel : List.In (g, p, c) sqrtPackages -> (sqR c <= fuel)%N -> Sqrt g c fuel (sqG c) = Some None.
Proof.
move=> hc hf; have hx := sqG_ok hc; have [res [h1 h2]] := C106_Sqrt hc hx.
rewrite h1 //; case: res h2 {h1} => // y [hy /(el_square hc hx hy) e].
by case: (@sqG_nonsquare _ _ _ hc (el (sqrt_sub hc) y)).
Qed.
Example ex_nonsquare : Sqrt zp220 zp220_sq 80 (sqG zp220_sq) = Some None.
Proof. by apply: (@nonsquare _ zp220_modulus) => //; rewrite /sqrtPackages /=; right; left. Qed.
(** 4 has the roots 2 and -2 *)
Example ex_root : exists2 y, forall fuel, (sqR zp220_sq <= fuel)%N -> Sqrt zp220 zp220_sq fuel (exE 4) = Some (Some y) &
  BigInt zp220 y = 2%Z \/ BigInt zp220 y = (zp220_modulus - 2)%Z.
Proof.
have hc : List.In (zp220, zp220_modulus, zp220_sq) sqrtPackages by rewrite /sqrtPackages /=; right; left.
have hg := sqrt_sub hc; have e4 : BigInt zp220 (exE 4) = 4%Z by vm_compute.
have [[y|] [h1 h2]] := C106_Sqrt hc (exE_elt 4); last by case: (h2 2%Z); rewrite e4.
exists y; first exact: h1.
case: h2 => hy; rewrite e4 => e; have [hr _ _] := C69_BigInt hg hy.
have hp := C98_prime hg; clear h1 hy; move: (BigInt zp220 y) hr e => b hr e.
have : (zp220_modulus | (b - 2) * (b + 2))%Z.
  exists (b ^ 2 / zp220_modulus)%Z; rewrite (Z.mul_comm (_ / _)).
  have := Z_div_mod_eq_full (b ^ 2) zp220_modulus; rewrite e; move: (_ / _)%Z => k h.
  by rewrite (_ : ((b - 2) * (b + 2) = b ^ 2 - 4)%Z); [rewrite h Z.add_simpl_r|ring].
case/(prime_mult _ hp) => -[k ek].
- by left; move: hr ek; clear; rewrite /zp220_modulus; lia.
- by right; move: hr ek; clear; rewrite /zp220_modulus; lia.
Qed.

Example ex_Legendre : Legendre multZp multZp_legendre (SetBigInt multZp 49) = 1%Z.
Proof.
have hg : List.In (multZp, multZp_modulus) packages by rewrite /packages /=; do 6!right; left.
have [h1 h2] := C69_SetBigInt 49 hg; have [_ h _] := C106_Legendre h1.
apply (proj2 h); clear h h1; rewrite h2; split; first by [].
by exists 7%Z.
Qed.

Print Assumptions C106_Sqrt.
Print Assumptions C106_Legendre.
Print Assumptions C105_Inverse.
Print Assumptions C105_InverseBig.
