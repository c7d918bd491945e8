(** The assembly of the field types: C110 (amd64), C111 (arm64), C112 (overlapping arguments).

    A pointer is an integer, a memory maps pointers to lists of words.  The statements say which
    element the function leaves where, for any contents of the registers, flags and frame at the
    call, any behaviour of the flags the programs do not read, with and without the ADX
    instructions, and for any overlap of the arguments unless excluded. *)
From Coq Require Import ZArith Lia.
From mathcomp Require Import all_ssreflect zify ssrZ.
From Verif Require Import JindoIntModel ZpModel ZpConst ZpProofs ZpField ZpConv ZpInv Prop_Zp
  AsmModel AsmEntry AsmProofs AsmProof2 AsmProof4 AsmProof7 ArmProof2 ArmProof4.
Set Implicit Arguments. Unset Strict Implicit. Unset Printing Implicit Defensive.
Delimit Scope Z_scope with Z.
Local Arguments Z.mul : simpl never.
Local Arguments Z.add : simpl never.
Local Arguments Z.sub : simpl never.
Local Arguments Z.modulo : simpl never.
Local Arguments Z.pow : simpl never.
Local Arguments Z.of_nat : simpl never.

(** * Specification *)
(** the packages with assembly and their published moduli *)
Definition amdPackages : seq (gen * Z) :=
  [:: (zp110, zp110_modulus); (zp440, zp440_modulus); (jindoZp, jindoZp_modulus); (bfvZp, bfvZp_modulus)].
Definition armPackages : seq (gen * Z) :=
  [:: (zp110, zp110_modulus); (jindoZp, jindoZp_modulus); (bfvZp, bfvZp_modulus)].
(** m' is m with x at p *)
Definition setTo (m m' : Z -> seq Z) (p : Z) (x : seq Z) : Prop :=
  m' p = x /\ forall p', p' <> p -> m' p' = m p'.
(** r is x y / 2^(64 n), reduced *)
Definition isMont (n : nat) (p : Z) (x y r : seq Z) : Prop :=
  elt n p r /\ ((intOf r * 2 ^ (64 * Z.of_nat n)) mod p = (intOf x * intOf y) mod p)%Z.

(** * Proofs *)
Lemma amd_sub g p : List.In (g, p) amdPackages -> List.In (g, p) packages.
Proof. rewrite /amdPackages /packages /=; tauto. Qed.
Lemma arm_sub g p : List.In (g, p) armPackages -> List.In (g, p) packages.
Proof. rewrite /armPackages /packages /=; tauto. Qed.
Lemma arm_amd g p : List.In (g, p) armPackages -> List.In (g, p) amdPackages.
Proof. rewrite /armPackages /amdPackages /=; tauto. Qed.
Lemma setToE m m' p x : m' =1 put m p x -> setTo m m' p x.
Proof.
move=> h; split; first by rewrite h /put Z.eqb_refl.
by move=> p' hp; rewrite h /put; case: Z.eqb_spec.
Qed.
Ltac byPkg := case=> [[<- _]|[[<- _]|[[<- _]|[[<- _]|[]]]]].
Ltac byPkg3 := case=> [[<- _]|[[<- _]|[[<- _]|[]]]].
Section Pkg.
Variables (g : gen) (p : Z).
Hypothesis hg : List.In (g, p) amdPackages.
Variables (junk : Z -> Z -> Z -> Z) (s : st).
Lemma amd_mulasm_mem pr px py : red g (mem s px) -> limbs g (mem s py) -> size (mem s pr) = Limbs g ->
  run g junk s [:: pr; px; py] AsmText2.mul AsmText4.mul AsmText7.mul =1 put (mem s) pr (mulGeneric g (mem s px) (mem s py)).
Proof.
have [ok _] := pkg_ok (amd_sub hg); move: hg ok; byPkg => ok *.
- by eapply (@AsmProof2.mul_mem _ ok); first [reflexivity|eassumption].
- by eapply (@AsmProof7.mul_mem _ ok); first [reflexivity|eassumption].
- by eapply (@AsmProof4.mul_mem _ ok); first [reflexivity|eassumption].
- by eapply (@AsmProof4.mul_mem _ ok); first [reflexivity|eassumption].
Qed.
Lemma amd_fromasm_mem pr : limbs g (mem s pr) ->
  run g junk s [:: pr] AsmText2.fromMont AsmText4.fromMont AsmText7.fromMont =1 put (mem s) pr (fromMont g (mem s pr)).
Proof.
have [ok _] := pkg_ok (amd_sub hg); move: hg ok; byPkg => ok *.
- by eapply (@AsmProof2.fromMont_mem _ ok); first [reflexivity|eassumption].
- by eapply (@AsmProof7.fromMont_mem _ ok); first [reflexivity|eassumption].
- by eapply (@AsmProof4.fromMont_mem _ ok); first [reflexivity|eassumption].
- by eapply (@AsmProof4.fromMont_mem _ ok); first [reflexivity|eassumption].
Qed.
Lemma amd_reduce_mem pr : limbs g (mem s pr) ->
  amd_reduce g junk s pr =1 put (mem s) pr (reduce g (mem s pr)).
Proof.
have [ok _] := pkg_ok (amd_sub hg); move: hg ok; byPkg => ok *.
- by eapply (@AsmProof2.reduce_mem _ ok); first [reflexivity|eassumption].
- by eapply (@AsmProof7.reduce_mem _ ok); first [reflexivity|eassumption].
- by eapply (@AsmProof4.reduce_mem _ ok); first [reflexivity|eassumption].
- by eapply (@AsmProof4.reduce_mem _ ok); first [reflexivity|eassumption].
Qed.
Lemma amd_MulBy3_mem pr : limbs g (mem s pr) ->
  amd_MulBy3 g junk s pr =1 put (mem s) pr (mulBy3 g (mem s pr)).
Proof.
have [ok _] := pkg_ok (amd_sub hg); move: hg ok; byPkg => ok *.
- by eapply (@AsmProof2.MulBy3_mem _ ok); first [reflexivity|eassumption].
- by eapply (@AsmProof7.MulBy3_mem _ ok); first [reflexivity|eassumption].
- by eapply (@AsmProof4.MulBy3_mem _ ok); first [reflexivity|eassumption].
- by eapply (@AsmProof4.MulBy3_mem _ ok); first [reflexivity|eassumption].
Qed.
Lemma amd_MulBy5_mem pr : limbs g (mem s pr) ->
  amd_MulBy5 g junk s pr =1 put (mem s) pr (mulBy5 g (mem s pr)).
Proof.
have [ok _] := pkg_ok (amd_sub hg); move: hg ok; byPkg => ok *.
- by eapply (@AsmProof2.MulBy5_mem _ ok); first [reflexivity|eassumption].
- by eapply (@AsmProof7.MulBy5_mem _ ok); first [reflexivity|eassumption].
- by eapply (@AsmProof4.MulBy5_mem _ ok); first [reflexivity|eassumption].
- by eapply (@AsmProof4.MulBy5_mem _ ok); first [reflexivity|eassumption].
Qed.
Lemma amd_MulBy13_mem pr : limbs g (mem s pr) ->
  amd_MulBy13 g junk s pr =1 put (mem s) pr (thirteen g (mem s pr)).
Proof.
have [ok _] := pkg_ok (amd_sub hg); move: hg ok; byPkg => ok *.
- by eapply (@AsmProof2.MulBy13_mem _ ok); first [reflexivity|eassumption].
- by eapply (@AsmProof7.MulBy13_mem _ ok); first [reflexivity|eassumption].
- by eapply (@AsmProof4.MulBy13_mem _ ok); first [reflexivity|eassumption].
- by eapply (@AsmProof4.MulBy13_mem _ ok); first [reflexivity|eassumption].
Qed.
Lemma amd_Butterfly_mem pa pb : limbs g (mem s pa) -> limbs g (mem s pb) ->
  amd_Butterfly g junk s pa pb =1 put (put (mem s) pb (Sub g (mem s pa) (mem s pb))) pa (Add g (mem s pa) (mem s pb)).
Proof.
have [ok _] := pkg_ok (amd_sub hg); move: hg ok; byPkg => ok *.
- by eapply (@AsmProof2.Butterfly_mem _ ok); first [reflexivity|eassumption].
- by eapply (@AsmProof7.Butterfly_mem _ ok); first [reflexivity|eassumption].
- by eapply (@AsmProof4.Butterfly_mem _ ok); first [reflexivity|eassumption].
- by eapply (@AsmProof4.Butterfly_mem _ ok); first [reflexivity|eassumption].
Qed.
Lemma amd_mul_mem adx pr px py : red g (mem s px) -> limbs g (mem s py) -> size (mem s pr) = Limbs g ->
  amd_mul g adx junk s pr px py =1 put (mem s) pr (mulGeneric g (mem s px) (mem s py)).
Proof. by move=> h1 h2 h3; rewrite /amd_mul; case: adx => //; apply: amd_mulasm_mem. Qed.
Lemma amd_fromMont_mem adx pr : limbs g (mem s pr) ->
  amd_fromMont g adx junk s pr =1 put (mem s) pr (fromMont g (mem s pr)).
Proof. by move=> h; rewrite /amd_fromMont; case: adx => //; apply: amd_fromasm_mem. Qed.
End Pkg.
Section PkgX.
Variables (g : gen) (p : Z).
Hypothesis hg : List.In (g, p) armPackages.
Variables (junk : Z -> Z -> Z -> Z) (s : xst).
Lemma arm_mul_mem pr px py : red g (xmem s px) -> limbs g (xmem s py) -> size (xmem s pr) = Limbs g ->
  arm_mul g junk s pr px py =1 put (xmem s) pr (mulGeneric g (xmem s px) (xmem s py)).
Proof.
have [ok _] := pkg_ok (arm_sub hg); move: hg ok; byPkg3 => ok *.
- by eapply (@ArmProof2.mul_mem _ ok); first [reflexivity|eassumption].
- by eapply (@ArmProof4.mul_mem _ ok); first [reflexivity|eassumption].
- by eapply (@ArmProof4.mul_mem _ ok); first [reflexivity|eassumption].
Qed.
Lemma arm_reduce_mem pr : limbs g (xmem s pr) ->
  arm_reduce g junk s pr =1 put (xmem s) pr (reduce g (xmem s pr)).
Proof.
have [ok _] := pkg_ok (arm_sub hg); move: hg ok; byPkg3 => ok *.
- by eapply (@ArmProof2.reduce_mem _ ok); first [reflexivity|eassumption].
- by eapply (@ArmProof4.reduce_mem _ ok); first [reflexivity|eassumption].
- by eapply (@ArmProof4.reduce_mem _ ok); first [reflexivity|eassumption].
Qed.
Lemma arm_Butterfly_mem pa pb : limbs g (xmem s pa) -> limbs g (xmem s pb) ->
  arm_Butterfly g junk s pa pb =1 put (put (xmem s) pb (Sub g (xmem s pa) (xmem s pb))) pa (Add g (xmem s pa) (xmem s pb)).
Proof.
have [ok _] := pkg_ok (arm_sub hg); move: hg ok; byPkg3 => ok *.
- by eapply (@ArmProof2.Butterfly_mem _ ok); first [reflexivity|eassumption].
- by eapply (@ArmProof4.Butterfly_mem _ ok); first [reflexivity|eassumption].
- by eapply (@ArmProof4.Butterfly_mem _ ok); first [reflexivity|eassumption].
Qed.
End PkgX.

(** the constant of MulBy13 is 13 in Montgomery form *)
Definition y13Ok (gp : gen * Z) : bool :=
  let: (g, p) := gp in let y := thirteenM g in
  [&& size y == Limbs g, all word y, (wordsVal y <? p)%Z & (wordsVal y =? (13 * B (Limbs g)) mod p)%Z].
Lemma y13_ok : all y13Ok amdPackages. Proof. by vm_compute. Qed.
Lemma y13P g p : List.In (g, p) amdPackages -> red g (thirteenM g) /\ BigInt g (thirteenM g) = (13 mod p)%Z.
Proof.
move=> hg; have [ok e] := pkg_ok (amd_sub hg).
have /and4P[/eqP h1 h2 /Z.ltb_lt h3 /Z.eqb_eq h4] := In_all y13_ok hg.
have hr : red g (thirteenM g) by split=> //; rewrite e.
split=> //; rewrite -e; apply: evE => //.
rewrite h4 -e (Z.mul_comm 13).
by exists (- (B (Limbs g) * 13 / wordsVal (qs g)))%Z; have := Z_div_mod_eq_full (B (Limbs g) * 13) (wordsVal (qs g)); lia.
Qed.
Lemma mulByP g p x : List.In (g, p) amdPackages -> red g x ->
  [/\ red g (mulBy3 g x) /\ BigInt g (mulBy3 g x) = ((3 * BigInt g x) mod p)%Z,
      red g (mulBy5 g x) /\ BigInt g (mulBy5 g x) = ((5 * BigInt g x) mod p)%Z,
      red g (mulBy13 g (thirteenM g) x) /\ BigInt g (mulBy13 g (thirteenM g) x) = ((13 * BigInt g x) mod p)%Z &
      red g (thirteen g x) /\ BigInt g (thirteen g x) = ((13 * BigInt g x) mod p)%Z].
Proof.
move=> hg hx; have [ok e] := pkg_ok (amd_sub hg); have hq := q_gt0 ok.
have [r2 e2] := DoubleP ok hx; have [r4 e4] := DoubleP ok r2; have [r8 e8] := DoubleP ok r4.
have [r3 e3] := AddP ok r2 hx; have [r5 e5] := AddP ok r4 hx.
have [r12 e12] := AddP ok r8 r4; have [r13 e13] := AddP ok r12 hx.
have [ry ey] := y13P hg; have [rm em] := MulR ok hx ry.
rewrite -e in ey *; split; split=> //.
- rewrite -[LHS]/(ev g _) e3 e2 Zplus_mod_idemp_l; congr (_ mod _)%Z; rewrite -[BigInt g x]/(ev g x); lia.
- rewrite -[LHS]/(ev g _) e5 e4 e2 Zmult_mod_idemp_r Zplus_mod_idemp_l; congr (_ mod _)%Z; rewrite -[BigInt g x]/(ev g x); lia.
- rewrite -[LHS]/(ev g _) em [ev g (thirteenM g)]ey Zmult_mod_idemp_r; congr (_ mod _)%Z; rewrite -[BigInt g x]/(ev g x); lia.
- rewrite -[LHS]/(ev g _) e13 e12 e8 Zplus_mod_idemp_l -Z.add_assoc Zplus_mod_idemp_l.
  have -> : (2 * ev g (Double g (Double g x)) + (ev g (Double g (Double g x)) + ev g x) = 3 * ev g (Double g (Double g x)) + ev g x)%Z by lia.
  rewrite e4 e2 Zmult_mod_idemp_r -Zplus_mod_idemp_l Zmult_mod_idemp_r Zplus_mod_idemp_l; congr (_ mod _)%Z.
  by rewrite -[BigInt g x]/(ev g x); lia.
Qed.

Lemma mulG_mont g p x y : List.In (g, p) packages -> elt (Limbs g) p x -> isWords (Limbs g) y ->
  isMont (Limbs g) p x y (mulGeneric g x y) /\ BigInt g (mulGeneric g x y) = ((BigInt g x * BigInt g y) mod p)%Z.
Proof.
move=> /pkg_ok [ok e] /(eltE _ e) hx /wordsE hy; have [h1 h2] := mulGenericP ok hx hy.
have [_ h3] := mulGenericP' ok hx hy; split; last by rewrite -e; exact: h3.
split; first exact/(eltE _ e).
by rewrite !intOfE -BE Z.mul_comm -e; apply: (eqq_modE h2).
Qed.
Lemma from_mont g p x : List.In (g, p) packages -> isWords (Limbs g) x ->
  elt (Limbs g) p (fromMont g x) /\ ((intOf (fromMont g x) * 2 ^ (64 * Z.of_nat (Limbs g))) mod p = intOf x mod p)%Z.
Proof.
move=> /pkg_ok [ok e] /wordsE hx; have [h1 h2] := fromMontP ok hx.
split; first exact/(eltE _ e).
by rewrite !intOfE -BE Z.mul_comm -e; apply: (eqq_modE h2).
Qed.
Lemma reduce_mod g p x : List.In (g, p) packages -> isWords (Limbs g) x -> (intOf x < 2 * p)%Z ->
  elt (Limbs g) p (reduce g x) /\ intOf (reduce g x) = (intOf x mod p)%Z.
Proof.
move=> /pkg_ok [ok e] /wordsE hx; rewrite !intOfE -e => hlt; have [h1 [k h2]] := reduceP ok hx hlt.
split; first exact/(eltE _ erefl).
have hr := limbs_range (proj1 h1); case: (h1) => _ h3.
by apply: (Z.mod_unique_pos _ _ (- k)%Z); lia.
Qed.
Lemma butterflyE g m pa pb : pa <> pb ->
  put (put m pb (Sub g (m pa) (m pb))) pa (Add g (m pa) (m pb)) =1 butterflyGeneric g m pa pb.
Proof.
move=> h q; rewrite /butterflyGeneric /put; case: (Z.eqb_spec q pa) => [->|_] //.
  by case: Z.eqb_spec => // /h.
by case: Z.eqb_spec => // _; case: Z.eqb_spec => // /esym.
Qed.

(** * C110: amd64 *)
(** Mul leaves the Montgomery product at z and nothing else changes; x must be reduced, y need not be *)
Theorem C110_Mul g p adx junk s z x y : List.In (g, p) amdPackages ->
  elt (Limbs g) p (mem s x) -> isWords (Limbs g) (mem s y) -> size (mem s z) = Limbs g ->
  exists r, [/\ setTo (mem s) (amd_Mul g adx junk s z x y) z r, isMont (Limbs g) p (mem s x) (mem s y) r,
                BigInt g r = ((BigInt g (mem s x) * BigInt g (mem s y)) mod p)%Z &
                elt (Limbs g) p (mem s y) -> r = Mul g (mem s x) (mem s y)].
Proof.
move=> hg hx hy hz; have hp := amd_sub hg; have [ok e] := pkg_ok hp.
have [h1 h2] := mulG_mont hp hx hy; exists (mulGeneric g (mem s x) (mem s y)); split=> //.
  by apply: setToE; apply: (amd_mul_mem hg) => //; [exact/(eltE _ e)|exact/wordsE].
by move=> hy'; apply: (C67_mulGeneric hp).
Qed.
Theorem C110_Square g p adx junk s z x : List.In (g, p) amdPackages ->
  elt (Limbs g) p (mem s x) -> size (mem s z) = Limbs g ->
  setTo (mem s) (amd_Square g adx junk s z x) z (Square g (mem s x)).
Proof.
move=> hg hx hz; have [r [h1 _ _ h2]] := C110_Mul adx junk hg hx (proj1 hx) hz.
by rewrite /amd_Square -[Square _ _]/(Mul g (mem s x) (mem s x)) -h2.
Qed.
Theorem C110_fromMont g p adx junk s z : List.In (g, p) amdPackages -> isWords (Limbs g) (mem s z) ->
  exists r, [/\ setTo (mem s) (amd_fromMont g adx junk s z) z r, elt (Limbs g) p r, intOf r = BigInt g (mem s z) &
                ((intOf r * 2 ^ (64 * Z.of_nat (Limbs g))) mod p = intOf (mem s z) mod p)%Z].
Proof.
move=> hg hx; have hp := amd_sub hg; have [h1 h2] := from_mont hp hx.
exists (fromMont g (mem s z)); split=> //; last by rewrite intOfE.
by apply: setToE; apply: (amd_fromMont_mem hg); exact/wordsE.
Qed.
(** reduce subtracts the modulus at most once *)
Theorem C110_reduce g p junk s z : List.In (g, p) amdPackages -> isWords (Limbs g) (mem s z) ->
  setTo (mem s) (amd_reduce g junk s z) z (reduce g (mem s z)) /\
  ((intOf (mem s z) < 2 * p)%Z ->
   elt (Limbs g) p (reduce g (mem s z)) /\ intOf (reduce g (mem s z)) = (intOf (mem s z) mod p)%Z).
Proof.
move=> hg hx; split; last exact: (reduce_mod (amd_sub hg)).
by apply: setToE; apply: (amd_reduce_mem hg); exact/wordsE.
Qed.
(** MulBy3, MulBy5 and MulBy13 multiply by 3, 5 and 13, as the Go functions do *)
Theorem C110_MulBy3 g p junk s x : List.In (g, p) amdPackages -> elt (Limbs g) p (mem s x) ->
  exists r, [/\ setTo (mem s) (amd_MulBy3 g junk s x) x r, elt (Limbs g) p r,
                BigInt g r = ((3 * BigInt g (mem s x)) mod p)%Z & r = mulBy3 g (mem s x)].
Proof.
move=> hg hx; have [ok e] := pkg_ok (amd_sub hg); have hr := proj1 (eltE _ e) hx.
have [[r1 e1] _ _ _] := mulByP hg hr; exists (mulBy3 g (mem s x)); split=> //; last exact/(eltE _ e).
by apply: setToE; apply: (amd_MulBy3_mem hg); case: hr.
Qed.
Theorem C110_MulBy5 g p junk s x : List.In (g, p) amdPackages -> elt (Limbs g) p (mem s x) ->
  exists r, [/\ setTo (mem s) (amd_MulBy5 g junk s x) x r, elt (Limbs g) p r,
                BigInt g r = ((5 * BigInt g (mem s x)) mod p)%Z & r = mulBy5 g (mem s x)].
Proof.
move=> hg hx; have [ok e] := pkg_ok (amd_sub hg); have hr := proj1 (eltE _ e) hx.
have [_ [r1 e1] _ _] := mulByP hg hr; exists (mulBy5 g (mem s x)); split=> //; last exact/(eltE _ e).
by apply: setToE; apply: (amd_MulBy5_mem hg); case: hr.
Qed.
Theorem C110_MulBy13 g p junk s x : List.In (g, p) amdPackages -> elt (Limbs g) p (mem s x) ->
  exists r, [/\ setTo (mem s) (amd_MulBy13 g junk s x) x r, elt (Limbs g) p r,
                BigInt g r = ((13 * BigInt g (mem s x)) mod p)%Z & r = mulBy13 g (thirteenM g) (mem s x)].
Proof.
move=> hg hx; have [ok e] := pkg_ok (amd_sub hg); have hr := proj1 (eltE _ e) hx.
have [_ _ [r1 e1] [r2 e2]] := mulByP hg hr; exists (thirteen g (mem s x)); split=> //; first 2 last.
- by apply: (ev_inj ok r2 r1); rewrite -![ev g _]/(BigInt g _) e1 e2.
- by apply: setToE; apply: (amd_MulBy13_mem hg); case: hr.
exact/(eltE _ e).
Qed.
(** Butterfly leaves the sum at a and the difference at b; with a = b the sum *)
Theorem C110_Butterfly g p junk s a b : List.In (g, p) amdPackages ->
  elt (Limbs g) p (mem s a) -> elt (Limbs g) p (mem s b) ->
  let m' := amd_Butterfly g junk s a b in
  [/\ elt (Limbs g) p (m' a) /\ BigInt g (m' a) = ((BigInt g (mem s a) + BigInt g (mem s b)) mod p)%Z,
      a <> b -> elt (Limbs g) p (m' b) /\ BigInt g (m' b) = ((BigInt g (mem s a) - BigInt g (mem s b)) mod p)%Z,
      forall q, q <> a -> q <> b -> m' q = mem s q &
      a <> b -> m' =1 butterflyGeneric g (mem s) a b].
Proof.
move=> hg hx hy; have hp := amd_sub hg; have [ok e] := pkg_ok hp.
have h := amd_Butterfly_mem hg junk (proj1 (proj1 (eltE _ e) hx)) (proj1 (proj1 (eltE _ e) hy)).
have ha := C68_Add hp hx hy; have hs := C68_Sub hp hx hy.
split; first by rewrite h /put Z.eqb_refl.
- by move=> hab; rewrite h /put Z.eqb_refl; case: Z.eqb_spec => // /esym.
- by move=> q h1 h2; rewrite h /put; case: Z.eqb_spec => // _; case: Z.eqb_spec.
by move=> hab q; rewrite h; apply: butterflyE.
Qed.

(** * C111: arm64 *)
Theorem C111_Mul g p junk s z x y : List.In (g, p) armPackages ->
  elt (Limbs g) p (xmem s x) -> isWords (Limbs g) (xmem s y) -> size (xmem s z) = Limbs g ->
  exists r, [/\ setTo (xmem s) (arm_Mul g junk s z x y) z r, isMont (Limbs g) p (xmem s x) (xmem s y) r,
                BigInt g r = ((BigInt g (xmem s x) * BigInt g (xmem s y)) mod p)%Z &
                elt (Limbs g) p (xmem s y) -> r = Mul g (xmem s x) (xmem s y)].
Proof.
move=> hg hx hy hz; have hp := arm_sub hg; have [ok e] := pkg_ok hp.
have [h1 h2] := mulG_mont hp hx hy; exists (mulGeneric g (xmem s x) (xmem s y)); split=> //.
  by apply: setToE; apply: (arm_mul_mem hg) => //; [exact/(eltE _ e)|exact/wordsE].
by move=> hy'; apply: (C67_mulGeneric hp).
Qed.
Theorem C111_Square g p junk s z x : List.In (g, p) armPackages ->
  elt (Limbs g) p (xmem s x) -> size (xmem s z) = Limbs g ->
  setTo (xmem s) (arm_Square g junk s z x) z (Square g (xmem s x)).
Proof.
move=> hg hx hz; have [r [h1 _ _ h2]] := C111_Mul junk hg hx (proj1 hx) hz.
by rewrite /arm_Square -[Square _ _]/(Mul g (xmem s x) (xmem s x)) -h2.
Qed.
Theorem C111_reduce g p junk s z : List.In (g, p) armPackages -> isWords (Limbs g) (xmem s z) ->
  setTo (xmem s) (arm_reduce g junk s z) z (reduce g (xmem s z)) /\
  ((intOf (xmem s z) < 2 * p)%Z ->
   elt (Limbs g) p (reduce g (xmem s z)) /\ intOf (reduce g (xmem s z)) = (intOf (xmem s z) mod p)%Z).
Proof.
move=> hg hx; split; last exact: (reduce_mod (arm_sub hg)).
by apply: setToE; apply: (arm_reduce_mem hg); exact/wordsE.
Qed.
Theorem C111_Butterfly g p junk s a b : List.In (g, p) armPackages ->
  elt (Limbs g) p (xmem s a) -> elt (Limbs g) p (xmem s b) ->
  let m' := arm_Butterfly g junk s a b in
  [/\ elt (Limbs g) p (m' a) /\ BigInt g (m' a) = ((BigInt g (xmem s a) + BigInt g (xmem s b)) mod p)%Z,
      a <> b -> elt (Limbs g) p (m' b) /\ BigInt g (m' b) = ((BigInt g (xmem s a) - BigInt g (xmem s b)) mod p)%Z,
      forall q, q <> a -> q <> b -> m' q = xmem s q &
      a <> b -> m' =1 butterflyGeneric g (xmem s) a b].
Proof.
move=> hg hx hy; have hp := arm_sub hg; have [ok e] := pkg_ok hp.
have h := arm_Butterfly_mem hg junk (proj1 (proj1 (eltE _ e) hx)) (proj1 (proj1 (eltE _ e) hy)).
have ha := C68_Add hp hx hy; have hs := C68_Sub hp hx hy.
split; first by rewrite h /put Z.eqb_refl.
- by move=> hab; rewrite h /put Z.eqb_refl; case: Z.eqb_spec => // /esym.
- by move=> q h1 h2; rewrite h /put; case: Z.eqb_spec => // _; case: Z.eqb_spec.
by move=> hab q; rewrite h; apply: butterflyE.
Qed.
(** MulBy3, MulBy5, MulBy13 of element_arm64.go 43-61 and element_purego.go 13-31 *)
Theorem C111_MulBy g p x : List.In (g, p) amdPackages -> elt (Limbs g) p x ->
  [/\ elt (Limbs g) p (mulBy3 g x) /\ BigInt g (mulBy3 g x) = ((3 * BigInt g x) mod p)%Z,
      elt (Limbs g) p (mulBy5 g x) /\ BigInt g (mulBy5 g x) = ((5 * BigInt g x) mod p)%Z &
      elt (Limbs g) p (mulBy13 g (thirteenM g) x) /\ BigInt g (mulBy13 g (thirteenM g) x) = ((13 * BigInt g x) mod p)%Z].
Proof.
move=> hg hx; have [ok e] := pkg_ok (amd_sub hg).
have [[h1 e1] [h2 e2] [h3 e3] _] := mulByP hg (proj1 (eltE _ e) hx).
by split; split=> //; apply/(eltE _ e).
Qed.

(** * C112: Butterfly(a, a) *)
(** with a = b the Go function leaves -a, the assembly 2 a *)
Theorem C112_Butterfly_same g p junk s a : List.In (g, p) amdPackages -> elt (Limbs g) p (mem s a) ->
  BigInt g (amd_Butterfly g junk s a a a) = ((2 * BigInt g (mem s a)) mod p)%Z /\
  BigInt g (butterflyGeneric g (mem s) a a a) = ((- BigInt g (mem s a)) mod p)%Z.
Proof.
move=> hg hx; have hp := amd_sub hg.
have [[_ h1] _ _ _] := C110_Butterfly junk hg hx hx.
have [h2 h3] := C68_Add hp hx hx; have [_ h4] := C68_Sub hp hx h2.
split; first by rewrite h1; congr (_ mod _)%Z; lia.
rewrite /butterflyGeneric /put !Z.eqb_refl h4 h3 Zminus_mod_idemp_r; congr (_ mod _)%Z; lia.
Qed.
Definition regs0 (m : memory) : st := St 0 0 0 0 0 0 0 0 0 0 0 0 0 0 0 0 0 0 0 0 0 0 0 0 0 0 m.
Definition xregs0 (m : memory) : xst := XSt 0 0 0 0 0 0 0 0 0 0 0 0 0 0 0 0 0 0 0 m.
(** the claim that both builds agree is false without a <> b *)
Definition butterflies_agree : Prop := forall g p junk s a b, List.In (g, p) amdPackages ->
  elt (Limbs g) p (mem s a) -> elt (Limbs g) p (mem s b) -> amd_Butterfly g junk s a b =1 butterflyGeneric g (mem s) a b.
Theorem C112_Butterfly_refuted : ~ butterflies_agree.
Proof.
pose m : memory := fun _ => [:: 1; 0]%Z => h.
have e1 : elt (Limbs zp110) zp110_modulus [:: 1; 0]%Z.
  by apply/(@eltE zp110).
have hg : List.In (zp110, zp110_modulus) amdPackages by left.
have [h1 h2] := C112_Butterfly_same (s := regs0 m) (a := 0%Z) (fun _ _ _ => 0%Z) hg e1.
have := h zp110 _ (fun _ _ _ => 0%Z) (regs0 m) 0%Z 0%Z hg e1 e1 0%Z.
by move=> h3; move: h1; rewrite h3 h2; vm_compute.
Qed.

(** * Examples: 1 at pointer 1, 13 at the others; runs of the programs *)
Definition mem1 (g : gen) : memory := fun p => if (p =? 1)%Z then oneM g else thirteenM g.
Definition junk7 (a b c : Z) : Z := (a + 2 * b + 7 * c)%Z.
Example ex_mul : (amd_Mul zp110 true junk7 (regs0 (mem1 zp110)) 2 1 2 2, amd_Mul zp110 false junk7 (regs0 (mem1 zp110)) 1 1 1 1,
  amd_Mul zp440 true junk7 (regs0 (mem1 zp440)) 1 1 2 1, arm_Mul jindoZp junk7 (xregs0 (mem1 jindoZp)) 1 1 2 1)%Z
  = (thirteenM zp110, oneM zp110, thirteenM zp440, thirteenM jindoZp).
Proof. by vm_compute. Qed.
Example ex_mul13 : (amd_MulBy13 zp440 junk7 (regs0 (mem1 zp440)) 1 1, amd_MulBy13 bfvZp junk7 (regs0 (mem1 bfvZp)) 1 1)%Z
  = (thirteenM zp440, thirteenM bfvZp).
Proof. by vm_compute. Qed.
Example ex_butterfly : let m' := amd_Butterfly zp440 junk7 (regs0 (mem1 zp440)) 1%Z 2%Z in
  [/\ BigInt zp440 (m' 1%Z) = 14%Z, BigInt zp440 (m' 2%Z) = (zp440_modulus - 12)%Z & m' 3%Z = thirteenM zp440].
Proof. by vm_compute. Qed.
Example ex_butterfly_arm : let m' := arm_Butterfly jindoZp junk7 (xregs0 (mem1 jindoZp)) 1%Z 2%Z in
  [/\ BigInt jindoZp (m' 1%Z) = 14%Z, BigInt jindoZp (m' 2%Z) = (jindoZp_modulus - 12)%Z & m' 3%Z = thirteenM jindoZp].
Proof. by vm_compute. Qed.
(** the hypotheses hold of this memory *)
Example ex_hyps : elt (Limbs zp110) zp110_modulus (mem1 zp110 1%Z) /\ elt (Limbs zp110) zp110_modulus (mem1 zp110 2%Z).
Proof. by split; apply/(@eltE zp110). Qed.
Print Assumptions C110_Mul.
Print Assumptions C110_Square.
Print Assumptions C110_fromMont.
Print Assumptions C110_reduce.
Print Assumptions C110_MulBy3.
Print Assumptions C110_MulBy5.
Print Assumptions C110_MulBy13.
Print Assumptions C110_Butterfly.
Print Assumptions C111_Mul.
Print Assumptions C111_Square.
Print Assumptions C111_reduce.
Print Assumptions C111_Butterfly.
Print Assumptions C111_MulBy.
Print Assumptions C112_Butterfly_same.
Print Assumptions C112_Butterfly_refuted.
