(** AsmText4.v: what the macros and functions of the 4 word amd64 assembly do. *)
From Coq Require Import ZArith Lia.
From mathcomp Require Import all_ssreflect zify ssrZ.
From Verif Require Import JindoIntModel JindoIntProofs ZpModel ZpProofs ZpField AsmModel AsmProofs AsmText4.
Set Implicit Arguments. Unset Strict Implicit. Unset Printing Implicit Defensive.
Delimit Scope Z_scope with Z.
Local Arguments Z.mul : simpl never. Local Arguments Z.add : simpl never. Local Arguments Z.sub : simpl never.
Local Arguments Z.pow : simpl never.

Section P.
Variables (g : gen) (ok : okGen g) (q0 q1 q2 q3 : Z).
Hypothesis hq : qs g = [:: q0; q1; q2; q3].
Hypotheses (haddc : addCarry g = false) (hcios : mulCios g = false).
Variable e : env.
Hypothesis he : eq_ e = qs g.
Hypothesis hi : eqi e = qInvNeg g.
Local Notation Q := (val (qs g)).
Local Notation n := (Limbs g).
Lemma nE : n = 4%N. Proof. by rewrite /Limbs hq. Qed.
Lemma spare : (2 * Q <= B n)%Z.
Proof. by have := ok_mul ok; rewrite hcios => /Z.leb_le. Qed.
Lemma wq : [/\ word q0, word q1, word q2 & word q3].
Proof. by have := ok_q ok; rewrite hq /= => /andP[-> /andP[-> /andP[-> /andP[-> _]]]]. Qed.
Lemma qE0 : nth 0%Z (eq_ e) 0 = q0. Proof. by rewrite he hq. Qed.
Lemma qE1 : nth 0%Z (eq_ e) 1 = q1. Proof. by rewrite he hq. Qed.
Lemma qE2 : nth 0%Z (eq_ e) 2 = q2. Proof. by rewrite he hq. Qed.
Lemma qE3 : nth 0%Z (eq_ e) 3 = q3. Proof. by rewrite he hq. Qed.
Ltac nq := idtac; rewrite ?hi ?qE0 ?qE1 ?qE2 ?qE3.
Tactic Notation "sq" := sx ltac:(nq).
Lemma limbsW t0 t1 t2 t3 : word t0 -> word t1 -> word t2 -> word t3 -> limbs g [:: t0; t1; t2; t3].
Proof. by move=> h0 h1 h2 h3; split; [rewrite nE|rewrite /= h0 h1 h2 h3]. Qed.
Lemma qval : Q = (q0 + W*q1 + W*W*q2 + W*W*W*q3)%Z. Proof. by rewrite hq /=; ring. Qed.

(** t, A := (t + A 2^(64 n) + m q) / 2^64, up to carries out of the last word *)
Lemma DIV_SHIFT_spec (P : st -> Prop) t0 t1 t2 t3 A vax vdx vsi vdi vr8 vr9 vr10 vr11 vr12 vr15 vcf vof vs0 vs1 vs2 vs3 vs4 vs5 vs6 vs7 vs8 vm :
  word t0 -> word t1 -> word t2 -> word t3 -> word A ->
  (forall vax vdx vr12 vcf vof t0' t1' t2' t3' mm, word t0' -> word t1' -> word t2' -> word t3' -> word mm ->
     (W * val [:: t0'; t1'; t2'; t3'] + B 5 * (vcf + vof) = val [:: t0; t1; t2; t3] + B 4 * A + mm * Q)%Z ->
     P (St vax t3' t2' vdx vsi vdi A vr8 vr9 vr10 vr11 vr12 t1' t0' vr15 vcf vof vs0 vs1 vs2 vs3 vs4 vs5 vs6 vs7 vs8 vm)) ->
  P (exec e DIV_SHIFT (St vax t3 t2 vdx vsi vdi A vr8 vr9 vr10 vr11 vr12 t1 t0 vr15 vcf vof vs0 vs1 vs2 vs3 vs4 vs5 vs6 vs7 vs8 vm)).
Proof.
move=> ht0 ht1 ht2 ht3 hA HP; have [wq0 wq1 wq2 wq3] := wq.
cbv [DIV_SHIFT MACC cat]; do 2 sq.
have hm : word ((qInvNeg g * t0) mod W) by apply: word_mod.
have hlow := montLow ok ht0.
set mm := ((_ * _) mod W)%Z in hm hlow *.
sq; sq; sq.
have {hlow} z0 : z = 0%Z by apply: (hlow _ _ _ _ _ E0); rewrite hq; exact: E.
have el : t0 = (W * c + W * h - mm * q0)%Z.
  by have [e2 _] := Add64_eq E0; have [e1 _ _] := Mul64_eq hm wq0 E; move: z0 e2 e1; clear; lia.
clearbody mm; repeat sq; rewrite exec_nil.
apply: (HP _ _ _ _ _ _ _ _ _ mm) => //.
by rewrite qval !BS B0 !val_cons val_nil; lincomb; rewrite el; ring.
Qed.
Ltac nx := idtac.
Tactic Notation "sl" := sx ltac:(nq; nx).

(** the part of MUL_WORD_0 before DIV_SHIFT: t, A := v x *)
Definition ACC_0 := take (size MUL_WORD_0 - size DIV_SHIFT) MUL_WORD_0.
Lemma ACC_0E : MUL_WORD_0 = ACC_0 ++ DIV_SHIFT. Proof. by []. Qed.
Lemma ACC_0_spec (P : st -> Prop) v x0 x1 x2 x3 vax vbx vcx vsi vbp vr11 vr12 vr13 vr14 vr15 vcf vof vs0 vs1 vs2 vs3 vs4 vs5 vs6 vs7 vs8 vm :
  word v -> word x0 -> word x1 -> word x2 -> word x3 -> 
  (forall vax vcf vof t0' t1' t2' t3' A', word t0' -> word t1' -> word t2' -> word t3' -> word A' ->
     (val [:: t0'; t1'; t2'; t3'] + B 4 * A' + B 5 * (vcf + vof) = v * val [:: x0; x1; x2; x3])%Z ->
     P (St vax t3' t2' v vsi x0 A' x1 x2 x3 vr11 vr12 t1' t0' vr15 vcf vof vs0 vs1 vs2 vs3 vs4 vs5 vs6 vs7 vs8 vm)) ->
  P (exec e ACC_0 (St vax vbx vcx v vsi x0 vbp x1 x2 x3 vr11 vr12 vr13 vr14 vr15 vcf vof vs0 vs1 vs2 vs3 vs4 vs5 vs6 vs7 vs8 vm)).
Proof.
move=> hv hx0 hx1 hx2 hx3  HP.
let p := eval vm_compute in ACC_0 in change ACC_0 with p.
repeat sl; rewrite exec_nil.
apply: HP => //.
by rewrite !BS B0 !val_cons val_nil; lincomb; ring.
Qed.

(** one round of the multiplication, up to carries out of the last word *)
Lemma MUL_WORD_0_spec (P : st -> Prop) v x0 x1 x2 x3 vax vbx vcx vsi vbp vr11 vr12 vr13 vr14 vr15 vcf vof vs0 vs1 vs2 vs3 vs4 vs5 vs6 vs7 vs8 vm :
  word v -> word x0 -> word x1 -> word x2 -> word x3 -> 
  (forall vax vdx vbp vr12 vcf vof t0' t1' t2' t3' mm k, word t0' -> word t1' -> word t2' -> word t3' -> word mm ->
     (W * val [:: t0'; t1'; t2'; t3'] + B 5 * k = v * val [:: x0; x1; x2; x3] + mm * Q)%Z ->
     P (St vax t3' t2' vdx vsi x0 vbp x1 x2 x3 vr11 vr12 t1' t0' vr15 vcf vof vs0 vs1 vs2 vs3 vs4 vs5 vs6 vs7 vs8 vm)) ->
  P (exec e MUL_WORD_0 (St vax vbx vcx v vsi x0 vbp x1 x2 x3 vr11 vr12 vr13 vr14 vr15 vcf vof vs0 vs1 vs2 vs3 vs4 vs5 vs6 vs7 vs8 vm)).
Proof.
move=> hv hx0 hx1 hx2 hx3  HP; rewrite ACC_0E exec_cat.
apply: (ACC_0_spec (P := fun s => P (exec e DIV_SHIFT s))) => // vax0 vcf0 vof0 u0 u1 u2 u3 A hu0 hu1 hu2 hu3 hA E1.
apply: DIV_SHIFT_spec => // w1 w2 w3 w4 w5 s0 s1 s2 s3 mm hs0 hs1 hs2 hs3 hm E2.
apply: (HP _ _ _ _ _ _ _ _ _ _ mm (w4 + w5 + (vcf0 + vof0))%Z) => //.
by move: E1 E2; clear; lia.
Qed.

(** the part of MUL_WORD_N before DIV_SHIFT: t, A := t + v x *)
Definition ACC_N := take (size MUL_WORD_N - size DIV_SHIFT) MUL_WORD_N.
Lemma ACC_NE : MUL_WORD_N = ACC_N ++ DIV_SHIFT. Proof. by []. Qed.
Lemma ACC_N_spec (P : st -> Prop) v x0 x1 x2 x3 t0 t1 t2 t3 vax vsi vbp vr11 vr12 vr15 vcf vof vs0 vs1 vs2 vs3 vs4 vs5 vs6 vs7 vs8 vm :
  word v -> word x0 -> word x1 -> word x2 -> word x3 -> word t0 -> word t1 -> word t2 -> word t3 -> 
  (forall vax vcf vof t0' t1' t2' t3' A', word t0' -> word t1' -> word t2' -> word t3' -> word A' ->
     (val [:: t0'; t1'; t2'; t3'] + B 4 * A' + B 5 * (vcf + vof) = val [:: t0; t1; t2; t3] + v * val [:: x0; x1; x2; x3])%Z ->
     P (St vax t3' t2' v vsi x0 A' x1 x2 x3 vr11 vr12 t1' t0' vr15 vcf vof vs0 vs1 vs2 vs3 vs4 vs5 vs6 vs7 vs8 vm)) ->
  P (exec e ACC_N (St vax t3 t2 v vsi x0 vbp x1 x2 x3 vr11 vr12 t1 t0 vr15 vcf vof vs0 vs1 vs2 vs3 vs4 vs5 vs6 vs7 vs8 vm)).
Proof.
move=> hv hx0 hx1 hx2 hx3 ht0 ht1 ht2 ht3 HP.
let p := eval vm_compute in ACC_N in change ACC_N with p.
repeat sl; rewrite exec_nil.
apply: HP => //.
by rewrite !BS B0 !val_cons val_nil; lincomb; ring.
Qed.

(** one round of the multiplication, up to carries out of the last word *)
Lemma MUL_WORD_N_spec (P : st -> Prop) v x0 x1 x2 x3 t0 t1 t2 t3 vax vsi vbp vr11 vr12 vr15 vcf vof vs0 vs1 vs2 vs3 vs4 vs5 vs6 vs7 vs8 vm :
  word v -> word x0 -> word x1 -> word x2 -> word x3 -> word t0 -> word t1 -> word t2 -> word t3 -> 
  (forall vax vdx vbp vr12 vcf vof t0' t1' t2' t3' mm k, word t0' -> word t1' -> word t2' -> word t3' -> word mm ->
     (W * val [:: t0'; t1'; t2'; t3'] + B 5 * k = val [:: t0; t1; t2; t3] + v * val [:: x0; x1; x2; x3] + mm * Q)%Z ->
     P (St vax t3' t2' vdx vsi x0 vbp x1 x2 x3 vr11 vr12 t1' t0' vr15 vcf vof vs0 vs1 vs2 vs3 vs4 vs5 vs6 vs7 vs8 vm)) ->
  P (exec e MUL_WORD_N (St vax t3 t2 v vsi x0 vbp x1 x2 x3 vr11 vr12 t1 t0 vr15 vcf vof vs0 vs1 vs2 vs3 vs4 vs5 vs6 vs7 vs8 vm)).
Proof.
move=> hv hx0 hx1 hx2 hx3 ht0 ht1 ht2 ht3 HP; rewrite ACC_NE exec_cat.
apply: (ACC_N_spec (P := fun s => P (exec e DIV_SHIFT s))) => // vax0 vcf0 vof0 u0 u1 u2 u3 A hu0 hu1 hu2 hu3 hA E1.
apply: DIV_SHIFT_spec => // w1 w2 w3 w4 w5 s0 s1 s2 s3 mm hs0 hs1 hs2 hs3 hm E2.
apply: (HP _ _ _ _ _ _ _ _ _ _ mm (w4 + w5 + (vcf0 + vof0))%Z) => //.
by move: E1 E2; clear; lia.
Qed.

Lemma REDUCE_spec0 (P : st -> Prop) t0 t1 t2 t3 vax vdi vbp vr8 vr9 vr10 vr11 vr12 vr13 vr14 vr15 vcf vof vs0 vs1 vs2 vs3 vs4 vs5 vs6 vs7 vs8 vm :
  word t0 -> word t1 -> word t2 -> word t3 ->
  (forall vdi vr8 vr9 vr10 vcf vof t0' t1' t2' t3', word t0' -> word t1' -> word t2' -> word t3' -> [:: t0'; t1'; t2'; t3'] = ZpModel.reduce g [:: t0; t1; t2; t3] ->
     P (St vax t2' t1' t0' t3' vdi vbp vr8 vr9 vr10 vr11 vr12 vr13 vr14 vr15 vcf vof vs0 vs1 vs2 vs3 vs4 vs5 vs6 vs7 vs8 vm)) ->
  P (exec e (REDUCE DX CX BX SI DI R8 R9 R10 (qE 0) (qE 1) (qE 2) (qE 3)) (St vax t2 t1 t0 t3 vdi vbp vr8 vr9 vr10 vr11 vr12 vr13 vr14 vr15 vcf vof vs0 vs1 vs2 vs3 vs4 vs5 vs6 vs7 vs8 vm)).
Proof.
move=> ht0 ht1 ht2 ht3 HP; have [wq0 wq1 wq2 wq3] := wq.
cbv [REDUCE]; repeat sq; rewrite exec_nil.
have hl := limbsW ht0 ht1 ht2 ht3.
have Es : subChain [:: t0; t1; t2; t3] (qs g) 0 = ([:: z; z0; z1; z2], c2) by rewrite hq; cbn [subChain]; rewrite E E0 E1 E2.
have hr := reduceE ok hl Es; have := subChainW ok hl Es; rewrite /= => /andP[hz0 /andP[hz1 /andP[hz2 /andP[hz3 _]]]].
by apply: HP; rewrite ?hr; case: ifP.
Qed.

Lemma REDUCE_spec1 (P : st -> Prop) t0 t1 t2 t3 vax vdi vbp vr8 vr9 vr10 vr11 vr12 vr13 vr14 vr15 vcf vof vs0 vs1 vs2 vs3 vs4 vs5 vs6 vs7 vs8 vm :
  word t0 -> word t1 -> word t2 -> word t3 ->
  (forall vr11 vr12 vr13 vr14 vcf vof t0' t1' t2' t3', word t0' -> word t1' -> word t2' -> word t3' -> [:: t0'; t1'; t2'; t3'] = ZpModel.reduce g [:: t0; t1; t2; t3] ->
     P (St vax t2' t1' t0' t3' vdi vbp vr8 vr9 vr10 vr11 vr12 vr13 vr14 vr15 vcf vof vs0 vs1 vs2 vs3 vs4 vs5 vs6 vs7 vs8 vm)) ->
  P (exec e (REDUCE DX CX BX SI R11 R12 R13 R14 (qE 0) (qE 1) (qE 2) (qE 3)) (St vax t2 t1 t0 t3 vdi vbp vr8 vr9 vr10 vr11 vr12 vr13 vr14 vr15 vcf vof vs0 vs1 vs2 vs3 vs4 vs5 vs6 vs7 vs8 vm)).
Proof.
move=> ht0 ht1 ht2 ht3 HP; have [wq0 wq1 wq2 wq3] := wq.
cbv [REDUCE]; repeat sq; rewrite exec_nil.
have hl := limbsW ht0 ht1 ht2 ht3.
have Es : subChain [:: t0; t1; t2; t3] (qs g) 0 = ([:: z; z0; z1; z2], c2) by rewrite hq; cbn [subChain]; rewrite E E0 E1 E2.
have hr := reduceE ok hl Es; have := subChainW ok hl Es; rewrite /= => /andP[hz0 /andP[hz1 /andP[hz2 /andP[hz3 _]]]].
by apply: HP; rewrite ?hr; case: ifP.
Qed.

Lemma REDUCE_spec2 (P : st -> Prop) t0 t1 t2 t3 vax vdx vsi vdi vbp vr8 vr9 vr10 vr11 vr12 vr15 vcf vof vs0 vs1 vs2 vs3 vs4 vs5 vs6 vs7 vs8 vm :
  word t0 -> word t1 -> word t2 -> word t3 ->
  (forall vsi vr12 vr11 vdi vcf vof t0' t1' t2' t3', word t0' -> word t1' -> word t2' -> word t3' -> [:: t0'; t1'; t2'; t3'] = ZpModel.reduce g [:: t0; t1; t2; t3] ->
     P (St vax t3' t2' vdx vsi vdi vbp vr8 vr9 vr10 vr11 vr12 t1' t0' vr15 vcf vof vs0 vs1 vs2 vs3 vs4 vs5 vs6 vs7 vs8 vm)) ->
  P (exec e (REDUCE R14 R13 CX BX SI R12 R11 DI (qE 0) (qE 1) (qE 2) (qE 3)) (St vax t3 t2 vdx vsi vdi vbp vr8 vr9 vr10 vr11 vr12 t1 t0 vr15 vcf vof vs0 vs1 vs2 vs3 vs4 vs5 vs6 vs7 vs8 vm)).
Proof.
move=> ht0 ht1 ht2 ht3 HP; have [wq0 wq1 wq2 wq3] := wq.
cbv [REDUCE]; repeat sq; rewrite exec_nil.
have hl := limbsW ht0 ht1 ht2 ht3.
have Es : subChain [:: t0; t1; t2; t3] (qs g) 0 = ([:: z; z0; z1; z2], c2) by rewrite hq; cbn [subChain]; rewrite E E0 E1 E2.
have hr := reduceE ok hl Es; have := subChainW ok hl Es; rewrite /= => /andP[hz0 /andP[hz1 /andP[hz2 /andP[hz3 _]]]].
by apply: HP; rewrite ?hr; case: ifP.
Qed.

Lemma REDUCE_spec3 (P : st -> Prop) t0 t1 t2 t3 vax vdx vsi vdi vbp vr8 vr9 vr10 vr11 vr12 vr15 vcf vof vs0 vs1 vs2 vs3 vs4 vs5 vs6 vs7 vs8 vm :
  word t0 -> word t1 -> word t2 -> word t3 ->
  (forall vsi vdi vr8 vr9 vcf vof t0' t1' t2' t3', word t0' -> word t1' -> word t2' -> word t3' -> [:: t0'; t1'; t2'; t3'] = ZpModel.reduce g [:: t0; t1; t2; t3] ->
     P (St vax t3' t2' vdx vsi vdi vbp vr8 vr9 vr10 vr11 vr12 t0' t1' vr15 vcf vof vs0 vs1 vs2 vs3 vs4 vs5 vs6 vs7 vs8 vm)) ->
  P (exec e (REDUCE R13 R14 CX BX SI DI R8 R9 (qE 0) (qE 1) (qE 2) (qE 3)) (St vax t3 t2 vdx vsi vdi vbp vr8 vr9 vr10 vr11 vr12 t0 t1 vr15 vcf vof vs0 vs1 vs2 vs3 vs4 vs5 vs6 vs7 vs8 vm)).
Proof.
move=> ht0 ht1 ht2 ht3 HP; have [wq0 wq1 wq2 wq3] := wq.
cbv [REDUCE]; repeat sq; rewrite exec_nil.
have hl := limbsW ht0 ht1 ht2 ht3.
have Es : subChain [:: t0; t1; t2; t3] (qs g) 0 = ([:: z; z0; z1; z2], c2) by rewrite hq; cbn [subChain]; rewrite E E0 E1 E2.
have hr := reduceE ok hl Es; have := subChainW ok hl Es; rewrite /= => /andP[hz0 /andP[hz1 /andP[hz2 /andP[hz3 _]]]].
by apply: HP; rewrite ?hr; case: ifP.
Qed.

(** one round of fromMont *)
Lemma fromMont_round_spec (P : st -> Prop) t0 t1 t2 t3 vax vdx vsi vdi vbp vr8 vr9 vr10 vr11 vr12 vr15 vcf vof vs0 vs1 vs2 vs3 vs4 vs5 vs6 vs7 vs8 vm :
  word t0 -> word t1 -> word t2 -> word t3 ->
  (forall vax vdx vbp vcf vof t0' t1' t2' t3' mm, word t0' -> word t1' -> word t2' -> word t3' -> word mm ->
     (W * val [:: t0'; t1'; t2'; t3'] + B 5 * (vcf + vof) = val [:: t0; t1; t2; t3] + mm * Q)%Z ->
     P (St vax t3' t2' vdx vsi vdi vbp vr8 vr9 vr10 vr11 vr12 t0' t1' vr15 vcf vof vs0 vs1 vs2 vs3 vs4 vs5 vs6 vs7 vs8 vm)) ->
  P (exec e fromMont_round (St vax t3 t2 vdx vsi vdi vbp vr8 vr9 vr10 vr11 vr12 t0 t1 vr15 vcf vof vs0 vs1 vs2 vs3 vs4 vs5 vs6 vs7 vs8 vm)).
Proof.
move=> ht0 ht1 ht2 ht3 HP; have [wq0 wq1 wq2 wq3] := wq.
cbv [fromMont_round]; do 2 sq.
have hm : word ((qInvNeg g * t0) mod W) by apply: word_mod.
have hlow := montLow ok ht0.
set mm := ((_ * _) mod W)%Z in hm hlow *.
sq; sq; sq.
have {hlow} z0 : z = 0%Z by apply: (hlow _ _ _ _ _ E0); rewrite hq; exact: E.
have el : t0 = (W * c + W * h - mm * q0)%Z.
  by have [e2 _] := Add64_eq E0; have [e1 _ _] := Mul64_eq hm wq0 E; move: z0 e2 e1; clear; lia.
clearbody mm; repeat sq; rewrite exec_nil.
apply: (HP _ _ _ _ _ _ _ _ _ mm) => //.
by rewrite qval !BS B0 !val_cons val_nil; lincomb; rewrite el; ring.
Qed.

Lemma limbs_ex x : limbs g x -> exists x0 x1 x2 x3, x = [:: x0; x1; x2; x3] /\ all word [:: x0; x1; x2; x3].
Proof.
rewrite /limbs nE => -[hs h]; move: hs h; case: x => [|x0 x] //; case: x => [|x1 x] //; case: x => [|x2 x] //; case: x => [|x3 x] //; case: x => [|? ?] // _ h.
by exists x0, x1, x2, x3.
Qed.
Lemma storesE vm p t0 t1 t2 t3 : size (vm p) = 4%N -> store (store (store (store vm p 0 t0) p 1 t1) p 2 t2) p 3 t3 =1 put vm p [:: t0; t1; t2; t3].
Proof.
move=> hs p'; rewrite /store /put !Z.eqb_refl; case: Z.eqb_spec => // _.
by move: hs; case: (vm p) => [|a0 l] //; case: l => [|a1 l] //; case: l => [|a2 l] //; case: l => [|a3 l] //; case: l.
Qed.
Lemma stores2E vm pa pb t0 t1 t2 t3 u0 u1 u2 u3 : size (vm pa) = 4%N -> size (vm pb) = 4%N ->
  store (store (store (store (store (store (store (store vm pb 0 t0) pb 1 t1) pb 2 t2) pb 3 t3) pa 0 u0) pa 1 u1) pa 2 u2) pa 3 u3 =1 put (put vm pb [:: t0; t1; t2; t3]) pa [:: u0; u1; u2; u3].
Proof.
move=> ha hb p; rewrite storesE; last by rewrite storesE // /put; case: Z.eqb.
by rewrite /put; case: Z.eqb => //; rewrite storesE.
Qed.
Ltac nm hfp Ex Ey := idtac; rewrite ?hi ?qE0 ?qE1 ?qE2 ?qE3 ?hfp; cbn [nth]; rewrite /load ?Ex ?Ey; cbn [nth].
Ltac use lem p := match goal with |- context [exec e p (St ?a ?b ?c ?d ?si ?di ?bp ?r8 ?r9 ?r10 ?r11 ?r12 ?r13 ?r14 ?r15 ?cf1 ?of1
       ?s0 ?s1 ?s2 ?s3 ?s4 ?s5 ?s6 ?s7 ?s8 ?m)] =>
  pattern (exec e p (St a b c d si di bp r8 r9 r10 r11 r12 r13 r14 r15 cf1 of1 s0 s1 s2 s3 s4 s5 s6 s7 s8 m)); apply: lem; cbv beta end.
Ltac adds := rewrite /ZpModel.Double /ZpModel.Add /addWith haddc; cbn [addChain andb]; chains.

Lemma mul_mem : forall s pr px py, fp e = [:: pr; px; py] -> red g (mem s px) -> limbs g (mem s py) -> size (mem s pr) = n ->
  mem (exec e mul s) =1 put (mem s) pr (mulGeneric g (mem s px) (mem s py)).
Proof.
case=> vax vbx vcx vdx vsi vdi vbp vr8 vr9 vr10 vr11 vr12 vr13 vr14 vr15 vcf vof vs0 vs1 vs2 vs3 vs4 vs5 vs6 vs7 vs8 vm pr px py; cbn [mem] => hfp hx hy hr.
have [x0 [x1 [x2 [x3 [Ex /andP[hx0 /andP[hx1 /andP[hx2 /andP[hx3 _]]]]]]]]] := limbs_ex (proj1 hx).
have [y0 [y1 [y2 [y3 [Ey /andP[hy0 /andP[hy1 /andP[hy2 /andP[hy3 _]]]]]]]]] := limbs_ex hy.
rewrite /mul ; split_exec.
repeat (sx ltac:(nm hfp Ex Ey)); rewrite exec_nil.
use MUL_WORD_0_spec MUL_WORD_0 => // ? ? ? ? ? ? a0_0 a1_0 a2_0 a3_0 m0 k0 ha0_0 ha1_0 ha2_0 ha3_0 hm0 e0.
have I0 : mulInv g [:: x0; x1; x2; x3] [:: y0] [:: a0_0; a1_0; a2_0; a3_0].
  by apply: (mulStart ok spare (k := k0) (m := m0)) => //; [rewrite -Ex|apply: limbsW|rewrite nE].
repeat (sx ltac:(nm hfp Ex Ey)); rewrite exec_nil.
use MUL_WORD_N_spec MUL_WORD_N => // ? ? ? ? ? ? a0_1 a1_1 a2_1 a3_1 m1 k1 ha0_1 ha1_1 ha2_1 ha3_1 hm1 e1.
have I1 : mulInv g [:: x0; x1; x2; x3] [:: y0; y1] [:: a0_1; a1_1; a2_1; a3_1].
  by apply: (mulStep ok spare (k := k1) (m := m1) (vs := [:: y0]) _ I0) => //; [rewrite -Ex|apply: limbsW|rewrite nE].
repeat (sx ltac:(nm hfp Ex Ey)); rewrite exec_nil.
use MUL_WORD_N_spec MUL_WORD_N => // ? ? ? ? ? ? a0_2 a1_2 a2_2 a3_2 m2 k2 ha0_2 ha1_2 ha2_2 ha3_2 hm2 e2.
have I2 : mulInv g [:: x0; x1; x2; x3] [:: y0; y1; y2] [:: a0_2; a1_2; a2_2; a3_2].
  by apply: (mulStep ok spare (k := k2) (m := m2) (vs := [:: y0; y1]) _ I1) => //; [rewrite -Ex|apply: limbsW|rewrite nE].
repeat (sx ltac:(nm hfp Ex Ey)); rewrite exec_nil.
use MUL_WORD_N_spec MUL_WORD_N => // ? ? ? ? ? ? a0_3 a1_3 a2_3 a3_3 m3 k3 ha0_3 ha1_3 ha2_3 ha3_3 hm3 e3.
have I3 : mulInv g [:: x0; x1; x2; x3] [:: y0; y1; y2; y3] [:: a0_3; a1_3; a2_3; a3_3].
  by apply: (mulStep ok spare (k := k3) (m := m3) (vs := [:: y0; y1; y2]) _ I2) => //; [rewrite -Ex|apply: limbsW|rewrite nE].
use REDUCE_spec2 (REDUCE R14 R13 CX BX SI R12 R11 DI (qE 0) (qE 1) (qE 2) (qE 3)) => // ? ? ? ? ? ? b0 b1 b2 b3 hb0 hb1 hb2 hb3 er.
repeat (sx ltac:(nm hfp Ex Ey)); rewrite exec_nil.
move=> p; cbn [mem]; rewrite storesE ?hr ?nE // er; congr (put _ _ _ _).
by rewrite (mulDone ok _ _ I3) ?Ex ?Ey // -?Ex -?Ey.
Qed.

Lemma fromMont_mem : forall s pr, fp e = [:: pr] -> limbs g (mem s pr) ->
  mem (exec e fromMont s) =1 put (mem s) pr (ZpModel.fromMont g (mem s pr)).
Proof.
case=> vax vbx vcx vdx vsi vdi vbp vr8 vr9 vr10 vr11 vr12 vr13 vr14 vr15 vcf vof vs0 vs1 vs2 vs3 vs4 vs5 vs6 vs7 vs8 vm pr; cbn [mem] => hfp hx.
have [x0 [x1 [x2 [x3 [Ex /andP[hx0 /andP[hx1 /andP[hx2 /andP[hx3 _]]]]]]]]] := limbs_ex hx; have hr := proj1 hx.
rewrite /fromMont ; split_exec.
have I0 : frInv g [:: x0; x1; x2; x3] 0 [:: x0; x1; x2; x3] by apply: frStart; rewrite -Ex.
repeat (sx ltac:(nm hfp Ex Ex)); rewrite exec_nil.
use fromMont_round_spec fromMont_round => // ? ? ? c1a c1b a0_1 a1_1 a2_1 a3_1 m1 ha0_1 ha1_1 ha2_1 ha3_1 hm1 e1.
have I1 : frInv g [:: x0; x1; x2; x3] 1 [:: a0_1; a1_1; a2_1; a3_1].
  by apply: (frStep ok spare (k := (c1a + c1b)%Z) (m := m1) I0) => //; [apply: limbsW|rewrite nE].
repeat (sx ltac:(nm hfp Ex Ex)); rewrite exec_nil.
use fromMont_round_spec fromMont_round => // ? ? ? c2a c2b a0_2 a1_2 a2_2 a3_2 m2 ha0_2 ha1_2 ha2_2 ha3_2 hm2 e2.
have I2 : frInv g [:: x0; x1; x2; x3] 2 [:: a0_2; a1_2; a2_2; a3_2].
  by apply: (frStep ok spare (k := (c2a + c2b)%Z) (m := m2) I1) => //; [apply: limbsW|rewrite nE].
repeat (sx ltac:(nm hfp Ex Ex)); rewrite exec_nil.
use fromMont_round_spec fromMont_round => // ? ? ? c3a c3b a0_3 a1_3 a2_3 a3_3 m3 ha0_3 ha1_3 ha2_3 ha3_3 hm3 e3.
have I3 : frInv g [:: x0; x1; x2; x3] 3 [:: a0_3; a1_3; a2_3; a3_3].
  by apply: (frStep ok spare (k := (c3a + c3b)%Z) (m := m3) I2) => //; [apply: limbsW|rewrite nE].
repeat (sx ltac:(nm hfp Ex Ex)); rewrite exec_nil.
use fromMont_round_spec fromMont_round => // ? ? ? c4a c4b a0_4 a1_4 a2_4 a3_4 m4 ha0_4 ha1_4 ha2_4 ha3_4 hm4 e4.
have I4 : frInv g [:: x0; x1; x2; x3] 4 [:: a0_4; a1_4; a2_4; a3_4].
  by apply: (frStep ok spare (k := (c4a + c4b)%Z) (m := m4) I3) => //; [apply: limbsW|rewrite nE].
use REDUCE_spec3 (REDUCE R13 R14 CX BX SI DI R8 R9 (qE 0) (qE 1) (qE 2) (qE 3)) => // ? ? ? ? ? ? b0 b1 b2 b3 hb0 hb1 hb2 hb3 er.
repeat (sx ltac:(nm hfp Ex Ex)); rewrite exec_nil.
move=> p; cbn [mem]; rewrite storesE ?hr ?nE // er; congr (put _ _ _ _).
by rewrite (frDone ok (z := [:: x0; x1; x2; x3])) ?Ex // ?nE // -Ex.
Qed.

Lemma reduce_mem : forall s pr, fp e = [:: pr] -> limbs g (mem s pr) ->
  mem (exec e reduce s) =1 put (mem s) pr (ZpModel.reduce g (mem s pr)).
Proof.
case=> vax vbx vcx vdx vsi vdi vbp vr8 vr9 vr10 vr11 vr12 vr13 vr14 vr15 vcf vof vs0 vs1 vs2 vs3 vs4 vs5 vs6 vs7 vs8 vm pr; cbn [mem] => hfp hx.
have [x0 [x1 [x2 [x3 [Ex /andP[hx0 /andP[hx1 /andP[hx2 /andP[hx3 _]]]]]]]]] := limbs_ex hx; have hr := proj1 hx.
rewrite /reduce ; split_exec.
repeat (sx ltac:(nm hfp Ex Ex)); rewrite exec_nil.
use REDUCE_spec0 (REDUCE DX CX BX SI DI R8 R9 R10 (qE 0) (qE 1) (qE 2) (qE 3)) => // ? ? ? ? ? ? b0_0 b1_0 b2_0 b3_0 hb0_0 hb1_0 hb2_0 hb3_0 er0.
repeat (sx ltac:(nm hfp Ex Ex)); rewrite exec_nil.
by move=> p; cbn [mem]; rewrite storesE ?hr ?nE // er0 -?Ex.
Qed.

Lemma MulBy3_mem : forall s pr, fp e = [:: pr] -> limbs g (mem s pr) ->
  mem (exec e MulBy3 s) =1 put (mem s) pr (mulBy3 g (mem s pr)).
Proof.
case=> vax vbx vcx vdx vsi vdi vbp vr8 vr9 vr10 vr11 vr12 vr13 vr14 vr15 vcf vof vs0 vs1 vs2 vs3 vs4 vs5 vs6 vs7 vs8 vm pr; cbn [mem] => hfp hx.
have [x0 [x1 [x2 [x3 [Ex /andP[hx0 /andP[hx1 /andP[hx2 /andP[hx3 _]]]]]]]]] := limbs_ex hx; have hr := proj1 hx.
rewrite /MulBy3 ; split_exec.
repeat (sx ltac:(nm hfp Ex Ex)); rewrite exec_nil.
use REDUCE_spec0 (REDUCE DX CX BX SI DI R8 R9 R10 (qE 0) (qE 1) (qE 2) (qE 3)) => // ? ? ? ? ? ? b0_0 b1_0 b2_0 b3_0 hb0_0 hb1_0 hb2_0 hb3_0 er0.
have D0 : [:: b0_0; b1_0; b2_0; b3_0] = ZpModel.Double g [:: x0; x1; x2; x3] by rewrite er0; adds.
repeat (sx ltac:(nm hfp Ex Ex)); rewrite exec_nil.
use REDUCE_spec1 (REDUCE DX CX BX SI R11 R12 R13 R14 (qE 0) (qE 1) (qE 2) (qE 3)) => // ? ? ? ? ? ? b0_1 b1_1 b2_1 b3_1 hb0_1 hb1_1 hb2_1 hb3_1 er1.
have D1 : [:: b0_1; b1_1; b2_1; b3_1] = ZpModel.Add g [:: b0_0; b1_0; b2_0; b3_0] [:: x0; x1; x2; x3] by rewrite er1; adds.
repeat (sx ltac:(nm hfp Ex Ex)); rewrite exec_nil.
by move=> p; cbn [mem]; rewrite storesE ?hr ?nE // D1 D0 -?Ex.
Qed.

Lemma MulBy5_mem : forall s pr, fp e = [:: pr] -> limbs g (mem s pr) ->
  mem (exec e MulBy5 s) =1 put (mem s) pr (mulBy5 g (mem s pr)).
Proof.
case=> vax vbx vcx vdx vsi vdi vbp vr8 vr9 vr10 vr11 vr12 vr13 vr14 vr15 vcf vof vs0 vs1 vs2 vs3 vs4 vs5 vs6 vs7 vs8 vm pr; cbn [mem] => hfp hx.
have [x0 [x1 [x2 [x3 [Ex /andP[hx0 /andP[hx1 /andP[hx2 /andP[hx3 _]]]]]]]]] := limbs_ex hx; have hr := proj1 hx.
rewrite /MulBy5 ; split_exec.
repeat (sx ltac:(nm hfp Ex Ex)); rewrite exec_nil.
use REDUCE_spec0 (REDUCE DX CX BX SI DI R8 R9 R10 (qE 0) (qE 1) (qE 2) (qE 3)) => // ? ? ? ? ? ? b0_0 b1_0 b2_0 b3_0 hb0_0 hb1_0 hb2_0 hb3_0 er0.
have D0 : [:: b0_0; b1_0; b2_0; b3_0] = ZpModel.Double g [:: x0; x1; x2; x3] by rewrite er0; adds.
repeat (sx ltac:(nm hfp Ex Ex)); rewrite exec_nil.
use REDUCE_spec1 (REDUCE DX CX BX SI R11 R12 R13 R14 (qE 0) (qE 1) (qE 2) (qE 3)) => // ? ? ? ? ? ? b0_1 b1_1 b2_1 b3_1 hb0_1 hb1_1 hb2_1 hb3_1 er1.
have D1 : [:: b0_1; b1_1; b2_1; b3_1] = ZpModel.Double g [:: b0_0; b1_0; b2_0; b3_0] by rewrite er1; adds.
repeat (sx ltac:(nm hfp Ex Ex)); rewrite exec_nil.
use REDUCE_spec0 (REDUCE DX CX BX SI DI R8 R9 R10 (qE 0) (qE 1) (qE 2) (qE 3)) => // ? ? ? ? ? ? b0_2 b1_2 b2_2 b3_2 hb0_2 hb1_2 hb2_2 hb3_2 er2.
have D2 : [:: b0_2; b1_2; b2_2; b3_2] = ZpModel.Add g [:: b0_1; b1_1; b2_1; b3_1] [:: x0; x1; x2; x3] by rewrite er2; adds.
repeat (sx ltac:(nm hfp Ex Ex)); rewrite exec_nil.
by move=> p; cbn [mem]; rewrite storesE ?hr ?nE // D2 D1 D0 -?Ex.
Qed.

Lemma MulBy13_mem : forall s pr, fp e = [:: pr] -> limbs g (mem s pr) ->
  mem (exec e MulBy13 s) =1 put (mem s) pr (thirteen g (mem s pr)).
Proof.
case=> vax vbx vcx vdx vsi vdi vbp vr8 vr9 vr10 vr11 vr12 vr13 vr14 vr15 vcf vof vs0 vs1 vs2 vs3 vs4 vs5 vs6 vs7 vs8 vm pr; cbn [mem] => hfp hx.
have [x0 [x1 [x2 [x3 [Ex /andP[hx0 /andP[hx1 /andP[hx2 /andP[hx3 _]]]]]]]]] := limbs_ex hx; have hr := proj1 hx.
rewrite /MulBy13 ; split_exec.
repeat (sx ltac:(nm hfp Ex Ex)); rewrite exec_nil.
use REDUCE_spec0 (REDUCE DX CX BX SI DI R8 R9 R10 (qE 0) (qE 1) (qE 2) (qE 3)) => // ? ? ? ? ? ? b0_0 b1_0 b2_0 b3_0 hb0_0 hb1_0 hb2_0 hb3_0 er0.
have D0 : [:: b0_0; b1_0; b2_0; b3_0] = ZpModel.Double g [:: x0; x1; x2; x3] by rewrite er0; adds.
repeat (sx ltac:(nm hfp Ex Ex)); rewrite exec_nil.
use REDUCE_spec1 (REDUCE DX CX BX SI R11 R12 R13 R14 (qE 0) (qE 1) (qE 2) (qE 3)) => // ? ? ? ? ? ? b0_1 b1_1 b2_1 b3_1 hb0_1 hb1_1 hb2_1 hb3_1 er1.
have D1 : [:: b0_1; b1_1; b2_1; b3_1] = ZpModel.Double g [:: b0_0; b1_0; b2_0; b3_0] by rewrite er1; adds.
repeat (sx ltac:(nm hfp Ex Ex)); rewrite exec_nil.
use REDUCE_spec0 (REDUCE DX CX BX SI DI R8 R9 R10 (qE 0) (qE 1) (qE 2) (qE 3)) => // ? ? ? ? ? ? b0_2 b1_2 b2_2 b3_2 hb0_2 hb1_2 hb2_2 hb3_2 er2.
have D2 : [:: b0_2; b1_2; b2_2; b3_2] = ZpModel.Double g [:: b0_1; b1_1; b2_1; b3_1] by rewrite er2; adds.
repeat (sx ltac:(nm hfp Ex Ex)); rewrite exec_nil.
use REDUCE_spec0 (REDUCE DX CX BX SI DI R8 R9 R10 (qE 0) (qE 1) (qE 2) (qE 3)) => // ? ? ? ? ? ? b0_3 b1_3 b2_3 b3_3 hb0_3 hb1_3 hb2_3 hb3_3 er3.
have D3 : [:: b0_3; b1_3; b2_3; b3_3] = ZpModel.Add g [:: b0_2; b1_2; b2_2; b3_2] [:: b0_1; b1_1; b2_1; b3_1] by rewrite er3; adds.
repeat (sx ltac:(nm hfp Ex Ex)); rewrite exec_nil.
use REDUCE_spec0 (REDUCE DX CX BX SI DI R8 R9 R10 (qE 0) (qE 1) (qE 2) (qE 3)) => // ? ? ? ? ? ? b0_4 b1_4 b2_4 b3_4 hb0_4 hb1_4 hb2_4 hb3_4 er4.
have D4 : [:: b0_4; b1_4; b2_4; b3_4] = ZpModel.Add g [:: b0_3; b1_3; b2_3; b3_3] [:: x0; x1; x2; x3] by rewrite er4; adds.
repeat (sx ltac:(nm hfp Ex Ex)); rewrite exec_nil.
by move=> p; cbn [mem]; rewrite storesE ?hr ?nE // D4 D3 D2 D1 D0 -?Ex.
Qed.

Lemma Butterfly_mem : forall s pa pb, fp e = [:: pa; pb] -> limbs g (mem s pa) -> limbs g (mem s pb) ->
  mem (exec e Butterfly s) =1 put (put (mem s) pb (ZpModel.Sub g (mem s pa) (mem s pb))) pa (ZpModel.Add g (mem s pa) (mem s pb)).
Proof.
case=> vax vbx vcx vdx vsi vdi vbp vr8 vr9 vr10 vr11 vr12 vr13 vr14 vr15 vcf vof vs0 vs1 vs2 vs3 vs4 vs5 vs6 vs7 vs8 vm pa pb; cbn [mem] => hfp hx hy.
have [x0 [x1 [x2 [x3 [Ex /andP[hx0 /andP[hx1 /andP[hx2 /andP[hx3 _]]]]]]]]] := limbs_ex hx; have hr := proj1 hx.
have [y0 [y1 [y2 [y3 [Ey /andP[hy0 /andP[hy1 /andP[hy2 /andP[hy3 _]]]]]]]]] := limbs_ex hy; have hr' := proj1 hy.
rewrite /Butterfly ; split_exec.
repeat (sx ltac:(nm hfp Ex Ey; rewrite ?Z.lxor_nilpotent)); rewrite exec_nil.
use REDUCE_spec0 (REDUCE DX CX BX SI DI R8 R9 R10 (qE 0) (qE 1) (qE 2) (qE 3)) => // ? ? ? ? ? ? b0 b1 b2 b3 hb0 hb1 hb2 hb3 er.
repeat (sx ltac:(nm hfp Ex Ey)); rewrite exec_nil.
have D : [:: b0; b1; b2; b3] = ZpModel.Add g [:: x0; x1; x2; x3] [:: y0; y1; y2; y3] by rewrite er; adds.
have lx : limbs g [:: x0; x1; x2; x3] by rewrite -Ex. have ly : limbs g [:: y0; y1; y2; y3] by rewrite -Ey.
have Es : subChain [:: x0; x1; x2; x3] [:: y0; y1; y2; y3] 0 = ([:: z3; z4; z5; z6], c6) by cbn [subChain]; chains.
have S : ZpModel.Sub g [:: x0; x1; x2; x3] [:: y0; y1; y2; y3] = [:: z7; z8; z9; z10].
  rewrite (SubE lx ly Es).
  have -> : (if (c6 =? 0)%Z then nseq n 0%Z else qs g) = [:: if (c6 =? 0)%Z then 0%Z else q0; if (c6 =? 0)%Z then 0%Z else q1; if (c6 =? 0)%Z then 0%Z else q2; if (c6 =? 0)%Z then 0%Z else q3] by rewrite hq nE; case: ifP.
  by cbn [addChain]; chains.
by move=> p; cbn [mem]; rewrite stores2E ?hr ?hr' ?nE // S D.
Qed.
End P.
