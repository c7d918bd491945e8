(** AsmText7.v: what the macros and functions of the 7 word amd64 assembly do. *)
From Coq Require Import ZArith Lia.
From mathcomp Require Import all_ssreflect zify ssrZ.
From Verif Require Import JindoIntModel JindoIntProofs ZpModel ZpProofs ZpField AsmModel AsmProofs AsmText7.
Set Implicit Arguments. Unset Strict Implicit. Unset Printing Implicit Defensive.
Delimit Scope Z_scope with Z.
Local Arguments Z.mul : simpl never. Local Arguments Z.add : simpl never. Local Arguments Z.sub : simpl never.
Local Arguments Z.pow : simpl never.

Section P.
Variables (g : gen) (ok : okGen g) (q0 q1 q2 q3 q4 q5 q6 : Z).
Hypothesis hq : qs g = [:: q0; q1; q2; q3; q4; q5; q6].
Hypotheses (haddc : addCarry g = false) (hcios : mulCios g = false).
Variable e : env.
Hypothesis he : eq_ e = qs g.
Hypothesis hi : eqi e = qInvNeg g.
Local Notation Q := (val (qs g)).
Local Notation n := (Limbs g).
Lemma nE : n = 7%N. Proof. by rewrite /Limbs hq. Qed.
Lemma spare : (2 * Q <= B n)%Z.
Proof. by have := ok_mul ok; rewrite hcios => /Z.leb_le. Qed.
Lemma wq : [/\ word q0, word q1, word q2 & word q3] /\ [/\ word q4, word q5 & word q6].
Proof. by have := ok_q ok; rewrite hq /= => /andP[-> /andP[-> /andP[-> /andP[-> /andP[-> /andP[-> /andP[-> _]]]]]]]. Qed.
Lemma qE0 : nth 0%Z (eq_ e) 0 = q0. Proof. by rewrite he hq. Qed.
Lemma qE1 : nth 0%Z (eq_ e) 1 = q1. Proof. by rewrite he hq. Qed.
Lemma qE2 : nth 0%Z (eq_ e) 2 = q2. Proof. by rewrite he hq. Qed.
Lemma qE3 : nth 0%Z (eq_ e) 3 = q3. Proof. by rewrite he hq. Qed.
Lemma qE4 : nth 0%Z (eq_ e) 4 = q4. Proof. by rewrite he hq. Qed.
Lemma qE5 : nth 0%Z (eq_ e) 5 = q5. Proof. by rewrite he hq. Qed.
Lemma qE6 : nth 0%Z (eq_ e) 6 = q6. Proof. by rewrite he hq. Qed.
Ltac nq := idtac; rewrite ?hi ?qE0 ?qE1 ?qE2 ?qE3 ?qE4 ?qE5 ?qE6.
Tactic Notation "sq" := sx ltac:(nq).
Lemma limbsW t0 t1 t2 t3 t4 t5 t6 : word t0 -> word t1 -> word t2 -> word t3 -> word t4 -> word t5 -> word t6 -> limbs g [:: t0; t1; t2; t3; t4; t5; t6].
Proof. by move=> h0 h1 h2 h3 h4 h5 h6; split; [rewrite nE|rewrite /= h0 h1 h2 h3 h4 h5 h6]. Qed.
Lemma qval : Q = (q0 + W*q1 + W*W*q2 + W*W*W*q3 + W*W*W*W*q4 + W*W*W*W*W*q5 + W*W*W*W*W*W*q6)%Z. Proof. by rewrite hq /=; ring. Qed.

(** t, A := (t + A 2^(64 n) + m q) / 2^64, up to carries out of the last word *)
Lemma DIV_SHIFT_spec (P : st -> Prop) t0 t1 t2 t3 t4 t5 t6 A vax vdx vr9 vr10 vr11 vr12 vr15 vcf vof vs0 vs1 vs2 vs3 vs4 vs5 vs6 vs7 vs8 vm :
  word t0 -> word t1 -> word t2 -> word t3 -> word t4 -> word t5 -> word t6 -> word A ->
  (forall vax vdx vr10 vcf vof t0' t1' t2' t3' t4' t5' t6' mm, word t0' -> word t1' -> word t2' -> word t3' -> word t4' -> word t5' -> word t6' -> word mm ->
     (W * val [:: t0'; t1'; t2'; t3'; t4'; t5'; t6'] + B 8 * (vcf + vof) = val [:: t0; t1; t2; t3; t4; t5; t6] + B 7 * A + mm * Q)%Z ->
     P (St vax t3' t2' vdx t4' t5' A t6' vr9 vr10 vr11 vr12 t1' t0' vr15 vcf vof vs0 vs1 vs2 vs3 vs4 vs5 vs6 vs7 vs8 vm)) ->
  P (exec e DIV_SHIFT (St vax t3 t2 vdx t4 t5 A t6 vr9 vr10 vr11 vr12 t1 t0 vr15 vcf vof vs0 vs1 vs2 vs3 vs4 vs5 vs6 vs7 vs8 vm)).
Proof.
move=> ht0 ht1 ht2 ht3 ht4 ht5 ht6 hA HP; have [[wq0 wq1 wq2 wq3] [wq4 wq5 wq6]] := wq.
cbv [DIV_SHIFT MACC cat]; do 2 sq.
have hm : word ((qInvNeg g * t0) mod W) by apply: word_mod.
have hlow := montLow ok ht0.
set mm := ((_ * _) mod W)%Z in hm hlow *.
sq; sq; sq.
have {hlow} z0 : z = 0%Z by apply: (hlow _ _ _ _ _ E0); rewrite hq; exact: E.
have el : t0 = (W * c + W * h - mm * q0)%Z.
  by have [e2 _] := Add64_eq E0; have [e1 _ _] := Mul64_eq hm wq0 E; move: z0 e2 e1; clear; lia.
clearbody mm; repeat sq; rewrite exec_nil.
apply: (HP _ _ _ _ _ _ _ _ _ _ _ _ mm) => //.
by rewrite qval !BS B0 !val_cons val_nil; lincomb; rewrite el; ring.
Qed.
Ltac nx := idtac; rewrite /load; repeat (match goal with H : ?m ?p = [:: _; _; _; _; _; _; _] |- context [nth _ (?m ?p) _] => rewrite H; cbn [nth] end).
Tactic Notation "sl" := sx ltac:(nq; nx).

(** the part of MUL_WORD_0 before DIV_SHIFT: t, A := v x *)
Definition ACC_0 := take (size MUL_WORD_0 - size DIV_SHIFT) MUL_WORD_0.
Lemma ACC_0E : MUL_WORD_0 = ACC_0 ++ DIV_SHIFT. Proof. by []. Qed.
Lemma ACC_0_spec (P : st -> Prop) v x0 x1 x2 x3 x4 x5 x6 vax vbx vcx vsi vdi vbp vr8 vr9 vr10 vr12 vr13 vr14 vr15 vcf vof vs0 vs1 vs2 vs3 vs4 vs5 vs6 vs7 vs8 vm :
  vm vr9 = [:: x0; x1; x2; x3; x4; x5; x6] -> word v -> word x0 -> word x1 -> word x2 -> word x3 -> word x4 -> word x5 -> word x6 -> 
  (forall vax vcf vof t0' t1' t2' t3' t4' t5' t6' A', word t0' -> word t1' -> word t2' -> word t3' -> word t4' -> word t5' -> word t6' -> word A' ->
     (val [:: t0'; t1'; t2'; t3'; t4'; t5'; t6'] + B 7 * A' + B 8 * (vcf + vof) = v * val [:: x0; x1; x2; x3; x4; x5; x6])%Z ->
     P (St vax t3' t2' v t4' t5' A' t6' vr9 vr10 x0 vr12 t1' t0' vr15 vcf vof vs0 vs1 vs2 vs3 vs4 vs5 vs6 vs7 vs8 vm)) ->
  P (exec e ACC_0 (St vax vbx vcx v vsi vdi vbp vr8 vr9 vr10 x0 vr12 vr13 vr14 vr15 vcf vof vs0 vs1 vs2 vs3 vs4 vs5 vs6 vs7 vs8 vm)).
Proof.
move=> Hx hv hx0 hx1 hx2 hx3 hx4 hx5 hx6  HP.
let p := eval vm_compute in ACC_0 in change ACC_0 with p.
repeat sl; rewrite exec_nil.
apply: HP => //.
by rewrite !BS B0 !val_cons val_nil; lincomb; ring.
Qed.

(** one round of the multiplication, up to carries out of the last word *)
Lemma MUL_WORD_0_spec (P : st -> Prop) v x0 x1 x2 x3 x4 x5 x6 vax vbx vcx vsi vdi vbp vr8 vr9 vr10 vr12 vr13 vr14 vr15 vcf vof vs0 vs1 vs2 vs3 vs4 vs5 vs6 vs7 vs8 vm :
  vm vr9 = [:: x0; x1; x2; x3; x4; x5; x6] -> word v -> word x0 -> word x1 -> word x2 -> word x3 -> word x4 -> word x5 -> word x6 -> 
  (forall vax vdx vbp vr10 vcf vof t0' t1' t2' t3' t4' t5' t6' mm k, word t0' -> word t1' -> word t2' -> word t3' -> word t4' -> word t5' -> word t6' -> word mm ->
     (W * val [:: t0'; t1'; t2'; t3'; t4'; t5'; t6'] + B 8 * k = v * val [:: x0; x1; x2; x3; x4; x5; x6] + mm * Q)%Z ->
     P (St vax t3' t2' vdx t4' t5' vbp t6' vr9 vr10 x0 vr12 t1' t0' vr15 vcf vof vs0 vs1 vs2 vs3 vs4 vs5 vs6 vs7 vs8 vm)) ->
  P (exec e MUL_WORD_0 (St vax vbx vcx v vsi vdi vbp vr8 vr9 vr10 x0 vr12 vr13 vr14 vr15 vcf vof vs0 vs1 vs2 vs3 vs4 vs5 vs6 vs7 vs8 vm)).
Proof.
move=> Hx hv hx0 hx1 hx2 hx3 hx4 hx5 hx6  HP; rewrite ACC_0E exec_cat.
apply: (ACC_0_spec (P := fun s => P (exec e DIV_SHIFT s))); [exact: Hx|by []..|] => // vax0 vcf0 vof0 u0 u1 u2 u3 u4 u5 u6 A hu0 hu1 hu2 hu3 hu4 hu5 hu6 hA E1.
apply: DIV_SHIFT_spec => // w1 w2 w3 w4 w5 s0 s1 s2 s3 s4 s5 s6 mm hs0 hs1 hs2 hs3 hs4 hs5 hs6 hm E2.
apply: (HP _ _ _ _ _ _ _ _ _ _ _ _ _ mm (w4 + w5 + (vcf0 + vof0))%Z) => //.
by move: E1 E2; clear; lia.
Qed.

(** the part of MUL_WORD_N before DIV_SHIFT: t, A := t + v x *)
Definition ACC_N := take (size MUL_WORD_N - size DIV_SHIFT) MUL_WORD_N.
Lemma ACC_NE : MUL_WORD_N = ACC_N ++ DIV_SHIFT. Proof. by []. Qed.
Lemma ACC_N_spec (P : st -> Prop) v x0 x1 x2 x3 x4 x5 x6 t0 t1 t2 t3 t4 t5 t6 vax vbp vr9 vr10 vr12 vr15 vcf vof vs0 vs1 vs2 vs3 vs4 vs5 vs6 vs7 vs8 vm :
  vm vr9 = [:: x0; x1; x2; x3; x4; x5; x6] -> word v -> word x0 -> word x1 -> word x2 -> word x3 -> word x4 -> word x5 -> word x6 -> word t0 -> word t1 -> word t2 -> word t3 -> word t4 -> word t5 -> word t6 -> 
  (forall vax vcf vof t0' t1' t2' t3' t4' t5' t6' A', word t0' -> word t1' -> word t2' -> word t3' -> word t4' -> word t5' -> word t6' -> word A' ->
     (val [:: t0'; t1'; t2'; t3'; t4'; t5'; t6'] + B 7 * A' + B 8 * (vcf + vof) = val [:: t0; t1; t2; t3; t4; t5; t6] + v * val [:: x0; x1; x2; x3; x4; x5; x6])%Z ->
     P (St vax t3' t2' v t4' t5' A' t6' vr9 vr10 x0 vr12 t1' t0' vr15 vcf vof vs0 vs1 vs2 vs3 vs4 vs5 vs6 vs7 vs8 vm)) ->
  P (exec e ACC_N (St vax t3 t2 v t4 t5 vbp t6 vr9 vr10 x0 vr12 t1 t0 vr15 vcf vof vs0 vs1 vs2 vs3 vs4 vs5 vs6 vs7 vs8 vm)).
Proof.
move=> Hx hv hx0 hx1 hx2 hx3 hx4 hx5 hx6 ht0 ht1 ht2 ht3 ht4 ht5 ht6 HP.
let p := eval vm_compute in ACC_N in change ACC_N with p.
repeat sl; rewrite exec_nil.
apply: HP => //.
by rewrite !BS B0 !val_cons val_nil; lincomb; ring.
Qed.

(** one round of the multiplication, up to carries out of the last word *)
Lemma MUL_WORD_N_spec (P : st -> Prop) v x0 x1 x2 x3 x4 x5 x6 t0 t1 t2 t3 t4 t5 t6 vax vbp vr9 vr10 vr12 vr15 vcf vof vs0 vs1 vs2 vs3 vs4 vs5 vs6 vs7 vs8 vm :
  vm vr9 = [:: x0; x1; x2; x3; x4; x5; x6] -> word v -> word x0 -> word x1 -> word x2 -> word x3 -> word x4 -> word x5 -> word x6 -> word t0 -> word t1 -> word t2 -> word t3 -> word t4 -> word t5 -> word t6 -> 
  (forall vax vdx vbp vr10 vcf vof t0' t1' t2' t3' t4' t5' t6' mm k, word t0' -> word t1' -> word t2' -> word t3' -> word t4' -> word t5' -> word t6' -> word mm ->
     (W * val [:: t0'; t1'; t2'; t3'; t4'; t5'; t6'] + B 8 * k = val [:: t0; t1; t2; t3; t4; t5; t6] + v * val [:: x0; x1; x2; x3; x4; x5; x6] + mm * Q)%Z ->
     P (St vax t3' t2' vdx t4' t5' vbp t6' vr9 vr10 x0 vr12 t1' t0' vr15 vcf vof vs0 vs1 vs2 vs3 vs4 vs5 vs6 vs7 vs8 vm)) ->
  P (exec e MUL_WORD_N (St vax t3 t2 v t4 t5 vbp t6 vr9 vr10 x0 vr12 t1 t0 vr15 vcf vof vs0 vs1 vs2 vs3 vs4 vs5 vs6 vs7 vs8 vm)).
Proof.
move=> Hx hv hx0 hx1 hx2 hx3 hx4 hx5 hx6 ht0 ht1 ht2 ht3 ht4 ht5 ht6 HP; rewrite ACC_NE exec_cat.
apply: (ACC_N_spec (P := fun s => P (exec e DIV_SHIFT s))); [exact: Hx|by []..|] => // vax0 vcf0 vof0 u0 u1 u2 u3 u4 u5 u6 A hu0 hu1 hu2 hu3 hu4 hu5 hu6 hA E1.
apply: DIV_SHIFT_spec => // w1 w2 w3 w4 w5 s0 s1 s2 s3 s4 s5 s6 mm hs0 hs1 hs2 hs3 hs4 hs5 hs6 hm E2.
apply: (HP _ _ _ _ _ _ _ _ _ _ _ _ _ mm (w4 + w5 + (vcf0 + vof0))%Z) => //.
by move: E1 E2; clear; lia.
Qed.

Lemma REDUCE_spec0 (P : st -> Prop) t0 t1 t2 t3 t4 t5 t6 vax vbp vr10 vr11 vr12 vr13 vr14 vr15 vcf vof vs0 vs1 vs2 vs3 vs4 vs5 vs6 vs7 vs8 vm :
  word t0 -> word t1 -> word t2 -> word t3 -> word t4 -> word t5 -> word t6 ->
  (forall vr10 vr11 vr12 vr13 vr14 vs0 vs1 vcf vof t0' t1' t2' t3' t4' t5' t6', word t0' -> word t1' -> word t2' -> word t3' -> word t4' -> word t5' -> word t6' -> [:: t0'; t1'; t2'; t3'; t4'; t5'; t6'] = ZpModel.reduce g [:: t0; t1; t2; t3; t4; t5; t6] ->
     P (St vax t2' t1' t0' t3' t4' vbp t5' t6' vr10 vr11 vr12 vr13 vr14 vr15 vcf vof vs0 vs1 vs2 vs3 vs4 vs5 vs6 vs7 vs8 vm)) ->
  P (exec e (REDUCE DX CX BX SI DI R8 R9 R10 R11 R12 R13 R14 (Sl 0) (Sl 1) (qE 0) (qE 1) (qE 2) (qE 3) (qE 4) (qE 5) (qE 6)) (St vax t2 t1 t0 t3 t4 vbp t5 t6 vr10 vr11 vr12 vr13 vr14 vr15 vcf vof vs0 vs1 vs2 vs3 vs4 vs5 vs6 vs7 vs8 vm)).
Proof.
move=> ht0 ht1 ht2 ht3 ht4 ht5 ht6 HP; have [[wq0 wq1 wq2 wq3] [wq4 wq5 wq6]] := wq.
cbv [REDUCE]; repeat sq; rewrite exec_nil.
have hl := limbsW ht0 ht1 ht2 ht3 ht4 ht5 ht6.
have Es : subChain [:: t0; t1; t2; t3; t4; t5; t6] (qs g) 0 = ([:: z; z0; z1; z2; z3; z4; z5], c5) by rewrite hq; cbn [subChain]; rewrite E E0 E1 E2 E3 E4 E5.
have hr := reduceE ok hl Es; have := subChainW ok hl Es; rewrite /= => /andP[hz0 /andP[hz1 /andP[hz2 /andP[hz3 /andP[hz4 /andP[hz5 /andP[hz6 _]]]]]]].
by apply: HP; rewrite ?hr; case: ifP.
Qed.

Lemma REDUCE_spec1 (P : st -> Prop) t0 t1 t2 t3 t4 t5 t6 vax vbp vr10 vr11 vr12 vr13 vr14 vr15 vcf vof vs0 vs1 vs2 vs3 vs4 vs5 vs6 vs7 vs8 vm :
  word t0 -> word t1 -> word t2 -> word t3 -> word t4 -> word t5 -> word t6 ->
  (forall vs2 vs3 vs4 vs5 vs6 vs7 vs8 vcf vof t0' t1' t2' t3' t4' t5' t6', word t0' -> word t1' -> word t2' -> word t3' -> word t4' -> word t5' -> word t6' -> [:: t0'; t1'; t2'; t3'; t4'; t5'; t6'] = ZpModel.reduce g [:: t0; t1; t2; t3; t4; t5; t6] ->
     P (St vax t2' t1' t0' t3' t4' vbp t5' t6' vr10 vr11 vr12 vr13 vr14 vr15 vcf vof vs0 vs1 vs2 vs3 vs4 vs5 vs6 vs7 vs8 vm)) ->
  P (exec e (REDUCE DX CX BX SI DI R8 R9 (Sl 2) (Sl 3) (Sl 4) (Sl 5) (Sl 6) (Sl 7) (Sl 8) (qE 0) (qE 1) (qE 2) (qE 3) (qE 4) (qE 5) (qE 6)) (St vax t2 t1 t0 t3 t4 vbp t5 t6 vr10 vr11 vr12 vr13 vr14 vr15 vcf vof vs0 vs1 vs2 vs3 vs4 vs5 vs6 vs7 vs8 vm)).
Proof.
move=> ht0 ht1 ht2 ht3 ht4 ht5 ht6 HP; have [[wq0 wq1 wq2 wq3] [wq4 wq5 wq6]] := wq.
cbv [REDUCE]; repeat sq; rewrite exec_nil.
have hl := limbsW ht0 ht1 ht2 ht3 ht4 ht5 ht6.
have Es : subChain [:: t0; t1; t2; t3; t4; t5; t6] (qs g) 0 = ([:: z; z0; z1; z2; z3; z4; z5], c5) by rewrite hq; cbn [subChain]; rewrite E E0 E1 E2 E3 E4 E5.
have hr := reduceE ok hl Es; have := subChainW ok hl Es; rewrite /= => /andP[hz0 /andP[hz1 /andP[hz2 /andP[hz3 /andP[hz4 /andP[hz5 /andP[hz6 _]]]]]]].
by apply: HP; rewrite ?hr; case: ifP.
Qed.

Lemma REDUCE_spec2 (P : st -> Prop) t0 t1 t2 t3 t4 t5 t6 vax vdx vbp vr9 vr10 vr11 vr12 vr15 vcf vof vs0 vs1 vs2 vs3 vs4 vs5 vs6 vs7 vs8 vm :
  word t0 -> word t1 -> word t2 -> word t3 -> word t4 -> word t5 -> word t6 ->
  (forall vr10 vr9 vr12 vr11 vax vdx vs0 vcf vof t0' t1' t2' t3' t4' t5' t6', word t0' -> word t1' -> word t2' -> word t3' -> word t4' -> word t5' -> word t6' -> [:: t0'; t1'; t2'; t3'; t4'; t5'; t6'] = ZpModel.reduce g [:: t0; t1; t2; t3; t4; t5; t6] ->
     P (St vax t3' t2' vdx t4' t5' vbp t6' vr9 vr10 vr11 vr12 t1' t0' vr15 vcf vof vs0 vs1 vs2 vs3 vs4 vs5 vs6 vs7 vs8 vm)) ->
  P (exec e (REDUCE R14 R13 CX BX SI DI R8 R10 R9 R12 R11 AX DX (Sl 0) (qE 0) (qE 1) (qE 2) (qE 3) (qE 4) (qE 5) (qE 6)) (St vax t3 t2 vdx t4 t5 vbp t6 vr9 vr10 vr11 vr12 t1 t0 vr15 vcf vof vs0 vs1 vs2 vs3 vs4 vs5 vs6 vs7 vs8 vm)).
Proof.
move=> ht0 ht1 ht2 ht3 ht4 ht5 ht6 HP; have [[wq0 wq1 wq2 wq3] [wq4 wq5 wq6]] := wq.
cbv [REDUCE]; repeat sq; rewrite exec_nil.
have hl := limbsW ht0 ht1 ht2 ht3 ht4 ht5 ht6.
have Es : subChain [:: t0; t1; t2; t3; t4; t5; t6] (qs g) 0 = ([:: z; z0; z1; z2; z3; z4; z5], c5) by rewrite hq; cbn [subChain]; rewrite E E0 E1 E2 E3 E4 E5.
have hr := reduceE ok hl Es; have := subChainW ok hl Es; rewrite /= => /andP[hz0 /andP[hz1 /andP[hz2 /andP[hz3 /andP[hz4 /andP[hz5 /andP[hz6 _]]]]]]].
by apply: HP; rewrite ?hr; case: ifP.
Qed.

Lemma REDUCE_spec3 (P : st -> Prop) t0 t1 t2 t3 t4 t5 t6 vax vdx vbp vr9 vr10 vr11 vr12 vr15 vcf vof vs0 vs1 vs2 vs3 vs4 vs5 vs6 vs7 vs8 vm :
  word t0 -> word t1 -> word t2 -> word t3 -> word t4 -> word t5 -> word t6 ->
  (forall vr9 vr10 vr11 vr12 vdx vax vs0 vcf vof t0' t1' t2' t3' t4' t5' t6', word t0' -> word t1' -> word t2' -> word t3' -> word t4' -> word t5' -> word t6' -> [:: t0'; t1'; t2'; t3'; t4'; t5'; t6'] = ZpModel.reduce g [:: t0; t1; t2; t3; t4; t5; t6] ->
     P (St vax t3' t2' vdx t4' t5' vbp t6' vr9 vr10 vr11 vr12 t0' t1' vr15 vcf vof vs0 vs1 vs2 vs3 vs4 vs5 vs6 vs7 vs8 vm)) ->
  P (exec e (REDUCE R13 R14 CX BX SI DI R8 R9 R10 R11 R12 DX AX (Sl 0) (qE 0) (qE 1) (qE 2) (qE 3) (qE 4) (qE 5) (qE 6)) (St vax t3 t2 vdx t4 t5 vbp t6 vr9 vr10 vr11 vr12 t0 t1 vr15 vcf vof vs0 vs1 vs2 vs3 vs4 vs5 vs6 vs7 vs8 vm)).
Proof.
move=> ht0 ht1 ht2 ht3 ht4 ht5 ht6 HP; have [[wq0 wq1 wq2 wq3] [wq4 wq5 wq6]] := wq.
cbv [REDUCE]; repeat sq; rewrite exec_nil.
have hl := limbsW ht0 ht1 ht2 ht3 ht4 ht5 ht6.
have Es : subChain [:: t0; t1; t2; t3; t4; t5; t6] (qs g) 0 = ([:: z; z0; z1; z2; z3; z4; z5], c5) by rewrite hq; cbn [subChain]; rewrite E E0 E1 E2 E3 E4 E5.
have hr := reduceE ok hl Es; have := subChainW ok hl Es; rewrite /= => /andP[hz0 /andP[hz1 /andP[hz2 /andP[hz3 /andP[hz4 /andP[hz5 /andP[hz6 _]]]]]]].
by apply: HP; rewrite ?hr; case: ifP.
Qed.

(** one round of fromMont *)
Lemma fromMont_round_spec (P : st -> Prop) t0 t1 t2 t3 t4 t5 t6 vax vdx vbp vr9 vr10 vr11 vr12 vr15 vcf vof vs0 vs1 vs2 vs3 vs4 vs5 vs6 vs7 vs8 vm :
  word t0 -> word t1 -> word t2 -> word t3 -> word t4 -> word t5 -> word t6 ->
  (forall vax vdx vbp vcf vof t0' t1' t2' t3' t4' t5' t6' mm, word t0' -> word t1' -> word t2' -> word t3' -> word t4' -> word t5' -> word t6' -> word mm ->
     (W * val [:: t0'; t1'; t2'; t3'; t4'; t5'; t6'] + B 8 * (vcf + vof) = val [:: t0; t1; t2; t3; t4; t5; t6] + mm * Q)%Z ->
     P (St vax t3' t2' vdx t4' t5' vbp t6' vr9 vr10 vr11 vr12 t0' t1' vr15 vcf vof vs0 vs1 vs2 vs3 vs4 vs5 vs6 vs7 vs8 vm)) ->
  P (exec e fromMont_round (St vax t3 t2 vdx t4 t5 vbp t6 vr9 vr10 vr11 vr12 t0 t1 vr15 vcf vof vs0 vs1 vs2 vs3 vs4 vs5 vs6 vs7 vs8 vm)).
Proof.
move=> ht0 ht1 ht2 ht3 ht4 ht5 ht6 HP; have [[wq0 wq1 wq2 wq3] [wq4 wq5 wq6]] := wq.
cbv [fromMont_round]; do 2 sq.
have hm : word ((qInvNeg g * t0) mod W) by apply: word_mod.
have hlow := montLow ok ht0.
set mm := ((_ * _) mod W)%Z in hm hlow *.
sq; sq; sq.
have {hlow} z0 : z = 0%Z by apply: (hlow _ _ _ _ _ E0); rewrite hq; exact: E.
have el : t0 = (W * c + W * h - mm * q0)%Z.
  by have [e2 _] := Add64_eq E0; have [e1 _ _] := Mul64_eq hm wq0 E; move: z0 e2 e1; clear; lia.
clearbody mm; repeat sq; rewrite exec_nil.
apply: (HP _ _ _ _ _ _ _ _ _ _ _ _ mm) => //.
by rewrite qval !BS B0 !val_cons val_nil; lincomb; rewrite el; ring.
Qed.

Lemma limbs_ex x : limbs g x -> exists x0 x1 x2 x3 x4 x5 x6, x = [:: x0; x1; x2; x3; x4; x5; x6] /\ all word [:: x0; x1; x2; x3; x4; x5; x6].
Proof.
rewrite /limbs nE => -[hs h]; move: hs h; case: x => [|x0 x] //; case: x => [|x1 x] //; case: x => [|x2 x] //; case: x => [|x3 x] //; case: x => [|x4 x] //; case: x => [|x5 x] //; case: x => [|x6 x] //; case: x => [|? ?] // _ h.
by exists x0, x1, x2, x3, x4, x5, x6.
Qed.
Lemma storesE vm p t0 t1 t2 t3 t4 t5 t6 : size (vm p) = 7%N -> store (store (store (store (store (store (store vm p 0 t0) p 1 t1) p 2 t2) p 3 t3) p 4 t4) p 5 t5) p 6 t6 =1 put vm p [:: t0; t1; t2; t3; t4; t5; t6].
Proof.
move=> hs p'; rewrite /store /put !Z.eqb_refl; case: Z.eqb_spec => // _.
by move: hs; case: (vm p) => [|a0 l] //; case: l => [|a1 l] //; case: l => [|a2 l] //; case: l => [|a3 l] //; case: l => [|a4 l] //; case: l => [|a5 l] //; case: l => [|a6 l] //; case: l.
Qed.
Lemma stores2E vm pa pb t0 t1 t2 t3 t4 t5 t6 u0 u1 u2 u3 u4 u5 u6 : size (vm pa) = 7%N -> size (vm pb) = 7%N ->
  store (store (store (store (store (store (store (store (store (store (store (store (store (store vm pb 0 t0) pb 1 t1) pb 2 t2) pb 3 t3) pb 4 t4) pb 5 t5) pb 6 t6) pa 0 u0) pa 1 u1) pa 2 u2) pa 3 u3) pa 4 u4) pa 5 u5) pa 6 u6 =1 put (put vm pb [:: t0; t1; t2; t3; t4; t5; t6]) pa [:: u0; u1; u2; u3; u4; u5; u6].
Proof.
move=> ha hb p; rewrite storesE; last by rewrite storesE // /put; case: Z.eqb.
by rewrite /put; case: Z.eqb => //; rewrite storesE.
Qed.
Ltac nm hfp Ex Ey := idtac; rewrite ?hi ?qE0 ?qE1 ?qE2 ?qE3 ?qE4 ?qE5 ?qE6 ?hfp; cbn [nth]; rewrite /load ?Ex ?Ey; cbn [nth].
Ltac use lem p := match goal with |- context [exec e p (St ?a ?b ?c ?d ?si ?di ?bp ?r8 ?r9 ?r10 ?r11 ?r12 ?r13 ?r14 ?r15 ?cf1 ?of1
       ?s0 ?s1 ?s2 ?s3 ?s4 ?s5 ?s6 ?s7 ?s8 ?m)] =>
  pattern (exec e p (St a b c d si di bp r8 r9 r10 r11 r12 r13 r14 r15 cf1 of1 s0 s1 s2 s3 s4 s5 s6 s7 s8 m)); apply: lem; cbv beta end.
Ltac adds := rewrite /ZpModel.Double /ZpModel.Add /addWith haddc; cbn [addChain andb]; chains.

Lemma mul_mem : forall s pr px py, fp e = [:: pr; px; py] -> red g (mem s px) -> limbs g (mem s py) -> size (mem s pr) = n ->
  mem (exec e mul s) =1 put (mem s) pr (mulGeneric g (mem s px) (mem s py)).
Proof.
case=> vax vbx vcx vdx vsi vdi vbp vr8 vr9 vr10 vr11 vr12 vr13 vr14 vr15 vcf vof vs0 vs1 vs2 vs3 vs4 vs5 vs6 vs7 vs8 vm pr px py; cbn [mem] => hfp hx hy hr.
have [x0 [x1 [x2 [x3 [x4 [x5 [x6 [Ex /andP[hx0 /andP[hx1 /andP[hx2 /andP[hx3 /andP[hx4 /andP[hx5 /andP[hx6 _]]]]]]]]]]]]]]] := limbs_ex (proj1 hx).
have [y0 [y1 [y2 [y3 [y4 [y5 [y6 [Ey /andP[hy0 /andP[hy1 /andP[hy2 /andP[hy3 /andP[hy4 /andP[hy5 /andP[hy6 _]]]]]]]]]]]]]]] := limbs_ex hy.
rewrite /mul ; split_exec.
repeat (sx ltac:(nm hfp Ex Ey)); rewrite exec_nil.
use MUL_WORD_0_spec MUL_WORD_0; [exact: Ex|by []..|] => // ? ? ? ? ? ? a0_0 a1_0 a2_0 a3_0 a4_0 a5_0 a6_0 m0 k0 ha0_0 ha1_0 ha2_0 ha3_0 ha4_0 ha5_0 ha6_0 hm0 e0.
have I0 : mulInv g [:: x0; x1; x2; x3; x4; x5; x6] [:: y0] [:: a0_0; a1_0; a2_0; a3_0; a4_0; a5_0; a6_0].
  by apply: (mulStart ok spare (k := k0) (m := m0)) => //; [rewrite -Ex|apply: limbsW|rewrite nE].
repeat (sx ltac:(nm hfp Ex Ey)); rewrite exec_nil.
use MUL_WORD_N_spec MUL_WORD_N; [exact: Ex|by []..|] => // ? ? ? ? ? ? a0_1 a1_1 a2_1 a3_1 a4_1 a5_1 a6_1 m1 k1 ha0_1 ha1_1 ha2_1 ha3_1 ha4_1 ha5_1 ha6_1 hm1 e1.
have I1 : mulInv g [:: x0; x1; x2; x3; x4; x5; x6] [:: y0; y1] [:: a0_1; a1_1; a2_1; a3_1; a4_1; a5_1; a6_1].
  by apply: (mulStep ok spare (k := k1) (m := m1) (vs := [:: y0]) _ I0) => //; [rewrite -Ex|apply: limbsW|rewrite nE].
repeat (sx ltac:(nm hfp Ex Ey)); rewrite exec_nil.
use MUL_WORD_N_spec MUL_WORD_N; [exact: Ex|by []..|] => // ? ? ? ? ? ? a0_2 a1_2 a2_2 a3_2 a4_2 a5_2 a6_2 m2 k2 ha0_2 ha1_2 ha2_2 ha3_2 ha4_2 ha5_2 ha6_2 hm2 e2.
have I2 : mulInv g [:: x0; x1; x2; x3; x4; x5; x6] [:: y0; y1; y2] [:: a0_2; a1_2; a2_2; a3_2; a4_2; a5_2; a6_2].
  by apply: (mulStep ok spare (k := k2) (m := m2) (vs := [:: y0; y1]) _ I1) => //; [rewrite -Ex|apply: limbsW|rewrite nE].
repeat (sx ltac:(nm hfp Ex Ey)); rewrite exec_nil.
use MUL_WORD_N_spec MUL_WORD_N; [exact: Ex|by []..|] => // ? ? ? ? ? ? a0_3 a1_3 a2_3 a3_3 a4_3 a5_3 a6_3 m3 k3 ha0_3 ha1_3 ha2_3 ha3_3 ha4_3 ha5_3 ha6_3 hm3 e3.
have I3 : mulInv g [:: x0; x1; x2; x3; x4; x5; x6] [:: y0; y1; y2; y3] [:: a0_3; a1_3; a2_3; a3_3; a4_3; a5_3; a6_3].
  by apply: (mulStep ok spare (k := k3) (m := m3) (vs := [:: y0; y1; y2]) _ I2) => //; [rewrite -Ex|apply: limbsW|rewrite nE].
repeat (sx ltac:(nm hfp Ex Ey)); rewrite exec_nil.
use MUL_WORD_N_spec MUL_WORD_N; [exact: Ex|by []..|] => // ? ? ? ? ? ? a0_4 a1_4 a2_4 a3_4 a4_4 a5_4 a6_4 m4 k4 ha0_4 ha1_4 ha2_4 ha3_4 ha4_4 ha5_4 ha6_4 hm4 e4.
have I4 : mulInv g [:: x0; x1; x2; x3; x4; x5; x6] [:: y0; y1; y2; y3; y4] [:: a0_4; a1_4; a2_4; a3_4; a4_4; a5_4; a6_4].
  by apply: (mulStep ok spare (k := k4) (m := m4) (vs := [:: y0; y1; y2; y3]) _ I3) => //; [rewrite -Ex|apply: limbsW|rewrite nE].
repeat (sx ltac:(nm hfp Ex Ey)); rewrite exec_nil.
use MUL_WORD_N_spec MUL_WORD_N; [exact: Ex|by []..|] => // ? ? ? ? ? ? a0_5 a1_5 a2_5 a3_5 a4_5 a5_5 a6_5 m5 k5 ha0_5 ha1_5 ha2_5 ha3_5 ha4_5 ha5_5 ha6_5 hm5 e5.
have I5 : mulInv g [:: x0; x1; x2; x3; x4; x5; x6] [:: y0; y1; y2; y3; y4; y5] [:: a0_5; a1_5; a2_5; a3_5; a4_5; a5_5; a6_5].
  by apply: (mulStep ok spare (k := k5) (m := m5) (vs := [:: y0; y1; y2; y3; y4]) _ I4) => //; [rewrite -Ex|apply: limbsW|rewrite nE].
repeat (sx ltac:(nm hfp Ex Ey)); rewrite exec_nil.
use MUL_WORD_N_spec MUL_WORD_N; [exact: Ex|by []..|] => // ? ? ? ? ? ? a0_6 a1_6 a2_6 a3_6 a4_6 a5_6 a6_6 m6 k6 ha0_6 ha1_6 ha2_6 ha3_6 ha4_6 ha5_6 ha6_6 hm6 e6.
have I6 : mulInv g [:: x0; x1; x2; x3; x4; x5; x6] [:: y0; y1; y2; y3; y4; y5; y6] [:: a0_6; a1_6; a2_6; a3_6; a4_6; a5_6; a6_6].
  by apply: (mulStep ok spare (k := k6) (m := m6) (vs := [:: y0; y1; y2; y3; y4; y5]) _ I5) => //; [rewrite -Ex|apply: limbsW|rewrite nE].
use REDUCE_spec2 (REDUCE R14 R13 CX BX SI DI R8 R10 R9 R12 R11 AX DX (Sl 0) (qE 0) (qE 1) (qE 2) (qE 3) (qE 4) (qE 5) (qE 6)) => // ? ? ? ? ? ? ? ? ? b0 b1 b2 b3 b4 b5 b6 hb0 hb1 hb2 hb3 hb4 hb5 hb6 er.
repeat (sx ltac:(nm hfp Ex Ey)); rewrite exec_nil.
move=> p; cbn [mem]; rewrite storesE ?hr ?nE // er; congr (put _ _ _ _).
by rewrite (mulDone ok _ _ I6) ?Ex ?Ey // -?Ex -?Ey.
Qed.

Lemma fromMont_mem : forall s pr, fp e = [:: pr] -> limbs g (mem s pr) ->
  mem (exec e fromMont s) =1 put (mem s) pr (ZpModel.fromMont g (mem s pr)).
Proof.
case=> vax vbx vcx vdx vsi vdi vbp vr8 vr9 vr10 vr11 vr12 vr13 vr14 vr15 vcf vof vs0 vs1 vs2 vs3 vs4 vs5 vs6 vs7 vs8 vm pr; cbn [mem] => hfp hx.
have [x0 [x1 [x2 [x3 [x4 [x5 [x6 [Ex /andP[hx0 /andP[hx1 /andP[hx2 /andP[hx3 /andP[hx4 /andP[hx5 /andP[hx6 _]]]]]]]]]]]]]]] := limbs_ex hx; have hr := proj1 hx.
rewrite /fromMont ; split_exec.
have I0 : frInv g [:: x0; x1; x2; x3; x4; x5; x6] 0 [:: x0; x1; x2; x3; x4; x5; x6] by apply: frStart; rewrite -Ex.
repeat (sx ltac:(nm hfp Ex Ex)); rewrite exec_nil.
use fromMont_round_spec fromMont_round => // ? ? ? c1a c1b a0_1 a1_1 a2_1 a3_1 a4_1 a5_1 a6_1 m1 ha0_1 ha1_1 ha2_1 ha3_1 ha4_1 ha5_1 ha6_1 hm1 e1.
have I1 : frInv g [:: x0; x1; x2; x3; x4; x5; x6] 1 [:: a0_1; a1_1; a2_1; a3_1; a4_1; a5_1; a6_1].
  by apply: (frStep ok spare (k := (c1a + c1b)%Z) (m := m1) I0) => //; [apply: limbsW|rewrite nE].
repeat (sx ltac:(nm hfp Ex Ex)); rewrite exec_nil.
use fromMont_round_spec fromMont_round => // ? ? ? c2a c2b a0_2 a1_2 a2_2 a3_2 a4_2 a5_2 a6_2 m2 ha0_2 ha1_2 ha2_2 ha3_2 ha4_2 ha5_2 ha6_2 hm2 e2.
have I2 : frInv g [:: x0; x1; x2; x3; x4; x5; x6] 2 [:: a0_2; a1_2; a2_2; a3_2; a4_2; a5_2; a6_2].
  by apply: (frStep ok spare (k := (c2a + c2b)%Z) (m := m2) I1) => //; [apply: limbsW|rewrite nE].
repeat (sx ltac:(nm hfp Ex Ex)); rewrite exec_nil.
use fromMont_round_spec fromMont_round => // ? ? ? c3a c3b a0_3 a1_3 a2_3 a3_3 a4_3 a5_3 a6_3 m3 ha0_3 ha1_3 ha2_3 ha3_3 ha4_3 ha5_3 ha6_3 hm3 e3.
have I3 : frInv g [:: x0; x1; x2; x3; x4; x5; x6] 3 [:: a0_3; a1_3; a2_3; a3_3; a4_3; a5_3; a6_3].
  by apply: (frStep ok spare (k := (c3a + c3b)%Z) (m := m3) I2) => //; [apply: limbsW|rewrite nE].
repeat (sx ltac:(nm hfp Ex Ex)); rewrite exec_nil.
use fromMont_round_spec fromMont_round => // ? ? ? c4a c4b a0_4 a1_4 a2_4 a3_4 a4_4 a5_4 a6_4 m4 ha0_4 ha1_4 ha2_4 ha3_4 ha4_4 ha5_4 ha6_4 hm4 e4.
have I4 : frInv g [:: x0; x1; x2; x3; x4; x5; x6] 4 [:: a0_4; a1_4; a2_4; a3_4; a4_4; a5_4; a6_4].
  by apply: (frStep ok spare (k := (c4a + c4b)%Z) (m := m4) I3) => //; [apply: limbsW|rewrite nE].
repeat (sx ltac:(nm hfp Ex Ex)); rewrite exec_nil.
use fromMont_round_spec fromMont_round => // ? ? ? c5a c5b a0_5 a1_5 a2_5 a3_5 a4_5 a5_5 a6_5 m5 ha0_5 ha1_5 ha2_5 ha3_5 ha4_5 ha5_5 ha6_5 hm5 e5.
have I5 : frInv g [:: x0; x1; x2; x3; x4; x5; x6] 5 [:: a0_5; a1_5; a2_5; a3_5; a4_5; a5_5; a6_5].
  by apply: (frStep ok spare (k := (c5a + c5b)%Z) (m := m5) I4) => //; [apply: limbsW|rewrite nE].
repeat (sx ltac:(nm hfp Ex Ex)); rewrite exec_nil.
use fromMont_round_spec fromMont_round => // ? ? ? c6a c6b a0_6 a1_6 a2_6 a3_6 a4_6 a5_6 a6_6 m6 ha0_6 ha1_6 ha2_6 ha3_6 ha4_6 ha5_6 ha6_6 hm6 e6.
have I6 : frInv g [:: x0; x1; x2; x3; x4; x5; x6] 6 [:: a0_6; a1_6; a2_6; a3_6; a4_6; a5_6; a6_6].
  by apply: (frStep ok spare (k := (c6a + c6b)%Z) (m := m6) I5) => //; [apply: limbsW|rewrite nE].
repeat (sx ltac:(nm hfp Ex Ex)); rewrite exec_nil.
use fromMont_round_spec fromMont_round => // ? ? ? c7a c7b a0_7 a1_7 a2_7 a3_7 a4_7 a5_7 a6_7 m7 ha0_7 ha1_7 ha2_7 ha3_7 ha4_7 ha5_7 ha6_7 hm7 e7.
have I7 : frInv g [:: x0; x1; x2; x3; x4; x5; x6] 7 [:: a0_7; a1_7; a2_7; a3_7; a4_7; a5_7; a6_7].
  by apply: (frStep ok spare (k := (c7a + c7b)%Z) (m := m7) I6) => //; [apply: limbsW|rewrite nE].
use REDUCE_spec3 (REDUCE R13 R14 CX BX SI DI R8 R9 R10 R11 R12 DX AX (Sl 0) (qE 0) (qE 1) (qE 2) (qE 3) (qE 4) (qE 5) (qE 6)) => // ? ? ? ? ? ? ? ? ? b0 b1 b2 b3 b4 b5 b6 hb0 hb1 hb2 hb3 hb4 hb5 hb6 er.
repeat (sx ltac:(nm hfp Ex Ex)); rewrite exec_nil.
move=> p; cbn [mem]; rewrite storesE ?hr ?nE // er; congr (put _ _ _ _).
by rewrite (frDone ok (z := [:: x0; x1; x2; x3; x4; x5; x6])) ?Ex // ?nE // -Ex.
Qed.

Lemma reduce_mem : forall s pr, fp e = [:: pr] -> limbs g (mem s pr) ->
  mem (exec e reduce s) =1 put (mem s) pr (ZpModel.reduce g (mem s pr)).
Proof.
case=> vax vbx vcx vdx vsi vdi vbp vr8 vr9 vr10 vr11 vr12 vr13 vr14 vr15 vcf vof vs0 vs1 vs2 vs3 vs4 vs5 vs6 vs7 vs8 vm pr; cbn [mem] => hfp hx.
have [x0 [x1 [x2 [x3 [x4 [x5 [x6 [Ex /andP[hx0 /andP[hx1 /andP[hx2 /andP[hx3 /andP[hx4 /andP[hx5 /andP[hx6 _]]]]]]]]]]]]]]] := limbs_ex hx; have hr := proj1 hx.
rewrite /reduce ; split_exec.
repeat (sx ltac:(nm hfp Ex Ex)); rewrite exec_nil.
use REDUCE_spec0 (REDUCE DX CX BX SI DI R8 R9 R10 R11 R12 R13 R14 (Sl 0) (Sl 1) (qE 0) (qE 1) (qE 2) (qE 3) (qE 4) (qE 5) (qE 6)) => // ? ? ? ? ? ? ? ? ? b0_0 b1_0 b2_0 b3_0 b4_0 b5_0 b6_0 hb0_0 hb1_0 hb2_0 hb3_0 hb4_0 hb5_0 hb6_0 er0.
repeat (sx ltac:(nm hfp Ex Ex)); rewrite exec_nil.
by move=> p; cbn [mem]; rewrite storesE ?hr ?nE // er0 -?Ex.
Qed.

Lemma MulBy3_mem : forall s pr, fp e = [:: pr] -> limbs g (mem s pr) ->
  mem (exec e MulBy3 s) =1 put (mem s) pr (mulBy3 g (mem s pr)).
Proof.
case=> vax vbx vcx vdx vsi vdi vbp vr8 vr9 vr10 vr11 vr12 vr13 vr14 vr15 vcf vof vs0 vs1 vs2 vs3 vs4 vs5 vs6 vs7 vs8 vm pr; cbn [mem] => hfp hx.
have [x0 [x1 [x2 [x3 [x4 [x5 [x6 [Ex /andP[hx0 /andP[hx1 /andP[hx2 /andP[hx3 /andP[hx4 /andP[hx5 /andP[hx6 _]]]]]]]]]]]]]]] := limbs_ex hx; have hr := proj1 hx.
rewrite /MulBy3 ; split_exec.
repeat (sx ltac:(nm hfp Ex Ex)); rewrite exec_nil.
use REDUCE_spec0 (REDUCE DX CX BX SI DI R8 R9 R10 R11 R12 R13 R14 (Sl 0) (Sl 1) (qE 0) (qE 1) (qE 2) (qE 3) (qE 4) (qE 5) (qE 6)) => // ? ? ? ? ? ? ? ? ? b0_0 b1_0 b2_0 b3_0 b4_0 b5_0 b6_0 hb0_0 hb1_0 hb2_0 hb3_0 hb4_0 hb5_0 hb6_0 er0.
have D0 : [:: b0_0; b1_0; b2_0; b3_0; b4_0; b5_0; b6_0] = ZpModel.Double g [:: x0; x1; x2; x3; x4; x5; x6] by rewrite er0; adds.
repeat (sx ltac:(nm hfp Ex Ex)); rewrite exec_nil.
use REDUCE_spec0 (REDUCE DX CX BX SI DI R8 R9 R10 R11 R12 R13 R14 (Sl 0) (Sl 1) (qE 0) (qE 1) (qE 2) (qE 3) (qE 4) (qE 5) (qE 6)) => // ? ? ? ? ? ? ? ? ? b0_1 b1_1 b2_1 b3_1 b4_1 b5_1 b6_1 hb0_1 hb1_1 hb2_1 hb3_1 hb4_1 hb5_1 hb6_1 er1.
have D1 : [:: b0_1; b1_1; b2_1; b3_1; b4_1; b5_1; b6_1] = ZpModel.Add g [:: b0_0; b1_0; b2_0; b3_0; b4_0; b5_0; b6_0] [:: x0; x1; x2; x3; x4; x5; x6] by rewrite er1; adds.
repeat (sx ltac:(nm hfp Ex Ex)); rewrite exec_nil.
by move=> p; cbn [mem]; rewrite storesE ?hr ?nE // D1 D0 -?Ex.
Qed.

Lemma MulBy5_mem : forall s pr, fp e = [:: pr] -> limbs g (mem s pr) ->
  mem (exec e MulBy5 s) =1 put (mem s) pr (mulBy5 g (mem s pr)).
Proof.
case=> vax vbx vcx vdx vsi vdi vbp vr8 vr9 vr10 vr11 vr12 vr13 vr14 vr15 vcf vof vs0 vs1 vs2 vs3 vs4 vs5 vs6 vs7 vs8 vm pr; cbn [mem] => hfp hx.
have [x0 [x1 [x2 [x3 [x4 [x5 [x6 [Ex /andP[hx0 /andP[hx1 /andP[hx2 /andP[hx3 /andP[hx4 /andP[hx5 /andP[hx6 _]]]]]]]]]]]]]]] := limbs_ex hx; have hr := proj1 hx.
rewrite /MulBy5 ; split_exec.
repeat (sx ltac:(nm hfp Ex Ex)); rewrite exec_nil.
use REDUCE_spec0 (REDUCE DX CX BX SI DI R8 R9 R10 R11 R12 R13 R14 (Sl 0) (Sl 1) (qE 0) (qE 1) (qE 2) (qE 3) (qE 4) (qE 5) (qE 6)) => // ? ? ? ? ? ? ? ? ? b0_0 b1_0 b2_0 b3_0 b4_0 b5_0 b6_0 hb0_0 hb1_0 hb2_0 hb3_0 hb4_0 hb5_0 hb6_0 er0.
have D0 : [:: b0_0; b1_0; b2_0; b3_0; b4_0; b5_0; b6_0] = ZpModel.Double g [:: x0; x1; x2; x3; x4; x5; x6] by rewrite er0; adds.
repeat (sx ltac:(nm hfp Ex Ex)); rewrite exec_nil.
use REDUCE_spec0 (REDUCE DX CX BX SI DI R8 R9 R10 R11 R12 R13 R14 (Sl 0) (Sl 1) (qE 0) (qE 1) (qE 2) (qE 3) (qE 4) (qE 5) (qE 6)) => // ? ? ? ? ? ? ? ? ? b0_1 b1_1 b2_1 b3_1 b4_1 b5_1 b6_1 hb0_1 hb1_1 hb2_1 hb3_1 hb4_1 hb5_1 hb6_1 er1.
have D1 : [:: b0_1; b1_1; b2_1; b3_1; b4_1; b5_1; b6_1] = ZpModel.Double g [:: b0_0; b1_0; b2_0; b3_0; b4_0; b5_0; b6_0] by rewrite er1; adds.
repeat (sx ltac:(nm hfp Ex Ex)); rewrite exec_nil.
use REDUCE_spec0 (REDUCE DX CX BX SI DI R8 R9 R10 R11 R12 R13 R14 (Sl 0) (Sl 1) (qE 0) (qE 1) (qE 2) (qE 3) (qE 4) (qE 5) (qE 6)) => // ? ? ? ? ? ? ? ? ? b0_2 b1_2 b2_2 b3_2 b4_2 b5_2 b6_2 hb0_2 hb1_2 hb2_2 hb3_2 hb4_2 hb5_2 hb6_2 er2.
have D2 : [:: b0_2; b1_2; b2_2; b3_2; b4_2; b5_2; b6_2] = ZpModel.Add g [:: b0_1; b1_1; b2_1; b3_1; b4_1; b5_1; b6_1] [:: x0; x1; x2; x3; x4; x5; x6] by rewrite er2; adds.
repeat (sx ltac:(nm hfp Ex Ex)); rewrite exec_nil.
by move=> p; cbn [mem]; rewrite storesE ?hr ?nE // D2 D1 D0 -?Ex.
Qed.

Lemma MulBy13_mem : forall s pr, fp e = [:: pr] -> limbs g (mem s pr) ->
  mem (exec e MulBy13 s) =1 put (mem s) pr (thirteen g (mem s pr)).
Proof.
case=> vax vbx vcx vdx vsi vdi vbp vr8 vr9 vr10 vr11 vr12 vr13 vr14 vr15 vcf vof vs0 vs1 vs2 vs3 vs4 vs5 vs6 vs7 vs8 vm pr; cbn [mem] => hfp hx.
have [x0 [x1 [x2 [x3 [x4 [x5 [x6 [Ex /andP[hx0 /andP[hx1 /andP[hx2 /andP[hx3 /andP[hx4 /andP[hx5 /andP[hx6 _]]]]]]]]]]]]]]] := limbs_ex hx; have hr := proj1 hx.
rewrite /MulBy13 ; split_exec.
repeat (sx ltac:(nm hfp Ex Ex)); rewrite exec_nil.
use REDUCE_spec0 (REDUCE DX CX BX SI DI R8 R9 R10 R11 R12 R13 R14 (Sl 0) (Sl 1) (qE 0) (qE 1) (qE 2) (qE 3) (qE 4) (qE 5) (qE 6)) => // ? ? ? ? ? ? ? ? ? b0_0 b1_0 b2_0 b3_0 b4_0 b5_0 b6_0 hb0_0 hb1_0 hb2_0 hb3_0 hb4_0 hb5_0 hb6_0 er0.
have D0 : [:: b0_0; b1_0; b2_0; b3_0; b4_0; b5_0; b6_0] = ZpModel.Double g [:: x0; x1; x2; x3; x4; x5; x6] by rewrite er0; adds.
repeat (sx ltac:(nm hfp Ex Ex)); rewrite exec_nil.
use REDUCE_spec1 (REDUCE DX CX BX SI DI R8 R9 (Sl 2) (Sl 3) (Sl 4) (Sl 5) (Sl 6) (Sl 7) (Sl 8) (qE 0) (qE 1) (qE 2) (qE 3) (qE 4) (qE 5) (qE 6)) => // ? ? ? ? ? ? ? ? ? b0_1 b1_1 b2_1 b3_1 b4_1 b5_1 b6_1 hb0_1 hb1_1 hb2_1 hb3_1 hb4_1 hb5_1 hb6_1 er1.
have D1 : [:: b0_1; b1_1; b2_1; b3_1; b4_1; b5_1; b6_1] = ZpModel.Double g [:: b0_0; b1_0; b2_0; b3_0; b4_0; b5_0; b6_0] by rewrite er1; adds.
repeat (sx ltac:(nm hfp Ex Ex)); rewrite exec_nil.
use REDUCE_spec0 (REDUCE DX CX BX SI DI R8 R9 R10 R11 R12 R13 R14 (Sl 0) (Sl 1) (qE 0) (qE 1) (qE 2) (qE 3) (qE 4) (qE 5) (qE 6)) => // ? ? ? ? ? ? ? ? ? b0_2 b1_2 b2_2 b3_2 b4_2 b5_2 b6_2 hb0_2 hb1_2 hb2_2 hb3_2 hb4_2 hb5_2 hb6_2 er2.
have D2 : [:: b0_2; b1_2; b2_2; b3_2; b4_2; b5_2; b6_2] = ZpModel.Double g [:: b0_1; b1_1; b2_1; b3_1; b4_1; b5_1; b6_1] by rewrite er2; adds.
repeat (sx ltac:(nm hfp Ex Ex)); rewrite exec_nil.
use REDUCE_spec0 (REDUCE DX CX BX SI DI R8 R9 R10 R11 R12 R13 R14 (Sl 0) (Sl 1) (qE 0) (qE 1) (qE 2) (qE 3) (qE 4) (qE 5) (qE 6)) => // ? ? ? ? ? ? ? ? ? b0_3 b1_3 b2_3 b3_3 b4_3 b5_3 b6_3 hb0_3 hb1_3 hb2_3 hb3_3 hb4_3 hb5_3 hb6_3 er3.
have D3 : [:: b0_3; b1_3; b2_3; b3_3; b4_3; b5_3; b6_3] = ZpModel.Add g [:: b0_2; b1_2; b2_2; b3_2; b4_2; b5_2; b6_2] [:: b0_1; b1_1; b2_1; b3_1; b4_1; b5_1; b6_1] by rewrite er3; adds.
repeat (sx ltac:(nm hfp Ex Ex)); rewrite exec_nil.
use REDUCE_spec0 (REDUCE DX CX BX SI DI R8 R9 R10 R11 R12 R13 R14 (Sl 0) (Sl 1) (qE 0) (qE 1) (qE 2) (qE 3) (qE 4) (qE 5) (qE 6)) => // ? ? ? ? ? ? ? ? ? b0_4 b1_4 b2_4 b3_4 b4_4 b5_4 b6_4 hb0_4 hb1_4 hb2_4 hb3_4 hb4_4 hb5_4 hb6_4 er4.
have D4 : [:: b0_4; b1_4; b2_4; b3_4; b4_4; b5_4; b6_4] = ZpModel.Add g [:: b0_3; b1_3; b2_3; b3_3; b4_3; b5_3; b6_3] [:: x0; x1; x2; x3; x4; x5; x6] by rewrite er4; adds.
repeat (sx ltac:(nm hfp Ex Ex)); rewrite exec_nil.
by move=> p; cbn [mem]; rewrite storesE ?hr ?nE // D4 D3 D2 D1 D0 -?Ex.
Qed.

Lemma Butterfly_mem : forall s pa pb, fp e = [:: pa; pb] -> limbs g (mem s pa) -> limbs g (mem s pb) ->
  mem (exec e Butterfly_c (execCS e Butterfly_b (exec e Butterfly_a s))) =1 put (put (mem s) pb (ZpModel.Sub g (mem s pa) (mem s pb))) pa (ZpModel.Add g (mem s pa) (mem s pb)).
Proof.
case=> vax vbx vcx vdx vsi vdi vbp vr8 vr9 vr10 vr11 vr12 vr13 vr14 vr15 vcf vof vs0 vs1 vs2 vs3 vs4 vs5 vs6 vs7 vs8 vm pa pb; cbn [mem] => hfp hx hy.
have [x0 [x1 [x2 [x3 [x4 [x5 [x6 [Ex /andP[hx0 /andP[hx1 /andP[hx2 /andP[hx3 /andP[hx4 /andP[hx5 /andP[hx6 _]]]]]]]]]]]]]]] := limbs_ex hx; have hr := proj1 hx.
have [y0 [y1 [y2 [y3 [y4 [y5 [y6 [Ey /andP[hy0 /andP[hy1 /andP[hy2 /andP[hy3 /andP[hy4 /andP[hy5 /andP[hy6 _]]]]]]]]]]]]]]] := limbs_ex hy; have hr' := proj1 hy.
rewrite /Butterfly_a; repeat (sx ltac:(nm hfp Ex Ey)); rewrite exec_nil.
have lx : limbs g [:: x0; x1; x2; x3; x4; x5; x6] by rewrite -Ex. have ly : limbs g [:: y0; y1; y2; y3; y4; y5; y6] by rewrite -Ey.
have Es : subChain [:: x0; x1; x2; x3; x4; x5; x6] [:: y0; y1; y2; y3; y4; y5; y6] 0 = ([:: z6; z7; z8; z9; z10; z11; z12], c12) by cbn [subChain]; chains.
have Sb : ZpModel.Sub g [:: x0; x1; x2; x3; x4; x5; x6] [:: y0; y1; y2; y3; y4; y5; y6] = if (c12 =? 0)%Z then [:: z6; z7; z8; z9; z10; z11; z12] else (addChain [:: z6; z7; z8; z9; z10; z11; z12] (qs g) 0).1.
  by rewrite /ZpModel.Sub Es; case: Z.eqb.
rewrite /execCS; cbn [cf]; move: Sb; case: Z.eqb => Sb.
- rewrite /Butterfly_c; split_exec; repeat (sx ltac:(nm hfp Ex Ey)); rewrite exec_nil.
  use REDUCE_spec0 (REDUCE DX CX BX SI DI R8 R9 R10 R11 R12 R13 R14 (Sl 0) (Sl 1) (qE 0) (qE 1) (qE 2) (qE 3) (qE 4) (qE 5) (qE 6)) => // ? ? ? ? ? ? ? ? ? b0 b1 b2 b3 b4 b5 b6 hb0 hb1 hb2 hb3 hb4 hb5 hb6 er.
  repeat (sx ltac:(nm hfp Ex Ey)); rewrite exec_nil.
  have D : [:: b0; b1; b2; b3; b4; b5; b6] = ZpModel.Add g [:: x0; x1; x2; x3; x4; x5; x6] [:: y0; y1; y2; y3; y4; y5; y6] by rewrite (AddC g _ _) er; adds.
  by move=> p; cbn [mem]; rewrite stores2E ?hr ?hr' ?nE // Sb D.
rewrite /Butterfly_b; repeat (sx ltac:(nm hfp Ex Ey)); rewrite exec_nil.
rewrite /Butterfly_c; split_exec; repeat (sx ltac:(nm hfp Ex Ey)); rewrite exec_nil.
use REDUCE_spec0 (REDUCE DX CX BX SI DI R8 R9 R10 R11 R12 R13 R14 (Sl 0) (Sl 1) (qE 0) (qE 1) (qE 2) (qE 3) (qE 4) (qE 5) (qE 6)) => // ? ? ? ? ? ? ? ? ? b0 b1 b2 b3 b4 b5 b6 hb0 hb1 hb2 hb3 hb4 hb5 hb6 er.
repeat (sx ltac:(nm hfp Ex Ey)); rewrite exec_nil.
have D : [:: b0; b1; b2; b3; b4; b5; b6] = ZpModel.Add g [:: x0; x1; x2; x3; x4; x5; x6] [:: y0; y1; y2; y3; y4; y5; y6] by rewrite (AddC g _ _) er; adds.
have Sb' : (addChain [:: z6; z7; z8; z9; z10; z11; z12] (qs g) 0).1 = [:: z13; z14; z15; z16; z17; z18; z19] by rewrite hq; cbn [addChain]; chains.
by move=> p; cbn [mem]; rewrite stores2E ?hr ?hr' ?nE // Sb Sb' D.
Qed.
End P.
