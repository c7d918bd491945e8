(** AsmText2.v: what the macros and functions of the 2 word amd64 assembly do. *)
From Coq Require Import ZArith Lia.
From mathcomp Require Import all_ssreflect zify ssrZ.
From Verif Require Import JindoIntModel JindoIntProofs ZpModel ZpProofs ZpField AsmModel AsmProofs AsmText2.
Set Implicit Arguments. Unset Strict Implicit. Unset Printing Implicit Defensive.
Delimit Scope Z_scope with Z.
Local Arguments Z.mul : simpl never. Local Arguments Z.add : simpl never. Local Arguments Z.sub : simpl never.
Local Arguments Z.pow : simpl never.

Section P.
Variables (g : gen) (ok : okGen g) (q0 q1 : Z).
Hypothesis hq : qs g = [:: q0; q1].
Hypotheses (haddc : addCarry g = false) (hcios : mulCios g = false).
Variable e : env.
Hypothesis he : eq_ e = qs g.
Hypothesis hi : eqi e = qInvNeg g.
Local Notation Q := (val (qs g)).
Local Notation n := (Limbs g).
Lemma nE : n = 2%N. Proof. by rewrite /Limbs hq. Qed.
Lemma spare : (2 * Q <= B n)%Z.
Proof. by have := ok_mul ok; rewrite hcios => /Z.leb_le. Qed.
Lemma wq : word q0 /\ word q1.
Proof. by have := ok_q ok; rewrite hq /= => /andP[-> /andP[-> _]]. Qed.
Lemma qE0 : nth 0%Z (eq_ e) 0 = q0. Proof. by rewrite he hq. Qed.
Lemma qE1 : nth 0%Z (eq_ e) 1 = q1. Proof. by rewrite he hq. Qed.
Ltac nq := idtac; rewrite ?hi ?qE0 ?qE1.
Tactic Notation "sq" := sx ltac:(nq).
Lemma limbsW t0 t1 : word t0 -> word t1 -> limbs g [:: t0; t1].
Proof. by move=> h0 h1; split; [rewrite nE|rewrite /= h0 h1]. Qed.
Lemma qval : Q = (q0 + W*q1)%Z. Proof. by rewrite hq /=; ring. Qed.

(** t, A := (t + A 2^(64 n) + m q) / 2^64, up to carries out of the last word *)
Lemma DIV_SHIFT_spec (P : st -> Prop) t0 t1 A vax vbx vcx vdx vsi vdi vr8 vr9 vr10 vr11 vr12 vr15 vcf vof vs0 vs1 vs2 vs3 vs4 vs5 vs6 vs7 vs8 vm :
  word t0 -> word t1 -> word A ->
  (forall vax vdx vr8 vcf vof t0' t1' mm, word t0' -> word t1' -> word mm ->
     (W * val [:: t0'; t1'] + B 3 * (vcf + vof) = val [:: t0; t1] + B 2 * A + mm * Q)%Z ->
     P (St vax vbx vcx vdx vsi vdi A vr8 vr9 vr10 vr11 vr12 t1' t0' vr15 vcf vof vs0 vs1 vs2 vs3 vs4 vs5 vs6 vs7 vs8 vm)) ->
  P (exec e DIV_SHIFT (St vax vbx vcx vdx vsi vdi A vr8 vr9 vr10 vr11 vr12 t1 t0 vr15 vcf vof vs0 vs1 vs2 vs3 vs4 vs5 vs6 vs7 vs8 vm)).
Proof.
move=> ht0 ht1 hA HP; have [wq0 wq1] := wq.
cbv [DIV_SHIFT MACC cat]; do 2 sq.
have hm : word ((qInvNeg g * t0) mod W) by apply: word_mod.
have hlow := montLow ok ht0.
set mm := ((_ * _) mod W)%Z in hm hlow *.
sq; sq; sq.
have {hlow} z0 : z = 0%Z by apply: (hlow _ _ _ _ _ E0); rewrite hq; exact: E.
have el : t0 = (W * c + W * h - mm * q0)%Z.
  by have [e2 _] := Add64_eq E0; have [e1 _ _] := Mul64_eq hm wq0 E; move: z0 e2 e1; clear; lia.
clearbody mm; repeat sq; rewrite exec_nil.
apply: (HP _ _ _ _ _ _ _ mm) => //.
by rewrite qval !BS B0 !val_cons val_nil; lincomb; rewrite el; ring.
Qed.
Ltac nx := idtac.
Tactic Notation "sl" := sx ltac:(nq; nx).

(** the part of MUL_WORD_0 before DIV_SHIFT: t, A := v x *)
Definition ACC_0 := take (size MUL_WORD_0 - size DIV_SHIFT) MUL_WORD_0.
Lemma ACC_0E : MUL_WORD_0 = ACC_0 ++ DIV_SHIFT. Proof. by []. Qed.
Lemma ACC_0_spec (P : st -> Prop) v x0 x1 vax vcx vdi vbp vr8 vr9 vr10 vr11 vr12 vr13 vr14 vr15 vcf vof vs0 vs1 vs2 vs3 vs4 vs5 vs6 vs7 vs8 vm :
  word v -> word x0 -> word x1 -> 
  (forall vax vcf vof t0' t1' A', word t0' -> word t1' -> word A' ->
     (val [:: t0'; t1'] + B 2 * A' + B 3 * (vcf + vof) = v * val [:: x0; x1])%Z ->
     P (St vax x0 vcx v x1 vdi A' vr8 vr9 vr10 vr11 vr12 t1' t0' vr15 vcf vof vs0 vs1 vs2 vs3 vs4 vs5 vs6 vs7 vs8 vm)) ->
  P (exec e ACC_0 (St vax x0 vcx v x1 vdi vbp vr8 vr9 vr10 vr11 vr12 vr13 vr14 vr15 vcf vof vs0 vs1 vs2 vs3 vs4 vs5 vs6 vs7 vs8 vm)).
Proof.
move=> hv hx0 hx1  HP.
let p := eval vm_compute in ACC_0 in change ACC_0 with p.
repeat sl; rewrite exec_nil.
apply: HP => //.
by rewrite !BS B0 !val_cons val_nil; lincomb; ring.
Qed.

(** one round of the multiplication, up to carries out of the last word *)
Lemma MUL_WORD_0_spec (P : st -> Prop) v x0 x1 vax vcx vdi vbp vr8 vr9 vr10 vr11 vr12 vr13 vr14 vr15 vcf vof vs0 vs1 vs2 vs3 vs4 vs5 vs6 vs7 vs8 vm :
  word v -> word x0 -> word x1 -> 
  (forall vax vdx vbp vr8 vcf vof t0' t1' mm k, word t0' -> word t1' -> word mm ->
     (W * val [:: t0'; t1'] + B 3 * k = v * val [:: x0; x1] + mm * Q)%Z ->
     P (St vax x0 vcx vdx x1 vdi vbp vr8 vr9 vr10 vr11 vr12 t1' t0' vr15 vcf vof vs0 vs1 vs2 vs3 vs4 vs5 vs6 vs7 vs8 vm)) ->
  P (exec e MUL_WORD_0 (St vax x0 vcx v x1 vdi vbp vr8 vr9 vr10 vr11 vr12 vr13 vr14 vr15 vcf vof vs0 vs1 vs2 vs3 vs4 vs5 vs6 vs7 vs8 vm)).
Proof.
move=> hv hx0 hx1  HP; rewrite ACC_0E exec_cat.
apply: (ACC_0_spec (P := fun s => P (exec e DIV_SHIFT s))) => // vax0 vcf0 vof0 u0 u1 A hu0 hu1 hA E1.
apply: DIV_SHIFT_spec => // w1 w2 w3 w4 w5 s0 s1 mm hs0 hs1 hm E2.
apply: (HP _ _ _ _ _ _ _ _ mm (w4 + w5 + (vcf0 + vof0))%Z) => //.
by move: E1 E2; clear; lia.
Qed.

(** the part of MUL_WORD_N before DIV_SHIFT: t, A := t + v x *)
Definition ACC_N := take (size MUL_WORD_N - size DIV_SHIFT) MUL_WORD_N.
Lemma ACC_NE : MUL_WORD_N = ACC_N ++ DIV_SHIFT. Proof. by []. Qed.
Lemma ACC_N_spec (P : st -> Prop) v x0 x1 t0 t1 vax vcx vdi vbp vr8 vr9 vr10 vr11 vr12 vr15 vcf vof vs0 vs1 vs2 vs3 vs4 vs5 vs6 vs7 vs8 vm :
  word v -> word x0 -> word x1 -> word t0 -> word t1 -> 
  (forall vax vcf vof t0' t1' A', word t0' -> word t1' -> word A' ->
     (val [:: t0'; t1'] + B 2 * A' + B 3 * (vcf + vof) = val [:: t0; t1] + v * val [:: x0; x1])%Z ->
     P (St vax x0 vcx v x1 vdi A' vr8 vr9 vr10 vr11 vr12 t1' t0' vr15 vcf vof vs0 vs1 vs2 vs3 vs4 vs5 vs6 vs7 vs8 vm)) ->
  P (exec e ACC_N (St vax x0 vcx v x1 vdi vbp vr8 vr9 vr10 vr11 vr12 t1 t0 vr15 vcf vof vs0 vs1 vs2 vs3 vs4 vs5 vs6 vs7 vs8 vm)).
Proof.
move=> hv hx0 hx1 ht0 ht1 HP.
let p := eval vm_compute in ACC_N in change ACC_N with p.
repeat sl; rewrite exec_nil.
apply: HP => //.
by rewrite !BS B0 !val_cons val_nil; lincomb; ring.
Qed.

(** one round of the multiplication, up to carries out of the last word *)
Lemma MUL_WORD_N_spec (P : st -> Prop) v x0 x1 t0 t1 vax vcx vdi vbp vr8 vr9 vr10 vr11 vr12 vr15 vcf vof vs0 vs1 vs2 vs3 vs4 vs5 vs6 vs7 vs8 vm :
  word v -> word x0 -> word x1 -> word t0 -> word t1 -> 
  (forall vax vdx vbp vr8 vcf vof t0' t1' mm k, word t0' -> word t1' -> word mm ->
     (W * val [:: t0'; t1'] + B 3 * k = val [:: t0; t1] + v * val [:: x0; x1] + mm * Q)%Z ->
     P (St vax x0 vcx vdx x1 vdi vbp vr8 vr9 vr10 vr11 vr12 t1' t0' vr15 vcf vof vs0 vs1 vs2 vs3 vs4 vs5 vs6 vs7 vs8 vm)) ->
  P (exec e MUL_WORD_N (St vax x0 vcx v x1 vdi vbp vr8 vr9 vr10 vr11 vr12 t1 t0 vr15 vcf vof vs0 vs1 vs2 vs3 vs4 vs5 vs6 vs7 vs8 vm)).
Proof.
move=> hv hx0 hx1 ht0 ht1 HP; rewrite ACC_NE exec_cat.
apply: (ACC_N_spec (P := fun s => P (exec e DIV_SHIFT s))) => // vax0 vcf0 vof0 u0 u1 A hu0 hu1 hA E1.
apply: DIV_SHIFT_spec => // w1 w2 w3 w4 w5 s0 s1 mm hs0 hs1 hm E2.
apply: (HP _ _ _ _ _ _ _ _ mm (w4 + w5 + (vcf0 + vof0))%Z) => //.
by move: E1 E2; clear; lia.
Qed.

Lemma REDUCE_spec0 (P : st -> Prop) t0 t1 vax vbx vsi vdi vbp vr8 vr9 vr10 vr11 vr12 vr13 vr14 vr15 vcf vof vs0 vs1 vs2 vs3 vs4 vs5 vs6 vs7 vs8 vm :
  word t0 -> word t1 ->
  (forall vbx vsi vcf vof t0' t1', word t0' -> word t1' -> [:: t0'; t1'] = ZpModel.reduce g [:: t0; t1] ->
     P (St vax vbx t1' t0' vsi vdi vbp vr8 vr9 vr10 vr11 vr12 vr13 vr14 vr15 vcf vof vs0 vs1 vs2 vs3 vs4 vs5 vs6 vs7 vs8 vm)) ->
  P (exec e (REDUCE DX CX BX SI (qE 0) (qE 1)) (St vax vbx t1 t0 vsi vdi vbp vr8 vr9 vr10 vr11 vr12 vr13 vr14 vr15 vcf vof vs0 vs1 vs2 vs3 vs4 vs5 vs6 vs7 vs8 vm)).
Proof.
move=> ht0 ht1 HP; have [wq0 wq1] := wq.
cbv [REDUCE]; repeat sq; rewrite exec_nil.
have hl := limbsW ht0 ht1.
have Es : subChain [:: t0; t1] (qs g) 0 = ([:: z; z0], c0) by rewrite hq; cbn [subChain]; rewrite E E0.
have hr := reduceE ok hl Es; have := subChainW ok hl Es; rewrite /= => /andP[hz0 /andP[hz1 _]].
by apply: HP; rewrite ?hr; case: ifP.
Qed.

Lemma REDUCE_spec1 (P : st -> Prop) t0 t1 vax vbx vsi vdi vbp vr8 vr9 vr10 vr11 vr12 vr13 vr14 vr15 vcf vof vs0 vs1 vs2 vs3 vs4 vs5 vs6 vs7 vs8 vm :
  word t0 -> word t1 ->
  (forall vdi vr8 vcf vof t0' t1', word t0' -> word t1' -> [:: t0'; t1'] = ZpModel.reduce g [:: t0; t1] ->
     P (St vax vbx t1' t0' vsi vdi vbp vr8 vr9 vr10 vr11 vr12 vr13 vr14 vr15 vcf vof vs0 vs1 vs2 vs3 vs4 vs5 vs6 vs7 vs8 vm)) ->
  P (exec e (REDUCE DX CX DI R8 (qE 0) (qE 1)) (St vax vbx t1 t0 vsi vdi vbp vr8 vr9 vr10 vr11 vr12 vr13 vr14 vr15 vcf vof vs0 vs1 vs2 vs3 vs4 vs5 vs6 vs7 vs8 vm)).
Proof.
move=> ht0 ht1 HP; have [wq0 wq1] := wq.
cbv [REDUCE]; repeat sq; rewrite exec_nil.
have hl := limbsW ht0 ht1.
have Es : subChain [:: t0; t1] (qs g) 0 = ([:: z; z0], c0) by rewrite hq; cbn [subChain]; rewrite E E0.
have hr := reduceE ok hl Es; have := subChainW ok hl Es; rewrite /= => /andP[hz0 /andP[hz1 _]].
by apply: HP; rewrite ?hr; case: ifP.
Qed.

Lemma REDUCE_spec2 (P : st -> Prop) t0 t1 vax vbx vsi vdi vbp vr8 vr9 vr10 vr11 vr12 vr13 vr14 vr15 vcf vof vs0 vs1 vs2 vs3 vs4 vs5 vs6 vs7 vs8 vm :
  word t0 -> word t1 ->
  (forall vr9 vr10 vcf vof t0' t1', word t0' -> word t1' -> [:: t0'; t1'] = ZpModel.reduce g [:: t0; t1] ->
     P (St vax vbx t1' t0' vsi vdi vbp vr8 vr9 vr10 vr11 vr12 vr13 vr14 vr15 vcf vof vs0 vs1 vs2 vs3 vs4 vs5 vs6 vs7 vs8 vm)) ->
  P (exec e (REDUCE DX CX R9 R10 (qE 0) (qE 1)) (St vax vbx t1 t0 vsi vdi vbp vr8 vr9 vr10 vr11 vr12 vr13 vr14 vr15 vcf vof vs0 vs1 vs2 vs3 vs4 vs5 vs6 vs7 vs8 vm)).
Proof.
move=> ht0 ht1 HP; have [wq0 wq1] := wq.
cbv [REDUCE]; repeat sq; rewrite exec_nil.
have hl := limbsW ht0 ht1.
have Es : subChain [:: t0; t1] (qs g) 0 = ([:: z; z0], c0) by rewrite hq; cbn [subChain]; rewrite E E0.
have hr := reduceE ok hl Es; have := subChainW ok hl Es; rewrite /= => /andP[hz0 /andP[hz1 _]].
by apply: HP; rewrite ?hr; case: ifP.
Qed.

Lemma REDUCE_spec3 (P : st -> Prop) t0 t1 vax vbx vcx vdx vsi vdi vbp vr8 vr9 vr10 vr11 vr12 vr15 vcf vof vs0 vs1 vs2 vs3 vs4 vs5 vs6 vs7 vs8 vm :
  word t0 -> word t1 ->
  (forall vr9 vr10 vcf vof t0' t1', word t0' -> word t1' -> [:: t0'; t1'] = ZpModel.reduce g [:: t0; t1] ->
     P (St vax vbx vcx vdx vsi vdi vbp vr8 vr9 vr10 vr11 vr12 t1' t0' vr15 vcf vof vs0 vs1 vs2 vs3 vs4 vs5 vs6 vs7 vs8 vm)) ->
  P (exec e (REDUCE R14 R13 R9 R10 (qE 0) (qE 1)) (St vax vbx vcx vdx vsi vdi vbp vr8 vr9 vr10 vr11 vr12 t1 t0 vr15 vcf vof vs0 vs1 vs2 vs3 vs4 vs5 vs6 vs7 vs8 vm)).
Proof.
move=> ht0 ht1 HP; have [wq0 wq1] := wq.
cbv [REDUCE]; repeat sq; rewrite exec_nil.
have hl := limbsW ht0 ht1.
have Es : subChain [:: t0; t1] (qs g) 0 = ([:: z; z0], c0) by rewrite hq; cbn [subChain]; rewrite E E0.
have hr := reduceE ok hl Es; have := subChainW ok hl Es; rewrite /= => /andP[hz0 /andP[hz1 _]].
by apply: HP; rewrite ?hr; case: ifP.
Qed.

Lemma REDUCE_spec4 (P : st -> Prop) t0 t1 vax vbx vcx vdx vsi vdi vbp vr8 vr9 vr10 vr11 vr12 vr15 vcf vof vs0 vs1 vs2 vs3 vs4 vs5 vs6 vs7 vs8 vm :
  word t0 -> word t1 ->
  (forall vcx vbx vcf vof t0' t1', word t0' -> word t1' -> [:: t0'; t1'] = ZpModel.reduce g [:: t0; t1] ->
     P (St vax vbx vcx vdx vsi vdi vbp vr8 vr9 vr10 vr11 vr12 t0' t1' vr15 vcf vof vs0 vs1 vs2 vs3 vs4 vs5 vs6 vs7 vs8 vm)) ->
  P (exec e (REDUCE R13 R14 CX BX (qE 0) (qE 1)) (St vax vbx vcx vdx vsi vdi vbp vr8 vr9 vr10 vr11 vr12 t0 t1 vr15 vcf vof vs0 vs1 vs2 vs3 vs4 vs5 vs6 vs7 vs8 vm)).
Proof.
move=> ht0 ht1 HP; have [wq0 wq1] := wq.
cbv [REDUCE]; repeat sq; rewrite exec_nil.
have hl := limbsW ht0 ht1.
have Es : subChain [:: t0; t1] (qs g) 0 = ([:: z; z0], c0) by rewrite hq; cbn [subChain]; rewrite E E0.
have hr := reduceE ok hl Es; have := subChainW ok hl Es; rewrite /= => /andP[hz0 /andP[hz1 _]].
by apply: HP; rewrite ?hr; case: ifP.
Qed.

(** one round of fromMont *)
Lemma fromMont_round_spec (P : st -> Prop) t0 t1 vax vbx vcx vdx vsi vdi vbp vr8 vr9 vr10 vr11 vr12 vr15 vcf vof vs0 vs1 vs2 vs3 vs4 vs5 vs6 vs7 vs8 vm :
  word t0 -> word t1 ->
  (forall vax vdx vbp vcf vof t0' t1' mm, word t0' -> word t1' -> word mm ->
     (W * val [:: t0'; t1'] + B 3 * (vcf + vof) = val [:: t0; t1] + mm * Q)%Z ->
     P (St vax vbx vcx vdx vsi vdi vbp vr8 vr9 vr10 vr11 vr12 t0' t1' vr15 vcf vof vs0 vs1 vs2 vs3 vs4 vs5 vs6 vs7 vs8 vm)) ->
  P (exec e fromMont_round (St vax vbx vcx vdx vsi vdi vbp vr8 vr9 vr10 vr11 vr12 t0 t1 vr15 vcf vof vs0 vs1 vs2 vs3 vs4 vs5 vs6 vs7 vs8 vm)).
Proof.
move=> ht0 ht1 HP; have [wq0 wq1] := wq.
cbv [fromMont_round]; do 2 sq.
have hm : word ((qInvNeg g * t0) mod W) by apply: word_mod.
have hlow := montLow ok ht0.
set mm := ((_ * _) mod W)%Z in hm hlow *.
sq; sq; sq.
have {hlow} z0 : z = 0%Z by apply: (hlow _ _ _ _ _ E0); rewrite hq; exact: E.
have el : t0 = (W * c + W * h - mm * q0)%Z.
  by have [e2 _] := Add64_eq E0; have [e1 _ _] := Mul64_eq hm wq0 E; move: z0 e2 e1; clear; lia.
clearbody mm; repeat sq; rewrite exec_nil.
apply: (HP _ _ _ _ _ _ _ mm) => //.
by rewrite qval !BS B0 !val_cons val_nil; lincomb; rewrite el; ring.
Qed.

Lemma limbs_ex x : limbs g x -> exists x0 x1, x = [:: x0; x1] /\ all word [:: x0; x1].
Proof.
rewrite /limbs nE => -[hs h]; move: hs h; case: x => [|x0 x] //; case: x => [|x1 x] //; case: x => [|? ?] // _ h.
by exists x0, x1.
Qed.
Lemma storesE vm p t0 t1 : size (vm p) = 2%N -> store (store vm p 0 t0) p 1 t1 =1 put vm p [:: t0; t1].
Proof.
move=> hs p'; rewrite /store /put !Z.eqb_refl; case: Z.eqb_spec => // _.
by move: hs; case: (vm p) => [|a0 l] //; case: l => [|a1 l] //; case: l.
Qed.
Lemma stores2E vm pa pb t0 t1 u0 u1 : size (vm pa) = 2%N -> size (vm pb) = 2%N ->
  store (store (store (store vm pb 0 t0) pb 1 t1) pa 0 u0) pa 1 u1 =1 put (put vm pb [:: t0; t1]) pa [:: u0; u1].
Proof.
move=> ha hb p; rewrite storesE; last by rewrite storesE // /put; case: Z.eqb.
by rewrite /put; case: Z.eqb => //; rewrite storesE.
Qed.
Ltac nm hfp Ex Ey := idtac; rewrite ?hi ?qE0 ?qE1 ?hfp; cbn [nth]; rewrite /load ?Ex ?Ey; cbn [nth].
Ltac use lem p := match goal with |- context [exec e p (St ?a ?b ?c ?d ?si ?di ?bp ?r8 ?r9 ?r10 ?r11 ?r12 ?r13 ?r14 ?r15 ?cf1 ?of1
       ?s0 ?s1 ?s2 ?s3 ?s4 ?s5 ?s6 ?s7 ?s8 ?m)] =>
  pattern (exec e p (St a b c d si di bp r8 r9 r10 r11 r12 r13 r14 r15 cf1 of1 s0 s1 s2 s3 s4 s5 s6 s7 s8 m)); apply: lem; cbv beta end.
Ltac adds := rewrite /ZpModel.Double /ZpModel.Add /addWith haddc; cbn [addChain andb]; chains.

Lemma mul_mem : forall s pr px py, fp e = [:: pr; px; py] -> red g (mem s px) -> limbs g (mem s py) -> size (mem s pr) = n ->
  mem (exec e mul s) =1 put (mem s) pr (mulGeneric g (mem s px) (mem s py)).
Proof.
case=> vax vbx vcx vdx vsi vdi vbp vr8 vr9 vr10 vr11 vr12 vr13 vr14 vr15 vcf vof vs0 vs1 vs2 vs3 vs4 vs5 vs6 vs7 vs8 vm pr px py; cbn [mem] => hfp hx hy hr.
have [x0 [x1 [Ex /andP[hx0 /andP[hx1 _]]]]] := limbs_ex (proj1 hx).
have [y0 [y1 [Ey /andP[hy0 /andP[hy1 _]]]]] := limbs_ex hy.
rewrite /mul ; split_exec.
repeat (sx ltac:(nm hfp Ex Ey)); rewrite exec_nil.
use MUL_WORD_0_spec MUL_WORD_0 => // ? ? ? ? ? ? a0_0 a1_0 m0 k0 ha0_0 ha1_0 hm0 e0.
have I0 : mulInv g [:: x0; x1] [:: y0] [:: a0_0; a1_0].
  by apply: (mulStart ok spare (k := k0) (m := m0)) => //; [rewrite -Ex|apply: limbsW|rewrite nE].
repeat (sx ltac:(nm hfp Ex Ey)); rewrite exec_nil.
use MUL_WORD_N_spec MUL_WORD_N => // ? ? ? ? ? ? a0_1 a1_1 m1 k1 ha0_1 ha1_1 hm1 e1.
have I1 : mulInv g [:: x0; x1] [:: y0; y1] [:: a0_1; a1_1].
  by apply: (mulStep ok spare (k := k1) (m := m1) (vs := [:: y0]) _ I0) => //; [rewrite -Ex|apply: limbsW|rewrite nE].
use REDUCE_spec3 (REDUCE R14 R13 R9 R10 (qE 0) (qE 1)) => // ? ? ? ? b0 b1 hb0 hb1 er.
repeat (sx ltac:(nm hfp Ex Ey)); rewrite exec_nil.
move=> p; cbn [mem]; rewrite storesE ?hr ?nE // er; congr (put _ _ _ _).
by rewrite (mulDone ok _ _ I1) ?Ex ?Ey // -?Ex -?Ey.
Qed.

Lemma fromMont_mem : forall s pr, fp e = [:: pr] -> limbs g (mem s pr) ->
  mem (exec e fromMont s) =1 put (mem s) pr (ZpModel.fromMont g (mem s pr)).
Proof.
case=> vax vbx vcx vdx vsi vdi vbp vr8 vr9 vr10 vr11 vr12 vr13 vr14 vr15 vcf vof vs0 vs1 vs2 vs3 vs4 vs5 vs6 vs7 vs8 vm pr; cbn [mem] => hfp hx.
have [x0 [x1 [Ex /andP[hx0 /andP[hx1 _]]]]] := limbs_ex hx; have hr := proj1 hx.
rewrite /fromMont ; split_exec.
have I0 : frInv g [:: x0; x1] 0 [:: x0; x1] by apply: frStart; rewrite -Ex.
repeat (sx ltac:(nm hfp Ex Ex)); rewrite exec_nil.
use fromMont_round_spec fromMont_round => // ? ? ? c1a c1b a0_1 a1_1 m1 ha0_1 ha1_1 hm1 e1.
have I1 : frInv g [:: x0; x1] 1 [:: a0_1; a1_1].
  by apply: (frStep ok spare (k := (c1a + c1b)%Z) (m := m1) I0) => //; [apply: limbsW|rewrite nE].
repeat (sx ltac:(nm hfp Ex Ex)); rewrite exec_nil.
use fromMont_round_spec fromMont_round => // ? ? ? c2a c2b a0_2 a1_2 m2 ha0_2 ha1_2 hm2 e2.
have I2 : frInv g [:: x0; x1] 2 [:: a0_2; a1_2].
  by apply: (frStep ok spare (k := (c2a + c2b)%Z) (m := m2) I1) => //; [apply: limbsW|rewrite nE].
use REDUCE_spec4 (REDUCE R13 R14 CX BX (qE 0) (qE 1)) => // ? ? ? ? b0 b1 hb0 hb1 er.
repeat (sx ltac:(nm hfp Ex Ex)); rewrite exec_nil.
move=> p; cbn [mem]; rewrite storesE ?hr ?nE // er; congr (put _ _ _ _).
by rewrite (frDone ok (z := [:: x0; x1])) ?Ex // ?nE // -Ex.
Qed.

Lemma reduce_mem : forall s pr, fp e = [:: pr] -> limbs g (mem s pr) ->
  mem (exec e reduce s) =1 put (mem s) pr (ZpModel.reduce g (mem s pr)).
Proof.
case=> vax vbx vcx vdx vsi vdi vbp vr8 vr9 vr10 vr11 vr12 vr13 vr14 vr15 vcf vof vs0 vs1 vs2 vs3 vs4 vs5 vs6 vs7 vs8 vm pr; cbn [mem] => hfp hx.
have [x0 [x1 [Ex /andP[hx0 /andP[hx1 _]]]]] := limbs_ex hx; have hr := proj1 hx.
rewrite /reduce ; split_exec.
repeat (sx ltac:(nm hfp Ex Ex)); rewrite exec_nil.
use REDUCE_spec0 (REDUCE DX CX BX SI (qE 0) (qE 1)) => // ? ? ? ? b0_0 b1_0 hb0_0 hb1_0 er0.
repeat (sx ltac:(nm hfp Ex Ex)); rewrite exec_nil.
by move=> p; cbn [mem]; rewrite storesE ?hr ?nE // er0 -?Ex.
Qed.

Lemma MulBy3_mem : forall s pr, fp e = [:: pr] -> limbs g (mem s pr) ->
  mem (exec e MulBy3 s) =1 put (mem s) pr (mulBy3 g (mem s pr)).
Proof.
case=> vax vbx vcx vdx vsi vdi vbp vr8 vr9 vr10 vr11 vr12 vr13 vr14 vr15 vcf vof vs0 vs1 vs2 vs3 vs4 vs5 vs6 vs7 vs8 vm pr; cbn [mem] => hfp hx.
have [x0 [x1 [Ex /andP[hx0 /andP[hx1 _]]]]] := limbs_ex hx; have hr := proj1 hx.
rewrite /MulBy3 ; split_exec.
repeat (sx ltac:(nm hfp Ex Ex)); rewrite exec_nil.
use REDUCE_spec0 (REDUCE DX CX BX SI (qE 0) (qE 1)) => // ? ? ? ? b0_0 b1_0 hb0_0 hb1_0 er0.
have D0 : [:: b0_0; b1_0] = ZpModel.Double g [:: x0; x1] by rewrite er0; adds.
repeat (sx ltac:(nm hfp Ex Ex)); rewrite exec_nil.
use REDUCE_spec1 (REDUCE DX CX DI R8 (qE 0) (qE 1)) => // ? ? ? ? b0_1 b1_1 hb0_1 hb1_1 er1.
have D1 : [:: b0_1; b1_1] = ZpModel.Add g [:: b0_0; b1_0] [:: x0; x1] by rewrite er1; adds.
repeat (sx ltac:(nm hfp Ex Ex)); rewrite exec_nil.
by move=> p; cbn [mem]; rewrite storesE ?hr ?nE // D1 D0 -?Ex.
Qed.

Lemma MulBy5_mem : forall s pr, fp e = [:: pr] -> limbs g (mem s pr) ->
  mem (exec e MulBy5 s) =1 put (mem s) pr (mulBy5 g (mem s pr)).
Proof.
case=> vax vbx vcx vdx vsi vdi vbp vr8 vr9 vr10 vr11 vr12 vr13 vr14 vr15 vcf vof vs0 vs1 vs2 vs3 vs4 vs5 vs6 vs7 vs8 vm pr; cbn [mem] => hfp hx.
have [x0 [x1 [Ex /andP[hx0 /andP[hx1 _]]]]] := limbs_ex hx; have hr := proj1 hx.
rewrite /MulBy5 ; split_exec.
repeat (sx ltac:(nm hfp Ex Ex)); rewrite exec_nil.
use REDUCE_spec0 (REDUCE DX CX BX SI (qE 0) (qE 1)) => // ? ? ? ? b0_0 b1_0 hb0_0 hb1_0 er0.
have D0 : [:: b0_0; b1_0] = ZpModel.Double g [:: x0; x1] by rewrite er0; adds.
repeat (sx ltac:(nm hfp Ex Ex)); rewrite exec_nil.
use REDUCE_spec1 (REDUCE DX CX DI R8 (qE 0) (qE 1)) => // ? ? ? ? b0_1 b1_1 hb0_1 hb1_1 er1.
have D1 : [:: b0_1; b1_1] = ZpModel.Double g [:: b0_0; b1_0] by rewrite er1; adds.
repeat (sx ltac:(nm hfp Ex Ex)); rewrite exec_nil.
use REDUCE_spec2 (REDUCE DX CX R9 R10 (qE 0) (qE 1)) => // ? ? ? ? b0_2 b1_2 hb0_2 hb1_2 er2.
have D2 : [:: b0_2; b1_2] = ZpModel.Add g [:: b0_1; b1_1] [:: x0; x1] by rewrite er2; adds.
repeat (sx ltac:(nm hfp Ex Ex)); rewrite exec_nil.
by move=> p; cbn [mem]; rewrite storesE ?hr ?nE // D2 D1 D0 -?Ex.
Qed.

Lemma MulBy13_mem : forall s pr, fp e = [:: pr] -> limbs g (mem s pr) ->
  mem (exec e MulBy13 s) =1 put (mem s) pr (thirteen g (mem s pr)).
Proof.
case=> vax vbx vcx vdx vsi vdi vbp vr8 vr9 vr10 vr11 vr12 vr13 vr14 vr15 vcf vof vs0 vs1 vs2 vs3 vs4 vs5 vs6 vs7 vs8 vm pr; cbn [mem] => hfp hx.
have [x0 [x1 [Ex /andP[hx0 /andP[hx1 _]]]]] := limbs_ex hx; have hr := proj1 hx.
rewrite /MulBy13 ; split_exec.
repeat (sx ltac:(nm hfp Ex Ex)); rewrite exec_nil.
use REDUCE_spec0 (REDUCE DX CX BX SI (qE 0) (qE 1)) => // ? ? ? ? b0_0 b1_0 hb0_0 hb1_0 er0.
have D0 : [:: b0_0; b1_0] = ZpModel.Double g [:: x0; x1] by rewrite er0; adds.
repeat (sx ltac:(nm hfp Ex Ex)); rewrite exec_nil.
use REDUCE_spec1 (REDUCE DX CX DI R8 (qE 0) (qE 1)) => // ? ? ? ? b0_1 b1_1 hb0_1 hb1_1 er1.
have D1 : [:: b0_1; b1_1] = ZpModel.Double g [:: b0_0; b1_0] by rewrite er1; adds.
repeat (sx ltac:(nm hfp Ex Ex)); rewrite exec_nil.
use REDUCE_spec0 (REDUCE DX CX BX SI (qE 0) (qE 1)) => // ? ? ? ? b0_2 b1_2 hb0_2 hb1_2 er2.
have D2 : [:: b0_2; b1_2] = ZpModel.Double g [:: b0_1; b1_1] by rewrite er2; adds.
repeat (sx ltac:(nm hfp Ex Ex)); rewrite exec_nil.
use REDUCE_spec0 (REDUCE DX CX BX SI (qE 0) (qE 1)) => // ? ? ? ? b0_3 b1_3 hb0_3 hb1_3 er3.
have D3 : [:: b0_3; b1_3] = ZpModel.Add g [:: b0_2; b1_2] [:: b0_1; b1_1] by rewrite er3; adds.
repeat (sx ltac:(nm hfp Ex Ex)); rewrite exec_nil.
use REDUCE_spec0 (REDUCE DX CX BX SI (qE 0) (qE 1)) => // ? ? ? ? b0_4 b1_4 hb0_4 hb1_4 er4.
have D4 : [:: b0_4; b1_4] = ZpModel.Add g [:: b0_3; b1_3] [:: x0; x1] by rewrite er4; adds.
repeat (sx ltac:(nm hfp Ex Ex)); rewrite exec_nil.
by move=> p; cbn [mem]; rewrite storesE ?hr ?nE // D4 D3 D2 D1 D0 -?Ex.
Qed.

Lemma Butterfly_mem : forall s pa pb, fp e = [:: pa; pb] -> limbs g (mem s pa) -> limbs g (mem s pb) ->
  mem (exec e Butterfly s) =1 put (put (mem s) pb (ZpModel.Sub g (mem s pa) (mem s pb))) pa (ZpModel.Add g (mem s pa) (mem s pb)).
Proof.
case=> vax vbx vcx vdx vsi vdi vbp vr8 vr9 vr10 vr11 vr12 vr13 vr14 vr15 vcf vof vs0 vs1 vs2 vs3 vs4 vs5 vs6 vs7 vs8 vm pa pb; cbn [mem] => hfp hx hy.
have [x0 [x1 [Ex /andP[hx0 /andP[hx1 _]]]]] := limbs_ex hx; have hr := proj1 hx.
have [y0 [y1 [Ey /andP[hy0 /andP[hy1 _]]]]] := limbs_ex hy; have hr' := proj1 hy.
rewrite /Butterfly ; split_exec.
repeat (sx ltac:(nm hfp Ex Ey; rewrite ?Z.lxor_nilpotent)); rewrite exec_nil.
use REDUCE_spec0 (REDUCE DX CX BX SI (qE 0) (qE 1)) => // ? ? ? ? b0 b1 hb0 hb1 er.
repeat (sx ltac:(nm hfp Ex Ey)); rewrite exec_nil.
have D : [:: b0; b1] = ZpModel.Add g [:: x0; x1] [:: y0; y1] by rewrite er; adds.
have lx : limbs g [:: x0; x1] by rewrite -Ex. have ly : limbs g [:: y0; y1] by rewrite -Ey.
have Es : subChain [:: x0; x1] [:: y0; y1] 0 = ([:: z1; z2], c2) by cbn [subChain]; chains.
have S : ZpModel.Sub g [:: x0; x1] [:: y0; y1] = [:: z3; z4].
  rewrite (SubE lx ly Es).
  have -> : (if (c2 =? 0)%Z then nseq n 0%Z else qs g) = [:: if (c2 =? 0)%Z then 0%Z else q0; if (c2 =? 0)%Z then 0%Z else q1] by rewrite hq nE; case: ifP.
  by cbn [addChain]; chains.
by move=> p; cbn [mem]; rewrite stores2E ?hr ?hr' ?nE // S D.
Qed.
End P.
