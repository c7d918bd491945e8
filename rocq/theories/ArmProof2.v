(** ArmText2.v: what the macros and functions of the 2 word arm64 assembly do. *)
From Coq Require Import ZArith Lia.
From mathcomp Require Import all_ssreflect zify ssrZ.
From Verif Require Import JindoIntModel JindoIntProofs ZpModel ZpProofs ZpField AsmModel AsmProofs ArmText2.
Set Implicit Arguments. Unset Strict Implicit. Unset Printing Implicit Defensive.
Delimit Scope Z_scope with Z.
Local Arguments Z.mul : simpl never. Local Arguments Z.add : simpl never. Local Arguments Z.sub : simpl never.
Local Arguments Z.pow : simpl never.

Section P.
Variables (g : gen) (ok : okGen g) (q0 q1 : Z).
Hypothesis hq : qs g = [:: q0; q1].
Hypotheses (haddc : addCarry g = false) (hcios : mulCios g = false).
Variable e : env.
Hypothesis he : eq_ e = qs g.
Hypothesis hi : eqi e = qInvNeg g.
Local Notation Q := (val (qs g)).
Local Notation n := (Limbs g).
Lemma nE : n = 2%N. Proof. by rewrite /Limbs hq. Qed.
Lemma spare : (2 * Q <= B n)%Z.
Proof. by have := ok_mul ok; rewrite hcios => /Z.leb_le. Qed.
Lemma wq : word q0 /\ word q1.
Proof. by have := ok_q ok; rewrite hq /= => /andP[-> /andP[-> _]]. Qed.
Lemma qE0 : nth 0%Z (eq_ e) 0 = q0. Proof. by rewrite he hq. Qed.
Lemma qE1 : nth 0%Z (eq_ e) 1 = q1. Proof. by rewrite he hq. Qed.
Ltac nq := idtac; rewrite ?hi ?qE0 ?qE1.
Lemma limbsW t0 t1 : word t0 -> word t1 -> limbs g [:: t0; t1].
Proof. by move=> h0 h1; split; [rewrite nE|rewrite /= h0 h1]. Qed.
Lemma qval : Q = (q0 + W*q1)%Z. Proof. by rewrite hq /=; ring. Qed.

(** one round of the multiplication, up to carries out of the last word *)
Lemma MUL_WORD_0_spec (P : xst -> Prop) v x0 x1 vx0 vx4 vx5 vx6 vx8 vx11 vx12 vx13 vx14 vx15 vx16 vx17 vc vm :
  word v -> word x0 -> word x1 -> 
  (forall vx0 vx6 vx8 vc t0' t1' mm k, word t0' -> word t1' -> word mm ->
     (W * val [:: t0'; t1'] + B 3 * k = v * val [:: x0; x1] + mm * Q)%Z ->
     P (XSt vx0 v x0 x1 t0' t1' vx6 (qInvNeg g) vx8 q0 q1 vx11 vx12 vx13 vx14 vx15 vx16 vx17 vc vm)) ->
  P (execx e MUL_WORD_0 (XSt vx0 v x0 x1 vx4 vx5 vx6 (qInvNeg g) vx8 q0 q1 vx11 vx12 vx13 vx14 vx15 vx16 vx17 vc vm)).
Proof.
move=> hv hx0 hx1  HP; have [wq0 wq1] := wq; have wi := ok_inv ok.
cbv [MUL_WORD_0 DIVSHIFT cat]; repeat (xx ltac:(nq)); rewrite execx_nil.
match type of E3 with Mul64 _ ?zl = (_, ?mm) => match type of E4 with _ = (?h', _) =>
  have wl : word zl by []; have wm : word mm by [];
  have zz : z1 = 0%Z by [apply: (montLowX ok wl E3 _ E5); rewrite hq; exact: E4];
  have el : (zl = W * c1 + W * h' - mm * q0)%Z by [have [e2 _] := Add64_eq E5; have [e1 _ _] := Mul64_eq wm wq0 E4; move: zz e2 e1; clear; lia];
  apply: (HP _ _ _ _ _ _ mm (c0 + c3 + c5)%Z) => //; match goal with H : mm = _ |- _ => clear H end
end end.
rewrite qval !BS B0 !val_cons val_nil; apply: (lin2 el); clear el; lincomb; ring.
Qed.

(** one round of the multiplication, up to carries out of the last word *)
Lemma MUL_WORD_N_spec (P : xst -> Prop) v x0 x1 t0 t1 vx0 vx6 vx8 vx11 vx12 vx13 vx14 vx15 vx16 vx17 vc vm :
  word v -> word x0 -> word x1 -> word t0 -> word t1 -> 
  (forall vx0 vx6 vx8 vc t0' t1' mm k, word t0' -> word t1' -> word mm ->
     (W * val [:: t0'; t1'] + B 3 * k = val [:: t0; t1] + v * val [:: x0; x1] + mm * Q)%Z ->
     P (XSt vx0 v x0 x1 t0' t1' vx6 (qInvNeg g) vx8 q0 q1 vx11 vx12 vx13 vx14 vx15 vx16 vx17 vc vm)) ->
  P (execx e MUL_WORD_N (XSt vx0 v x0 x1 t0 t1 vx6 (qInvNeg g) vx8 q0 q1 vx11 vx12 vx13 vx14 vx15 vx16 vx17 vc vm)).
Proof.
move=> hv hx0 hx1 ht0 ht1 HP; have [wq0 wq1] := wq; have wi := ok_inv ok.
cbv [MUL_WORD_N DIVSHIFT cat]; repeat (xx ltac:(nq)); rewrite execx_nil.
match type of E1 with Mul64 _ ?zl = (_, ?mm) => match type of E7 with _ = (?h', _) =>
  have wl : word zl by []; have wm : word mm by [];
  have zz : z4 = 0%Z by [apply: (montLowX ok wl E1 _ E8); rewrite hq; exact: E7];
  have el : (zl = W * c4 + W * h' - mm * q0)%Z by [have [e2 _] := Add64_eq E8; have [e1 _ _] := Mul64_eq wm wq0 E7; move: zz e2 e1; clear; lia];
  apply: (HP _ _ _ _ _ _ mm (c1 + c3 + c6 + c8)%Z) => //; match goal with H : mm = _ |- _ => clear H end
end end.
rewrite qval !BS B0 !val_cons val_nil; apply: (lin2 el); clear el; lincomb; ring.
Qed.

Lemma limbs_ex x : limbs g x -> exists x0 x1, x = [:: x0; x1] /\ all word [:: x0; x1].
Proof.
rewrite /limbs nE => -[hs h]; move: hs h; case: x => [|x0 x] //; case: x => [|x1 x] //; case: x => [|? ?] // _ h.
by exists x0, x1.
Qed.
Lemma storesE vm p t0 t1 : size (vm p) = 2%N -> store (store vm p 0 t0) p 1 t1 =1 put vm p [:: t0; t1].
Proof.
move=> hs p'; rewrite /store /put !Z.eqb_refl; case: Z.eqb_spec => // _.
by move: hs; case: (vm p) => [|a0 l] //; case: l => [|a1 l] //; case: l.
Qed.
Lemma stores2E vm pa pb t0 t1 u0 u1 : size (vm pa) = 2%N -> size (vm pb) = 2%N ->
  store (store (store (store vm pb 0 t0) pb 1 t1) pa 0 u0) pa 1 u1 =1 put (put vm pb [:: t0; t1]) pa [:: u0; u1].
Proof.
move=> ha hb p; rewrite storesE; last by rewrite storesE // /put; case: Z.eqb.
by rewrite /put; case: Z.eqb => //; rewrite storesE.
Qed.
Lemma sel c z0 z1 t0 t1 :
  [:: if c then z0 else t0; if c then z1 else t1] = if c then [:: z0; z1] else [:: t0; t1] :> seq Z.
Proof. by case: c. Qed.
Ltac nm hfp Ex Ey := idtac; rewrite ?hi ?qE0 ?qE1 ?hfp; cbn [nth]; rewrite /load ?Ex ?Ey; cbn [nth].
Ltac use lem p := match goal with |- context [execx e p (XSt ?a0 ?a1 ?a2 ?a3 ?a4 ?a5 ?a6 ?a7 ?a8 ?a9 ?a10 ?a11 ?a12 ?a13 ?a14 ?a15 ?a16 ?a17 ?c ?m)] =>
  pattern (execx e p (XSt a0 a1 a2 a3 a4 a5 a6 a7 a8 a9 a10 a11 a12 a13 a14 a15 a16 a17 c m)); apply: lem; cbv beta end.
Ltac adds := rewrite /ZpModel.Double /ZpModel.Add /addWith haddc; cbn [addChain andb]; chains.

Lemma mul_mem : forall s pr px py, fp e = [:: pr; px; py] -> red g (xmem s px) -> limbs g (xmem s py) -> size (xmem s pr) = n ->
  xmem (execx e mul s) =1 put (xmem s) pr (mulGeneric g (xmem s px) (xmem s py)).
Proof.
case=> vx0 vx1 vx2 vx3 vx4 vx5 vx6 vx7 vx8 vx9 vx10 vx11 vx12 vx13 vx14 vx15 vx16 vx17 vc vm pr px py; cbn [xmem] => hfp hx hy hr.
have [x0 [x1 [Ex /andP[hx0 /andP[hx1 _]]]]] := limbs_ex (proj1 hx).
have [y0 [y1 [Ey /andP[hy0 /andP[hy1 _]]]]] := limbs_ex hy.
rewrite /mul; split_execx.
repeat (xx ltac:(nm hfp Ex Ey)); rewrite execx_nil.
use MUL_WORD_0_spec MUL_WORD_0 => // ? ? ? ? a0_0 a1_0 m0 k0 ha0_0 ha1_0 hm0 e0.
have I0 : mulInv g [:: x0; x1] [:: y0] [:: a0_0; a1_0].
  by apply: (mulStart ok spare (k := k0) (m := m0)) => //; [rewrite -Ex|apply: limbsW|rewrite nE].
repeat (xx ltac:(nm hfp Ex Ey)); rewrite execx_nil.
use MUL_WORD_N_spec MUL_WORD_N => // ? ? ? ? a0_1 a1_1 m1 k1 ha0_1 ha1_1 hm1 e1.
have I1 : mulInv g [:: x0; x1] [:: y0; y1] [:: a0_1; a1_1].
  by apply: (mulStep ok spare (k := k1) (m := m1) (vs := [:: y0]) _ I0) => //; [rewrite -Ex|apply: limbsW|rewrite nE].
repeat (xx ltac:(nm hfp Ex Ey)); rewrite execx_nil.
have lt : limbs g [:: a0_1; a1_1] by apply: limbsW.
have Es : subChain [:: a0_1; a1_1] (qs g) 0 = ([:: z; z0], c0) by rewrite hq; cbn [subChain]; chains.
move=> p; cbn [xmem]; rewrite storesE ?hr ?nE // sel -(reduceE0 ok lt Es); congr (put _ _ _ _).
by rewrite (mulDone ok _ _ I1) ?Ex ?Ey // -?Ex -?Ey.
Qed.

Lemma reduce_mem : forall s pr, fp e = [:: pr] -> limbs g (xmem s pr) ->
  xmem (execx e reduce s) =1 put (xmem s) pr (ZpModel.reduce g (xmem s pr)).
Proof.
case=> vx0 vx1 vx2 vx3 vx4 vx5 vx6 vx7 vx8 vx9 vx10 vx11 vx12 vx13 vx14 vx15 vx16 vx17 vc vm pr; cbn [xmem] => hfp hx.
have [x0 [x1 [Ex /andP[hx0 /andP[hx1 _]]]]] := limbs_ex hx; have hr := proj1 hx.
rewrite /reduce; repeat (xx ltac:(nm hfp Ex Ex)); rewrite execx_nil.
have lt : limbs g [:: x0; x1] by apply: limbsW.
have Es : subChain [:: x0; x1] (qs g) 0 = ([:: z; z0], c0) by rewrite hq; cbn [subChain]; chains.
by move=> p; cbn [xmem]; rewrite storesE ?hr ?nE // sel -(reduceE0 ok lt Es).
Qed.

Lemma Butterfly_mem : forall s pa pb, fp e = [:: pa; pb] -> limbs g (xmem s pa) -> limbs g (xmem s pb) ->
  xmem (execx e Butterfly s) =1 put (put (xmem s) pb (ZpModel.Sub g (xmem s pa) (xmem s pb))) pa (ZpModel.Add g (xmem s pa) (xmem s pb)).
Proof.
case=> vx0 vx1 vx2 vx3 vx4 vx5 vx6 vx7 vx8 vx9 vx10 vx11 vx12 vx13 vx14 vx15 vx16 vx17 vc vm pa pb; cbn [xmem] => hfp hx hy.
have [x0 [x1 [Ex /andP[hx0 /andP[hx1 _]]]]] := limbs_ex hx; have hr := proj1 hx.
have [y0 [y1 [Ey /andP[hy0 /andP[hy1 _]]]]] := limbs_ex hy; have hr' := proj1 hy.
rewrite /Butterfly; repeat (xx ltac:(nm hfp Ex Ey)); rewrite execx_nil.
have lx : limbs g [:: x0; x1] by rewrite -Ex. have ly : limbs g [:: y0; y1] by rewrite -Ey.
have Es : subChain [:: x0; x1] [:: y0; y1] 0 = ([:: z1; z2], c2) by cbn [subChain]; chains.
have Sb : ZpModel.Sub g [:: x0; x1] [:: y0; y1] = [:: z3; z4].
  rewrite (SubE lx ly Es).
  have -> : (if (c2 =? 0)%Z then nseq n 0%Z else qs g) = [:: if (c2 =? 0)%Z then 0%Z else q0; if (c2 =? 0)%Z then 0%Z else q1] by rewrite hq nE; case: ifP.
  by cbn [addChain]; chains.
have lt : limbs g [:: z; z0] by apply: limbsW.
have Er : subChain [:: z; z0] (qs g) 0 = ([:: z5; z6], c6) by rewrite hq; cbn [subChain]; chains.
have D : ZpModel.reduce g [:: z; z0] = ZpModel.Add g [:: x0; x1] [:: y0; y1] by adds.
by move=> p; cbn [xmem]; rewrite stores2E ?hr ?hr' ?nE // sel -(reduceE0 ok lt Er) Sb D.
Qed.
End P.
