(** The loops of addVec and subVec. *)
From Coq Require Import ZArith Lia.
From mathcomp Require Import all_ssreflect zify ssrZ.
From Verif Require Import JindoIntModel JindoIntProofs ZpModel ZpProofs ZpField AsmModel AsmProofs AvxModel AvxText.
Set Implicit Arguments. Unset Strict Implicit. Unset Printing Implicit Defensive.
Delimit Scope Z_scope with Z.
Local Arguments Z.mul : simpl never. Local Arguments Z.add : simpl never. Local Arguments Z.sub : simpl never.
Local Arguments Z.pow : simpl never. Local Arguments Z.of_nat : simpl never.

Lemma vexec_cons e i p s : vexec e (i :: p) s = vexec e p (vstep e s i). Proof. by []. Qed.
Lemma vexec_nil e s : vexec e [::] s = s. Proof. by []. Qed.
Lemma vexec_cat e p p' s : vexec e (p ++ p') s = vexec e p' (vexec e p s).
Proof. by rewrite /vexec foldl_cat. Qed.
Lemma loopS e k r body s : loop e k.+1 r body s =
  if (getr (sc (testq s)) r =? 0)%Z then Some (testq s) else loop e k r body (vexec e body (testq s)).
Proof. by []. Qed.
Lemma loop_done e f r body c z k : getr c r = 0%Z -> loop e f r body (VSt c z k) = Some (VSt (setf c 0 0) z k).
Proof.
move=> h; have h' : getr (setf c 0 0) r = 0%Z by rewrite -h; case: (c) => *; case: (r).
by case: f => [|f]; cbn [loop testq onsc sc]; rewrite h'.
Qed.
Lemma Add64_1 a b : (Add64 a b 0).1 = ((a + b) mod W)%Z. Proof. by rewrite /Add64 /= Z.add_0_r. Qed.

Ltac vfields := cbv beta iota delta [vstep onsc zset kset testq addi decq andi shli shri shrd mulq movi sc zr kr
  step rd wr getr setr gets sets setm setf
  ax bx cx dx si di bp r8 r9 r10 r11 r12 r13 r14 r15 cf of_ s0 s1 s2 s3 s4 s5 s6 s7 s8 mem].
(** reads registers *)
Ltac vreg := repeat match goal with |- context [upd ?f ?i ?v ?k] =>
  let t := eval cbv beta iota delta [upd Nat.eqb] in (upd f i v k) in change (upd f i v k) with t end.
(** executes the next instruction *)
Ltac vsx norm := match goal with
  | |- context [vexec ?e (?i :: ?p) (VSt ?c ?z ?k)] =>
    rewrite (vexec_cons e i p (VSt c z k)); vfields; vreg; norm; opstep; vfields
  end.

(** the loop of Go: res[i] := op(a[i], b[i]), i from 0 *)
Fixpoint vecLoop (op : seq Z -> seq Z -> seq Z) (n : nat) (m : memory) (d a b : Z) : memory :=
  if n is n'.+1 then vecLoop op n' (put m d (op (m a) (m b))) (d + 32) (a + 32) (b + 32) else m.
Lemma put_ext m m' p x : m =1 m' -> put m p x =1 put m' p x.
Proof. by move=> h p'; rewrite /put h. Qed.
Lemma vecLoop_ext op n m m' d a b : m =1 m' -> vecLoop op n m d a b =1 vecLoop op n m' d a b.
Proof. by elim: n m m' d a b => //= n IH m m' d a b h; apply: IH => p; rewrite /put !h. Qed.

Section P.
Variables (g : gen) (ok : okGen g) (q0 q1 q2 q3 : Z).
Hypothesis hq : qs g = [:: q0; q1; q2; q3].
Hypotheses (haddc : addCarry g = false).
Variable e : env.
Hypothesis he : eq_ e = qs g.
Hypothesis hi : eqi e = qInvNeg g.
Local Notation Q := (val (qs g)).
Local Notation n := (Limbs g).
Lemma nE : n = 4%N. Proof. by rewrite /Limbs hq. Qed.
Lemma wq : [/\ word q0, word q1, word q2 & word q3].
Proof. by have := ok_q ok; rewrite hq /= => /andP[-> /andP[-> /andP[-> /andP[-> _]]]]. Qed.
Lemma qE0 : nth 0%Z (eq_ e) 0 = q0. Proof. by rewrite he hq. Qed.
Lemma qE1 : nth 0%Z (eq_ e) 1 = q1. Proof. by rewrite he hq. Qed.
Lemma qE2 : nth 0%Z (eq_ e) 2 = q2. Proof. by rewrite he hq. Qed.
Lemma qE3 : nth 0%Z (eq_ e) 3 = q3. Proof. by rewrite he hq. Qed.
Ltac nq := idtac; rewrite ?hi ?qE0 ?qE1 ?qE2 ?qE3.
Lemma limbsW t0 t1 t2 t3 : word t0 -> word t1 -> word t2 -> word t3 -> limbs g [:: t0; t1; t2; t3].
Proof. by move=> h0 h1 h2 h3; split; [rewrite nE|rewrite /= h0 h1 h2 h3]. Qed.
Lemma qval : Q = (q0 + W*q1 + W*W*q2 + W*W*W*q3)%Z. Proof. by rewrite hq /=; ring. Qed.
Lemma limbs_ex x : limbs g x -> exists x0 x1 x2 x3, x = [:: x0; x1; x2; x3] /\ all word [:: x0; x1; x2; x3].
Proof.
move=> [hs hw]; rewrite nE in hs; move: hs hw; case: x => [|x0 [|x1 [|x2 [|x3 [|]]]]] //= _ h.
by exists x0, x1, x2, x3.
Qed.
Lemma storesE vm p t0 t1 t2 t3 : size (vm p) = 4%N -> store (store (store (store vm p 0 t0) p 1 t1) p 2 t2) p 3 t3 =1 put vm p [:: t0; t1; t2; t3].
Proof.
move=> hs p'; rewrite /store /put !Z.eqb_refl; case: Z.eqb_spec => // _.
by move: hs; case: (vm p) => [|a0 l] //; case: l => [|a1 l] //; case: l => [|a2 l] //; case: l => [|a3 l] //; case: l.
Qed.
Lemma loadE vm p i x : vm p = x -> load vm p i = nth 0%Z x i. Proof. by rewrite /load => ->. Qed.

(** one turn of a loop *)
Definition turn (op : seq Z -> seq Z -> seq Z) (c c' : st) : Prop :=
  [/\ mem c' =1 put (mem c) (cx c) (op (mem c (ax c)) (mem c (dx c))), ax c' = ((ax c + 32) mod W)%Z,
      dx c' = ((dx c + 32) mod W)%Z, cx c' = ((cx c + 32) mod W)%Z & bx c' = ((bx c - 1) mod W)%Z].
Lemma addVec_turn c z k : limbs g (mem c (ax c)) -> limbs g (mem c (dx c)) -> size (mem c (cx c)) = n ->
  exists c', [/\ vexec e addVec_body (VSt c z k) = VSt c' z k, turn (Add g) c c' & True].
Proof.
case: c => vax vbx vcx vdx vsi vdi vbp vr8 vr9 vr10 vr11 vr12 vr13 vr14 vr15 vcf vof vs0 vs1 vs2 vs3 vs4 vs5 vs6 vs7 vs8 vm.
cbn [ax bx cx dx mem] => hx hy hr.
have [x0 [x1 [x2 [x3 [Ex /andP[hx0 /andP[hx1 /andP[hx2 /andP[hx3 _]]]]]]]]] := limbs_ex hx.
have [y0 [y1 [y2 [y3 [Ey /andP[hy0 /andP[hy1 /andP[hy2 /andP[hy3 _]]]]]]]]] := limbs_ex hy.
rewrite /addVec_body.
do 8 vsx ltac:(rewrite ?(loadE _ Ex) ?(loadE _ Ey); cbn [nth]).
do 20 (vsx ltac:(nq)); rewrite vexec_nil; eexists; split; [reflexivity| |by []].
rewrite /turn; cbn [ax bx cx dx mem].
have hl : limbs g [:: z0; z1; z2; z3] by apply: limbsW.
have Es : subChain [:: z0; z1; z2; z3] (qs g) 0 = ([:: z4; z5; z6; z7], c6) by rewrite hq; cbn [subChain]; chains.
have hrd := reduceE ok hl Es.
split.
- move=> p; rewrite storesE ?hr ?nE // Ex Ey /put; case: ifP => // _.
  rewrite /Add /addWith haddc; cbn [addChain andb]; chains.
  by rewrite hrd; case: ifP.
- by rewrite -Add64_1 E7.
- by rewrite -Add64_1 E8.
- by rewrite -Add64_1 E9.
- by move: E10; rewrite /Sub64 Z.sub_0_r => -[].
Qed.
Lemma subVec_turn c z k : limbs g (mem c (ax c)) -> limbs g (mem c (dx c)) -> size (mem c (cx c)) = n -> si c = 0%Z ->
  exists c', [/\ vexec e subVec_body (VSt c z k) = VSt c' z k, turn (Sub g) c c' & si c' = 0%Z].
Proof.
case: c => vax vbx vcx vdx vsi vdi vbp vr8 vr9 vr10 vr11 vr12 vr13 vr14 vr15 vcf vof vs0 vs1 vs2 vs3 vs4 vs5 vs6 vs7 vs8 vm.
cbn [ax bx cx dx mem si] => hx hy hr ->.
have [x0 [x1 [x2 [x3 [Ex /andP[hx0 /andP[hx1 /andP[hx2 /andP[hx3 _]]]]]]]]] := limbs_ex hx.
have [y0 [y1 [y2 [y3 [Ey /andP[hy0 /andP[hy1 /andP[hy2 /andP[hy3 _]]]]]]]]] := limbs_ex hy.
rewrite /subVec_body.
do 8 vsx ltac:(rewrite ?(loadE _ Ex) ?(loadE _ Ey); cbn [nth]).
do 20 (vsx ltac:(nq)); rewrite vexec_nil; eexists; split; [reflexivity| |by []].
rewrite /turn; cbn [ax bx cx dx mem].
have lx : limbs g [:: x0; x1; x2; x3] by apply: limbsW.
have ly : limbs g [:: y0; y1; y2; y3] by apply: limbsW.
have Es : subChain [:: x0; x1; x2; x3] [:: y0; y1; y2; y3] 0 = ([:: z0; z1; z2; z3], c2) by cbn [subChain]; chains.
split.
- move=> p; rewrite storesE ?hr ?nE // Ex Ey /put; case: ifP => // _.
  rewrite (SubE lx ly Es).
  have -> : (if (c2 =? 0)%Z then nseq n 0%Z else qs g) = [:: if (c2 =? 0)%Z then 0%Z else q0;
    if (c2 =? 0)%Z then 0%Z else q1; if (c2 =? 0)%Z then 0%Z else q2; if (c2 =? 0)%Z then 0%Z else q3].
    by rewrite hq nE; case: ifP.
  by cbn [addChain]; chains.
- by rewrite -Add64_1 E7.
- by rewrite -Add64_1 E8.
- by rewrite -Add64_1 E9.
- by move: E10; rewrite /Sub64 Z.sub_0_r => -[].
Qed.

Section Loop.
Variables (op : seq Z -> seq Z -> seq Z) (body : seq vinstr) (J : st -> Prop).
Hypothesis Hop : forall x y, limbs g x -> limbs g y -> limbs g (op x y).
Hypothesis HJ : forall c, J c -> J (setf c 0 0).
Hypothesis Hbody : forall c z k, limbs g (mem c (ax c)) -> limbs g (mem c (dx c)) -> size (mem c (cx c)) = n -> J c ->
  exists c', [/\ vexec e body (VSt c z k) = VSt c' z k, turn op c c' & J c'].
Lemma vec_loop k c z r : J c -> bx c = Z.of_nat k -> (Z.of_nat k < W)%Z ->
  (0 <= ax c)%Z -> (0 <= dx c)%Z -> (0 <= cx c)%Z ->
  (ax c + 32 * Z.of_nat k < W)%Z -> (dx c + 32 * Z.of_nat k < W)%Z -> (cx c + 32 * Z.of_nat k < W)%Z ->
  (forall i, (i < k)%N -> [/\ limbs g (mem c (ax c + 32 * Z.of_nat i)%Z), limbs g (mem c (dx c + 32 * Z.of_nat i)%Z) &
     size (mem c (cx c + 32 * Z.of_nat i)%Z) = n]) ->
  exists c', loop e k BX body (VSt c z r) = Some (VSt c' z r) /\
    mem c' =1 vecLoop op k (mem c) (cx c) (ax c) (dx c).
Proof.
elim: k c => [|k IH] c hJ hb hk ha0 hd0 hc0 ha hd hc hm.
  exists (setf c 0 0); split; last by case: (c).
  exact: loop_done.
set c1 := setf c 0 0.
have e1 : [/\ ax c1 = ax c, dx c1 = dx c, cx c1 = cx c, bx c1 = bx c & mem c1 = mem c] by rewrite /c1; case: (c).
case: e1 => e1 e2 e3 e4 e5.
have [i0 i1 i2] := hm 0%N isT; rewrite Z.mul_0_r !Z.add_0_r in i0 i1 i2.
have [||||c2 [h1 [h2 h3 h4 h5 h6] h7]] := @Hbody c1 z r; rewrite ?e1 ?e2 ?e3 ?e5 //; first exact: HJ.
rewrite e1 e2 e3 e4 e5 in h2 h3 h4 h5 h6.
have f3 : ax c2 = (ax c + 32)%Z by rewrite h3 Z.mod_small //; move: ha ha0; clear; lia.
have f4 : dx c2 = (dx c + 32)%Z by rewrite h4 Z.mod_small //; move: hd hd0; clear; lia.
have f5 : cx c2 = (cx c + 32)%Z by rewrite h5 Z.mod_small //; move: hc hc0; clear; lia.
have f6 : bx c2 = Z.of_nat k by rewrite h6 hb Z.mod_small; move: hk; clear; lia.
have [||||||||||c3 [g1 g2]] := IH c2; rewrite ?f3 ?f4 ?f5 //; try (move: ha ha0 hd hd0 hc hc0 hk; clear; lia).
  move=> i hi'; have [j0 j1 j2] := hm i.+1 hi'.
  have hp a : (a + 32 + 32 * Z.of_nat i = a + 32 * Z.of_nat i.+1)%Z by lia.
  rewrite !hp !h2 /put; have hl := Hop i0 i1.
  by split; case: ifP => // _; case: hl.
exists c3; split; last by move=> p; rewrite g2 /= f3 f4 f5; apply: vecLoop_ext.
have -> : loop e k.+1 BX body (VSt c z r) = loop e k BX body (vexec e body (VSt c1 z r)).
  rewrite loopS; cbn [testq onsc sc]; rewrite -/c1.
  have -> : getr c1 BX = bx c1 by [].
  by rewrite e4 hb; case: Z.eqb_spec => //; lia.
by rewrite h1 g1.
Qed.
End Loop.
End P.
