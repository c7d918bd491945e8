(** Ranges and degrees in every context a Define can build: constraints mention existing
    witnesses only, the recorded maximal ranks bound every constraint, and the embedding
    and commitment ranks are large enough. *)
From Coq Require Import ZArith Lia.
From mathcomp Require Import all_ssreflect all_algebra zify.
From Verif Require Import RingTac Spec UintModel BigpolyModel UintProofs RingProofs NormModel NormProofs
  BucklerModel DefineModel BucklerSpec FillProofs NormSound ContextProofs CheckerProofs NormComplete.
Set Implicit Arguments. Unset Strict Implicit. Unset Printing Implicit Defensive.
Import GRing.Theory.
Local Open Scope ring_scope.
Delimit Scope Z_scope with Z.

Section Range.
Variables (F : fieldType) (U : uint F).
Implicit Types (x y : context F).

(** the law of a linear checker: TransposeTo is the transpose of TransformTo, whatever the
    output buffers contain *)
Definition userLaw (N : nat) (tf tr : seq F -> seq F -> seq F) : Prop :=
  forall o1 o2 v u, size o1 = N -> size o2 = N -> size v = N -> size u = N ->
    [/\ size (tf o1 v) = N, size (tr o2 u) = N & dot N (tf o1 v) u = dot N v (tr o2 u)].
Definition cmdLaw (N : nat) (c : cmd F) : Prop :=
  if c is CLin _ _ _ tf tr then userLaw N tf tr else True.
Definition objLaw (N : nat) (o : cobj F) : Prop :=
  match o with OUser tf tr => userLaw N tf tr | OProj => True | ORecomp base => (0 < size base)%N end.

Record rg (N : nat) x : Prop := Rg {
  rg_rank : crank x = N;
  rg_ar : forall c, List.In c (carith x) -> consIn (cpwCnt x) (cwCnt x) c /\ (maxRank N c <= carithMax x)%N;
  rg_su : forall c, List.In c (csum x) -> consIn (cpwCnt x) (cwCnt x) c /\ (maxRank N c <= csumMax x)%N;
  rg_li : forall k l o i, aget (clin x) k = Some l -> List.In (o, i) l -> (o < cwCnt x)%N /\ (i < cwCnt x)%N;
  rg_ch : forall chk, List.In chk (clinChk x) -> objLaw N (cobj_of chk);
  rg_l2 : hasLin x -> (2 * N - 1 <= carithMax x)%N;
  rg_am : [\/ carithMax x = 0%N, exists c, List.In c (carith x) /\ maxRank N c = carithMax x
           | hasLin x /\ carithMax x = (2 * N - 1)%N];
  rg_sm : csumMax x = 0%N \/ exists c, List.In c (csum x) /\ maxRank N c = csumMax x;
  rg_key : forall chk, List.In chk (clinChk x) -> aget (clin x) (caddr chk) <> None;
  rg_sz : (0 < size (clin x))%N = (0 < size (clinChk x))%N;
  rg_pr : forall chk, List.In chk (clinChk x) -> if cobj_of chk is OProj then chasProj x else true
}.

Lemma consIn_mono p n p' n' (c : constraint F) : (p <= p')%N -> (n <= n')%N -> consIn p n c -> consIn p' n' c.
Proof.
move=> hp hn; apply: sub_all => t /andP[h1 h2]; apply/andP; split.
  by case: (tpw t) h1 => // j h; exact: leq_trans h hp.
by apply: sub_all h2 => j h; exact: leq_trans h hn.
Qed.

(** steps that only create witnesses *)
Lemma rg_cnt N x y : rg N x -> crank y = crank x -> (cpwCnt x <= cpwCnt y)%N -> (cwCnt x <= cwCnt y)%N ->
  carithMax y = carithMax x -> csumMax y = csumMax x -> carith y = carith x -> csum y = csum x ->
  clin y = clin x -> clinChk y = clinChk x -> (chasProj x -> chasProj y) -> rg N y.
Proof.
case=> h1 h2 h3 h4 h5 h6 h7 h8 h9 h10 h11 e1 hp hn e2 e3 e4 e5 e6 e7 e8.
split; rewrite /hasLin ?e1 ?e2 ?e3 ?e4 ?e5 ?e6 ?e7 //.
- by move=> c /h2[a b]; split=> //; apply: consIn_mono a.
- by move=> c /h3[a b]; split=> //; apply: consIn_mono a.
- by move=> k l o i hk hl; have [a b] := h4 k l o i hk hl; split; [exact: leq_trans a hn|exact: leq_trans b hn].
- by move=> chk /h11; case: (cobj_of chk).
Qed.

Lemma rg_arith N x c : rg N x -> consIn (cpwCnt x) (cwCnt x) c -> rg N (AddArithmeticConstraint x c).
Proof.
case=> h1 h2 h3 h4 h5 h6 h7 h8 h9 h10 h11 hc; split=> //=; rewrite ?h1 //.
- move=> d /In_rcons[/h2[a b]|->]; split=> //; [exact: leq_trans b (leq_maxl _ _)|exact: leq_maxr].
- by move=> /h6 h; exact: leq_trans h (leq_maxl _ _).
- case: (leqP (maxRank N c) (carithMax x)) => h; last first.
    by apply: Or32; exists c; split=> //; apply/In_rcons; right.
  case: h7 => [e|[d [hd e]]|[hl e]]; [by move: h; rewrite e|
    by apply: Or32; exists d; split=> //; apply/In_rcons; left|by apply: Or33].
Qed.

Lemma rg_sumc N x c s : rg N x -> consIn (cpwCnt x) (cwCnt x) c -> rg N (AddSumCheckConstraintBig x c s).
Proof.
case=> h1 h2 h3 h4 h5 h6 h7 h8 h9 h10 h11 hc; split=> //=; rewrite ?h1 //.
- move=> d /In_rcons[/h3[a b]|->]; split=> //; [exact: leq_trans b (leq_maxl _ _)|exact: leq_maxr].
- case: (leqP (maxRank N c) (csumMax x)) => h; last first.
    by right; exists c; split=> //; apply/In_rcons; right.
  case: h8 => [e|[d [hd e]]]; [by move: h; rewrite e|
    by right; exists d; split=> //; apply/In_rcons; left].
Qed.

Lemma rg_lin N x o i chk : rg N x -> (o < cwCnt x)%N -> (i < cwCnt x)%N -> objLaw N (cobj_of chk) ->
  (if cobj_of chk is OProj then chasProj x else true) -> rg N (AddLinearConstraint x o i chk).
Proof.
case=> h1 h2 h3 h4 h5 h6 h7 h8 h9 h10 h11 ho hi hk hpr; split=> //=; rewrite ?h1 //.
- by move=> c /h2[a b]; split=> //; case: ltnP => // /ltnW; exact: leq_trans.
- move=> k l o' i'; rewrite aget_aset; case: eqP => [e [<-]|_]; last exact: h4.
  move/In_rcons => [|[-> ->] //]; case E: (aget _ _) => [l'|] //=; exact: h4 E.
- case: (aget (clin x) (caddr chk)) => [_|] c; first exact: h5.
  by move/In_rcons => [|->//]; exact: h5.
- by move=> _; case: ltnP.
- case: ltnP => h; first by apply: Or33; split=> //; rewrite /hasLin /= size_aset.
  case: h7 => [e|[d [hd e]]|[hl e]].
  + by apply: Or31.
  + by apply: Or32; exists d.
  + by apply: Or33; split=> //; rewrite /hasLin /= size_aset.
- case Eo: (aget (clin x) (caddr chk)) => [l|] c; last move/In_rcons => [|->]; rewrite ?aget_aset ?eqxx //.
    by move/h9; case: eqP.
  by move/h9; case: eqP.
- rewrite size_aset; case Eo: (aget _ _) => [l|]; last by rewrite size_rcons.
  symmetry; rewrite -h10; by case: (clin x) Eo.
- case: (aget (clin x) (caddr chk)) => [_|] c; first exact: h11.
  by move/In_rcons => [|->//]; exact: h11.
Qed.

Lemma rg_fold N x (D : seq nat) (f : nat -> constraint F) : rg N x ->
  (forall d, d \in D -> consIn (cpwCnt x) (cwCnt x) (f d)) ->
  rg N (foldl (fun x d => AddArithmeticConstraint x (f d)) x D).
Proof.
elim: D x => [|d D IH] x //= hx hD; apply: IH.
  by apply: rg_arith => //; apply: hD; rewrite inE eqxx.
by move=> e he; apply: hD; rewrite inE he orbT.
Qed.

Lemma AddTerm_in p n (c : constraint F) a pw ws : consIn p n c ->
  (if pw is Some j then (j < p)%N else true) -> all (fun j => (j < n)%N) ws ->
  consIn p n (AddTermWithConst c a pw ws).
Proof. by move=> hc h1 h2; rewrite /AddTermWithConst /consIn all_rcons -/(consIn p n c) hc andbT; apply/andP; split. Qed.

Lemma rg_run1 N p0 n0 x y c : rg N x -> (p0 <= cpwCnt x)%N -> (n0 <= cwCnt x)%N ->
  cmdIn p0 n0 c -> cmdLaw N c -> run1 U x c = Some y -> rg N y.
Proof.
case: c => [c|c s|o i a tf tr|w B|w B|w B] hx hp hn hc hl /=.
- by move=> [<-]; apply: rg_arith => //; exact: consIn_mono hc.
- by move=> [<-]; apply: rg_sumc => //; exact: consIn_mono hc.
- move: hc => /= /andP[h1 h2] [<-]; apply: rg_lin => //; exact: leq_trans hn.
- have hw : (w < cwCnt x)%N by exact: leq_trans hc hn.
  rewrite /AddInfNormConstraintBig; case: ifP => _; first by move=> [<-].
  case: ifP => _; first by move=> [<-]; apply: rg_arith => //=; rewrite /consIn /= /termIn /= hw.
  case: ifP => _; first by move=> [<-]; apply: rg_arith => //=; rewrite /consIn /= /termIn /= hw.
  case: (decomposeBase B) => [base|] // [<-].
  set x1 := set_cnt _ _ _.
  have r1 : rg N x1 by apply: rg_cnt hx _ _ _ _ _ _ _ _ _ _ => //=; rewrite leq_addr.
  have r2 : rg N (foldl (fun x d => AddArithmeticConstraint x (ternaryC U d)) x1 (iota (cwCnt x) (size base))).
    apply: rg_fold => // d; rewrite mem_iota => /andP[_ hd].
    by rewrite /consIn /= /termIn /= hd.
  apply: rg_arith => //; rewrite fold_arithE /= /dcmpC.
  have : all (fun i => (i < size base)%N) (iota 0 (size base)) by apply/allP => i; rewrite mem_iota.
  have : consIn (cpwCnt x) (cwCnt x + size base) (AddTermWithConst [::] (setBigInt U 1) None [:: w]).
    by apply: AddTerm_in => //=; rewrite ltn_addr.
  move: (AddTermWithConst _ _ _ _) => c0; elim: (iota 0 _) c0 => [|i l IH] c0 hc0 //= /andP[hi hl'].
  by apply: IH => //; apply: AddTerm_in => //=; rewrite nth_iota // ltn_add2l hi.
- have hw : (w < cwCnt x)%N by exact: leq_trans hc hn.
  move=> [<-]; rewrite /AddSqNormConstraintBig /sqC /binC.
  apply: rg_sumc => /=; last first.
    by rewrite /termIn /= !addn2 !ltnSn (ltnW (ltnSn _)) (leqW hw).
  apply: rg_arith => /=; last first.
    by rewrite /termIn /= !addn2 !ltnSn.
  by apply: rg_cnt hx _ _ _ _ _ _ _ _ _ _ => //=; rewrite leq_addr.
- have hw : (w < cwCnt x)%N by exact: leq_trans hc hn.
  rewrite /AddApproxInfNormConstraintBig; case E: (decomposeBase _) => [base|] // [<-].
  set x1 := set_cnt _ _ _; set x2 := AddLinearConstraint x1 _ _ _; set x3 := set_proj x2 _ _ _ _.
  have r1 : rg N x1 by apply: rg_cnt hx _ _ _ _ _ _ _ _ _ _ => //=; rewrite leq_addr.
  have r2 : rg N x2 by apply: rg_lin => //=; rewrite ?(ltn_addr _ hw) // addn2 ltnW.
  have r3 : rg N x3 by apply: rg_cnt r2 _ _ _ _ _ _ _ _ _ _.
  set x4 := AddLinearConstraint x3 _ _ _.
  have r4 : rg N x4.
    apply: rg_lin => //=; rewrite ?addn2 // ?ltnS // size_map.
    by move: E; rewrite /decomposeBase; case: ifP => // _ [<-]; rewrite size_rcons.
  by apply: rg_cnt r4 _ _ _ _ _ _ _ _ _ _.
Qed.

Lemma rg_new N p0 n0 : rg N (newContext F N p0 n0).
Proof. by split=> //=; [apply: Or31|left]. Qed.

Lemma rg_define N p0 n0 x y cs : rg N x -> (p0 <= cpwCnt x)%N -> (n0 <= cwCnt x)%N -> all (cmdIn p0 n0) cs ->
  (forall c, List.In c cs -> cmdLaw N c) -> define U x cs = Some y -> rg N y.
Proof.
elim: cs x => [|c cs IH] x hx hp hn /=; first by move=> _ _ [<-].
move=> /andP[h1 h2] hl; case E: (run1 U x c) => [x1|] // hd.
have g := grows_run1 E.
apply: (IH x1) => //.
- by apply: (@rg_run1 N p0 n0 x x1 c) => //; apply: hl; left.
- exact: leq_trans hp (gr_pw g).
- exact: leq_trans hn (gr_w g).
- by move=> d hd'; apply: hl; right.
Qed.

(** ** the embedding rank *)
Lemma bitsLenP k : (k < 2 ^ bitsLen k)%N.
Proof. by case: k => [|k] //=; rewrite trunc_log_ltn. Qed.

Lemma embRank_ge x : (carithMax x <= embRank x)%N /\ (csumMax x <= embRank x)%N.
Proof.
have h : (maxn (carithMax x) (csumMax x) <= embRank x)%N.
  by rewrite /embRank; case: (maxn _ _) => // k; exact: bitsLenP.
by split; apply: leq_trans h; rewrite ?leq_maxl ?leq_maxr.
Qed.

Lemma embRank_pow x : (0 < carithMax x)%N || (0 < csumMax x)%N -> exists k, embRank x = (2 ^ k)%N.
Proof.
rewrite -leq_max /embRank; case: (maxn _ _) => // k _; by exists (bitsLen k).
Qed.

(** a power of two that is at least 2N-1 is at least 2N, for N = 2^n >= 2 *)
Lemma pow2_step n k : (0 < n)%N -> (2 * 2 ^ n - 1 <= 2 ^ k)%N -> (2 * 2 ^ n <= 2 ^ k)%N.
Proof.
move=> hn hk; rewrite -expnS leq_exp2l // ltnNge; apply/negP => hkn.
have h2 : (2 ^ k <= 2 ^ n)%N by rewrite leq_exp2l.
have h3 : (2 <= 2 ^ n)%N by rewrite -{1}(expn1 2) leq_exp2l.
lia.
Qed.
Lemma pow2_step1 n k : (2 ^ n < 2 ^ k)%N -> (2 * 2 ^ n <= 2 ^ k)%N.
Proof. by rewrite ltn_exp2l // -expnS leq_exp2l. Qed.

(** ** the commitment rank *)
Lemma foldl_maxn_ge (A : Type) (f : A -> nat) r l : (r <= foldl (fun r c => maxn r (f c)) r l)%N /\
  forall c, List.In c l -> (f c <= foldl (fun r c => maxn r (f c)) r l)%N.
Proof.
elim: l r => [|c l IH] r //=; have [h1 h2] := IH (maxn r (f c)); split.
  exact: leq_trans (leq_maxl _ _) h1.
by move=> d [<-|/h2 //]; exact: leq_trans (leq_maxr _ _) h1.
Qed.

Lemma commitRankP x : [/\ (0 < cwCnt x)%N -> (crank x < commitRank x)%N,
  forall c, List.In c (carith x) -> (maxRank (crank x) c - crank x <= commitRank x)%N,
  hasLin x -> (2 * crank x <= commitRank x)%N &
  forall c, List.In c (csum x) -> (maxRank (crank x) c + crank x + 1 <= commitRank x)%N].
Proof.
rewrite /commitRank; cbv zeta.
set r1 := if (0 < cwCnt x)%N then _ else _.
have [a1 a2] := foldl_maxn_ge (fun c => maxRank (crank x) c - crank x)%N r1 (carith x).
set r2 := foldl _ r1 _ in a1 a2 *.
set r3 := if hasLin x then _ else r2.
have h23 : (r2 <= r3)%N by rewrite /r3; case: ifP => // _; rewrite leq_maxl.
have [b1 b2] := foldl_maxn_ge (fun c => maxRank (crank x) c + crank x + 1)%N r3 (csum x).
split=> //.
- by move=> h; apply: leq_trans b1; apply: leq_trans h23; apply: leq_trans a1; rewrite /r1 h.
- by move=> c /a2 h; apply: leq_trans b1; apply: leq_trans h23.
- by move=> h; apply: leq_trans b1; rewrite /r3 h leq_maxr.
Qed.
End Range.
