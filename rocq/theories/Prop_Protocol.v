(** Buckler Prove and Verify as a whole.  Properties C31, C42-C45, C72, C73. *)
From Coq Require Import ZArith Lia.
From mathcomp Require Import all_ssreflect all_algebra zify.
From Verif Require Import RingTac Spec UintModel BigpolyModel BitrevProofs NttProofs NttCore UintProofs NttTables
  UintFp PolyProofs RingProofs NormModel BucklerModel DefineModel BucklerSpec FillProofs NormSound ContextProofs
  CheckerProofs NormComplete FillComplete Prop_Norm RangeProofs EncodeProofs CheckProofs CheckSound Prop_Check
  ProtocolModel ProtocolProofs.
Set Implicit Arguments. Unset Strict Implicit. Unset Printing Implicit Defensive.
Import GRing.Theory.
Local Open Scope ring_scope.
Delimit Scope Z_scope with Z.

Section Props.
Variables (F : fieldType) (U : uint F).
Variables (P : pcs F) (H : bytes -> bytes) (name : nat -> bytes).
Variables (setBytes : bytes -> F) (marshal : F -> bytes).
Variable xofProj : nat -> bytes -> seq (seq bool).
Local Notation sb := (setBigInt U).

Section K.
Variables (N p0 n0 : nat) (cs : seq (cmd F)) (x : context F) (T TE : transformer F) (n : nat) (g : F).
Hypothesis K : keys U N p0 n0 cs x T TE n g.
Local Notation E := (trank TE).
Local Notation ProveC := (ProveC U H name setBytes marshal xofProj T TE x).
Local Notation Prove := (Prove U H name setBytes marshal xofProj T TE x).
Local Notation VerifyC := (VerifyC U H name setBytes marshal xofProj T TE x).
Local Notation Verify := (Verify U H name setBytes marshal xofProj T TE x).

Lemma ksec : all (fun i => i < cwCnt x)%N (cwSecond x).
Proof.
have [hin hd] := ks_c K; have [T0 [hw _]] := wf_define (wf_new F N p0 n0) hin hd.
by apply/allP => i; have [_ ->] := wf_sec hw => /andP[/andP[_ ->]].
Qed.

(** * C42.  Whatever proof Prove outputs, for whatever public witnesses Verify is called
    (if it gets that far), it derives the challenges Prove used. *)
Theorem C42_same_challenges (k : coins P) pw0 w0 pf chals ordT pw0' b chals' :
  ProveC k pw0 w0 = Some (pf, chals) -> VerifyC ordT pw0' pf = Some (b, chals') -> chals' = chals.
Proof.
move=> /(prove_chs ksec) ->; rewrite VerifyCE /VerifyE.
case: ifP => // _; case: (fillPw _ _ _ _ _) => // pw; case: ifP => // _; case: ifP => // _.
by case: ifP => // _ [_ <-].
Qed.

(** the ideal commitment scheme: opening what was committed succeeds *)
Definition pcsComplete (k : coins P) : Prop := forall pt polys, size polys = batch x -> all (commitOK P) polys ->
  let cos := [seq pCommit (kC k i) (nth [::] polys i) | i <- iota 0 (size polys)] in
  let r := pEvaluate (kE k) pt polys [seq c.1 | c <- cos] [seq c.2 | c <- cos] in
  r.1 = [seq evalSlice p pt | p <- polys] /\ pVerify pt [seq c.1 | c <- cos] r.1 r.2.

Section Sizes.
Hypothesis hR : (commitRank x <= pRank P)%N.
Lemma arith_size : hasArith x -> (carithMax x - N <= pRank P)%N.
Proof.
move=> ha; apply: leq_trans hR; have [h1 h2 h3 h4] := commitRankP x.
case: (rg_am (kx K)) => [->|[c [hc e]]|[hl ->]] //.
- by rewrite -e -(kN K); exact: h2.
- by apply: leq_trans (h3 hl); rewrite (kN K); lia.
Qed.
Lemma sum_size : hasSum x -> (csumMax x <= pRank P)%N.
Proof.
move=> ha; apply: leq_trans hR; have [h1 h2 h3 h4] := commitRankP x.
case: (rg_sm (kx K)) => [->|[c [hc e]]] //.
by rewrite -e -(kN K); apply: leq_trans (h4 _ hc); rewrite -addnA leq_addr.
Qed.
End Sizes.

Lemma k8 : (3 <= n)%N -> (8 %| crank x)%N /\ (8 %| E)%N.
Proof.
move=> hn; have [m [h [e G]]] := Prop_Check.kE K; have := kEN K.
rewrite (kN2 K) (ks_N K) (gy_rank G) => hlt.
have hm : (n < m)%N by rewrite -(ltn_exp2l n m (isT : 1 < 2)%N).
by rewrite -[8%N]/(2 ^ 3)%N !dvdn_exp2l //; lia.
Qed.

Lemma hasLin_max : hasLin x -> (3 <= n)%N -> (N < carithMax x)%N.
Proof.
move=> hl hn; have := rg_l2 (kx K) hl; have : (2 ^ 3 <= N)%N by rewrite (ks_N K) leq_exp2l.
by lia.
Qed.

Lemma batch_arith (c : nat) (a l s : bool) :
  (c + l + s + (a + ((if l then 3 else 0) + (if s then 3 else 0))))%N
  = (c + (if a then 1 else 0) + (if l then 4 else 0) + (if s then 4 else 0))%N.
Proof. by case: a; case: l; case: s => /=; lia. Qed.

Lemma batch_ge (y : context F) : (cwCnt y + (hasLin y + hasSum y) <= batch y)%N.
Proof. by rewrite /batch; case: (hasArith y); case: (hasLin y); case: (hasSum y) => /=; lia. Qed.

Section Core.
Variable k : coins P.
Variables (pw0 w0 wi pw w w2 : seq (seq F)) (ordT : seq nat).
Hypothesis hn : (3 <= n)%N.
Hypothesis hN32 : (N < 2 ^ 32)%N.
Hypothesis hR : (commitRank x <= pRank P < 2 ^ 32)%N.
Hypothesis hAm : hasArith x -> (N < carithMax x)%N.
Hypothesis hSm : hasSum x -> (N < csumMax x)%N.
Hypothesis eI : fillInf U N (cinf x) (ordInf k) (padw N (cwCnt x) w0) = Some wi.
Hypothesis eT : fillTwo U N (ctwo x) (ordTwo k) 0 (padw N (cpwCnt x) pw0) wi = Some (pw, w).
Hypothesis eP : fillPw U N (ctwo x) ordT (padw N (cpwCnt x) pw0) = Some pw.
Let proj := xofProj N (c0 H name (pB0 T TE x k w)).
Hypothesis e2 : projFill U x k proj w = Some w2.
Hypothesis A : assigns N x pw w2.
Hypothesis same : forall i, (i < cwCnt x)%N -> i \notin cwSecond x -> nth [::] w2 i = nth [::] w i.
Hypothesis hproj : chasProj x -> projOK N proj.
Hypothesis sA : forall i, (i < N)%N -> \sum_(c <- carith x) cval pw w2 i c = 0.
Hypothesis sL : linSat x proj w2.
Hypothesis hpcs : pcsComplete k.

Lemma ecdE i : (i < cwCnt x)%N -> ecdOf T TE x k w w2 i = encW T TE (kW k) w2 i.
Proof. by move=> h; rewrite /ecdOf /wEcd /encW /firstRound; case: ifP => // hf; rewrite same. Qed.

Lemma wNE : wNTTs T TE x k w w2 = wNTT x T TE (kW k) w2.
Proof. by apply/eq_in_map => i; rewrite mem_iota => /andP[_ hi]; rewrite ecdE. Qed.

(** the run of Prove and what Verify answers: only the total over the sum-check constraints
    decides *)
Lemma accept_core : exists pf chals, [/\ ProveC k pw0 w0 = Some (pf, chals), size (pfWitness pf) = batch x &
  let b := setBytes (nth [::] chals 4) in
  Verify ordT pw0 pf = Some (hasSum x ==> (b * b * sumTotal N x pw w2 == 0))].
Proof.
have [h8 h8'] := k8 hn; have eN := kN K; have N0 := kN0 K; have hEN := kEN K.
have /andP[hR1 hR2] := hR.
have [r1 r2 r3 r4] := commitRankP x.
have hRN : (0 < cwCnt x)%N -> (N < pRank P)%N by move=> /r1; rewrite eN => h; apply: leq_trans hR1.
have sizeN : (8 <= N)%N by rewrite (ks_N K) -[8%N]/(2 ^ 3)%N leq_exp2l.
(* the honest evaluations at any point *)
pose B0 := pB0 T TE x k w.
pose hd := headPolys T TE x k w w2.
pose B1 := vB1 marshal x (coms k hd) (linSum TE x k) (sumSum TE x k).
have hev pt tl : honestEvals N x T TE (kW k) w2 pt [seq evalSlice p pt | p <- hd ++ tl].
  move=> i hi; have hih : (i < size hd)%N by rewrite size_headPolys -addnA ltn_addr.
  rewrite (nth_map [::]); last by rewrite size_cat (leq_trans hih) // leq_addr.
  by rewrite nth_cat hih nth_head_w // ecdE // /comPoly eN.

set pwN := [seq fwdNTT TE (encode T E v) | v <- pw].
have eN' : wNTTs T TE x k w w2 = wNTT x T TE (kW k) w2 := wNE.
have hev0 := hev 0 [::].
have [aP [eaP saP caP vaP]] : exists aP, [/\ aPart TE x (setBytes (c1 H name B0 B1)) pwN (wNTTs T TE x k w w2) = Some aP,
    size aP = hasArith x, all (commitOK P) aP & forall pt evals, honestEvals N x T TE (kW k) w2 pt evals ->
    hasArith x ==> vrf_arithCheck x (setBytes (c1 H name B0 B1)) (vanish U x pt) (evalSlice (nth [::] aP 0) pt) evals (pwEvals T TE pw pt)].
  rewrite /aPart eN'; case ha: (hasArith x); last by exists [::].
  have hm := hAm ha.
  have [quo [e1 s1 _]] := arith_core K (setBytes (c1 H name B0 B1)) A hev0 hN32 (ltnW hm) sA.
  exists [:: quo]; rewrite /pwN -/(pwNTT T TE pw) e1; split=> //.
    by rewrite /= andbT /commitOK s1 subn_gt0 hm arith_size.
  move=> pt evals he /=; have [quo' [e1' _ v1]] := arith_core K (setBytes (c1 H name B0 B1)) A he hN32 (ltnW hm) sA.
  by move: e1'; rewrite e1 => -[->].
have [lP [elP slP clP vlP]] : exists lP, [/\ lPart U T TE x proj (setBytes (c2 H name B0 B1)) (setBytes (c3 H name B0 B1)) k (wNTTs T TE x k w w2) = Some lP,
    size lP = (if hasLin x then 3 else 0)%N, all (commitOK P) lP & forall pt evals, honestEvals N x T TE (kW k) w2 pt evals ->
    hasLin x ==> vrf_linCheck U T TE x (pRank P) proj (setBytes (c2 H name B0 B1)) (setBytes (c3 H name B0 B1))
     (evalSlice (take (2 * crank x) (linMask TE x k)) pt) pt (vanish U x pt) (linSum TE x k)
     (evalSlice (nth [::] lP 0) pt) (evalSlice (nth [::] lP 1) pt) (evalSlice (nth [::] lP 2) pt) evals].
  rewrite /lPart eN'; case hl: (hasLin x); last by exists [::].
  have h2N : (2 * N <= pRank P)%N by rewrite -eN; apply: leq_trans hR1; exact: r3.
  have hR' : (N - 1 <= pRank P < 2 ^ 32)%N by rewrite hR2 andbT; lia.
  have em : sumCheckMask TE x (kLin k) (2 * N) = (linMask TE x k, linSum TE x k).
    by rewrite /linMask /linSum -eN; exact: surjective_pairing.
  have [q [lo [hi [e1 [s1 s3 s4] _]]]] := C33_lin_complete K (setBytes (c2 H name B0 B1)) (setBytes (c3 H name B0 B1)) A hev0 hN32 hR' hproj sL em.
  exists [:: q; lo; hi]; rewrite e1; split=> //.
    by rewrite /= andbT /commitOK s1 s3 s4; lia.
  move=> pt evals he /=.
  have [q' [lo' [hi' [e1' _ v1]]]] := C33_lin_complete K (setBytes (c2 H name B0 B1)) (setBytes (c3 H name B0 B1)) A he hN32 hR' hproj sL em.
  by move: e1'; rewrite e1 eN => -[-> -> ->].
have [sP [esP ssP csP vsP]] : exists sP, [/\ sPart TE x (setBytes (c4 H name B0 B1)) k pwN (wNTTs T TE x k w w2) = Some sP,
    size sP = (if hasSum x then 3 else 0)%N, all (commitOK P) sP & forall pt evals, honestEvals N x T TE (kW k) w2 pt evals ->
    hasSum x -> vrf_sumCheck x (pRank P) (setBytes (c4 H name B0 B1))
     (evalSlice (take (csumMax x) (sumMask TE x k)) pt) pt (vanish U x pt) (sumSum TE x k)
     (evalSlice (nth [::] sP 0) pt) (evalSlice (nth [::] sP 1) pt) (evalSlice (nth [::] sP 2) pt) evals (pwEvals T TE pw pt)
    = (setBytes (c4 H name B0 B1) * setBytes (c4 H name B0 B1) * sumTotal N x pw w2 == 0)].
  rewrite /sPart eN'; case hl: (hasSum x); last by exists [::].
  have hm := hSm hl; have hms := sum_size hR1 hl.
  have hR' : (N - 1 <= pRank P < 2 ^ 32)%N by rewrite hR2 andbT; lia.
  have em : sumCheckMask TE x (kSum k) (csumMax x) = (sumMask TE x k, sumSum TE x k).
    by rewrite /sumMask /sumSum; exact: surjective_pairing.
  have [q [lo [hi [e1 [s1 s3 s4] _]]]] := sum_core K (setBytes (c4 H name B0 B1)) A hev0 hN32 hR' (ltnW hm) em.
  exists [:: q; lo; hi]; rewrite /pwN -/(pwNTT T TE pw) e1; split=> //.
    by rewrite /= andbT /commitOK s1 s3 s4; lia.
  move=> pt evals he /=.
  have [q' [lo' [hi' [e1' _ v1]]]] := sum_core K (setBytes (c4 H name B0 B1)) A he hN32 hR' (ltnW hm) em.
  by move: e1'; rewrite e1 => -[-> -> ->] _; rewrite v1.
have N0' : (0 < crank x)%N by rewrite eN.
have hNE : (crank x <= E)%N by rewrite eN ltnW.
have hd_ok : all (commitOK P) hd.
  rewrite /hd /headPolys !all_cat; apply/and3P; split.
  - apply/allP => p /mapP [i]; rewrite mem_iota => /andP[_ hi] ->.
    rewrite ecdE // /comPoly /commitOK size_take /encW.
    rewrite (size_randEncode (ks_G K) (hE' K)) ?(hE'' K) ?(sWW K A) // eN.
    have hRN' := hRN (leq_ltn_trans (leq0n i) hi).
    case: (ltnP N.+1 E) => h; apply/andP; split=> //; first exact: leq_ltn_trans hEN.
    exact: leq_trans h hRN'.
  - case hl: (hasLin x) => //=; rewrite andbT /commitOK.
    have h2N : (2 * crank x <= pRank P)%N by apply: leq_trans hR1; exact: r3.
    have h2E : (2 * crank x <= E)%N by rewrite eN (kE2 K).
    have [M [eM _ _]] := sumCheckMaskP (TE := TE) (x := x) (kLin k) N0' h2E hNE.
    rewrite /linMask eM size_take size_cf.
    by case: (ltnP (2 * crank x) E) => h; lia.
  - case hl: (hasSum x) => //=; rewrite andbT /commitOK.
    have h2E : (csumMax x <= E)%N by have [m [h [-> _]]] := Prop_Check.kE K; have [] := embRank_ge x.
    have [M [eM _ _]] := sumCheckMaskP (TE := TE) (x := x) (kSum k) N0' h2E hNE.
    rewrite /sumMask eM size_take size_cf.
    have := hSm hl; have := sum_size hR1 hl.
    by case: (ltnP (csumMax x) E) => h; lia.
pose tl := aP ++ lP ++ sP.
pose B5 := [seq pSer c.1 | c <- comsAt k (size hd) tl].
pose pt := setBytes (c5 H name B0 B1 B5).
have all_ok : all (commitOK P) (hd ++ tl) by rewrite all_cat hd_ok /tl !all_cat caP clP csP.
have sz : size (hd ++ tl) = batch x.
  rewrite size_cat size_headPolys /tl !size_cat saP slP ssP /batch.
  exact: batch_arith.
set pf := pfOf TE x k hd tl pt.
have [ev1 ev2] : pfEvals pf = [seq evalSlice p pt | p <- hd ++ tl] /\
    pVerify pt (pfWitness pf) (pfEvals pf) (pfEval pf) := hpcs pt sz all_ok.
exists pf, (chs H name B0 B1 B5); split.
- rewrite ProveCE ?ksec // /ProveE h8 h8' eN [(E <= N)%N]leqNgt hEN andbF eI eT -/B0 -/proj e2 -/hd -/B1 eaP elP esP.
  by rewrite -/tl all_ok.
- by rewrite size_coms.
rewrite /Verify VerifyCE /VerifyE h8 eN eP.
have sW : size (pfWitness pf) = batch x by rewrite size_coms.
have sE : size (pfEvals pf) = batch x by rewrite ev1 size_map.
rewrite sW sE ltnNge batch_ge andbF eqxx.
rewrite /=.
have ech : vchs H name marshal x pf = chs H name B0 B1 B5.
  by rewrite /vchs [pfWitness pf]/(coms k (hd ++ tl)) /hd vB0_coms vB5_coms vB1_if vB1_coms ?ksec.
rewrite ech; congr Some.
have nthE i : (pfEvals pf)`_i = if (i < batch x)%N then evalSlice (nth [::] (hd ++ tl) i) pt else 0.
  rewrite ev1; case: ltnP => h; first by rewrite (nth_map [::]) // sz.
  by rewrite nth_default // size_map sz.
have shd : size hd = (cwCnt x + hasLin x + hasSum x)%N := size_headPolys _ _ _ _ _ _.
have hH := hev pt tl; rewrite -ev1 in hH.
have nhd i : (i < size hd)%N -> (pfEvals pf)`_i = evalSlice (nth [::] hd i) pt.
  move=> h; rewrite nthE nth_cat h (leq_trans h) //.
  by rewrite -sz size_cat leq_addr.
have ntl j : (j < size tl)%N -> (pfEvals pf)`_(size hd + j) = evalSlice (nth [::] tl j) pt.
  by move=> h; rewrite nthE -sz size_cat ltn_add2l h nth_cat ltnNge leq_addr /= addKn.
rewrite /vChecks -[nth _ (chs _ _ _ _ _) 5]/(c5 H name B0 B1 B5) -/pt.
rewrite -[nth _ (chs _ _ _ _ _) 4]/(c4 H name B0 B1) -[nth _ (chs _ _ _ _ _) 3]/(c3 H name B0 B1).
rewrite -[nth _ (chs _ _ _ _ _) 2]/(c2 H name B0 B1) -[nth _ (chs _ _ _ _ _) 1]/(c1 H name B0 B1).
rewrite -[nth _ (chs _ _ _ _ _) 0]/(c0 H name B0) -/(pwEvals T TE pw pt).
rewrite -[Exp pt _ - _]/(vanish U x pt) eN -/proj.
rewrite ev2 andTb -shd.
have hA := vaP _ _ hH; have hL := vlP _ _ hH; have hS := vsP _ _ hH.
have stl : size tl = (size aP + (size lP + size sP))%N by rewrite !size_cat.
have na : hasArith x -> (pfEvals pf)`_(size hd) = evalSlice (nth [::] aP 0) pt.
  move=> ha; rewrite -[size hd]addn0 ntl ?stl ?saP ?ha // nth_cat saP ha //.
have nl j : (j < size lP)%N -> (pfEvals pf)`_(size hd + hasArith x + j) = evalSlice (nth [::] lP j) pt.
  move=> hj; rewrite -addnA ntl; last by rewrite stl saP ltn_add2l (leq_trans hj) // leq_addr.
  by rewrite nth_cat saP ltnNge leq_addr /= addKn nth_cat hj.
have ns j : (j < size sP)%N ->
    (pfEvals pf)`_(size hd + hasArith x + (if hasLin x then 3%N else 0%N) + j) = evalSlice (nth [::] sP j) pt.
  move=> hj; rewrite -!addnA ntl; last by rewrite stl saP slP !ltn_add2l.
  by rewrite nth_cat saP ltnNge leq_addr /= addKn nth_cat slP ltnNge leq_addr /= addKn.
set a1 := hasArith x ==> _; have -> : a1.
  by apply/implyP => ha; rewrite na //; exact: (implyP hA).
set l1 := hasLin x ==> _; have -> : l1.
  apply/implyP => hl; have := implyP hL hl; rewrite hl in slP.
  have -> : pfLinSum pf = linSum TE x k by rewrite /= hl.
  have := nl 0%N; rewrite addn0 slP => -> //; rewrite !nl ?slP // nhd; last by rewrite shd hl; case: (hasSum x); rewrite ?addn1 ?addn0 //.
  by rewrite (nth_head_lin _ _ _ _ _ hl).
rewrite !andTb; case hs: (hasSum x) => //; have := hS hs; rewrite hs in ssP.
  have -> : pfSumSum pf = sumSum TE x k by rewrite /= hs.
  rewrite !implyTb.
  have := ns 0%N; rewrite addn0 ssP => -> //; rewrite !ns ?ssP // nhd; last by rewrite shd hs addn1.
  by rewrite (nth_head_sum _ _ _ _ _ hs).
Qed.
End Core.

(** * C72 *)

(** what the theorems of this file assume of the run: rank at least 8 (block copies), sizes
    in int range, PCS parameters as Compile chooses them, at least one witness in some
    arithmetic (sum-check) constraint if there are any, an ideal commitment scheme, and a
    matrix of the right shape *)
Record setting (k : coins P) : Prop := Setting {
  se_n : (3 <= n)%N;
  se_N : (N < 2 ^ 32)%N;
  se_R : (commitRank x <= pRank P < 2 ^ 32)%N;
  se_A : hasArith x -> (N < carithMax x)%N;
  se_S : hasSum x -> (N < csumMax x)%N;
  se_pcs : pcsComplete k;
  se_xof : forall d, size (xofProj N d) = 128%N /\ all (fun r => size r == N) (xofProj N d)
}.

Lemma run_honest env (k : coins P) pw0 w0 ordT :
  setting k -> honest U N p0 n0 env cs x (ordInf k) (ordTwo k) (ordProj k) (ordProjD k) pw0 w0 ->
  isOrder (ctwo x) ordT ->
  (forall d c, List.In c cs -> cmdOK U N (xofProj N d) pw0 w0 c) ->
  exists pf chals, [/\ ProveC k pw0 w0 = Some (pf, chals), size (pfWitness pf) = batch x &
    let b := setBytes (nth [::] chals 4) in
    Verify ordT pw0 pf = Some (hasSum x ==> (b * b * (\sum_(s <- csums x) sb s) == 0))].
Proof.
move=> [hn hN32 hR hAm hSm hpcs hxof] ho oT' hok.
have [hN [hin hd] henv u1 u2 u3 hf h1 h128 hD oI oT oP oD sw sp gw gp] := ho.
have [wi [pw [w1 [e1 e2 e3 [s1 g1 [s2 g2] h]]]]] :=
  define_complete hN hin hd henv u1 u2 u3 hf h1 h128 hD oI oT oP oD sw sp gw gp.
set proj := xofProj N (c0 H name (pB0 T TE x k w1)).
have [xs xr] := hxof (c0 H name (pB0 T TE x k w1)).
have [w2 [e4 [s4 g4] n4 k4 [a1 a2 a3 _]]] := h proj xs xr (hok _).
have eP : fillPw U N (ctwo x) ordT (padw N (cpwCnt x) pw0) = Some pw.
  rewrite -e3; have [T0 [hw _]] := wf_define (wf_new F N p0 n0) hin hd.
  have hwf := wf_twoWF hw; rewrite (kN K) in hwf.
  have hp := wf_p hw.
  apply: (fillPw_order U hwf hf) => //; first by rewrite size_padw ?sp.
  by apply: goodw_padw => //; rewrite sp.
have ePF : projFill U x k proj w1 = Some w2.
  move: e4; rewrite /projFill (kN K); case: ifP => // /h128 h8 e4.
  by rewrite ltnNge h8.
have A : assigns N x pw w2 by [].
have hp : chasProj x -> projOK N proj.
  by move=> /h128 h8; rewrite /projOK xs h8.
have sA i : (i < N)%N -> \sum_(c <- carith x) cval pw w2 i c = 0.
  move=> hi; have: forall c, List.In c (carith x) -> cval pw w2 i c = 0.
    by move=> c hc; apply: a1 => //; rewrite (kN K).
  elim: (carith x) => [|c l IH] hc; first by rewrite big_nil.
  by rewrite big_cons hc ?IH ?addr0 //; [move=> d hd'; apply: hc; right|left].
rewrite -(sumSat_total K (csum_sizes K) a2).
apply: (accept_core hn hN32 hR hAm hSm e1 e2 eP ePF A _ hp sA a3 hpcs).
by move=> i hi hi2; apply: k4.
Qed.

(** C72, partial: the restrictions of [honest] and [setting], and declared sums that add up
    to zero.  Each of them is needed: C19_power_of_two_refuted, C22_two_constraints_refuted,
    C74_repeated_refuted, C72_degree_zero_refuted, C72_nonzero_sum_refuted. *)
Theorem C72_honest_accepted_partial env (k : coins P) pw0 w0 ordT :
  setting k -> honest U N p0 n0 env cs x (ordInf k) (ordTwo k) (ordProj k) (ordProjD k) pw0 w0 ->
  isOrder (ctwo x) ordT ->
  (forall d c, List.In c cs -> cmdOK U N (xofProj N d) pw0 w0 c) ->
  \sum_(s <- csums x) sb s = 0 ->
  exists pf, Prove k pw0 w0 = Some pf /\ Verify ordT pw0 pf = Some true.
Proof.
move=> hs ho oT hok h0; have [pf [ch [e1 _ e2]]] := run_honest hs ho oT hok.
exists pf; rewrite /ProtocolModel.Prove e1; split=> //.
by rewrite e2 h0 mulr0 eqxx implybT.
Qed.

(** An honest proof of a true statement with a non-zero declared sum is rejected, unless the
    batching challenge happens to be zero. *)
Theorem C72_nonzero_sum_refuted env (k : coins P) pw0 w0 ordT :
  setting k -> honest U N p0 n0 env cs x (ordInf k) (ordTwo k) (ordProj k) (ordProjD k) pw0 w0 ->
  isOrder (ctwo x) ordT ->
  (forall d c, List.In c cs -> cmdOK U N (xofProj N d) pw0 w0 c) ->
  \sum_(s <- csums x) sb s != 0 ->
  exists pf chals, ProveC k pw0 w0 = Some (pf, chals) /\
    (setBytes (nth [::] chals 4) != 0 -> Verify ordT pw0 pf = Some false).
Proof.
move=> hs ho oT hok h0; have [pf [ch [e1 _ e2]]] := run_honest hs ho oT hok.
exists pf, ch; split=> // hb; rewrite e2; congr Some; apply/negbTE; rewrite negb_imply !mulf_neq0 // andbT.
have hsz := csum_sizes K; rewrite /hasSum hsz; apply: contraNltn h0.
by rewrite leqn0 => /nilP ->; rewrite big_nil.
Qed.

(** A circuit all of whose arithmetic constraints have no witness in them cannot be proved
    at all: the quotient to commit is empty, and Commit panics. *)
Theorem C72_degree_zero_refuted (k : coins P) pw0 w0 : hasArith x -> (carithMax x <= N)%N -> Prove k pw0 w0 = None.
Proof.
move=> ha hm; rewrite /ProtocolModel.Prove ProveCE ?ksec // /ProveE.
case: ifP => // _; case: (fillInf _ _ _ _ _) => // wi.
case: (fillTwo _ _ _ _ _ _ _) => // -[pw w]; case: (projFill _ _ _ _ _) => // w2.
case ea: (aPart _ _ _ _ _) => [aP|] //; case: (lPart _ _ _ _ _ _ _ _ _) => // lP; case: (sPart _ _ _ _ _ _) => // sP.
case: ifP => // /negbFE; rewrite !all_cat => /and3P[_ hA _]; move: ea hA.
rewrite /aPart ha /prv_arithCheck (kN K); case: ltnP => // hlt [<-] /=.
by rewrite andbT /commitOK (eqP (hm : carithMax x - N == 0)%N) take0.
Qed.

(** * C31 *)

(** Every proof Prove returns has exactly batch() commitments, commitment i to polynomial i,
    and the polynomial commitment scheme is asked to open those polynomials in that order. *)
Theorem C31_commit_count (k : coins P) pw0 w0 pf chals : ProveC k pw0 w0 = Some (pf, chals) ->
  exists polys, [/\ size polys = batch x, all (fun p => 0 < size p <= pRank P)%N polys,
    pfWitness pf = [seq (pCommit (kC k i) (nth [::] polys i)).1 | i <- iota 0 (batch x)] &
    (pfEvals pf, pfEval pf) = pEvaluate (kE k) (setBytes (nth [::] chals 5)) polys (pfWitness pf)
      [seq (pCommit (kC k i) (nth [::] polys i)).2 | i <- iota 0 (batch x)]].
Proof.
rewrite ProveCE ?ksec // /ProveE.
case: ifP => // _; case: (fillInf _ _ _ _ _) => // wi.
case: (fillTwo _ _ _ _ _ _ _) => // -[pw w]; case: (projFill _ _ _ _ _) => // w2.
set hd := headPolys _ _ _ _ _ _.
case ea: (aPart _ _ _ _ _) => [aP|] //; case el: (lPart _ _ _ _ _ _ _ _ _) => [lP|] //.
case es: (sPart _ _ _ _ _ _) => [sP|] //; case: ifP => // /negbFE hok.
set tl := aP ++ lP ++ sP in hok *; set pt := setBytes (c5 _ _ _ _ _) => -[<- <-].
have sz : size (hd ++ tl) = batch x.
  have sa : size aP = hasArith x.
    by move: ea; rewrite /aPart; case: (hasArith x) => [|[<-]] //; case: (prv_arithCheck _ _ _ _ _) => // q [<-].
  have sl : size lP = (if hasLin x then 3 else 0)%N.
    by move: el; rewrite /lPart; case: (hasLin x) => [|[<-]] //; case: (prv_linCheck _ _ _ _ _ _ _ _ _ _) => // q [<-].
  have ss : size sP = (if hasSum x then 3 else 0)%N.
    by move: es; rewrite /sPart; case: (hasSum x) => [|[<-]] //; case: (prv_sumCheck _ _ _ _ _ _ _) => // q [<-].
  by rewrite size_cat size_headPolys /tl !size_cat sa sl ss /batch; exact: batch_arith.
exists (hd ++ tl); split=> //.
  by rewrite /= /coms /comsAt -map_comp sz; apply/eq_in_map => j _.
rewrite /= -surjective_pairing; congr pEvaluate.
by rewrite /opns /comsAt -map_comp sz; apply/eq_in_map => j _.
Qed.

(** With the rank Compile gives the commitment scheme, none of these Commit calls is refused
    for a too long polynomial: Prove does return (the restrictions of C72). *)
Theorem C31_sizes_partial env (k : coins P) pw0 w0 :
  setting k -> honest U N p0 n0 env cs x (ordInf k) (ordTwo k) (ordProj k) (ordProjD k) pw0 w0 ->
  (forall d c, List.In c cs -> cmdOK U N (xofProj N d) pw0 w0 c) ->
  exists pf chals, ProveC k pw0 w0 = Some (pf, chals) /\ size (pfWitness pf) = batch x.
Proof.
move=> hs ho hok; have [pf [ch [e1 e2 _]]] := run_honest hs ho (ho_oT ho) hok.
by exists pf, ch.
Qed.

(** * C43, C44: the statement is not bound *)

(** The challenges do not depend on the public witnesses at all, whatever the hash. *)
Theorem C43_statement_unbound_refuted ordT ordT' pw0 pw0' (pf : proof P) b b' chals chals' :
  VerifyC ordT pw0 pf = Some (b, chals) -> VerifyC ordT' pw0' pf = Some (b', chals') -> chals = chals'.
Proof.
rewrite !VerifyCE /VerifyE; case: ifP => // _.
case: (fillPw _ _ _ _ _) => // pw; case: (fillPw _ _ _ _ _) => // pw'.
by case: ifP => // _; case: ifP => // _; case: ifP => // _ [_ <-] [_ <-].
Qed.

Definition statement (pw0 : seq (seq F)) : Prop := size pw0 = p0 /\ goodw N pw0.
(** the point at which a proof is checked: the last challenge *)
Definition pointOf (pf : proof P) : F := setBytes (nth [::] (vchs H name marshal x pf) 5).
(** the polynomial of degree < N through a public vector *)
Local Notation interp := (interp T).

Lemma fillPw_two ordT pw0 pw0' : isOrder (ctwo x) ordT -> twoFits N (ctwo x) -> statement pw0 -> statement pw0' ->
  exists pw pw', [/\ fillPw U N (ctwo x) ordT (padw N (cpwCnt x) pw0) = Some pw,
    fillPw U N (ctwo x) ordT (padw N (cpwCnt x) pw0') = Some pw',
    [/\ size pw = cpwCnt x, size pw' = cpwCnt x, goodw N pw & goodw N pw'],
    (forall a, (a < p0)%N -> nth [::] pw a = nth [::] pw0 a /\ nth [::] pw' a = nth [::] pw0' a) &
    forall a, (p0 <= a < cpwCnt x)%N -> nth [::] pw a = nth [::] pw' a].
Proof.
move=> [uT oT] hf [s1 g1] [s2 g2]; have [hin hd] := ks_c K.
have [T0 [hw _]] := wf_define (wf_new F N p0 n0) hin hd.
have hwf := wf_twoWF hw; rewrite (kN K) in hwf; have hp := wf_p hw.
have pd (q : seq (seq F)) : size q = p0 -> goodw N q -> size (padw N (cpwCnt x) q) = cpwCnt x /\ goodw N (padw N (cpwCnt x) q).
  by move=> sq gq; rewrite size_padw ?sq //; split=> //; apply: goodw_padw; rewrite ?sq.
have [S1 G1] := pd _ s1 g1; have [S2 G2] := pd _ s2 g2.
have [|pw [e1 z1 h1 k1 d1]] := fillPwP U hwf hf uT _ G1; first by rewrite S1.
have [|pw' [e2 z2 h2 k2 d2]] := fillPwP U hwf hf uT _ G2; first by rewrite S2.
exists pw, pw'; split=> //; first by rewrite z1 z2 S1 S2.
  move=> a ha; rewrite k1 ?k2 ?nth_padw_lt ?s1 ?s2 // => id B pb pm wd _ /(proj1 hwf)[_ h3 h4 _ _]; lia.
move=> a /andP[ha1 ha2].
have zz k : slot (padw N (cpwCnt x) pw0) a k = slot (padw N (cpwCnt x) pw0') a k.
  by rewrite /slot !nth_padw_ge // ?s1 ?s2 ?ha1.
apply: (@eq_from_nth _ 0); first by rewrite h1 ?h2 ?z1 ?z2 ?S1 ?S2.
move=> k _; rewrite -!/(slot _ _ _).
pose hit id := if aget (ctwo x) id is Some e then (a == e.1.1.2) || (a == e.1.2) else false.
have [/hasP[id hid]|hno] := boolP (has hit ordT); last first.
  rewrite /slot k1 ?k2; [exact: zz| |] => id B pb pm wd hi hm'.
    by move/hasPn/(_ id hi): hno; rewrite /hit hm' /= negb_or.
  by move/hasPn/(_ id hi): hno; rewrite /hit hm' /= negb_or.
rewrite /hit; case Em: (aget _ id) => [[[[B pb] pm] wd]|] //= h.
have [base [Eb hb]] := hf _ _ _ _ _ Em.
have [x1 y1] := d1 _ _ _ _ _ _ hid Em Eb; have [x2 y2] := d2 _ _ _ _ _ _ hid Em Eb.
case/orP: h => /eqP ea; rewrite ea in zz *; first by rewrite x1 x2 zz.
by rewrite y1 y2 zz.
Qed.

(** Verify cannot tell apart two statements whose polynomials agree at the one point. *)
Theorem C44_collision_refuted ordT pw0 pw0' (pf : proof P) : isOrder (ctwo x) ordT -> twoFits N (ctwo x) ->
  statement pw0 -> statement pw0' ->
  (forall a, (a < p0)%N -> (interp (nth [::] pw0 a)).[pointOf pf] = (interp (nth [::] pw0' a)).[pointOf pf]) ->
  Verify ordT pw0' pf = Verify ordT pw0 pf.
Proof.
move=> oT hf st st' he; have [pw [pw' [e1 e2 [s1 s2 g1 g2] kp kp']]] := fillPw_two oT hf st st'.
rewrite /ProtocolModel.Verify !VerifyCE /VerifyE (kN K) e1 e2.
case: ifP => // _; case: ifP => // _; case: ifP => // _; case: ifP => // _ /=; congr Some.
rewrite /vChecks -/(pointOf pf); set l' := [seq _ | v <- pw']; set l := [seq _ | v <- pw].
suff -> : l' = l by [].
apply: (@eq_from_nth _ 0); first by rewrite !size_map s1 s2.
rewrite size_map s2 => a ha; rewrite !(nth_map [::]) ?s1 ?s2 // /evalSlice !evalSliceE !pevalE.
rewrite !(Poly_encode (ks_G K) (hE' K)) ?g1 ?g2 ?s1 ?s2 //; try exact: ks_N K.
case: (ltnP a p0) => h; last by rewrite kp' ?h.
by have [-> ->] := kp _ h; rewrite he.
Qed.

(** Hence every accepted proof is accepted for another statement too. *)
Theorem C44_other_statement_refuted ordT pw0 (pf : proof P) : isOrder (ctwo x) ordT -> twoFits N (ctwo x) ->
  (0 < p0)%N -> (1 < N)%N -> statement pw0 -> Verify ordT pw0 pf = Some true ->
  exists pw0', [/\ statement pw0', pw0' != pw0 & Verify ordT pw0' pf = Some true].
Proof.
move=> oT hf hp hN [sp gp] hv; set pt := pointOf pf; have G := ks_G K; have eN2 := ks_N K.
pose v := nth [::] pw0 0; have sv : size v = (2 ^ n)%N by rewrite gp -?eN2 ?sp.
pose v' := mkseq (fun i => v`_i + (cpt n g i - pt)) (2 ^ n); have sv' : size v' = (2 ^ n)%N by rewrite size_mkseq.
have hN2 : (1 < 2 ^ n)%N by rewrite -eN2.
have ei : interp v' = interp v + ('X - pt%:P).
  have eV := @cong_of_vals _ _ _ _ G (interp v') (interp v + ('X - pt%:P)).
  rewrite -[LHS](@modp_small _ _ ('X^(2 ^ n) - 1)); last first.
    by rewrite (size_V _ (ltnW hN2)) ltnS (size_interp T).
  rewrite -[RHS](@modp_small _ _ ('X^(2 ^ n) - 1)); last first.
    rewrite (size_V _ (ltnW hN2)) ltnS; apply: leq_trans (size_add _ _) _.
    by rewrite geq_max (size_interp T) //= size_XsubC.
  apply: eV => i hi; rewrite hornerD !(interp_val G) // nth_mkseq // !hornerE.
  by [].
have hne : v' != v.
  apply/eqP => e; have h0 i : (i < 2 ^ n)%N -> cpt n g i = pt.
    move=> hi; have := congr1 (fun l => l`_i) e; rewrite nth_mkseq // => /eqP.
    by rewrite -subr_eq0 addrC addKr subr_eq0 => /eqP.
  have n0' : (0 < 2 ^ n)%N by rewrite ltnW.
  by have := cpt_inj G n0' hN2; rewrite !h0 // => /(_ erefl).
exists (set_nth [::] pw0 0 v'); have sz : size (set_nth [::] pw0 0 v') = p0.
  by rewrite size_set_nth sp (maxn_idPr _).
have st' : statement (set_nth [::] pw0 0 v').
  split=> // a; rewrite sz => ha; rewrite nth_set_nth /=; case: eqP => _; first by rewrite sv' eN2.
  by rewrite gp ?sp.
split=> //.
  apply: contraNneq hne => /(congr1 (fun l => nth [::] l 0)).
  by rewrite nth_set_nth /= => ->.
rewrite -hv; apply: C44_collision_refuted => //.
move=> a ha; rewrite nth_set_nth /=; case: eqP => [->|] //.
by rewrite ei hornerD hornerXsubC subrr addr0.
Qed.

(** * C45 *)

(** Verify answers exactly on the proofs with the right number of commitments and
    evaluations (the elements inside are outside the model: the jindo part has its own
    statement, C45 in Prop_Jindo). *)
Theorem C45_verify_total_partial ordT pw0 (pf : proof P) : (3 <= n)%N -> isOrder (ctwo x) ordT -> twoFits N (ctwo x) ->
  statement pw0 ->
  (exists b, Verify ordT pw0 pf = Some b) <-> (size (pfWitness pf) = batch x /\ size (pfEvals pf) = batch x).
Proof.
move=> hn oT hf st; have [h8 _] := k8 hn.
have [pw [_ [e1 _ _ _ _]]] := fillPw_two oT hf st st.
rewrite /ProtocolModel.Verify !VerifyCE /VerifyE h8 (kN K) e1 /=.
split=> [[b]|[-> ->]].
  by case: ifP => // _; case: ifP => // _; case: ifP => // /negbT; rewrite negb_or !negbK => /andP[/eqP -> /eqP ->].
by rewrite ltnNge batch_ge andbF eqxx /=; eexists.
Qed.

(** One evaluation too many makes Verify panic instead of returning false. *)
Theorem C45_panics_refuted ordT pw0 (pf : proof P) : exists pf', [/\ pfWitness pf' = pfWitness pf, pfEval pf' = pfEval pf &
  Verify ordT pw0 pf' = None].
Proof.
exists (Proof (pfWitness pf) (pfLinSum pf) (pfSumSum pf) (nseq (batch x).+1 0) (pfEval pf)); split=> //.
rewrite /ProtocolModel.Verify VerifyCE /VerifyE /= size_nseq.
case: ifP => // _; case: (fillPw _ _ _ _ _) => // pw; case: ifP => // _; case: ifP => // _.
by rewrite [_.+1 == _]gtn_eqF ?orbT.
Qed.
End K.
End Props.

(** * Concrete instances *)

(** the ideal commitment scheme over Z/193: a commitment is the polynomial itself *)
Definition idPcs : pcs F193 := @Pcs F193 (seq F193) unit unit unit 64
  (fun _ p => (p, tt)) (fun p => [seq nat_of_ord a | a <- p])
  (fun _ pt ps _ _ => ([seq evalSlice p pt | p <- ps], tt))
  (fun pt cs es _ => es == [seq evalSlice p pt | p <- cs]).
Definition exH (b : bytes) : bytes := [:: sumn b; size b].
Definition exName (i : nat) : bytes := [:: i].
Definition exSet (b : bytes) : F193 := (sumn b)%:R.
Definition exMar (a : F193) : bytes := [:: nat_of_ord a].
Definition exXof (N : nat) (_ : bytes) : seq (seq bool) := nseq 128 (nseq N true).
Definition exCoins : coins idPcs :=
  @Coins F193 idPcs (fun i => i%:R) (fun i => (3 * i + 1)%N%:R) (fun i => (5 * i)%N%:R) (fun _ => tt) tt
    [::] [::] [::] [::].

Lemma idComplete (x : context F193) (k : coins idPcs) : pcsComplete x k.
Proof.
move=> pt polys _ _ /=; split=> //; apply/eqP.
set l := [seq c.1 | c <- _]; have -> : l = polys; last by [].
by rewrite /l -map_comp -[RHS](mkseq_nth [::]).
Qed.

Lemma exSetting s T TE n g : keys U193 8 1 2 (exc s) (exx s) T TE n g -> setting exXof 8 (exx s) n exCoins.
Proof.
move=> K; split.
- by rewrite -(@leq_exp2l 2) // -(ks_N K).
- by rewrite -[8%N]/(2 ^ 3)%N ltn_exp2l.
- apply/andP; split; first by vm_compute.
  by rewrite -[pRank _]/(2 ^ 6)%N ltn_exp2l.
- by move=> _; vm_compute.
- by move=> _; vm_compute.
- exact: idComplete.
- by move=> d; split=> //; rewrite all_nseq size_nseq eqxx.
Qed.

Lemma exHonest s : honest U193 8 1 2 (fun _ => OUser exrev exrev) (exc s) (exx s) [::] [::] [::] [::] expw exw2.
Proof.
by split=> //; try (by split=> //; move=> []); try (by move=> [|[|//]]);
  move=> c [<-|[<-|[<-|//]]].
Qed.

(** the circuit of Prop_Check, run end to end: accepted for declared sum 0 *)
Example ex_C72 : exists T TE n g pf, [/\ keys U193 8 1 2 (exc 0) (exx 0) T TE n g,
  Prove U193 exH exName exSet exMar exXof T TE (exx 0) exCoins expw exw2 = Some pf &
  Verify U193 exH exName exSet exMar exXof T TE (exx 0) [::] expw pf = Some true].
Proof.
have [T [TE [n [g [K _ sA sL [_ sS _ _]]]]]] := ex_checks 0.
have [|d c||pf [h1 h2]] := @C72_honest_accepted_partial _ _ _ exH exName exSet exMar exXof _ _ _ _ _ _ _ _ _ K
  _ exCoins expw exw2 [::] (exSetting K) (exHonest 0).
- by split=> //; move=> [].
- case=> [<-|[<-|[<-|//]]] /=.
  + by move=> i hi; apply: sA => //; left.
  + by rewrite (sS exS 0%Z) //; left.
  + by [].
- by rewrite big_seq1 sb0.
by exists T, TE, n, g, pf.
Qed.

(** The same run gives the hypotheses of C31, C42-C45: a returned and accepted proof of a
    circuit with one public vector; here C44 applied to it. *)
Example ex_C44 : exists T TE n g (pf : proof idPcs) pw', [/\ keys U193 8 1 2 (exc 0) (exx 0) T TE n g,
  Verify U193 exH exName exSet exMar exXof T TE (exx 0) [::] expw pf = Some true, pw' != expw &
  Verify U193 exH exName exSet exMar exXof T TE (exx 0) [::] pw' pf = Some true].
Proof.
have [T [TE [n [g [pf [K _ hv]]]]]] := ex_C72.
have [||//|//||pw' [h1 h2 h3]] := C44_other_statement_refuted K _ _ _ _ _ hv.
- by split=> // -[].
- by move=> ? ? ? ? ? [].
- by split=> //; case.
by exists T, TE, n, g, pf, pw'.
Qed.

(** a circuit whose only arithmetic constraint has no witness: Prove panics *)
Example ex_C72_degree_zero : let c := [:: Term 1 (Some 0%N) [::]] : constraint F193 in
  let x := AddArithmeticConstraint (newContext F193 8 1 1) c in
  [/\ cval expw [:: nseq 8 0] 1 c = 0, hasArith x & (carithMax x <= 8)%N].
Proof. by split=> //; rewrite /cval !unlock; apply/eqP; vm_compute. Qed.

(** * C78 *)

(** The circuit w0^2 = 0, -w0^2 = 0 and the vector w0 = (1,...,1), which violates both at every
    slot: Prove does not notice, and Verify accepts, for all hash functions, challenges and
    coins. *)
Theorem C78_false_statement_refuted : exists cs x T TE n g w0,
  [/\ keys U193 8 0 1 cs x T TE n g, size w0 = 1%N,
      forall c, List.In c (carith x) -> forall i, (i < 8)%N -> cval [::] w0 i c != 0 &
  forall (P : pcs F193) H name setBytes marshal xofProj (k : coins P),
  (commitRank x <= pRank P < 2 ^ 32)%N -> pcsComplete x k ->
  ordInf k = [::] -> ordTwo k = [::] ->
  exists pf, Prove U193 H name setBytes marshal xofProj T TE x k [::] w0 = Some pf /\
    Verify U193 H name setBytes marshal xofProj T TE x [::] [::] pf = Some true].
Proof.
pose c1 : constraint F193 := [:: Term 1 None [:: 0; 0]%N]; pose c2 : constraint F193 := [:: Term (-1) None [:: 0; 0]%N].
pose cs := [:: CArith c1; CArith c2].
pose x := AddArithmeticConstraint (AddArithmeticConstraint (newContext F193 8 0 1) c1) c2.
have [|||T [TE [n [g K]]]] := @keys193 0 1 cs x.
- by split.
- by move=> c [<-|[<-|//]].
- by right; left; vm_compute.
exists cs, x, T, TE, n, g, [:: nseq 8 1].
have A : assigns 8 x [::] [:: nseq 8 (1 : F193)] by split=> //; move=> [|//].
split=> //.
- by move=> c [<-|[<-|//]]; apply: (@case8 (fun i => cval _ _ i _ != 0)); rewrite /cval /tval_ !unlock; vm_compute.
move=> P H name setBytes marshal xofProj k hR hc oI oT.
have sA i : (i < 8)%N -> \sum_(c <- carith x) cval [::] [:: nseq 8 (1 : F193)] i c = 0.
  apply: (@case8 (fun i => \sum_(c <- carith x) cval _ _ i c = 0)); rewrite !big_cons big_nil /cval /tval_ !unlock /=; apply/eqP; by vm_compute.
have hn : (3 <= n)%N by rewrite -(@leq_exp2l 2) // -(ks_N K).
have h32 : (8 < 2 ^ 32)%N by rewrite -[8%N]/(2 ^ 3)%N ltn_exp2l.
have [|||||||||pf [ch [e1 _ e2]]] := @accept_core _ _ P H name setBytes marshal xofProj _ _ _ _ _ _ _ _ _ K k
  [::] [:: nseq 8 1] [:: nseq 8 1] [::] [:: nseq 8 1] [:: nseq 8 1] [::] hn h32 hR _ _ _ _ _ _ A _ _ sA _ hc.
all: rewrite ?oI ?oT //.
by exists pf; rewrite /Prove e1.
Qed.

(** Likewise a declared sum: the circuit of [ex_C72] with the sum 4 declared, and the vectors
    whose sum is 0. *)
Theorem C78_false_sum_refuted : exists cs x T TE n g pw0 w0,
  [/\ keys U193 8 1 2 cs x T TE n g, ~ sumSat U193 x pw0 w0 &
  forall (P : pcs F193) H name setBytes marshal xofProj (k : coins P),
  (commitRank x <= pRank P < 2 ^ 32)%N -> pcsComplete x k ->
  ordInf k = [::] -> ordTwo k = [::] ->
  exists pf, Prove U193 H name setBytes marshal xofProj T TE x k pw0 w0 = Some pf /\
    Verify U193 H name setBytes marshal xofProj T TE x [::] pw0 pf = Some true].
Proof.
have [T [TE [n [g [K A sA sL [tot _ hA hS]]]]]] := ex_checks 4.
exists (exc 4), (exx 4), T, TE, n, g, expw, exw2; split=> //.
  move=> ss; have := ss exS 4%Z (or_introl erefl); move: tot; rewrite /sumTotal big_seq1 => ->.
  by move/eqP; apply/negP; vm_compute.
move=> P H name setBytes marshal xofProj k hR hc oI oT.
have hn : (3 <= n)%N by rewrite -(@leq_exp2l 2) // -(ks_N K).
have h32 : (8 < 2 ^ 32)%N by rewrite -[8%N]/(2 ^ 3)%N ltn_exp2l.
have sA' i : (i < 8)%N -> \sum_(c <- carith (exx 4)) cval expw exw2 i c = 0.
  by move=> hi; rewrite big_seq1; apply: sA => //; left.
have [|||||||||pf [ch [e1 _ e2]]] := @accept_core _ _ P H name setBytes marshal xofProj _ _ _ _ _ _ _ _ _ K k
  expw exw2 exw2 expw exw2 exw2 [::] hn h32 hR _ _ _ _ _ _ A _ _ sA' _ hc.
all: rewrite ?oI ?oT //.
  by move=> chk o i [<-|//] [[<- <-]|//].
by exists pf; rewrite /Prove e1 e2 tot mulr0 eqxx.
Qed.

Print Assumptions C31_commit_count.
Print Assumptions C31_sizes_partial.
Print Assumptions C42_same_challenges.
Print Assumptions C43_statement_unbound_refuted.
Print Assumptions C44_collision_refuted.
Print Assumptions C44_other_statement_refuted.
Print Assumptions C45_verify_total_partial.
Print Assumptions C45_panics_refuted.
Print Assumptions C72_honest_accepted_partial.
Print Assumptions C72_nonzero_sum_refuted.
Print Assumptions C72_degree_zero_refuted.
Print Assumptions C78_false_statement_refuted.
Print Assumptions C78_false_sum_refuted.
