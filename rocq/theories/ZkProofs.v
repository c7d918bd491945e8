(** What a proof shows of the witness: the opened values of an honest run, entry by entry. *)
From Coq Require Import ZArith Lia.
From mathcomp Require Import all_ssreflect all_algebra zify.
From Verif Require Import RingTac Spec UintModel BigpolyModel BitrevProofs NttProofs NttCore UintProofs NttTables
  UintFp PolyProofs RingProofs NormModel BucklerModel DefineModel BucklerSpec FillProofs NormSound ContextProofs
  CheckerProofs NormComplete FillComplete Prop_Norm RangeProofs EncodeProofs CheckProofs CheckSound Prop_Check
  ProtocolModel ProtocolProofs Prop_Protocol.
Set Implicit Arguments. Unset Strict Implicit. Unset Printing Implicit Defensive.
Import GRing.Theory.
Local Open Scope ring_scope.
Delimit Scope Z_scope with Z.

(** * The mask, with its quotient *)
Section Mask.
Variables (F : fieldType) (TE : transformer F) (x : context F) (coins : nat -> F).
Local Notation N := (crank x).
Local Notation E := (trank TE).
Local Notation V := ('X^N - 1 : {poly F}).
Hypothesis N0 : (0 < N)%N.

Definition maskQ (mr : nat) : {poly F} := \poly_(i < mr - N) coins (N + i)%N.
Definition maskP (mr : nat) : {poly F} := maskHead x coins + maskQ mr * V.

Lemma mask_loopQ k : (N + k <= E)%N ->
  let m := foldl (fun m i => let m := set_nth 0 m i (coins i) in
     set_nth 0 m (i - N)%N (m`_(i - N) - m`_i)) (mkseq coins N ++ nseq (E - N) 0) (iota N k) in
  [/\ size m = E, forall i, (N + k <= i)%N -> m`_i = 0 & Poly m = maskHead x coins + (\poly_(i < k) coins (N + i)%N) * V].
Proof.
elim: k => [|k IH] hk.
  split=> /=.
  - by rewrite size_cat size_mkseq size_nseq subnKC //; lia.
  - by move=> i; rewrite addn0 => hi; rewrite nth_cat size_mkseq ltnNge hi /= nth_nseq; case: ifP.
  - by rewrite poly_def big_ord0 mul0r addr0 Poly_cat0.
have [|sm zm eQ] := IH; first by lia.
rewrite -addn1 iotaD foldl_cat; set m := foldl _ _ (iota N k) in sm zm eQ *; cbn [iota foldl].
have e1 : (N + k - N = k)%N by lia.
have z1 : m`_(N + k) = 0 by apply: zm.
set m1 := set_nth 0 m (N + k)%N (coins (N + k)%N); rewrite e1.
have hlt : (N + k < E)%N by lia.
have s1 : size m1 = E by rewrite size_set_in sm.
have k1 : (k < E)%N by lia.
have n1 i : m1`_i = if i == (N + k)%N then coins (N + k)%N else m`_i by rewrite nth_set_nth.
split.
- by rewrite size_set_in s1.
- move=> i hi; rewrite nth_set_nth /= !n1.
  have [e|_] := eqVneq i k; first by lia.
  have [e|_] := eqVneq i (N + k)%N; first by lia.
  by apply: zm; lia.
have -> : \poly_(i < k + 1) coins (N + i)%N = \poly_(i < k) coins (N + i)%N + (coins (N + k)%N)%:P * 'X^k.
  by rewrite !poly_def addn1 big_ord_recr /= mul_polyC.
rewrite mulrDl addrA -eQ.
apply/polyP => i; rewrite coef_Poly nth_set_nth /= !n1 eqxx coefD coef_Poly.
have -> : (coins (N + k)%N)%:P * 'X^k * V = (coins (N + k)%N) *: ('X^(N + k) - 'X^k).
  by rewrite -mulrA mul_polyC mulrBr mulr1 -exprD addnC.
rewrite coefZ coefD coefN !coefXn.
have [->|ne] := eqVneq i k.
  have -> : (k == N + k)%N = false by apply/eqP; lia.
  by rewrite /= sub0r mulrN mulr1.
have [->|ne2] := eqVneq i (N + k)%N; first by rewrite z1 subr0 mulr1 add0r.
by rewrite subr0 mulr0 addr0.
Qed.

Lemma maskE mr : (mr <= E)%N -> (N <= mr)%N ->
  [/\ (sumCheckMask TE x coins mr).1 = cf E (maskP mr), (size (maskP mr) <= mr)%N &
      (sumCheckMask TE x coins mr).2 = coins 0%N].
Proof.
move=> hE hNE; rewrite /sumCheckMask /=; have [|sm zm eQ] := @mask_loopQ (mr - N)%N; first by lia.
set m := foldl _ _ _ in sm zm eQ *; rewrite /maskP /maskQ -eQ; split; first exact: cf_size.
- apply/leq_sizeP => j hj; rewrite coef_Poly zm //; lia.
- by rewrite nth_cat size_mkseq N0 nth_mkseq.
Qed.

Lemma maskP_div mr : maskP mr %/ V = maskQ mr /\ maskP mr %% V = maskHead x coins.
Proof.
have hs : (size (maskHead x coins) < size V)%N by rewrite size_V // ltnS size_maskHead.
rewrite /maskP; split.
  by rewrite addrC divp_addl_mul_small.
by rewrite addrC modp_addl_mul_small.
Qed.

(** the two coins that move one value each *)
Lemma maskQ_eval mr pt : (N < mr)%N ->
  (maskQ mr).[pt] = coins N + \sum_(1 <= i < mr - N) coins (N + i)%N * pt ^+ i.
Proof.
move=> h; rewrite horner_poly -(big_mkord xpredT (fun i => coins (N + i)%N * pt ^+ i)).
by rewrite big_ltn ?subn_gt0 // addn0 expr0 mulr1.
Qed.

Lemma maskHead_tail pt : (1 < N)%N ->
  (tailp x (maskHead x coins)).[pt] = coins 1%N + \sum_(1 <= i < N - 1) coins i.+1 * pt ^+ i.
Proof.
move=> h; have -> : tailp x (maskHead x coins) = \poly_(i < N - 1) coins i.+1.
  apply/polyP => i; rewrite coef_Poly coef_poly; case: ltnP => hi; last by rewrite nth_default // size_mkseq.
  by rewrite nth_mkseq // /maskHead coef_Poly nth_mkseq //; move: hi; lia.
rewrite horner_poly -(big_mkord xpredT (fun i => coins i.+1 * pt ^+ i)).
by rewrite big_ltn ?subn_gt0 // expr0 mulr1.
Qed.

Lemma tailpD (A B : {poly F}) : tailp x (A + B) = tailp x A + tailp x B.
Proof.
apply/polyP => i; rewrite coefD !coef_Poly; case: (ltnP i (N - 1)) => hi; last first.
  by rewrite !nth_default ?size_mkseq // addr0.
by rewrite !nth_mkseq // coefD.
Qed.
End Mask.

Section Run.
Variables (F : fieldType) (U : uint F).
Variables (P : pcs F) (H : bytes -> bytes) (name : nat -> bytes).
Variables (setBytes : bytes -> F) (marshal : F -> bytes).
Variable xofProj : nat -> bytes -> seq (seq bool).
Variables (N p0 n0 : nat) (cs : seq (cmd F)) (x : context F) (T TE : transformer F) (n : nat) (g : F).
Hypothesis K : keys U N p0 n0 cs x T TE n g.
Local Notation E := (trank TE).
Local Notation V := ('X^N - 1 : {poly F}).
Local Notation ProveC := (ProveC U H name setBytes marshal xofProj T TE x).
Local Notation Verify := (Verify U H name setBytes marshal xofProj T TE x).

(** positions of the entries *)
Definition i1 := (cwCnt x + hasLin x)%N.
Definition i2 := (i1 + hasSum x)%N.
Definition i3 := (i2 + hasArith x)%N.
Definition i4 := (i3 + (if hasLin x then 3 else 0))%N.

(** the polynomials divided in the linear and in the sum check, without the mask *)
Definition LP kW w proj b a := linPoly T x (Wp T n kW w) proj (linCheckVec U x a) b * b%:P.
Definition SP kW pw w b := circ (PWp T pw) (Wp T n kW w) b (csum x) * b%:P.

Section Core.
Variable k : coins P.
Variables (pw0 w0 wi pw w w2 : seq (seq F)) (ordT : seq nat).
Hypothesis hn : (3 <= n)%N.
Hypothesis hN32 : (N < 2 ^ 32)%N.
Hypothesis hR : (commitRank x <= pRank P < 2 ^ 32)%N.
Hypothesis hAm : hasArith x -> (N < carithMax x)%N.
Hypothesis hSm : hasSum x -> (N < csumMax x)%N.
Hypothesis eI : fillInf U N (cinf x) (ordInf k) (padw N (cwCnt x) w0) = Some wi.
Hypothesis eT : fillTwo U N (ctwo x) (ordTwo k) 0 (padw N (cpwCnt x) pw0) wi = Some (pw, w).
Hypothesis eP : fillPw U N (ctwo x) ordT (padw N (cpwCnt x) pw0) = Some pw.
Let proj := xofProj N (c0 H name (pB0 T TE x k w)).
Hypothesis e2 : projFill U x k proj w = Some w2.
Hypothesis A : assigns N x pw w2.
Hypothesis same : forall i, (i < cwCnt x)%N -> i \notin cwSecond x -> nth [::] w2 i = nth [::] w i.
Hypothesis hproj : chasProj x -> projOK N proj.
Hypothesis sA : forall i, (i < N)%N -> \sum_(c <- carith x) cval pw w2 i c = 0.
Hypothesis sL : linSat x proj w2.
Hypothesis hpcs : pcsComplete x k.
Hypothesis s0 : hasSum x -> sumTotal N x pw w2 = 0.

Lemma run_form : exists pf chals polys, [/\ ProveC k pw0 w0 = Some (pf, chals),
  [/\ size polys = batch x, all (commitOK P) polys & pfWitness pf = coms k polys],
  [/\ pfLinSum pf = (if hasLin x then kLin k 0%N else 0), pfSumSum pf = (if hasSum x then kSum k 0%N else 0) & pfEval pf =
     (pEvaluate (kE k) (setBytes (nth [::] chals 5)) polys (coms k polys) (opns k polys)).2],
  vChecks U setBytes xofProj T TE x pw pf chals /\ nth [::] chals 0 = c0 H name (pB0 T TE x k w) &
  let pt := setBytes (nth [::] chals 5) in
  let b2 := setBytes (nth [::] chals 2) in let b3 := setBytes (nth [::] chals 3) in
  let b4 := setBytes (nth [::] chals 4) in
  let SL := LP (kW k) w2 proj b2 b3 + maskP x (kLin k) (2 * N) in
  let SS := SP (kW k) pw w2 b4 + maskP x (kSum k) (csumMax x) in
  [/\ pfEvals pf = [seq evalSlice p pt | p <- polys],
    forall i, (i < cwCnt x)%N -> (pfEvals pf)`_i = (Wp T n (kW k) w2 i).[pt],
    hasLin x -> (pfEvals pf)`_i3 = (SL %/ V).[pt] /\ (pfEvals pf)`_(i3 + 1) = (tailp x (SL %% V)).[pt] &
    hasSum x -> (pfEvals pf)`_i4 = (SS %/ V).[pt] /\ (pfEvals pf)`_(i4 + 1) = (tailp x (SS %% V)).[pt]]].
Proof.
have [pf [chals [hP sW hV]]] := accept_core setBytes marshal K hn hN32 hR hAm hSm eI eT eP e2 A same hproj sA sL hpcs.
have := hP; rewrite ProveCE ?(ksec K) // /ProveE.
case: ifP => // _; have eN := kN K; rewrite eN eI eT -/proj e2.
set B0 := pB0 _ _ _ _ _; set hd := headPolys _ _ _ _ _ _; set B1 := vB1 _ _ _ _ _.
case ea: (aPart _ _ _ _ _) => [aP|] //; case el: (lPart _ _ _ _ _ _ _ _ _) => [lP|] //.
case es: (sPart _ _ _ _ _ _) => [sP|] //; case: ifP => // /negbFE hok.
set tl := aP ++ lP ++ sP in hok *; set B5 := map _ _; set pt := setBytes (c5 _ _ _ _ _) => -[epf ech].
have sa : size aP = hasArith x.
  by move: ea; rewrite /aPart; case: (hasArith x) => [|[<-]] //; case: (prv_arithCheck _ _ _ _ _) => // q [<-].
have sl : size lP = (if hasLin x then 3 else 0)%N.
  by move: el; rewrite /lPart; case: (hasLin x) => [|[<-]] //; case: (prv_linCheck _ _ _ _ _ _ _ _ _ _) => // q [<-].
have ss : size sP = (if hasSum x then 3 else 0)%N.
  by move: es; rewrite /sPart; case: (hasSum x) => [|[<-]] //; case: (prv_sumCheck _ _ _ _ _ _ _) => // q [<-].
have sz : size (hd ++ tl) = batch x.
  by rewrite size_cat size_headPolys /tl !size_cat sa sl ss /batch; exact: batch_arith.
have N0 : (0 < crank x)%N by rewrite eN (kN0 K).
have hNE : (crank x <= E)%N by rewrite eN ltnW // (kEN K).
have hE2 : (2 * crank x <= E)%N by rewrite eN (kE2 K).
have hRN : (N - 1 <= pRank P)%N \/ ~~ hasLin x /\ ~~ hasSum x.
  have [r1 r2 r3 r4] := commitRankP x; have /andP[hR1 _] := hR.
  case hl: (hasLin x); [left|case hs: (hasSum x); [left|by right]].
    by have := leq_trans (r3 hl) hR1; rewrite eN; lia.
  by have := sum_size K hR1 hs; have := hSm hs; lia.
have [m [h [eE GE]]] := Prop_Check.kE K; have [ga gs] := kAll K.
have [em1 em2] := embRank_ge x.
have ev : pfEvals pf = [seq evalSlice p pt | p <- hd ++ tl].
  by rewrite -epf; have [] := hpcs pt sz hok.
exists pf, chals, (hd ++ tl); split.
- by rewrite -epf -ech.
- by split=> //; rewrite -epf.
- split; rewrite -epf -?ech //=.
    by rewrite /linSum /sumCheckMask /= nth_cat size_mkseq N0 nth_mkseq.
  by rewrite /sumSum /sumCheckMask /= nth_cat size_mkseq N0 nth_mkseq.
- split; last by rewrite -ech.
  move: hV; rewrite /Verify VerifyCE /VerifyE.
  have [h8 _] := k8 K hn; rewrite h8 eN eP.
  have sE : size (pfEvals pf) = batch x by rewrite ev size_map.
  rewrite sW sE ltnNge batch_ge andbF eqxx /= -(prove_chs (ksec K) hP).
  have -> : (hasSum x ==> (setBytes (nth [::] chals 4) * setBytes (nth [::] chals 4) * sumTotal N x pw w2 == 0)) = true.
    by apply/implyP => hs; rewrite s0 // mulr0.
  by case.
have ept : setBytes (nth [::] chals 5) = pt by rewrite -ech.
rewrite /= ept -[nth _ chals 2]/(nth [::] chals 2).
have eb2 : nth [::] chals 2 = c2 H name B0 B1 by rewrite -ech.
have eb3 : nth [::] chals 3 = c3 H name B0 B1 by rewrite -ech.
have eb4 : nth [::] chals 4 = c4 H name B0 B1 by rewrite -ech.
rewrite eb2 eb3 eb4.
have eN' : wNTTs T TE x k w w2 = wNTT x T TE (kW k) w2 := wNE T TE k same.
have nthE i : (i < batch x)%N -> (pfEvals pf)`_i = evalSlice (nth [::] (hd ++ tl) i) pt.
  by move=> hi; rewrite ev (nth_map [::]) // sz.
have shd : size hd = i2 := size_headPolys _ _ _ _ _ _.
have ntl j : (j < size tl)%N -> (pfEvals pf)`_(size hd + j) = evalSlice (nth [::] tl j) pt.
  move=> hj; rewrite nthE; last by rewrite -sz size_cat ltn_add2l.
  by rewrite nth_cat ltnNge leq_addr /= addKn.
have stl : size tl = (size aP + (size lP + size sP))%N by rewrite !size_cat.
have nl j : (j < size lP)%N -> (pfEvals pf)`_(i3 + j) = evalSlice (nth [::] lP j) pt.
  move=> hj; rewrite /i3 -shd -addnA ntl; last by rewrite stl sa ltn_add2l (leq_trans hj) // leq_addr.
  by rewrite nth_cat sa ltnNge leq_addr /= addKn nth_cat hj.
have ns j : (j < size sP)%N -> (pfEvals pf)`_(i4 + j) = evalSlice (nth [::] sP j) pt.
  move=> hj; rewrite /i4 /i3 -shd -!addnA ntl; last by rewrite stl sa sl !ltn_add2l.
  by rewrite nth_cat sa ltnNge leq_addr /= addKn nth_cat sl ltnNge leq_addr /= addKn.
split=> //.
- move=> i hi; have hih : (i < size hd)%N by rewrite shd /i2 /i1 -addnA ltn_addr.
  rewrite nthE; last by rewrite -sz size_cat (leq_trans hih) // leq_addr.
  rewrite nth_cat hih nth_head_w // (ecdE T TE k same) //.
  have he : honestEvals N x T TE (kW k) w2 pt (mkseq (fun i => evalSlice (take N.+1 (encW T TE (kW k) w2 i)) pt) (cwCnt x)).
    by move=> j hj; rewrite nth_mkseq.
  by rewrite -(evalsE K A he hi) nth_mkseq // /comPoly eN.
- move=> hl; have hR' : (N - 1 <= pRank P)%N by case: hRN => // -[]; rewrite hl.
  move: el; rewrite /lPart hl; set b := setBytes _; set a := setBytes _.
  have [|eM sM _] := @maskE _ TE x (kLin k) N0 (2 * crank x) hE2; first by lia.
  rewrite /linMask eM eN'.
  have sv : size (linCheckVec U x a) = crank x by apply: (size_linCheckVec U (kN2 K) hNE).
  have sv' : size (linCheckVec U x a) = N by rewrite sv eN.
  have hk := keeps K sv' hproj; have hl' := Prop_Check.kLin K.
  have hR2 : (crank x - 1 <= pRank P)%N by rewrite eN.
  rewrite (prv_linCheckE (U := U) (ks_G K) GE (kN2 K) (eWW K (kW k) A GE) (sWp K (kW k) A) hNE b hk hl' hE2 hR2 sM).
  set S := _ * b%:P + _ => -[elP].
  have sLp := @size_linPoly _ T TE x n (kN2 K) _ _ (sWp K (kW k) A) hNE _ _ sv b hk hl'.
  have sS : (size S <= 2 * crank x)%N.
    by rewrite (leq_trans (size_add _ _)) // geq_max sM andbT size_mulC.
  have := nl 0%N; rewrite addn0 => ->; last by rewrite sl hl.
  rewrite nl ?sl ?hl //.
  rewrite -elP /= /evalSlice !evalSliceE !peval_cf ?size_tailp //.
    by rewrite /LP -eN.
  by apply: leq_trans (size_div_V _ sS) _ => //; rewrite mul2n -addnn addnK.
- move=> hl; have hR' : (N - 1 <= pRank P)%N by case: hRN => // -[_]; rewrite hl.
  have hm := hSm hl; have hmE : (csumMax x <= E)%N by rewrite eE.
  move: es; rewrite /sPart hl; set b := setBytes _.
  have [|eM sM _] := @maskE _ TE x (kSum k) N0 (csumMax x) hmE; first by rewrite eN ltnW.
  rewrite /sumMask eM eN'.
  have hR2 : (crank x - 1 <= pRank P)%N by rewrite eN.
  have hMM : (crank x <= csumMax x <= E)%N by rewrite eN ltnW.
  have hM' c : List.In c (csum x) -> (maxRank (crank x) c <= csumMax x)%N.
    by move=> hc; rewrite eN; have [] := rg_su (kx K) hc.
  rewrite (prv_sumCheckE GE (kN2 K) (ePW K A GE) (eWW K (kW k) A GE) (sPWp K A) (sWp K (kW k) A) hNE b gs hMM hM' hR2 sM).
  set S := sumPoly _ _ _ _ _ => -[esP].
  have sC := size_circ b gs N0 (sPWp K A) (sWp K (kW k) A) hM'.
  have sS : (size S <= csumMax x)%N.
    by rewrite (leq_trans (size_add _ _)) // geq_max sM andbT size_mulC.
  have := ns 0%N; rewrite addn0 => ->; last by rewrite ss hl.
  rewrite ns ?ss ?hl //.
  rewrite -esP /= /evalSlice !evalSliceE !peval_cf ?size_tailp //.
    by rewrite /SP -eN.
  by apply: size_div_V.
Qed.
End Core.
End Run.

(** * What the verifier's loops read *)
Section Local.
Variables (F : fieldType) (T TE : transformer F) (x : context F).

Lemma vrf_evalCircuit_loc b (e e' pe : seq F) np nw cs : all (consIn np nw) cs ->
  (forall j, (j < nw)%N -> e`_j = e'`_j) -> vrf_evalCircuit b cs e pe = vrf_evalCircuit b cs e' pe.
Proof.
move=> hc he; pose W j := (e'`_j)%:P : {poly F}; pose PW j := (pe`_j)%:P : {poly F}.
have hp j : (j < np)%N -> pe`_j = (PW j).[0] by rewrite hornerC.
have h1 j : (j < nw)%N -> e`_j = (W j).[0] by rewrite hornerC => /he.
have h2 j : (j < nw)%N -> e'`_j = (W j).[0] by rewrite hornerC.
by rewrite (vrf_evalCircuitE b hc hp h1) (vrf_evalCircuitE b hc hp h2).
Qed.

Lemma vrf_linLoop_loc proj b pt vec vecE (e e' : seq F) nw : linIn x nw (clinChk x) ->
  (forall j, (j < nw)%N -> e`_j = e'`_j) ->
  vrf_linLoop T TE x proj b pt vec vecE e = vrf_linLoop T TE x proj b pt vec vecE e'.
Proof.
move=> hl he; rewrite /vrf_linLoop; congr (_.1).
move: (0, nseq _ _) hl; elim: (clinChk x) => [|c l IH] [ev vt] //= hl.
rewrite IH; last by move=> c' io h; apply: hl; right.
congr (foldl _ (_, _) _).
have: forall io, List.In io (odflt [::] (aget (clin x) (caddr c))) -> (io.1 < nw)%N /\ (io.2 < nw)%N.
  by move=> io; apply: hl; left.
elim: (odflt _ _) (ev) => [|io l' IH'] a //= h'; have [|h1 h2] := h' io; first by left.
by rewrite !he // IH' // => io' h''; apply: h'; right.
Qed.

(** a list of opened values, cut at the positions the verifier reads *)
Lemma cut_evals (e : seq F) (c : nat) (l s a : bool) :
  size e = (c + l + s + (a + ((if l then 3 else 0) + (if s then 3 else 0))))%N ->
  let j1 := (c + l)%N in let j2 := (j1 + s)%N in let j3 := (j2 + a)%N in
  let j4 := (j3 + (if l then 3 else 0))%N in
  e = mkseq (nth 0 e) c ++ (if l then [:: e`_c] else [::]) ++ (if s then [:: e`_j1] else [::])
    ++ (if a then [:: e`_j2] else [::]) ++ (if l then [:: e`_j3; e`_(j3 + 1); e`_(j3 + 2)] else [::])
    ++ (if s then [:: e`_j4; e`_(j4 + 1); e`_(j4 + 2)] else [::]).
Proof.
move=> se; have hc : (c <= size e)%N by rewrite se -!addnA leq_addr.
apply: (@eq_trans _ _ (mkseq (nth 0 e) c ++ mkseq (fun i => e`_(c + i)) (size e - c))).
  apply: (@eq_from_nth _ 0); first by rewrite size_cat !size_mkseq subnKC.
  move=> i hi; rewrite nth_cat size_mkseq; case: ltnP => h; first by rewrite nth_mkseq.
  rewrite nth_mkseq; first by rewrite subnKC.
  by rewrite ltn_sub2r // (leq_ltn_trans h hi).
rewrite se; move: (nth 0 e) => f {se hc}; congr (_ ++ _).
by case: l; case: s; case: a; rewrite ?addn0 -?addnA ?addKn ?subnn /mkseq /= ?addn0.
Qed.
End Local.
