(** What an honest proof shows of the witness, over perfectly hiding commitments.  C100. *)
From Coq Require Import ZArith Lia.
From mathcomp Require Import all_ssreflect all_algebra zify.
From Verif Require Import RingTac Spec UintModel BigpolyModel BitrevProofs NttProofs NttCore UintProofs NttTables
  UintFp PolyProofs RingProofs NormModel BucklerModel DefineModel BucklerSpec FillProofs NormSound ContextProofs
  CheckerProofs NormComplete FillComplete Prop_Norm RangeProofs EncodeProofs CheckProofs CheckSound Prop_Check
  ProtocolModel ProtocolProofs Prop_Protocol ZkProofs.
Set Implicit Arguments. Unset Strict Implicit. Unset Printing Implicit Defensive.
Import GRing.Theory.
Local Open Scope ring_scope.
Delimit Scope Z_scope with Z.

Section Zk.
Variables (F : finFieldType) (U : uint F).
Variables (P : pcs F) (H : bytes -> bytes) (name : nat -> bytes).
Variables (setBytes : bytes -> F) (marshal : F -> bytes).
Variable xofProj : nat -> bytes -> seq (seq bool).
Local Notation sb := (setBigInt U).

(** * The ideal commitment scheme: a commitment shows nothing of the polynomial, and an
    evaluation proof nothing but the values.  [com0] and [epf0] make them from the coins. *)
Record idealPcs (com0 : coin P -> com P) (epf0 : coin P -> F -> seq (com P) -> seq F -> epf P) : Prop := IdealPcs {
  id_com : forall c p, commitOK P p -> (pCommit c p).1 = com0 c;
  id_epf : forall c pt ps cs os, (pEvaluate c pt ps cs os).2 = epf0 c pt cs [seq evalSlice p pt | p <- ps]
}.

Section Coins.
Variable x : context F.
Local Notation N := (crank x).

(** the field elements one Prove call draws: one for each witness (RandEncode), 2N for the
    mask of the linear check, sumCheckMaxRank for the mask of the sum check *)
Definition rnd := ({ffun 'I_(cwCnt x) -> F} * {ffun 'I_(2 * N) -> F} * {ffun 'I_(csumMax x) -> F})%type.
Definition drawn m (f : {ffun 'I_m -> F}) (i : nat) : F := if insub i is Some o then f o else 0.
Definition withCoins (k : coins P) (r : rnd) : coins P :=
  Coins (drawn r.1.1) (drawn r.1.2) (drawn r.2) (kC k) (kE k) (ordInf k) (ordTwo k) (ordProj k) (ordProjD k).

(** * The simulator.  It is given the circuit, the public witnesses, and the coins; there is
    no witness among its arguments.  It draws the opened values and solves the verifier's
    three equations for the rest. *)
Variables (T TE : transformer F).
Definition simulateD com0 (epf0 : coin P -> F -> seq (com P) -> seq F -> epf P) (kc : nat -> coin P) (ke : coin P)
    (ordT : seq nat) (pw0 : seq (seq F)) (dw dl ds : nat -> F) : option (proof P * seq bytes) :=
  if fillPw U N (ctwo x) ordT (padw N (cpwCnt x) pw0) is Some pw then
  let C := mkseq (fun i => com0 (kc i)) (batch x) in
  let ls := if hasLin x then dl 0%N else 0 in
  let ss := if hasSum x then ds 0%N else 0 in
  let cs := chs H name (vB0 x C) (vB1 marshal x C ls ss) (vB5 x C) in
  let ch i := setBytes (nth [::] cs i) in
  let proj := xofProj N (nth [::] cs 0) in
  let pt := ch 5%N in
  let van := pt ^+ N - 1 in
  let pwE := [seq evalSlice (encode T (trank TE) v) pt | v <- pw] in
  let ew := mkseq dw (cwCnt x) in
  let vec := linCheckVec U x (ch 3%N) in
  let q := dl N in let lo := dl 1%N in
  let lm := q * van + lo * pt + ls
    - vrf_linLoop T TE x proj (ch 2%N) pt vec (evalSlice (encode T (trank TE) vec) pt) ew * ch 2%N in
  let q' := ds N in let lo' := ds 1%N in
  let sm := q' * van + lo' * pt + ss - vrf_evalCircuit (ch 4%N) (csum x) ew pwE * ch 4%N in
  let aq := vrf_evalCircuit (ch 1%N) (carith x) ew pwE / van in
  let sh := pt ^+ (pRank P - (N - 1)) in
  let evals := ew ++ (if hasLin x then [:: lm] else [::]) ++ (if hasSum x then [:: sm] else [::])
    ++ (if hasArith x then [:: aq] else [::])
    ++ (if hasLin x then [:: q; lo; sh * lo] else [::]) ++ (if hasSum x then [:: q'; lo'; sh * lo'] else [::]) in
  Some (Proof C ls ss evals (epf0 ke pt C evals), cs) else None.
Definition simulate com0 epf0 kc ke ordT pw0 (r : rnd) :=
  simulateD com0 epf0 kc ke ordT pw0 (drawn r.1.1) (drawn r.1.2) (drawn r.2).
End Coins.

Section K.
Variables (N p0 n0 : nat) (cs : seq (cmd F)) (x : context F) (T TE : transformer F) (n : nat) (g : F).
Hypothesis K : keys U N p0 n0 cs x T TE n g.
Local Notation E := (trank TE).
Local Notation V := ('X^N - 1 : {poly F}).
Local Notation ProveC := (ProveC U H name setBytes marshal xofProj T TE x).
Local Notation Verify := (Verify U H name setBytes marshal xofProj T TE x).
Local Notation rnd := (rnd x).
Local Notation withCoins := (@withCoins x).

Variables (com0 : coin P -> com P) (epf0 : coin P -> F -> seq (com P) -> seq F -> epf P).
Hypothesis I : idealPcs com0 epf0.

Lemma drawn_ord m (f : {ffun 'I_m -> F}) (o : 'I_m) : drawn f o = f o.
Proof. by rewrite /drawn valK. Qed.
Lemma drawn_lt m (f : {ffun 'I_m -> F}) i (h : (i < m)%N) : drawn f i = f (Ordinal h).
Proof. by rewrite -drawn_ord. Qed.
Lemma drawnE m (f : nat -> F) i : (i < m)%N -> drawn [ffun o : 'I_m => f o] i = f i.
Proof. by move=> h; rewrite (drawn_lt _ h) ffunE. Qed.

(** * The change of variables *)
Section F.
Variable k : coins P.
Variables (pw w2 : seq (seq F)).
Definition simC := mkseq (fun i => com0 (kC k i)) (batch x).
Definition simCs (ls ss : F) := chs H name (vB0 x simC) (vB1 marshal x simC ls ss) (vB5 x simC).
Definition repl (pt : F) (b : bool) (S : {poly F}) (f : nat -> F) (i : nat) : F :=
  if b && (i == N) then (S %/ V).[pt] else if b && (i == 1)%N then (tailp x (S %% V)).[pt] else f i.
Section R.
Variables (l0 s0 : F) (r : rnd).
Let ch i := setBytes (nth [::] (simCs l0 s0) i).
Let proj := xofProj N (nth [::] (simCs l0 s0) 0).
Let pt := ch 5%N.
Definition fmapAt : rnd :=
  if pt ^+ N == 1 then r else
  ([ffun i : 'I_(cwCnt x) => (Wp T n (drawn r.1.1) w2 i).[pt]],
   [ffun i : 'I_(2 * crank x) => repl pt (hasLin x)
     (LP U x T n (drawn r.1.1) w2 proj (ch 2%N) (ch 3%N) + maskP x (drawn r.1.2) (2 * crank x)) (drawn r.1.2) i],
   [ffun i : 'I_(csumMax x) => repl pt (hasSum x)
     (SP x T n (drawn r.1.1) pw w2 (ch 4%N) + maskP x (drawn r.2) (csumMax x)) (drawn r.2) i]).
End R.
Definition fmap (r : rnd) : rnd := fmapAt (drawn r.1.2 0) (drawn r.2 0) r.

Hypothesis N1 : (1 < N)%N.
Hypothesis hSm : hasSum x -> (N < csumMax x)%N.

Lemma drawn0 m pt b S f : drawn [ffun i : 'I_m => repl pt b S (drawn f) i] 0 = drawn (f : {ffun 'I_m -> F}) 0.
Proof.
have [m0|m0] := posnP m; first by rewrite /drawn; case: insubP => // u h; suff: false by []; rewrite m0 in h.
rewrite drawnE // /repl; have -> : (0 == N)%N = false by apply/eqP; lia.
by rewrite !andbF.
Qed.

Lemma fmap0 r : drawn (fmap r).1.2 0 = drawn r.1.2 0 /\ drawn (fmap r).2 0 = drawn r.2 0.
Proof. by rewrite /fmap /fmapAt; case: ifP => // _; rewrite !drawn0. Qed.

Lemma fmapE r : let cs := simCs (drawn r.1.2 0) (drawn r.2 0) in
  let ch i := setBytes (nth [::] cs i) in let pt := ch 5%N in
  let SL := LP U x T n (drawn r.1.1) w2 (xofProj N (nth [::] cs 0)) (ch 2%N) (ch 3%N)
    + maskP x (drawn r.1.2) (2 * N) in
  let SS := SP x T n (drawn r.1.1) pw w2 (ch 4%N) + maskP x (drawn r.2) (csumMax x) in
  pt ^+ N != 1 ->
  [/\ forall i, (i < cwCnt x)%N -> drawn (fmap r).1.1 i = (Wp T n (drawn r.1.1) w2 i).[pt],
      hasLin x -> drawn (fmap r).1.2 N = (SL %/ V).[pt] /\ drawn (fmap r).1.2 1 = (tailp x (SL %% V)).[pt] &
      hasSum x -> drawn (fmap r).2 N = (SS %/ V).[pt] /\ drawn (fmap r).2 1 = (tailp x (SS %% V)).[pt]].
Proof.
move=> cs0 ch pt SL SS hpt.
have -> : fmap r =
  ([ffun i : 'I_(cwCnt x) => (Wp T n (drawn r.1.1) w2 i).[pt]],
   [ffun i : 'I_(2 * crank x) => repl pt (hasLin x) SL (drawn r.1.2) i],
   [ffun i : 'I_(csumMax x) => repl pt (hasSum x) SS (drawn r.2) i]).
  have e : maskP x (drawn r.1.2) (2 * N) = maskP x (drawn r.1.2) (2 * crank x) by congr (maskP _ _ (2 * _)); rewrite (kN K).
  by rewrite /fmap /fmapAt (negbTE hpt) /SL e.
have n1 : (1 == N)%N = false by apply/eqP; lia.
split=> [i hi|hl|hs]; first by rewrite (drawnE (fun i => (Wp T n (drawn r.1.1) w2 i).[pt])).
  have h1 : (1 < 2 * crank x)%N by rewrite (kN K); lia.
  have h2 : (N < 2 * crank x)%N by rewrite (kN K); lia.
  by rewrite !(drawnE (repl pt (hasLin x) SL (drawn r.1.2))) // /repl hl !eqxx n1.
have h1 : (1 < csumMax x)%N := ltn_trans N1 (hSm hs).
have h2 := hSm hs.
by rewrite !(drawnE (repl pt (hasSum x) SS (drawn r.2))) // /repl hs ?eqxx ?n1.
Qed.

Lemma repl_inj m pt (b : bool) (Q : {poly F}) (f f' : {ffun 'I_m -> F}) : (b -> (N < m)%N) ->
  (forall i : 'I_m, repl pt b (Q + maskP x (drawn f) m) (drawn f) i = repl pt b (Q + maskP x (drawn f') m) (drawn f') i) ->
  f = f'.
Proof.
move=> hm he; have eN := kN K; have N0 := kN0 K; have N0' : (0 < crank x)%N by rewrite eN.
have heq i : (i < m)%N -> ~~ b || (i != N) && (i != 1)%N -> drawn f i = drawn f' i.
  move=> hi hb; have := he (Ordinal hi); rewrite /repl /=; case: b hb {he hm} => //= /andP[/negbTE -> /negbTE ->] //.
suff h i : (i < m)%N -> drawn f i = drawn f' i by apply/ffunP => i; rewrite -!drawn_ord h.
move=> hi; case: (boolP (~~ b || (i != N) && (i != 1)%N)) => [h|]; first exact: heq.
rewrite negb_or negbK => /andP[hb _]; have hmN := hm hb; rewrite hb /= in heq.
have [d1 m1] := maskP_div (drawn f) N0' m; have [d2 m2] := maskP_div (drawn f') N0' m.
rewrite eN in d1 m1 d2 m2.
have [e|ne] := eqVneq i N.
  have := he (Ordinal hi); rewrite /repl /= hb e eqxx /= !(divpD _ Q) d1 d2 !(hornerD (Q %/ _)) => /addrI.
  rewrite !maskQ_eval ?eN //.
  set s := \sum_(_ <= _ < _) _; set s' := \sum_(_ <= _ < _) _; have -> : s = s'.
    apply: eq_big_nat => j /andP[j1 j2]; rewrite heq //; first by lia.
    by apply/andP; split; apply/eqP; lia.
  by move=> /addIr.
have [e|ne'] := eqVneq i 1%N; last by apply: heq; rewrite // ne.
have := he (Ordinal hi); rewrite /repl /= hb (negbTE ne) e eqxx /= !(modpD _ Q) m1 m2 !tailpD !hornerD => /addrI.
rewrite !maskHead_tail ?eN //.
set s := \sum_(_ <= _ < _) _; set s' := \sum_(_ <= _ < _) _; have -> : s = s'.
  apply: eq_big_nat => j /andP[j1 j2]; rewrite heq //; first by lia.
  by apply/andP; split; apply/eqP; lia.
by move=> /addIr.
Qed.

Lemma fmap_inj : injective fmap.
Proof.
move=> r r' e; have [a1 b1] := fmap0 r; have [a2 b2] := fmap0 r'.
have {}a1 : drawn r.1.2 0 = drawn r'.1.2 0 by rewrite -a1 -a2 e.
have {}b1 : drawn r.2 0 = drawn r'.2 0 by rewrite -b1 -b2 e.
move: e; rewrite /fmap a1 b1; move: (drawn r'.1.2 0) (drawn r'.2 0) => l0 s0 {a1 b1 a2 b2}.
rewrite /fmapAt; case: ifP => // /negbT hpt; case: r r' => [[a l] s] [[a' l'] s'] /=.
set ch := fun i => setBytes (nth [::] (simCs l0 s0) i); rewrite -[setBytes _]/(ch 5%N) in hpt *.
move: (ch 5%N) hpt => pt hpt [/ffunP ea el es].
have V0 : pt ^+ (2 ^ n) - 1 != 0 by rewrite subr_eq0 -(ks_N K).
have eaa : a = a'.
  apply/ffunP => i; have := ea i; rewrite !ffunE /Wp /blind !hornerD => /addrI.
  by rewrite !hornerZ !hornerE hornerXn !drawn_ord => /(mulIf V0).
move: el es; rewrite eaa => /ffunP el /ffunP es.
have -> : l = l'.
  apply: (repl_inj _ (fun i => etrans (esym (ffunE _ i)) (etrans (el i) (ffunE _ i)))) => _.
  by rewrite (kN K); lia.
have -> // : s = s'.
by apply: (repl_inj _ (fun i => etrans (esym (ffunE _ i)) (etrans (es i) (ffunE _ i)))).
Qed.

Section Core.
Variables (pw0 w0 wi w1 : seq (seq F)) (ordT : seq nat).
Hypothesis hn : (3 <= n)%N.
Hypothesis hN32 : (N < 2 ^ 32)%N.
Hypothesis hR : (commitRank x <= pRank P < 2 ^ 32)%N.
Hypothesis hAm : hasArith x -> (N < carithMax x)%N.
Hypothesis eI : fillInf U N (cinf x) (ordInf k) (padw N (cwCnt x) w0) = Some wi.
Hypothesis eT : fillTwo U N (ctwo x) (ordTwo k) 0 (padw N (cpwCnt x) pw0) wi = Some (pw, w1).
Hypothesis eP : fillPw U N (ctwo x) ordT (padw N (cpwCnt x) pw0) = Some pw.
Hypothesis sz1 : forall i, (i < cwCnt x)%N -> size (nth [::] w1 i) = N.
Let proj := xofProj N (c0 H name (vB0 x simC)).
Hypothesis e2 : projFill U x k proj w1 = Some w2.
Hypothesis A : assigns N x pw w2.
Hypothesis same : forall i, (i < cwCnt x)%N -> i \notin cwSecond x -> nth [::] w2 i = nth [::] w1 i.
Hypothesis hproj : chasProj x -> projOK N proj.
Hypothesis sA : forall i, (i < N)%N -> \sum_(c <- carith x) cval pw w2 i c = 0.
Hypothesis sL : linSat x proj w2.
Hypothesis hpcs : pcsComplete x k.
Hypothesis s0 : hasSum x -> sumTotal N x pw w2 = 0.

Lemma pB0_ideal r : pB0 T TE x (withCoins k r) w1 = vB0 x simC.
Proof.
rewrite /pB0 /vB0; apply/eq_in_map => i; rewrite mem_filter mem_iota => /andP[_ /andP[_ hi]].
have [r1 r2 r3 r4] := commitRankP x; have /andP[hR1 _] := hR.
have hb : (i < batch x)%N by apply: leq_trans (batch_ge x); rewrite ltn_addr.
rewrite (nth_map (com0 (kC k 0%N))) ?size_mkseq // nth_mkseq // (id_com I) //=.
have cw0 : (0 < cwCnt x)%N by case: (cwCnt x) hi.
have hRN : (crank x < pRank P)%N by apply: leq_trans (r1 cw0) hR1.
have sv : size (nth [::] w1 i) = (2 ^ n)%N by rewrite sz1 // (ks_N K).
rewrite /commitOK /comPoly size_take (size_randEncode (ks_G K) (hE' K)) ?(hE'' K) //.
have hEN := kEN K; rewrite (kN K) in hRN *.
by case: (ltnP N.+1 E) => h; apply/andP; split=> //; [exact: leq_ltn_trans hEN|exact: leq_trans h hRN].
Qed.

Lemma run_ideal r : let cs := simCs (drawn r.1.2 0) (drawn r.2 0) in exists pf pf',
  [/\ ProveC (withCoins k r) pw0 w0 = Some (pf, cs),
      simulate T TE com0 epf0 (kC k) (kE k) ordT pw0 (fmap r) = Some (pf', cs) &
      (setBytes (nth [::] cs 5)) ^+ N != 1 -> pf' = pf].
Proof.
set l0 := drawn r.1.2 0; set q0 := drawn r.2 0; set k' := withCoins k r => cs0.
have eB := pB0_ideal r.
have e2' : projFill U x k' (xofProj N (c0 H name (pB0 T TE x k' w1))) w1 = Some w2 by rewrite eB.
have hp' : chasProj x -> projOK N (xofProj N (c0 H name (pB0 T TE x k' w1))) by rewrite eB.
have sL' : linSat x (xofProj N (c0 H name (pB0 T TE x k' w1))) w2 by rewrite eB.
have [pf [chals [polys [hP [sz ok eW] [eL eS eE] [hV e0]]]]] :=
  run_form setBytes marshal K (k := k') hn hN32 hR hAm hSm eI eT eP e2' A same hp' sA sL' hpcs s0.
rewrite eB.
have eC : pfWitness pf = simC.
  rewrite eW /coms /comsAt -map_comp sz; apply/eq_in_map => i; rewrite mem_iota => /andP[_ hi] /=.
  by rewrite (id_com I) //; apply: (allP ok); rewrite mem_nth // sz.
have ech : chals = cs0.
  by rewrite (prove_chs (ksec K) hP) /vchs eC eL eS vB1_if.
rewrite {chals}ech in hP eE hV e0 *.
set pt := setBytes _; cbv zeta => -[ev evw evl evs].
exists pf.
have [f1 f2] := fmap0 r.
have := fmapE (r := r); cbv zeta; rewrite -/l0 -/q0 -/cs0 -/pt => fE.
rewrite /simulate; move: (drawn (fmap r).1.1) (drawn (fmap r).1.2) (drawn (fmap r).2) f1 f2 fE => dw dl ds f1 f2 fE.
rewrite /simulateD (kN K) eP f1 f2 vB1_if -/simC -/l0 -/q0 -/(simCs l0 q0) -/cs0 -/pt.
set evals := (X in Proof _ _ _ X _).
exists (Proof simC (if hasLin x then l0 else 0) (if hasSum x then q0 else 0) evals (epf0 (kE k) pt simC evals)).
split=> //.
rewrite -/pt => hpt.
have eCm : coms k' polys = simC by rewrite -eW.
suff ee : evals = pfEvals pf.
  move: eC eL eS eE ev ee; case: (pf) => W a b e p /= -> -> -> -> ev ->.
  by rewrite (id_epf I) -ev eCm.
have [fw fl fs] := fE hpt.
set e := pfEvals pf in ev evw evl evs hV *.
have se : size e = batch x by rewrite ev size_map.
have van0 : pt ^+ N - 1 != 0 by rewrite subr_eq0.
move: hV; rewrite /vChecks -/e -/pt eL eS => /and4P [_ hA hL hS].
have eR : (pRank P - (N - 1) < 2 ^ 32)%N by case/andP: hR; clear; lia.
rewrite (kN K) !ExpE // setBigInt_one in hA hL hS.
have hw j : (j < cwCnt x)%N -> e`_j = (mkseq dw (cwCnt x))`_j.
  by move=> hj; rewrite nth_mkseq // fw // evw.
have [gA gS] := kAll K.
have eqL : hasLin x -> dl N = e`_(i3 x) /\ dl 1%N = e`_(i3 x + 1).
  by move=> hl; have [-> ->] := fl hl; have [-> ->] := evl hl.
have eqS : hasSum x -> ds N = e`_(i4 x) /\ ds 1%N = e`_(i4 x + 1).
  by move=> hl; have [-> ->] := fs hl; have [-> ->] := evs hl.
have vL : hasLin x -> e`_(i3 x + 2) = pt ^+ (pRank P - (N - 1)) * e`_(i3 x + 1) /\
    e`_(cwCnt x) = dl N * (pt ^+ N - 1) + dl 1%N * pt + (if hasLin x then l0 else 0)
      - vrf_linLoop T TE x (xofProj N (nth [::] cs0 0)) (setBytes (nth [::] cs0 2)) pt
        (linCheckVec U x (setBytes (nth [::] cs0 3)))
        (evalSlice (encode T E (linCheckVec U x (setBytes (nth [::] cs0 3)))) pt) (mkseq dw (cwCnt x))
       * setBytes (nth [::] cs0 2).
  move=> hl; have [-> ->] := eqL hl; have := implyP hL hl.
  rewrite /vrf_linCheck (kN K) ExpE //; case: ifP => // /negbFE /eqP h /eqP h2; split=> //.
  rewrite -(vrf_linLoop_loc T TE _ _ _ _ _ (Prop_Check.kLin K) hw).
  by rewrite -h2 addrC addKr.
have vS : hasSum x -> e`_(i4 x + 2) = pt ^+ (pRank P - (N - 1)) * e`_(i4 x + 1) /\
    e`_(i1 x) = ds N * (pt ^+ N - 1) + ds 1%N * pt + (if hasSum x then q0 else 0)
      - vrf_evalCircuit (setBytes (nth [::] cs0 4)) (csum x) (mkseq dw (cwCnt x))
         [seq evalSlice (encode T E v) pt | v <- pw] * setBytes (nth [::] cs0 4).
  move=> hl; have [-> ->] := eqS hl; have := implyP hS hl.
  rewrite /vrf_sumCheck (kN K) ExpE //; case: ifP => // /negbFE /eqP h /eqP h2; split=> //.
  rewrite -(vrf_evalCircuit_loc _ _ gS hw).
  by rewrite -h2 addrC addKr.
have vA : hasArith x -> e`_(i2 x) = vrf_evalCircuit (setBytes (nth [::] cs0 1)) (carith x) (mkseq dw (cwCnt x))
     [seq evalSlice (encode T E v) pt | v <- pw] / (pt ^+ N - 1).
  move=> hl; have := implyP hA hl; rewrite /vrf_arithCheck => /eqP.
  by rewrite -(vrf_evalCircuit_loc _ _ gA hw) => ->; rewrite mulfK.
have cut := cut_evals (e := e) (c := cwCnt x) (l := hasLin x) (s := hasSum x) (a := hasArith x).
rewrite cut; last by rewrite se /batch batch_arith.
rewrite -/(i1 x) -/(i2 x) -/(i3 x) -/(i4 x).
rewrite /evals; congr (_ ++ (_ ++ (_ ++ (_ ++ (_ ++ _))))).
- by apply/eq_in_map => i; rewrite mem_iota => /andP[_ hi]; rewrite fw // evw.
- by case: ifP vL => // hl vL; rewrite (proj2 (vL isT)).
- by case: ifP vS => // hl vS; rewrite (proj2 (vS isT)).
- by case: ifP vA => // hl vA; rewrite vA.
- by case: ifP vL eqL => // hl vL eqL; have [-> ->] := eqL isT; rewrite (proj1 (vL isT)).
- by case: ifP vS eqS => // hl vS eqS; have [-> ->] := eqS isT; rewrite (proj1 (vS isT)).
Qed.
End Core.
End F.

(** * C100 *)

(** one statement of C72: circuit, public witnesses, witnesses that satisfy it, declared sums
    adding up to zero *)
Definition statement env (k : coins P) (pw0 w0 : seq (seq F)) (ordT : seq nat) : Prop :=
  [/\ setting xofProj N x n k,
      honest U N p0 n0 env cs x (ordInf k) (ordTwo k) (ordProj k) (ordProjD k) pw0 w0,
      isOrder (ctwo x) ordT,
      forall d c, List.In c cs -> cmdOK U N (xofProj N d) pw0 w0 c &
      \sum_(s <- csums x) sb s = 0].

(** everything a run fixes before the field elements are drawn *)
Lemma setup env k pw0 w0 ordT : statement env k pw0 w0 ordT -> exists wi pw w1,
  [/\ fillInf U N (cinf x) (ordInf k) (padw N (cwCnt x) w0) = Some wi,
      fillTwo U N (ctwo x) (ordTwo k) 0 (padw N (cpwCnt x) pw0) wi = Some (pw, w1),
      fillPw U N (ctwo x) ordT (padw N (cpwCnt x) pw0) = Some pw,
      forall i, (i < cwCnt x)%N -> size (nth [::] w1 i) = N &
  forall d, let proj := xofProj N d in exists w2,
  [/\ projFill U x k proj w1 = Some w2, assigns N x pw w2 /\ (chasProj x -> projOK N proj),
      forall i, (i < n0)%N -> nth [::] w2 i = nth [::] w0 i,
      forall i, (i < cwCnt x)%N -> i \notin cwSecond x -> nth [::] w2 i = nth [::] w1 i &
      [/\ forall i, (i < N)%N -> \sum_(c <- carith x) cval pw w2 i c = 0, linSat x proj w2 &
          hasSum x -> sumTotal N x pw w2 = 0]]].
Proof.
move=> [[hn hN32 hR hAm hSm hpcs hxof] ho oT' hok h0].
have [hN [hin hd] henv u1 u2 u3 hf h1 h128 hD oI oT oP oD sw sp gw gp] := ho.
have [wi [pw [w1 [e1 e2 e3 [s1 g1 [s2 g2] h]]]]] :=
  define_complete hN hin hd henv u1 u2 u3 hf h1 h128 hD oI oT oP oD sw sp gw gp.
exists wi, pw, w1; split=> //.
- rewrite -e3; have [T0 [hw _]] := wf_define (wf_new F N p0 n0) hin hd.
  have hwf := wf_twoWF hw; rewrite (kN K) in hwf.
  have hp := wf_p hw.
  apply: (fillPw_order U hwf hf) => //; first by rewrite size_padw ?sp.
  by apply: goodw_padw => //; rewrite sp.
- by move=> i hi; apply: g2; rewrite s2.
move=> d proj; have [xs xr] := hxof d.
have [w2 [e4 [s4 g4] n4 k4 [a1 a2 a3 _]]] := h proj xs xr (hok _).
exists w2; split=> //.
- move: e4; rewrite /projFill (kN K); case: ifP => // /h128 h8 e4.
  by rewrite ltnNge h8.
- by split=> //; move=> /h128 h8; rewrite /projOK xs h8.
- by move=> i hi hi2; apply: k4.
split=> //; last by move=> _; rewrite (sumSat_total K (csum_sizes K) a2).
move=> i hi; have: forall c, List.In c (carith x) -> cval pw w2 i c = 0.
  by move=> c hc; apply: a1 => //; rewrite (kN K).
elim: (carith x) => [|c l IH] hc; first by rewrite big_nil.
by rewrite big_cons hc ?IH ?addr0 //; [move=> c' hc'; apply: hc; right|left].
Qed.

Lemma prepared env k pw0 w0 ordT : statement env k pw0 w0 ordT ->
  exists f : rnd -> rnd, bijective f /\ forall r, exists pf pf' chals,
  [/\ ProveC (withCoins k r) pw0 w0 = Some (pf, chals),
      simulate T TE com0 epf0 (kC k) (kE k) ordT pw0 (f r) = Some (pf', chals) &
      (setBytes (nth [::] chals 5)) ^+ N != 1 -> pf' = pf].
Proof.
move=> st; have [[hn hN32 hR hAm hSm hpcs _] _ _ _ _] := st.
have [wi [pw [w1 [e1 e2 eP sz1 h]]]] := setup st.
have [w2 [ePF [A hp] _ same [sA a3 s0]]] := h (c0 H name (vB0 x (simC k))).
have N1 : (1 < N)%N by rewrite (ks_N K) -[1%N]/(2 ^ 0)%N ltn_exp2l //; lia.
exists (fmap k pw w2); split; first exact: injF_bij (fmap_inj (k := k) (pw := pw) (w2 := w2) N1 hSm).
move=> r; have [pf [pf' [q1 q2 q3]]] :=
  run_ideal N1 hSm hn hN32 hR hAm e1 e2 eP sz1 ePF A same hp sA a3 hpcs s0 r.
by exists pf, pf', (simCs k (drawn r.1.2 0) (drawn r.2 0)).
Qed.

(** how many of the equally likely draws lead to an evaluation point outside the evaluation
    domain and to an output with property [D] *)
Definition tally (run : rnd -> option (proof P * seq bytes)) (D : proof P -> seq bytes -> bool) : nat :=
  #|[pred r | if run r is Some (pf, chals) then (setBytes (nth [::] chals 5) ^+ N != 1) && D pf chals else false]|.

(** The output of Prove is distributed as the output of the simulator, which has no witness. *)
Theorem C100_simulated env k pw0 w0 ordT D : statement env k pw0 w0 ordT ->
  tally (fun r => ProveC (withCoins k r) pw0 w0) D = tally (simulate T TE com0 epf0 (kC k) (kE k) ordT pw0) D.
Proof.
move=> st; have [f [bf hf]] := prepared st.
rewrite /tally -!sum1_card [RHS](reindex f) /=; last exact: onW_bij.
apply: eq_bigl => r; rewrite !inE; have [pf [pf' [chals [-> -> e]]]] := hf r.
by case: eqP e => //= _ ->.
Qed.

(** ... so two witnesses for the same public witnesses cannot be told apart. *)
Theorem C100_witness_hidden env env' k pw0 w0 w0' ordT D :
  statement env k pw0 w0 ordT -> statement env' k pw0 w0' ordT ->
  tally (fun r => ProveC (withCoins k r) pw0 w0) D = tally (fun r => ProveC (withCoins k r) pw0 w0') D.
Proof. by move=> s1 s2; rewrite (C100_simulated D s1) (C100_simulated D s2). Qed.

(** Neither side excludes an evaluation point of the domain.  There the blinding polynomial
    is zero, and the proof shows entries of the witness in the clear. *)
Theorem C100_on_domain env k pw0 w0 ordT j : statement env k pw0 w0 ordT -> (j < N)%N ->
  (forall b, setBytes b = cpt n g j) -> forall r, exists pf chals,
  ProveC (withCoins k r) pw0 w0 = Some (pf, chals) /\
  forall i, (i < n0)%N -> (pfEvals pf)`_i = (nth [::] w0 i)`_j.
Proof.
move=> st hj hb r; have [[hn hN32 hR hAm hSm hpcs _] ho _ _ _] := st.
have [wi [pw [w1 [e1 e2 eP sz1 h]]]] := setup st.
have [w2 [ePF [A hp] own same [sA a3 s0]]] := h (c0 H name (pB0 T TE x (withCoins k r) w1)).
have [pf [chals [polys [hP _ _ _ [_ evw _ _]]]]] :=
  run_form setBytes marshal K (k := withCoins k r) hn hN32 hR hAm hSm e1 e2 eP ePF A same hp sA a3 hpcs s0.
exists pf, chals; split=> // i hi.
have hcw : (i < cwCnt x)%N.
  have [hin hd] := ks_c K; have [T0 [hw _]] := wf_define (wf_new F N p0 n0) hin hd.
  exact: leq_trans hi (wf_n hw).
by rewrite evw // hb (Wp_val K (drawn r.1.1) A) // /slot own.
Qed.
End K.
End Zk.

(** * Concrete instances *)

(** a hiding commitment scheme over Z/193: a commitment is its coin *)
Definition hidPcs : pcs F193 := @Pcs F193 nat (seq F193) unit nat 64
  (fun c p => (c, p)) (fun c => [:: c])
  (fun _ pt ps _ _ => ([seq evalSlice p pt | p <- ps], tt)) (fun _ _ _ _ => true).
Definition hidCoins : coins hidPcs :=
  @Coins F193 hidPcs (fun=> 0) (fun=> 0) (fun=> 0) (fun i => i) 0%N [::] [::] [::] [::].
Definition F193f : finFieldType := Fp_finFieldType 193.

Lemma hidIdeal : @idealPcs F193f hidPcs (fun c => c) (fun _ _ _ _ => tt).
Proof. by split. Qed.

(** two witnesses of the circuit of Prop_Check for the same public vector *)
Definition exzero : seq (seq F193) := [:: nseq 8 0; nseq 8 0].

Lemma exStatement T TE n g w : keys U193 8 1 2 (exc 0) (exx 0) T TE n g -> w = exw2 \/ w = exzero ->
  @statement F193f U193 hidPcs exXof 8 1 2 (exc 0) (exx 0) n (fun _ => OUser exrev exrev) hidCoins expw w [::].
Proof.
move=> K hw; split.
- split.
  + by rewrite -(@leq_exp2l 2) // -(ks_N K).
  + by rewrite -[8%N]/(2 ^ 3)%N ltn_exp2l.
  + apply/andP; split; first by vm_compute.
    by rewrite -[pRank _]/(2 ^ 6)%N ltn_exp2l.
  + by move=> _; vm_compute.
  + by move=> _; vm_compute.
  + by move=> pt polys _ _.
  + by move=> d; split=> //; rewrite all_nseq size_nseq eqxx.
- case: hw => ->; first exact: exHonest.
  by split=> //; try (by split=> //; move=> []); try (by move=> [|[|//]]);
    move=> c [<-|[<-|[<-|//]]].
- by split=> //; move=> [].
- move=> d c; case: hw => ->.
    have [_ [_ [_ [_ [_ _ sA sL [_ sS _ _]]]]]] := ex_checks 0.
    case=> [<-|[<-|[<-|//]]] /=.
    + by move=> i hi; apply: sA => //; left.
    + by rewrite (sS exS 0%Z) //; left.
    + by [].
  case=> [<-|[<-|[<-|//]]] /=.
  + by apply: (@case8 (fun i => cval expw exzero i exA = 0)); rewrite /cval /tval_ /= !unlock /=; apply/eqP; vm_compute.
  + by rewrite (sum8' (fun i => cval expw exzero i exS)) /cval /tval_ !unlock /=; apply/eqP; vm_compute.
  + by [].
- by rewrite big_seq1 sb0.
Qed.

Lemma ex_keys : exists T TE n g, keys U193 8 1 2 (exc 0) (exx 0) T TE n g.
Proof. by have [T [TE [n [g [K _ _ _ _]]]]] := ex_checks 0; exists T, TE, n, g. Qed.

Lemma ex2 : ((2%:R : F193f) ^+ 8 == 1) = false. Proof. by vm_compute. Qed.

(** The challenges all equal to 2, which is no 8th root of unity: every draw counts, and the
    two witnesses give the same number of proofs of each kind *)
Example ex_C100 : exists T TE n g, [/\ keys U193 8 1 2 (exc 0) (exx 0) T TE n g,
  forall D, @tally F193f hidPcs (fun=> 2%:R) 8 (exx 0)
      (fun r => ProveC U193 exH exName (fun=> 2%:R) exMar exXof T TE (exx 0) (withCoins hidCoins r) expw exw2) D
    = @tally F193f hidPcs (fun=> 2%:R) 8 (exx 0)
      (fun r => ProveC U193 exH exName (fun=> 2%:R) exMar exXof T TE (exx 0) (withCoins hidCoins r) expw exzero) D &
  @tally F193f hidPcs (fun=> 2%:R) 8 (exx 0)
      (fun r => ProveC U193 exH exName (fun=> 2%:R) exMar exXof T TE (exx 0) (withCoins hidCoins r) expw exw2) (fun _ _ => true)
    = #|{: rnd (F := F193f) (exx 0)}| ].
Proof.
have [T [TE [n [g K]]]] := ex_keys; exists T, TE, n, g.
have s1 := exStatement K (or_introl erefl); have s2 := exStatement K (or_intror erefl).
split; [exact: K| |].
  by move=> D; exact: (C100_witness_hidden exH exName (fun=> 2%:R) exMar K hidIdeal D s1 s2).
have [f [_ hf]] := prepared exH exName (fun=> 2%:R) exMar K hidIdeal s1.
apply: eq_card => r; rewrite !inE; have [pf [pf' [chals [-> _ _]]]] := hf r.
rewrite andbT; exact: (negbT ex2).
Qed.

(** The challenges all equal to 1: every proof shows the first entry of the witness. *)
Theorem C100_every_point_refuted : exists T TE n g, keys U193 8 1 2 (exc 0) (exx 0) T TE n g /\
  forall r : rnd (F := F193f) (exx 0), exists pf pf' chals chals',
  [/\ ProveC U193 exH exName (fun=> 1) exMar exXof T TE (exx 0) (withCoins hidCoins r) expw exw2 = Some (pf, chals),
      ProveC U193 exH exName (fun=> 1) exMar exXof T TE (exx 0) (withCoins hidCoins r) expw exzero = Some (pf', chals'),
      (pfEvals pf)`_0 = 1 & (pfEvals pf')`_0 = 0].
Proof.
have [T [TE [n [g K]]]] := ex_keys; exists T, TE, n, g; split; [exact: K|move=> r].
have s1 := exStatement K (or_introl erefl); have s2 := exStatement K (or_intror erefl).
have hb : forall b : bytes, (fun=> 1 : F193f) b = cpt n g 0%N by move=> b; rewrite /cpt brv_zero expr0.
have [pf [ch [h1 e1]]] := C100_on_domain exH exName exMar K s1 (isT : (0 < 8)%N) hb r.
have [pf' [ch' [h2 e2]]] := C100_on_domain exH exName exMar K s2 (isT : (0 < 8)%N) hb r.
by exists pf, pf', ch, ch'; split; [exact: h1|exact: h2|rewrite e1|rewrite e2].
Qed.

Print Assumptions C100_simulated.
Print Assumptions C100_witness_hidden.
Print Assumptions C100_on_domain.
Print Assumptions ex_C100.
Print Assumptions C100_every_point_refuted.
