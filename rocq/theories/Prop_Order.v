(** Go iterates over maps in random order.  Property C123: what depends on it. *)
From Coq Require Import ZArith Lia.
From mathcomp Require Import all_ssreflect all_algebra zify.
From Verif Require Import RingTac Spec UintModel BigpolyModel BitrevProofs NttProofs NttCore UintProofs NttTables
  UintFp PolyProofs RingProofs NormModel NormProofs BucklerModel DefineModel BucklerSpec FillProofs NormSound ContextProofs
  CheckerProofs NormComplete FillComplete Prop_Norm RangeProofs EncodeProofs CheckProofs CheckSound Prop_Check
  ProtocolModel ProtocolProofs Prop_Protocol.
Set Implicit Arguments. Unset Strict Implicit. Unset Printing Implicit Defensive.
Import GRing.Theory.
Local Open Scope ring_scope.
Delimit Scope Z_scope with Z.

Section Order.
Variables (F : fieldType) (U : uint F).
Implicit Types (w pw : seq (seq F)).

Lemma fillInf_order n0 cnt N m ord ord' w : infWF n0 cnt m -> isOrder m ord -> isOrder m ord' ->
  (cnt <= size w)%N -> goodw N w -> fillInf U N m ord w = fillInf U N m ord' w.
Proof.
move=> hm [u1 o1] [u2 o2] hs hg.
have [p1 [-> s1 g1 n1 d1]] := fillInfP U hm u1 hs hg.
have [p2 [-> s2 g2 n2 d2]] := fillInfP U hm u2 hs hg.
congr Some; apply: (@eq_from_nth _ [::]); first by rewrite s1 s2.
rewrite s1 => a ha.
have [/hasP[id hid]|hno] := boolP (has (fun id => if aget m id is Some e then a \in e.1 else false) ord); last first.
  rewrite n1 ?n2 // => id e hi hm'; last by move/hasPn/(_ id hi): hno; rewrite hm'.
  by rewrite o2 -o1 in hi; move/hasPn/(_ id hi): hno; rewrite hm'.
case Em: (aget m id) => [e|] // hae.
have hid' : id \in ord' by rewrite o2 -o1.
have [_ _ _ [base [Eb _]]] := proj1 hm _ _ Em.
apply: (@eq_from_nth _ 0); first by rewrite g1 ?g2 ?s1 ?s2.
rewrite g1 ?s1 // => k hk; rewrite -!/(slot _ _ _).
by rewrite (d1 _ _ _ _ _ hid Em Eb hk hae) (d2 _ _ _ _ _ hid' Em Eb hk hae).
Qed.

Lemma fillProj_order n0 cnt N m ord ord' proj w : projWF n0 cnt m -> isOrder m ord -> isOrder m ord' ->
  (cnt <= size w)%N -> goodw N w -> (size proj <= N)%N -> fillProj proj m ord w = fillProj proj m ord' w.
Proof.
move=> hm [u1 o1] [u2 o2] hs hg hp.
have [s1 g1 n1 d1] := fillProjP hm u1 hs hg hp.
have [s2 g2 n2 d2] := fillProjP hm u2 hs hg hp.
apply: (@eq_from_nth _ [::]); first by rewrite s1 s2.
rewrite s1 => a ha.
have [/hasP[id hid]|hno] := boolP (has (fun id => if aget m id is Some wp then a == wp else false) ord); last first.
  rewrite n1 ?n2 // => id e hi hm'; last by move/hasPn/(_ id hi): hno; rewrite hm'.
  by rewrite o2 -o1 in hi; move/hasPn/(_ id hi): hno; rewrite hm'.
case Em: (aget m id) => [wp|] // /eqP ->.
have hid' : id \in ord' by rewrite o2 -o1.
by rewrite (d1 _ _ hid Em) (d2 _ _ hid' Em).
Qed.

Lemma fillProjD_order cnt N m ord ord' w : projDWF cnt N m -> isOrder m ord -> isOrder m ord' ->
  (cnt <= size w)%N -> goodw N w -> fillProjD U N m ord w = fillProjD U N m ord' w.
Proof.
move=> hm [u1 o1] [u2 o2] hs hg.
have [p1 [-> s1 g1 n1 d1]] := fillProjDP U hm u1 hs hg.
have [p2 [-> s2 g2 n2 d2]] := fillProjDP U hm u2 hs hg.
congr Some; apply: (@eq_from_nth _ [::]); first by rewrite s1 s2.
rewrite s1 => a ha.
have [/hasP[id hid]|hno] := boolP (has (fun id => if aget m id is Some e then a == e.2 else false) ord); last first.
  rewrite n1 ?n2 // => id B wD hi hm'; last by move/hasPn/(_ id hi): hno; rewrite hm'.
  by rewrite o2 -o1 in hi; move/hasPn/(_ id hi): hno; rewrite hm'.
case Em: (aget m id) => [[B wD]|] // /eqP ->.
have hid' : id \in ord' by rewrite o2 -o1.
have [hwD [base [Eb _]]] := proj1 hm _ _ _ Em.
apply: (@eq_from_nth _ 0); first by rewrite g1 ?g2 ?s1 ?s2 //; apply: leq_trans hs.
by move=> k _; rewrite -!/(slot _ _ _) (d1 _ _ _ _ hid Em Eb) (d2 _ _ _ _ hid' Em Eb).
Qed.

(** an entry that does not fit panics in every order *)
Lemma fillProjD_unfit N m ord w id B wD base : aget m id = Some (B, wD) -> decomposeBase B = Some base ->
  (N < 128 * size base)%N -> id \in ord -> fillProjD U N m ord w = None.
Proof.
move=> e eb h; elim: ord w => [|i ord IH] w; first by rewrite in_nil.
rewrite inE fillProjD_cons => /orP[/eqP <-|hi]; first by rewrite e eb h.
case: (aget m i) => [[s' wD']|]; last exact: IH.
by case: (decomposeBase s') => [b|//]; case: ifP => [//|_]; exact: IH.
Qed.
Lemma fillPw_unfit N m ord pw id B pb pm wd : aget m id = Some (B, pb, pm, wd) ->
  (if decomposeBase B is Some base then (N < size base)%N else true) -> id \in ord -> fillPw U N m ord pw = None.
Proof.
move=> e h; elim: ord pw => [|i ord IH] pw //=; rewrite inE => /orP[/eqP <-|hi].
  by rewrite e /fillPw1; move: h; case: (decomposeBase B) => // base ->.
by case: (aget m i) => [e'|]; [case: (fillPw1 _ _ _ _) => // pw'|]; rewrite IH.
Qed.
End Order.

Section Props.
Variables (F : fieldType) (U : uint F).
Variables (P : pcs F) (H : bytes -> bytes) (name : nat -> bytes).
Variables (setBytes : bytes -> F) (marshal : F -> bytes).
Variable xofProj : nat -> bytes -> seq (seq bool).
Variables (N p0 n0 : nat) (cs : seq (cmd F)) (x : context F) (T TE : transformer F).
Hypothesis hc : compiled U N p0 n0 cs x.
Local Notation Prove := (@Prove F U P H name setBytes marshal xofProj T TE x).
Local Notation Verify := (@Verify F U P H name setBytes marshal xofProj T TE x).

(** the randomness of [k] with other map orders *)
Definition reorder (k : coins P) (oI oT oP oD : seq nat) : coins P :=
  Coins (kW k) (kLin k) (kSum k) (kC k) (kE k) oI oT oP oD.
Definition orders (k : coins P) : Prop :=
  [/\ isOrder (cinf x) (ordInf k), isOrder (ctwo x) (ordTwo k), isOrder (cproj x) (ordProj k) & isOrder (cprojD x) (ordProjD k)].

Lemma rkE : crank x = N.
Proof.
have [_ hd] := hc; suff h c y z : define U y c = Some z -> crank z = crank y by rewrite (h _ _ _ hd).
elim: c y => [|c l IH] y /=; first by move=> [<-].
case E: (run1 U y c) => [y'|] // /IH ->; move: E.
case: c => [c|c s|o i a tf tr|w B|w B|w B] /=; try by move=> [<-].
  rewrite /AddInfNormConstraintBig; do 3 (case: ifP => _; first by move=> [<-]).
  by case: (decomposeBase B) => [base|] // [<-]; rewrite fold_arithE.
by rewrite /AddApproxInfNormConstraintBig; case: (decomposeBase _) => [base|] // [<-].
Qed.

Lemma one_order (A : Type) (m : seq (nat * A)) o o' : (size m <= 1)%N -> isOrder m o -> isOrder m o' -> o = o'.
Proof.
have e0 (l : seq nat) : uniq l -> (forall id, (id \in l) = false) -> l = [::] by case: l => [|a l] // _ /(_ a); rewrite inE eqxx.
have e1 (a : nat) (l : seq nat) : uniq l -> (forall id, (id \in l) = (id == a)) -> l = [:: a].
  case: l => [|b [|c l]] /=; first by move=> _ /(_ a); rewrite eqxx.
    by move=> _ /(_ b); rewrite inE eqxx => /esym/eqP ->.
  rewrite inE negb_or => /andP[/andP[n1 _] _] h; have := h b; have := h c; rewrite !inE !eqxx ?orbT => /esym/eqP e /esym/eqP e'.
  by rewrite e e' eqxx in n1.
case: m => [|[a b] [|? ?]] // _ [u1 o1] [u2 o2].
  have -> : o = [::] by apply: e0 => // id; rewrite o1.
  by apply/esym/e0 => // id; rewrite o2.
have -> : o = [:: a] by apply: e1 => // id; rewrite o1 /= eq_sym; case: eqP.
by apply/esym/e1 => // id; rewrite o2 /= eq_sym; case: eqP.
Qed.

Lemma fillTwo_unfit m ord s pw w id B pb pm wd : aget m id = Some (B, pb, pm, wd) ->
  (if decomposeBase B is Some base then (N < size base)%N else true) -> id \in ord -> fillTwo U N m ord s pw w = None.
Proof.
move=> e h; elim: ord s pw w => [|i ord IH] s pw w //=; rewrite inE => /orP[/eqP <-|hi].
  by rewrite e /fillTwo1 /fillPw1; move: h; case: (decomposeBase B) => // base ->.
by case: (aget m i) => [e'|]; [case: (fillTwo1 _ _ _ _ _ _ _) => [[[s' pw'] w']|] //|]; rewrite IH.
Qed.

(** * C123, verifier: the answer does not depend on the order *)
Theorem C123_verify ordT ordT' pw0 pf : isOrder (ctwo x) ordT -> isOrder (ctwo x) ordT' ->
  size pw0 = p0 -> goodw N pw0 -> Verify ordT pw0 pf = Verify ordT' pw0 pf.
Proof.
move=> o1 o2 sp gp; have [hin hd] := hc; have [T0 [hw _]] := wf_define (wf_new F N p0 n0) hin hd.
have hwf := wf_twoWF hw; rewrite rkE in hwf; have hp := wf_p hw.
rewrite /ProtocolModel.Verify /VerifyC rkE.
suff -> : fillPw U N (ctwo x) ordT (padw N (cpwCnt x) pw0) = fillPw U N (ctwo x) ordT' (padw N (cpwCnt x) pw0) by [].
pose bad id := if aget (ctwo x) id is Some e then if decomposeBase e.1.1.1 is Some base then (N < size base)%N else true else false.
have [/hasP[id hid]|/hasPn hno] := boolP (has bad ordT).
  rewrite /bad; case E: (aget _ _) => [[[[B pb] pm] wd]|] //= hb.
  by rewrite !(fillPw_unfit _ _ E hb) //; rewrite (proj2 o2) -(proj2 o1).
apply: (fillPw_order U hwf _ o1 o2).
- move=> id B pb pm wd E; have hid : id \in ordT by rewrite (proj2 o1) E.
  move: (hno id hid); rewrite /bad E /=; case: (decomposeBase B) => [base|] //; rewrite -leqNgt => h.
  by exists base.
- by rewrite size_padw ?sp.
- by apply: goodw_padw => //; rewrite sp.
Qed.

(** * C123, prover: with at most one squared-norm constraint the proof does not depend on the orders *)
Theorem C123_prove_partial k oI oT oP oD pw0 w0 : (size (ctwo x) <= 1)%N ->
  orders k -> orders (reorder k oI oT oP oD) ->
  size w0 = n0 -> size pw0 = p0 -> goodw N w0 -> goodw N pw0 -> (forall d, size (xofProj N d) = 128%N) ->
  Prove (reorder k oI oT oP oD) pw0 w0 = Prove k pw0 w0.
Proof.
move=> h1 [i1 t1 p1 d1] [/= i2 t2 p2 d2] sw sp gw gp hx.
have [hin hd] := hc; have [T0 [hw _]] := wf_define (wf_new F N p0 n0) hin hd.
have hsec : all (fun i => i < cwCnt x)%N (cwSecond x).
  by apply/allP => i; have [_ ->] := wf_sec hw => /andP[/andP[_ ->]].
have hn := wf_n hw; have hp := wf_p hw.
have sW : size (padw N (cwCnt x) w0) = cwCnt x by apply: size_padw; rewrite sw.
have gW : goodw N (padw N (cwCnt x) w0) by apply: goodw_padw; rewrite ?sw.
have gP : goodw N (padw N (cpwCnt x) pw0) by apply: goodw_padw; rewrite ?sp.
have sP : size (padw N (cpwCnt x) pw0) = cpwCnt x by apply: size_padw; rewrite sp.
have hwf := wf_twoWF hw; rewrite rkE in hwf.
rewrite /ProtocolModel.Prove !ProveCE // /ProveE rkE; congr omap.
case: ifP => // _.
rewrite (fillInf_order U (wf_infWF hw) i2 i1) ?sW // (one_order h1 t2 t1).
have [|wi [ei si gi _ _]] := fillInfP U (wf_infWF hw) (proj1 i1) _ gW; first by rewrite sW.
rewrite ei; case ET: (fillTwo _ _ _ _ _ _ _) => [[pw w]|] //.
have fit : twoFits N (ctwo x).
  move=> id B pb pm wd E; have hid : id \in ordTwo k by rewrite (proj2 t1) E.
  have := @fillTwo_unfit _ _ 0%Z (padw N (cpwCnt x) pw0) wi _ _ _ _ _ E _ hid; rewrite ET.
  case: (decomposeBase B) => [base|] h; last by have := h isT.
  by exists base; split=> //; rewrite leqNgt; apply/negP => /h.
have [|pw' [ep _ _ _ _]] := fillPwP U hwf fit (proj1 t1) _ gP; first by rewrite sP.
have [|w' [e' s' g' _ _]] := fillTwoP 0%Z hwf fit (proj1 t1) _ gi ep; first by rewrite si sW.
move: e'; rewrite ET => -[_ ew]; rewrite -{}ew {w' pw' ep} in s' g'.
cbv zeta; set B0 := pB0 _ _ _ _ _; set proj := xofProj _ _.
suff -> : projFill U x (reorder k oI (ordTwo k) oP oD) proj w = projFill U x k proj w by [].
rewrite /projFill /=; case: ifP => // _; case: ifP => // h128; rewrite rkE in h128 *.
have sp' : (size proj <= N)%N by rewrite /proj hx leqNgt h128.
rewrite (fillProj_order (wf_projWF hw) p2 p1 _ g' sp') ?s' ?si ?sW //.
have [|sv gv _ _] := fillProjP (wf_projWF hw) (proj1 p1) _ g' sp'; first by rewrite s' si sW.
pose bad id := if aget (cprojD x) id is Some e then if decomposeBase e.1 is Some base then (N < 128 * size base)%N else false else false.
have [/hasP[id hid]|/hasPn hno] := boolP (has bad (ordProjD k)).
  rewrite /bad; case E: (aget _ _) => [[B wD]|] //=; case Eb: (decomposeBase B) => [base|] // hb.
  by rewrite !(fillProjD_unfit _ _ E Eb hb) //; rewrite (proj2 d2) -(proj2 d1).
have hD := @wf_projDWF _ _ _ _ _ hw; rewrite rkE in hD.
apply: (fillProjD_order U (hD _) d2 d1 _ gv); last by rewrite sv s' si sW.
move=> wp B wD base E Eb; have hid : wp \in ordProjD k by rewrite (proj2 d1) E.
by move: (hno wp hid); rewrite /bad E /= Eb -leqNgt.
Qed.
End Props.

(** * C123 refuted for the prover with two squared-norm constraints *)

(** The circuit ||w0||^2 <= 3, ||w1||^2 <= 3 and the honest vectors w0 = 0, w1 = (1,1,0,...). *)
Definition cs123 : seq (cmd F193) := [:: CTwo 0%N 3%Z; CTwo 1%N 3%Z].
Section Vectors.
Variables (F : fieldType) (U : uint F).
Definition w123 : seq (seq F) := [:: nseq 8 0; [:: 1; 1; 0; 0; 0; 0; 0; 0]].
Definition pwF : seq (seq F) := [:: [:: 1 + 1; 1; 0; 0; 0; 0; 0; 0]; [:: 1; 1; 0; 0; 0; 0; 0; 0];
   [:: 1 + 1; 1; 0; 0; 0; 0; 0; 0]; [:: 1; 1; 0; 0; 0; 0; 0; 0]].
(** the vectors after the filling, [d] being the first digit of ||w0||^2 *)
Definition wF (d : F) : seq (seq F) :=
  w123 ++ [:: [:: d; 0; 0; 0; 0; 0; 0; 0]; [:: 1; 0; 0; 0; 0; 0; 0; 0]].

(** the constraints the two calls leave behind *)
Let x := AddSqNormConstraintBig U (AddSqNormConstraintBig U (newContext F 8 0 2) 0 3) 1 3.
Lemma two_constraints : carith x = [:: binC U 2 1; binC U 3 3] /\ csum x = [:: sqC U 0 2 0; sqC U 1 3 2].
Proof. by []. Qed.

Lemma two_other : [/\ cwSecond x = [::], chasProj x = false & clin x = [::]].
Proof. by []. Qed.

Lemma two_hasSum : hasSum x = true.
Proof. by []. Qed.

Lemma two_lin proj w : linSat x proj w.
Proof. by move=> ? ? ? []. Qed.

Lemma two_arith d i : d * d = d -> (i < 8)%N -> \sum_(c <- carith x) cval pwF (wF d) i c = 0.
Proof.
move=> hd; rewrite (proj1 two_constraints) !big_cons big_nil !binC_val /slot.
move: i => [|[|[|[|[|[|[|[|i]]]]]]]] //= _; by rewrite ?mulrBr ?mul0r ?hd ?mulr1 ?mul1r ?subrr ?addr0.
Qed.

Lemma sum8' (f : nat -> F) : \sum_(i < 8) f i = foldr (fun i a => f i + a) 0 [:: 0; 1; 2; 3; 4; 5; 6; 7]%N.
Proof. by rewrite !big_ord_recl big_ord0 /=. Qed.

Lemma two_total d : sumTotal 8 x pwF (wF d) = - ((1 + 1) * d).
Proof.
rewrite /sumTotal (proj2 two_constraints) !big_cons big_nil.
rewrite (eq_bigr (fun i : 'I_8 => slot (wF d) 0 i * slot (wF d) 0 i - slot pwF 0 i * slot (wF d) 2 i)); last by move=> i _; exact: sqC_val.
rewrite (sum8' (fun i => slot (wF d) 0 i * slot (wF d) 0 i - slot pwF 0 i * slot (wF d) 2 i)).
rewrite (eq_bigr (fun i : 'I_8 => slot (wF d) 1 i * slot (wF d) 1 i - slot pwF 2 i * slot (wF d) 3 i)); last by move=> i _; exact: sqC_val.
rewrite (sum8' (fun i => slot (wF d) 1 i * slot (wF d) 1 i - slot pwF 2 i * slot (wF d) 3 i)).
rewrite /slot /= ?mulr0 ?mul0r ?mulr1 ?mul1r ?subr0 ?sub0r ?addr0.
have -> : 1 - (1 + 1) + 1 = 0 :> F by rewrite opprD addrA subrr sub0r addNr.
by rewrite addr0.
Qed.
End Vectors.

Definition x123 : context F193 :=
  AddSqNormConstraintBig U193 (AddSqNormConstraintBig U193 (newContext F193 8 0 2) 0 3) 1 3.
Lemma eP123 : fillPw U193 8 (ctwo x123) [:: 0; 1]%N (padw 8 (cpwCnt x123) [::]) = Some (pwF _).
Proof. by apply/eqP; vm_compute. Qed.
Lemma e1_123 : fillTwo U193 8 (ctwo x123) [:: 0; 1]%N 0 (padw 8 (cpwCnt x123) [::]) (padw 8 (cwCnt x123) (w123 _)) = Some (pwF _, wF 0).
Proof. by apply/eqP; vm_compute. Qed.
Lemma e2_123 : fillTwo U193 8 (ctwo x123) [:: 1; 0]%N 0 (padw 8 (cpwCnt x123) [::]) (padw 8 (cwCnt x123) (w123 _)) = Some (pwF _, wF 1).
Proof. by apply/eqP; vm_compute. Qed.
Lemma A123 d : assigns 8 x123 (pwF _) (wF d).
Proof. by split; [vm_compute|vm_compute|case=> [|[|[|[|?]]]] //|case=> [|[|[|[|?]]]] //]. Qed.
Lemma max123 : (hasArith x123 -> (8 < carithMax x123)%N) /\ (hasSum x123 -> (8 < csumMax x123)%N).
Proof. by split; vm_compute. Qed.
Lemma two_ne0 : (- ((1 + 1) : F193) == 0) = false.
Proof. by vm_compute. Qed.
Lemma keys123 : exists T TE n g, keys U193 8 0 2 cs123 x123 T TE n g.
Proof.
apply: keys193; first by split.
  by move=> c [<-|[<-|//]].
by right; left; vm_compute.
Qed.
Lemma bound123 : twoBounded U193 8 (nth [::] (w123 F193) 0) 3 /\ twoBounded U193 8 (nth [::] (w123 F193) 1) 3.
Proof.
split.
- exists (fun=> 0%Z); split=> //.
  by do 8 (case=> [_|]; first by rewrite /repr ?sb0).
- exists (nth 0%Z [:: 1; 1; 0; 0; 0; 0; 0; 0]%Z); split=> //.
  by do 8 (case=> [_|]; first by rewrite /repr ?sb0 ?setBigInt_one).
Qed.
Lemma orders123 : isOrder (ctwo x123) [:: 0; 1]%N /\ isOrder (ctwo x123) [:: 1; 0]%N.
Proof. by split; split=> //; move=> [|[|id]]. Qed.

Section Run123.
Variables (P : pcs F193) (H : bytes -> bytes) (name : nat -> bytes) (setBytes : bytes -> F193) (marshal : F193 -> bytes).
Variable xofProj : nat -> bytes -> seq (seq bool).
Variables (T TE : transformer F193) (n : nat) (g : F193) (K : keys U193 8 0 2 cs123 x123 T TE n g).
Lemma run123 (kk : coins P) d : (commitRank x123 <= pRank P < 2 ^ 32)%N -> ordInf kk = [::] -> pcsComplete x123 kk -> d * d = d ->
    fillTwo U193 8 (ctwo x123) (ordTwo kk) 0 (padw 8 (cpwCnt x123) [::]) (padw 8 (cwCnt x123) (w123 _)) = Some (pwF _, wF d) ->
    exists pf b, [/\ Prove U193 H name setBytes marshal xofProj T TE x123 kk [::] (w123 _) = Some pf, (exists s, b = setBytes s) &
      Verify U193 H name setBytes marshal xofProj T TE x123 [:: 0; 1]%N [::] pf = Some (b * b * - ((1 + 1) * d) == 0)].
Proof.
move=> hR hI hcc hd hT.
have hn : (3 <= n)%N by rewrite -(@leq_exp2l 2) // -(ks_N K).
have h32 : (8 < 2 ^ 32)%N by rewrite -[8%N]/(2 ^ 3)%N ltn_exp2l.
have hI' : fillInf U193 8 (cinf x123) (ordInf kk) (padw 8 (cwCnt x123) (w123 _)) = Some (padw 8 (cwCnt x123) (w123 _)) by rewrite hI.
have [hA hS] := max123.
have [h0 h0' _] := two_other U193; rewrite -/x123 in h0 h0'.
have [||||pf [ch [h1 _ h2]]] := @accept_core _ _ P H name setBytes marshal xofProj _ _ _ _ _ _ _ _ _ K kk
    [::] (w123 _) (padw 8 (cwCnt x123) (w123 _)) (pwF _) (wF d) (wF d) [:: 0; 1]%N hn h32 hR hA hS hI' hT eP123 _ (A123 d) _ _
    (fun i => @two_arith _ U193 d i hd) _ hcc.
- by rewrite /projFill h0'.
- by move=> i _ _.
- by rewrite h0'.
- exact (@two_lin _ U193 _ _).
exists pf, (setBytes (nth [::] ch 4)); split; first by rewrite /Prove h1.
  by eexists.
by rewrite h2 two_total two_hasSum.
Qed.
End Run123.

(** For every hash function and commitment scheme and all coins: with the entries visited in
    the order 0, 1 the honest proof is accepted; with the order 1, 0 the same prover on the same
    witness returns a proof that is rejected, unless the batching challenge is zero. *)
Theorem C123_prove_refuted : exists x T TE n g,
  [/\ keys U193 8 0 2 cs123 x T TE n g, twoBounded U193 8 (nth [::] (w123 F193) 0) 3, twoBounded U193 8 (nth [::] (w123 F193) 1) 3 &
  forall (P : pcs F193) H name setBytes marshal xofProj (k : coins P),
  (commitRank x <= pRank P < 2 ^ 32)%N -> pcsComplete x k -> orders x k ->
  let k1 := reorder k (ordInf k) [:: 0; 1]%N (ordProj k) (ordProjD k) in
  let k2 := reorder k (ordInf k) [:: 1; 0]%N (ordProj k) (ordProjD k) in
  [/\ orders x k1, orders x k2 &
  exists pf1 pf2, [/\
    Prove U193 H name setBytes marshal xofProj T TE x k1 [::] (w123 _) = Some pf1,
    Prove U193 H name setBytes marshal xofProj T TE x k2 [::] (w123 _) = Some pf2,
    Verify U193 H name setBytes marshal xofProj T TE x [:: 0; 1]%N [::] pf1 = Some true &
    (forall s, setBytes s != 0) -> Verify U193 H name setBytes marshal xofProj T TE x [:: 0; 1]%N [::] pf2 = Some false]]].
Proof.
have [T [TE [n [g K]]]] := keys123; have [b1 b2] := bound123; have [o1 o2] := orders123.
exists x123, T, TE, n, g; split; [exact: K|exact: b1|exact: b2|].
move=> P H name setBytes marshal xofProj k hR hc [oI oT oP oD] k1 k2.
split; [by split|by split|].
have eI : ordInf k = [::] by case: oI => _; case: (ordInf k) => [|a l] // /(_ a); rewrite inE eqxx.
have [pf1 [c1 [p1 _ v1]]] := @run123 P H name setBytes marshal xofProj _ _ _ _ K k1 0 hR eI hc (mulr0 0) e1_123.
have [pf2 [c2 [p2 [s ec] v2]]] := @run123 P H name setBytes marshal xofProj _ _ _ _ K k2 1 hR eI hc (mulr1 1) e2_123.
exists pf1, pf2; split; [exact: p1|exact: p2| |].
  by rewrite v1 mulr0 oppr0 mulr0 eqxx.
by move=> hs; rewrite v2 mulr1 !mulf_eq0 ec (negbTE (hs s)) two_ne0.
Qed.

(** a circuit with two max-norm constraints, whose map can be visited in two orders, and no
    squared-norm constraint: the hypotheses of [C123_prove_partial] *)
Example ex_C123_prove (F : fieldType) (U : uint F) : exists x, [/\ compiled U 8 0 2 [:: CInf 0%N 3%Z; CInf 1%N 3%Z] x,
  (size (ctwo x) <= 1)%N, isOrder (cinf x) [:: 0; 1]%N & isOrder (cinf x) [:: 1; 0]%N].
Proof.
pose x := odflt (newContext F 8 0 2) (define U (newContext F 8 0 2) [:: CInf 0%N 3%Z; CInf 1%N 3%Z]).
by exists x; split=> //; split=> //; move=> [|[|id]].
Qed.

Print Assumptions C123_verify.
Print Assumptions C123_prove_partial.
Print Assumptions C123_prove_refuted.
