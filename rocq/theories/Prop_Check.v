(** The three checks of the protocol: completeness, soundness, and what they fail to check.
    Properties C30, C32-C41. *)
From Coq Require Import ZArith Lia.
From mathcomp Require Import all_ssreflect all_algebra zify.
From Verif Require Import RingTac Spec UintModel BigpolyModel BitrevProofs NttProofs NttCore UintProofs NttTables
  UintFp PolyProofs RingProofs NormModel BucklerModel DefineModel BucklerSpec FillProofs NormSound ContextProofs
  CheckerProofs NormComplete Prop_Norm RangeProofs EncodeProofs CheckProofs CheckSound.
Set Implicit Arguments. Unset Strict Implicit. Unset Printing Implicit Defensive.
Import GRing.Theory.
Local Open Scope ring_scope.
Delimit Scope Z_scope with Z.
Local Notation V N := ('X^N - 1).

Lemma In_map (A B : Type) (f : A -> B) b s : List.In b (map f s) <-> exists a, f a = b /\ List.In a s.
Proof.
elim: s => [|a s IH] /=; first by split=> [|[a []]].
rewrite IH; split=> [[<-|[a' [e h]]]|[a' [e [->|h]]]]; [by exists a; auto|by exists a'; auto|by left|].
by right; exists a'.
Qed.

Lemma In_nth (A : Type) (d : A) s a : List.In a s -> exists k, (k < size s)%N /\ nth d s k = a.
Proof. by elim: s => [|b s IH] //= [->|/IH[k [h e]]]; [exists 0%N|exists k.+1]. Qed.

Lemma In_lcons (F : fieldType) (x : context F) chks t :
  List.In t (lcons x chks) <-> List.In t.1 chks /\ List.In t.2 (odflt [::] (aget (clin x) (caddr t.1))).
Proof.
rewrite /lcons; elim: chks => [|c l IH] /=; first by split=> [|[]].
rewrite In_cat IH In_map; split.
  by move=> [[io [<- h]]|[h1 h2]] /=; auto.
move=> [[->|h1] h2]; [left; exists t.2; split=> //; exact: esym (surjective_pairing t)|by right].
Qed.

(** * C38.  Committed remLo, remHi of length at most R that pass the test at 2R or more
    points: then remLo has no coefficient at or above N-1. *)
Theorem C38_remHi_degree (F : fieldType) (N R : nat) (lo hi pts : seq F) : (0 < N)%N -> (N <= R < 2 ^ 32)%N ->
  (size lo <= R)%N -> (size hi <= R)%N -> uniq pts -> (2 * R <= size pts)%N ->
  (forall pt, pt \in pts -> peval hi pt = Exp pt (Z.of_nat (R - (N - 1))) * peval lo pt) ->
  forall k, (N - 1 <= k)%N -> lo`_k = 0.
Proof.
move=> N0 /andP[hR hR2] sl sh up hp he k hk.
have sL : (size (Poly lo) <= R)%N by apply: leq_trans (size_Poly _) sl.
have sH : (size (Poly hi) <= R)%N by apply: leq_trans (size_Poly _) sh.
rewrite -coef_Poly; case: (leqP (size (Poly lo)) (N - 1)) => hl; first by rewrite nth_default // (leq_trans hl).
have ne : Poly hi != 'X^(R - (N - 1)) * Poly lo.
  apply/eqP => e; move: sH; rewrite e mulrC size_Mmonic ?monicXn // ?size_polyXn; first by move: hl hR N0; lia.
  by rewrite -size_poly_gt0; move: hl; lia.
suff : (size pts < 2 * R)%N by rewrite ltnNge hp.
apply: (few_points ne _ _ up).
- by apply: leq_trans sH _; lia.
- by rewrite (leq_trans (size_mul_leq _ _)) // size_polyXn addSn -pred_Sn; move: sL N0; lia.
- move=> pt /he e; rewrite -pevalE e ExpE; last by apply: leq_ltn_trans hR2; exact: leq_subr.
  by rewrite hornerM hornerXn pevalE.
Qed.

Section Props.
Variables (F : fieldType) (U : uint F).
Local Notation sb := (setBigInt U).

(** What Compile sets up: the context of the circuit, checkers that obey the law of C23-C26,
    the witness transformer T (rank N, root g) and the transformer TE of the embedding rank,
    which exceeds N (RandEncode writes coefficient N). *)
Record keys (N p0 n0 : nat) (cs : seq (cmd F)) (x : context F) (T TE : transformer F) (n : nat) (g : F) : Prop := Keys {
  ks_c : compiled U N p0 n0 cs x;
  ks_l : forall c, List.In c cs -> cmdLaw N c;
  ks_T : NewCyclicTransformer U N = Some T;
  ks_TE : NewCyclicTransformer U (embRank x) = Some TE;
  ks_lt : (N < embRank x)%N;
  ks_N : N = (2 ^ n)%N;
  ks_G : good_cyclic T n g
}.

Lemma keys_new N p0 n0 cs x T TE : compiled U N p0 n0 cs x -> (forall c, List.In c cs -> cmdLaw N c) ->
  NewCyclicTransformer U N = Some T -> NewCyclicTransformer U (embRank x) = Some TE -> (N < embRank x)%N ->
  exists n g, keys N p0 n0 cs x T TE n g.
Proof.
move=> h1 h2 h3 h4 h5; have [n [g [e G]]] := NewCyclic_good h3.
by exists n, g; split.
Qed.

Section K.
Variables (N p0 n0 : nat) (cs : seq (cmd F)) (x : context F) (T TE : transformer F) (n : nat) (g : F).
Hypothesis K : keys N p0 n0 cs x T TE n g.
Local Notation E := (trank TE).

(** the encodings and evaluations the two parties work with (prover.go 133-148, 155-163;
    verifier.go 150-160) *)
Definition encW (kW : nat -> F) (w : seq (seq F)) (i : nat) : seq F := randEncode T E (kW i) (nth [::] w i).
Definition pwNTT (pw : seq (seq F)) := [seq fwdNTT TE (encode T E v) | v <- pw].
Definition wNTT kW w := [seq fwdNTT TE (encW kW w i) | i <- iota 0 (cwCnt x)].
Definition pwEvals (pw : seq (seq F)) (pt : F) := [seq evalSlice (encode T E v) pt | v <- pw].
Definition vanish (pt : F) : F := Exp pt (Z.of_nat (crank x)) - sb 1.
(** the evaluations claimed for the first committed polynomials are the honest ones *)
Definition honestEvals kW w pt (evals : seq F) : Prop :=
  forall i, (i < cwCnt x)%N -> evals`_i = evalSlice (take N.+1 (encW kW w i)) pt.
Definition assigns (pw w : seq (seq F)) : Prop :=
  [/\ size pw = cpwCnt x, size w = cwCnt x, goodw N pw & goodw N w].

(* ---- facts shared by the proofs ---- *)
Lemma kx : rg N x.
Proof.
have [hin hd] := ks_c K.
by apply: (rg_define (rg_new F N p0 n0) _ _ hin (ks_l K) hd).
Qed.
Lemma kN : crank x = N. Proof. exact: rg_rank kx. Qed.
Lemma kN2 : crank x = (2 ^ n)%N. Proof. by rewrite kN (ks_N K). Qed.
Lemma kE : exists m h, trank TE = embRank x /\ good_cyclic TE m h.
Proof.
have [m [h [e G]]] := NewCyclic_good (ks_TE K).
by exists m, h; split=> //; rewrite e (gy_rank G).
Qed.
Lemma kEN : (N < E)%N. Proof. by have [m [h [-> _]]] := kE; exact: ks_lt K. Qed.
Lemma kE2 : (2 * N <= E)%N.
Proof.
have [m [h [e G]]] := kE; have := kEN; rewrite (gy_rank G) (ks_N K); exact: pow2_step1.
Qed.
Lemma kN0 : (0 < N)%N. Proof. by rewrite (ks_N K) N_pos. Qed.
Lemma kAll : all (consIn (cpwCnt x) (cwCnt x)) (carith x) /\ all (consIn (cpwCnt x) (cwCnt x)) (csum x).
Proof.
have allP' (A : Type) (p : pred A) s : (forall a, List.In a s -> p a) -> all p s.
  elim: s => [|a s IH] //= h; rewrite h ?IH //; [by move=> b hb; apply: h; right|by left].
by split; apply: allP' => c hc; [have [] := rg_ar kx hc|have [] := rg_su kx hc].
Qed.

Definition PWp pw j := interp T (nth [::] pw j).
Definition Wp kW w j := blind T n (kW j) (nth [::] w j).

Section A.
Variables (kW : nat -> F) (pw w : seq (seq F)).
Hypothesis A : assigns pw w.

Lemma sPW j : (j < cpwCnt x)%N -> size (nth [::] pw j) = (2 ^ n)%N.
Proof. by case: A => s _ h _; rewrite -s => /h; rewrite (ks_N K). Qed.
Lemma sWW j : (j < cwCnt x)%N -> size (nth [::] w j) = (2 ^ n)%N.
Proof. by case: A => _ s _ h; rewrite -s => /h; rewrite (ks_N K). Qed.
Lemma hE' : (2 ^ n <= E)%N. Proof. by rewrite -(ks_N K) ltnW // kEN. Qed.
Lemma hE'' : (2 ^ n < E)%N. Proof. by rewrite -(ks_N K) kEN. Qed.

Lemma sPWp j : (j < cpwCnt x)%N -> (size (PWp pw j) <= crank x)%N.
Proof. by move=> h; rewrite kN2; apply: size_interp; exact: sPW. Qed.
Lemma sWp j : (j < cwCnt x)%N -> (size (Wp kW w j) <= (crank x).+1)%N.
Proof. by move=> h; rewrite kN2; apply: size_blind; exact: sWW. Qed.
Lemma PWp_val j i : (j < cpwCnt x)%N -> (i < N)%N -> (PWp pw j).[cpt n g i] = slot pw j i.
Proof. by move=> h hi; rewrite (interp_val (ks_G K)) ?sPW // -(ks_N K). Qed.
Lemma Wp_val j i : (j < cwCnt x)%N -> (i < N)%N -> (Wp kW w j).[cpt n g i] = slot w j i.
Proof. by move=> h hi; rewrite (blind_val (ks_G K)) ?sWW // -(ks_N K). Qed.

Section H.
Variables (m : nat) (h : F).
Hypothesis GE : good_cyclic TE m h.
Lemma ePW j : (j < cpwCnt x)%N -> nth [::] (pwNTT pw) j = evs m h (PWp pw j).
Proof.
move=> hj; have := hj; case: A => s _ _ _; rewrite -s => hj'.
rewrite (nth_map [::]) // (fwd_evs GE) ?(Poly_encode (ks_G K) hE') ?sPW //.
by rewrite (size_encode (ks_G K) hE') ?sPW // (gy_rank GE).
Qed.
Lemma eWW j : (j < cwCnt x)%N -> nth [::] (wNTT kW w) j = evs m h (Wp kW w j).
Proof.
move=> hj; rewrite (nth_map 0%N) ?size_iota // nth_iota // add0n (fwd_evs GE) /encW.
  by rewrite (Poly_randEncode (ks_G K) hE') ?sWW // hE''.
by rewrite (size_randEncode (ks_G K) hE') ?sWW ?hE'' // (gy_rank GE).
Qed.
End H.

Lemma pwEvalsE pt j : (j < cpwCnt x)%N -> (pwEvals pw pt)`_j = (PWp pw j).[pt].
Proof.
move=> hj; have := hj; case: A => s _ _ _; rewrite -s => hj'.
by rewrite (nth_map [::]) // /evalSlice evalSliceE pevalE (Poly_encode (ks_G K) hE') ?sPW.
Qed.
Lemma evalsE pt evals j : honestEvals kW w pt evals -> (j < cwCnt x)%N -> evals`_j = (Wp kW w j).[pt].
Proof.
move=> he hj; rewrite he // /evalSlice evalSliceE /encW (randEncodeE (ks_G K) hE') ?sWW ?hE'' //.
rewrite take_cf; last exact: kEN.
by rewrite peval_cf //; rewrite -kN; exact: sWp.
Qed.
End A.

Lemma keeps proj vec : size vec = N -> (chasProj x -> projOK N proj) -> keepsSize x proj vec (clinChk x).
Proof.
move=> sv hp chk vtr hc; rewrite kN => svt.
have hP : match cobj_of chk return Prop with OProj => projOK N proj | _ => True end.
  by have := rg_pr kx hc; case: (cobj_of chk) => // /hp.
by have [_ ->] := obj_law (rg_ch kx hc) hP svt svt sv sv.
Qed.
Lemma kLin : linIn x (cwCnt x) (clinChk x).
Proof.
move=> chk [o i] hc; case E: (aget _ _) => [l|] //= hl; exact: (rg_li kx E hl).
Qed.

(** * C30.  The polynomials Prove interpolates are the true products: no wrap-around modulo
    X^embRank - 1.  Written out: the sum over constraints and terms of
    coefficient * public polynomial * product of witness polynomials. *)
Definition termPoly (pw w : seq (seq F)) kW (t : term F) : {poly F} :=
  (tcoeff t)%:P * (if tpw t is Some j then Poly (encode T E (nth [::] pw j)) else 1)
  * \prod_(j <- twit t) Poly (encW kW w j).

Theorem C30_no_wraparound pw w kW b : assigns pw w ->
  Poly (invNTT TE (prv_evalCircuit TE b (carith x) (pwNTT pw) (wNTT kW w)))
    = \sum_(c <- carith x) (\sum_(t <- c) termPoly pw w kW t) * b%:P /\
  Poly (invNTT TE (prv_evalCircuit TE b (csum x) (pwNTT pw) (wNTT kW w)))
    = \sum_(c <- csum x) (\sum_(t <- c) termPoly pw w kW t) * b%:P.
Proof.
move=> A; have [m [h [eE GE]]] := kE; have [ha hs] := kAll.
have gen l M : all (consIn (cpwCnt x) (cwCnt x)) l -> (forall c, List.In c l -> (maxRank (crank x) c <= M)%N) ->
  (M <= E)%N -> Poly (invNTT TE (prv_evalCircuit TE b l (pwNTT pw) (wNTT kW w)))
    = \sum_(c <- l) (\sum_(t <- c) termPoly pw w kW t) * b%:P.
  move=> hl hM hME; rewrite (prv_evalCircuitE GE (ePW A GE) (eWW kW A GE)) //.
  have N0 : (0 < crank x)%N by rewrite kN kN0.
  have sC := size_circ b hl N0 (sPWp A) (sWp kW A) hM.
  rewrite (inv_evs GE) -?(gy_rank GE); last exact: leq_trans hME.
  rewrite Poly_cf; last exact: leq_trans hME.
  rewrite /circ; elim: l hl {hM sC} => [_|c l IH] /=; first by rewrite !big_nil.
  move=> /andP[hc /IH e]; rewrite !big_cons e; congr (_ * _ + _); rewrite /cpoly {e IH}.
  elim: c hc => [_|t c IH] /=; first by rewrite !big_nil.
  move=> /andP[ht /IH e]; rewrite !big_cons e; congr (_ + _); rewrite {e IH} /tpoly /termPoly.
  case/andP: ht => hp hw; congr (_ * _ * _).
    by case: (tpw t) hp => // j hj; rewrite (Poly_encode (ks_G K) hE') ?(sPW A).
  elim: (twit t) hw => [_|j r IH] /=; first by rewrite !big_nil.
  move=> /andP[hj /IH e]; rewrite !big_cons e; congr (_ * _).
  by rewrite (Poly_randEncode (ks_G K) hE') ?(sWW A) // hE''.
have [g1 g2] := embRank_ge x.
split; [apply: (gen _ (carithMax x)) => //|apply: (gen _ (csumMax x)) => //]; rewrite ?eE // => c hc; rewrite kN.
  by have [] := rg_ar kx hc.
by have [] := rg_su kx hc.
Qed.

Lemma lohi_eq (S : {poly F}) (c pt : F) : (0 < crank x)%N -> (S %% V (crank x))`_0 = c ->
  S.[pt] = (S %/ V (crank x)).[pt] * (pt ^+ crank x - 1) + (c + pt * (tailp x (S %% V (crank x))).[pt]).
Proof.
move=> N0 <-; rewrite {1}(divp_eq S (V (crank x))) hornerD hornerM.
congr (_ + _); first by rewrite !(hornerD, hornerN, hornerC, hornerXn).
by rewrite {1}(tailpE N0 (size_mod_V S N0)) !(hornerD, hornerM, hornerC, hornerX).
Qed.

(** * C32 *)
Lemma arith_core pw w kW b pt evals : assigns pw w -> honestEvals kW w pt evals -> (N < 2 ^ 32)%N ->
  (N <= carithMax x)%N -> (forall i, (i < N)%N -> \sum_(c <- carith x) cval pw w i c = 0) ->
  exists quo, [/\ prv_arithCheck TE x b (pwNTT pw) (wNTT kW w) = Some quo, size quo = (carithMax x - N)%N &
    vrf_arithCheck x b (vanish pt) (evalSlice quo pt) evals (pwEvals pw pt)].
Proof.
move=> A he hN32 hM hs; have [m [h [eE GE]]] := kE; have [ha _] := kAll.
have [g1 _] := embRank_ge x.
have N0 : (0 < crank x)%N by rewrite kN kN0.
have hNE : (crank x <= E)%N by rewrite kN ltnW // kEN.
have hM' c : List.In c (carith x) -> (maxRank (crank x) c <= carithMax x)%N.
  by move=> hc; rewrite kN; have [] := rg_ar kx hc.
have hME : (crank x <= carithMax x <= E)%N by rewrite kN hM eE.
have e1 := prv_arithCheckE GE kN2 (ePW A GE) (eWW kW A GE) (sPWp A) (sWp kW A) hNE b ha hME hM'.
eexists; split; first exact: e1.
  by rewrite size_cf kN.
have sC := size_circ b ha N0 (sPWp A) (sWp kW A) hM'.
rewrite /vrf_arithCheck /evalSlice evalSliceE peval_cf; last by apply: size_div_V.
rewrite (vrf_evalCircuitE b ha (pwEvalsE A pt) (fun j => evalsE A he (j := j))).
have h0 : circ (PWp pw) (Wp kW w) b (carith x) %% V (crank x) = 0.
  rewrite kN2; apply/(modV0_vals (ks_G K)) => i; rewrite -(ks_N K) => hi.
  rewrite (circ_val b ha (fun j hj => PWp_val A hj hi) (fun j hj => Wp_val kW A hj hi)).
  by rewrite hs // mulr0.
rewrite {1}(divp_eq (circ (PWp pw) (Wp kW w) b (carith x)) (V (crank x))) h0 addr0 hornerM.
apply/eqP; congr (_ * _); rewrite /vanish ExpE ?kN // setBigInt_one.
by rewrite hornerD hornerN hornerC hornerXn.
Qed.

Theorem C32_arith_complete pw w kW b pt evals : assigns pw w -> honestEvals kW w pt evals -> (N < 2 ^ 32)%N ->
  (N <= carithMax x)%N -> arithSat x pw w ->
  exists quo, prv_arithCheck TE x b (pwNTT pw) (wNTT kW w) = Some quo /\
    vrf_arithCheck x b (vanish pt) (evalSlice quo pt) evals (pwEvals pw pt).
Proof.
move=> A he hN32 hM hs.
have [i hi|quo [h1 _ h2]] := @arith_core pw w kW b pt evals A he hN32 hM; last by exists quo.
rewrite -(kN) in hi; have: forall c, List.In c (carith x) -> cval pw w i c = 0 by move=> c hc; exact: hs.
elim: (carith x) => [|c l IH] h; first by rewrite big_nil.
by rewrite big_cons h ?IH ?addr0 //; [move=> d hd; apply: h; right|left].
Qed.

(** * C33 *)
Theorem C33_lin_complete pw w kW kL mask maskSum proj R b a pt evals : assigns pw w -> honestEvals kW w pt evals ->
  (N < 2 ^ 32)%N -> (N - 1 <= R < 2 ^ 32)%N -> (chasProj x -> projOK N proj) -> linSat x proj w ->
  sumCheckMask TE x kL (2 * N) = (mask, maskSum) ->
  exists quo lo hi, [/\ prv_linCheck U T TE x R proj b a mask (wNTT kW w) = Some (quo, lo, hi),
    [/\ size quo = N, size lo = (N - 1)%N & size hi = R] &
    vrf_linCheck U T TE x R proj b a (evalSlice (take (2 * N) mask) pt) pt (vanish pt) maskSum
      (evalSlice quo pt) (evalSlice lo pt) (evalSlice hi pt) evals].
Proof.
move=> A he hN32 /andP[hR hR2] hp hs eMask; have [m [h [eE GE]]] := kE.
have N0 : (0 < crank x)%N by rewrite kN kN0.
have hNE : (crank x <= E)%N by rewrite kN ltnW // kEN.
have [M [eM sM cM]] := sumCheckMaskP (TE := TE) (x := x) kL N0 (mr := 2 * N) kE2 hNE.
rewrite eMask /= in eM cM; rewrite {mask eMask}eM; move: maskSum cM => msum cM.
have sM2 : (size M <= 2 * crank x)%N.
  by apply: leq_trans sM _; rewrite kN geq_max leqnn andbT leq_pmull.
set vec := linCheckVec U x a.
have sv : size vec = crank x by apply: (size_linCheckVec U kN2 hNE).
have sv' : size vec = N by rewrite sv kN.
have hk := keeps sv' hp; have hl := kLin.
have hE2 : (2 * crank x <= E)%N by rewrite kN kE2.
have hR' : (crank x - 1 <= R)%N by rewrite kN.
have e1 := prv_linCheckE (U := U) (ks_G K) GE kN2 (eWW kW A GE) (sWp kW A) hNE b hk hl hE2 hR' sM2.
set S := _ * b%:P + M in e1; rewrite e1.
exists (cf (crank x) (S %/ V (crank x))); do 2!eexists; split; first by [].
  by rewrite !size_cf kN.
have sL := @size_linPoly _ T TE x n kN2 _ _ (sWp kW A) hNE _ _ sv b hk hl.
have sS : (size S <= 2 * crank x)%N.
  by rewrite (leq_trans (size_add _ _)) // geq_max sM2 andbT size_mulC.
rewrite /vrf_linCheck /evalSlice !evalSliceE.
have hR3 : (crank x - 1 <= R < 2 ^ 32)%N by rewrite hR' hR2.
rewrite (lohi_complete S pt hR3) eqxx /= -/vec.
have := @vrf_linLoopE _ T TE x n g (ks_G K) kN2 hNE (Wp kW w) (cwCnt x) proj vec sv b evals pt hk hl (fun j => evalsE A he (j := j)).
rewrite /evalSlice !evalSliceE => ->.
rewrite take_cf ?kE2 // peval_cf -?kN // !peval_cf ?size_tailp //; last first.
  by apply: leq_trans (size_div_V _ sS) _ => //; rewrite mul2n -addnn addnK.
have rem : (S %% V (crank x))`_0 = msum.
  apply: (mulIf (N_nz (ks_G K))); rewrite -cM kN2 -!(rsum_rem (ks_G K)) rsumD rsumC.
  rewrite (rsum_linPoly (ks_G K) kN2 sv b (w := w) (nw := cwCnt x)).
  - have -> : foldl (fun e t => e * b + dot (crank x) (defect x proj w t) vec) 0 (lcons x (clinChk x)) = 0; last by rewrite mul0r add0r.
    have: forall t, List.In t (lcons x (clinChk x)) -> dot (crank x) (defect x proj w t) vec = 0.
      move=> t ht; rewrite /dot big1 // => k _; rewrite nth_mkseq //.
      have [h1 h2] : List.In t.1 (clinChk x) /\ List.In (t.2.1, t.2.2) (odflt [::] (aget (clin x) (caddr t.1))).
        by move/In_lcons: ht => [h1 h2]; rewrite -surjective_pairing.
      by rewrite /slot (hs _ _ _ h1 h2) subrr mul0r.
    elim: (lcons _ _) => [|t l IH] //= ht; rewrite ht; last by left.
    by rewrite mul0r addr0 IH // => u hu; apply: ht; right.
  - by move=> chk hc; rewrite kN; exact: (rg_ch kx hc).
  - by move=> chk hc; have := rg_pr kx hc; case: (cobj_of chk) => // /hp; rewrite kN.
  - exact: hl.
  - by move=> j hj; rewrite kN2 (sWW A hj).
  - by move=> j k hj hkk; apply: (Wp_val kW A) => //; rewrite -kN.
have -> : (linPoly T x (Wp kW w) proj vec b).[pt] * b + M.[pt] = S.[pt] by rewrite !(hornerD, hornerM, hornerC).
rewrite (lohi_eq pt N0 rem) /vanish ExpE ?kN // setBigInt_one -kN; apply/eqP.
by rewrite -!addrA; congr (_ + _); rewrite addrC mulrC.
Qed.

(** * C34.  The verifier never reads the declared sums: what it tests is that the total
    over all sum-check constraints vanishes. *)
Definition sumTotal (pw w : seq (seq F)) : F := \sum_(c <- csum x) \sum_(i < N) cval pw w i c.

Lemma sum_core pw w kW kS mask maskSum R b pt evals : assigns pw w -> honestEvals kW w pt evals ->
  (N < 2 ^ 32)%N -> (N - 1 <= R < 2 ^ 32)%N -> (N <= csumMax x)%N ->
  sumCheckMask TE x kS (csumMax x) = (mask, maskSum) ->
  exists quo lo hi, [/\ prv_sumCheck TE x R b mask (pwNTT pw) (wNTT kW w) = Some (quo, lo, hi),
    [/\ size quo = (csumMax x - N)%N, size lo = (N - 1)%N & size hi = R] &
    vrf_sumCheck x R b (evalSlice (take (csumMax x) mask) pt) pt (vanish pt) maskSum
      (evalSlice quo pt) (evalSlice lo pt) (evalSlice hi pt) evals (pwEvals pw pt)
    = (b * b * sumTotal pw w == 0)].
Proof.
move=> A he hN32 /andP[hR hR2] hM eMask; have [m [h [eE GE]]] := kE; have [_ ha] := kAll.
have [_ g1] := embRank_ge x.
have N0 : (0 < crank x)%N by rewrite kN kN0.
have hNE : (crank x <= E)%N by rewrite kN ltnW // kEN.
have hME : (csumMax x <= E)%N by rewrite eE.
have [M [eM sM cM]] := sumCheckMaskP (TE := TE) (x := x) kS N0 (mr := csumMax x) hME hNE.
rewrite eMask /= in eM cM; rewrite {mask eMask}eM; move: maskSum cM => msum cM.
have sM2 : (size M <= csumMax x)%N by apply: leq_trans sM _; rewrite kN geq_max hM leqnn.
have hM' c : List.In c (csum x) -> (maxRank (crank x) c <= csumMax x)%N.
  by move=> hc; rewrite kN; have [] := rg_su kx hc.
have hME' : (crank x <= csumMax x <= E)%N by rewrite kN hM.
have hR' : (crank x - 1 <= R)%N by rewrite kN.
have e1 := prv_sumCheckE GE kN2 (ePW A GE) (eWW kW A GE) (sPWp A) (sWp kW A) hNE b ha hME' hM' hR' sM2.
set S := sumPoly _ _ _ _ _ in e1; rewrite e1.
do 3!eexists; split; first by [].
  by rewrite !size_cf kN.
have sC := size_circ b ha N0 (sPWp A) (sWp kW A) hM'.
have sS : (size S <= csumMax x)%N.
  by rewrite (leq_trans (size_add _ _)) // geq_max sM2 andbT size_mulC.
rewrite /vrf_sumCheck /evalSlice !evalSliceE.
have hR3 : (crank x - 1 <= R < 2 ^ 32)%N by rewrite hR' hR2.
rewrite (lohi_complete S pt hR3) eqxx /=.
rewrite (vrf_evalCircuitE b ha (pwEvalsE A pt) (fun j => evalsE A he (j := j))).
rewrite take_cf // !peval_cf ?size_tailp //; last exact: size_div_V.
have rem : ((S %% V (crank x))`_0 - msum) * N%:R = b * b * sumTotal pw w.
  rewrite mulrBl -cM kN2 {1 2}(ks_N K) -!(rsum_rem (ks_G K)) rsumD addrK rsumC circE mulrC.
  rewrite [b%:P * _]mulrC rsumC -mulrA; congr (_ * _); rewrite mulrC; congr (_ * _).
  rewrite /rsum /sumTotal exchange_big (ks_N K); apply: eq_bigr => i _.
  have hi : (i < N)%N by rewrite (ks_N K).
  have := circ_val 1 ha (fun j hj => PWp_val A hj hi) (fun j hj => Wp_val kW A hj hi).
  by rewrite circE mul1r polyC1 mul1r.
have -> : (circ (PWp pw) (Wp kW w) b (csum x)).[pt] * b + M.[pt] = S.[pt].
  by rewrite !(hornerD, hornerM, hornerC).
rewrite (lohi_eq pt N0 erefl) /vanish ExpE ?kN // setBigInt_one -rem mulf_eq0.
have -> : (N%:R == 0 :> F) = false by apply/negbTE; rewrite (ks_N K); exact: N_nz (ks_G K).
rewrite orbF -kN subr_eq0 -addrA (inj_eq (addrI _)) addrC [pt * _]mulrC.
by rewrite (inj_eq (addrI _)).
Qed.

Lemma sumSat_total pw w : size (csum x) = size (csums x) -> sumSat U x pw w ->
  sumTotal pw w = \sum_(s <- csums x) sb s.
Proof.
rewrite /sumTotal /sumSat kN; elim: (csum x) (csums x) => [|c l IH] [|s r] //= => [_ _|[e] h]; first by rewrite !big_nil.
rewrite !big_cons (h c s); last by left.
by congr (_ + _); apply: IH => // d t hd; apply: h; right.
Qed.
Lemma csum_sizes : size (csum x) = size (csums x).
Proof. by have [_ hd] := ks_c K; have g0 := grows_define hd; have [] := gr_su g0 erefl. Qed.

(** proved for declared sums that are all zero modulo q (in particular for all the sums
    that AddSqTwoNormConstraint declares), or whose total is zero *)
Theorem C34_sum_complete_partial pw w kW kS mask maskSum R b pt evals : assigns pw w -> honestEvals kW w pt evals ->
  (N < 2 ^ 32)%N -> (N - 1 <= R < 2 ^ 32)%N -> (N <= csumMax x)%N -> sumSat U x pw w ->
  (forall s, List.In s (csums x) -> sb s = 0) \/ \sum_(s <- csums x) sb s = 0 ->
  sumCheckMask TE x kS (csumMax x) = (mask, maskSum) ->
  exists quo lo hi, prv_sumCheck TE x R b mask (pwNTT pw) (wNTT kW w) = Some (quo, lo, hi) /\
    vrf_sumCheck x R b (evalSlice (take (csumMax x) mask) pt) pt (vanish pt) maskSum
      (evalSlice quo pt) (evalSlice lo pt) (evalSlice hi pt) evals (pwEvals pw pt).
Proof.
move=> A he h1 h2 h3 hs h0 hmask.
have [quo [lo [hi [e1 _ e2]]]] := sum_core b A he h1 h2 h3 hmask; exists quo, lo, hi; split=> //.
rewrite e2 (sumSat_total csum_sizes hs).
have -> : \sum_(s <- csums x) sb s = 0; last by rewrite mulr0.
case: h0 => // h0; elim: (csums x) h0 => [|s l IH] h0; first by rewrite big_nil.
by rewrite big_cons h0 ?IH ?addr0 //; [move=> d hd; apply: h0; right|left].
Qed.

(** a satisfied sum-check constraint with a non-zero declared sum: the honest proof is
    rejected at every evaluation point, for every batching constant but zero *)
Lemma nonzero_sum_rejected pw w kW kS mask maskSum R b pt evals : assigns pw w -> honestEvals kW w pt evals ->
  (N < 2 ^ 32)%N -> (N - 1 <= R < 2 ^ 32)%N -> (N <= csumMax x)%N -> sumSat U x pw w ->
  \sum_(s <- csums x) sb s != 0 -> b != 0 ->
  sumCheckMask TE x kS (csumMax x) = (mask, maskSum) ->
  exists quo lo hi, prv_sumCheck TE x R b mask (pwNTT pw) (wNTT kW w) = Some (quo, lo, hi) /\
    vrf_sumCheck x R b (evalSlice (take (csumMax x) mask) pt) pt (vanish pt) maskSum
      (evalSlice quo pt) (evalSlice lo pt) (evalSlice hi pt) evals (pwEvals pw pt) = false.
Proof.
move=> A he h1 h2 h3 hs h0 hb hmask.
have [quo [lo [hi [e1 _ e2]]]] := sum_core b A he h1 h2 h3 hmask; exists quo, lo, hi; split=> //.
by rewrite e2 (sumSat_total csum_sizes hs) !mulf_eq0 (negbTE h0) (negbTE hb).
Qed.

(** * C35-C37: soundness.  The committed polynomials [wP] are arbitrary coefficient lists of
    length at most R; the witness they stand for are their values on the N-th roots of
    unity, in the order of the transformer (C39: for an honest encoding that is the witness
    itself). *)
Definition extract (wP : seq (seq F)) : seq (seq F) := [seq mkseq (fun k => peval p (g ^+ brv n k)) N | p <- wP].
Definition committed (R : nat) (wP : seq (seq F)) : Prop :=
  size wP = cwCnt x /\ forall j, (j < cwCnt x)%N -> (size (nth [::] wP j) <= R)%N.
Definition claimed (wP : seq (seq F)) (pt : F) (evals : seq F) : Prop :=
  forall j, (j < cwCnt x)%N -> evals`_j = peval (nth [::] wP j) pt.

Definition Wc (wP : seq (seq F)) j : {poly F} := Poly (nth [::] wP j).
Lemma sWc R wP j : committed R wP -> (j < cwCnt x)%N -> (size (Wc wP j) <= R)%N.
Proof. by move=> [_ h] /h; apply: leq_trans; exact: size_Poly. Qed.
Lemma Wc_val R wP j k : committed R wP -> (j < cwCnt x)%N -> (k < N)%N ->
  (Wc wP j).[cpt n g k] = slot (extract wP) j k.
Proof.
by move=> [s _] hj hk; rewrite /slot /extract (nth_map [::]) ?s // nth_mkseq // pevalE.
Qed.
Lemma claimedE wP pt evals j : claimed wP pt evals -> (j < cwCnt x)%N -> evals`_j = (Wc wP j).[pt].
Proof. by move=> h /h ->; rewrite pevalE. Qed.

(** C35, partial: some slot where the constraints do not add up to zero (for a circuit with
    one arithmetic constraint this says: the constraint is violated at that slot).  Then for
    every non-zero batching constant and every committed quotient the equation holds at
    fewer than D points, D bounding the degrees involved. *)
Theorem C35_arith_sound_partial pw wP R D b quo k pts : size pw = cpwCnt x -> goodw N pw -> committed R wP ->
  (N <= R)%N -> (N < 2 ^ 32)%N -> (size quo <= R)%N ->
  (forall c, List.In c (carith x) -> (maxRank R c <= D)%N) -> (N + R <= D)%N ->
  (k < N)%N -> \sum_(c <- carith x) cval pw (extract wP) k c != 0 -> b != 0 -> uniq pts ->
  (forall pt, pt \in pts -> exists evals, claimed wP pt evals /\
     vrf_arithCheck x b (vanish pt) (peval quo pt) evals (pwEvals pw pt)) ->
  (size pts < D)%N.
Proof.
move=> spw gpw hc hNR h32 sq hD hD2 hk hv hb up hpts; have [ha _] := kAll.
have [sW _] := hc.
have Aw : assigns pw (nseq (cwCnt x) (nseq N 0)).
  by split=> //; [rewrite size_nseq|move=> a; rewrite size_nseq => ha'; rewrite nth_nseq ha' size_nseq].
have R0 : (0 < R)%N by apply: leq_trans kN0 hNR.
have sP j : (j < cpwCnt x)%N -> (size (PWp pw j) <= R)%N.
  by move=> hj; apply: leq_trans (sPWp Aw hj) _; rewrite kN.
have sW' j : (j < cwCnt x)%N -> (size (Wc wP j) <= R.+1)%N by move=> hj; apply: leqW; exact: sWc hc hj.
have sC := size_circ b ha R0 sP sW' hD.
have ne : circ (PWp pw) (Wc wP) b (carith x) != Poly quo * V N.
  apply/eqP => e; have := circ_val b ha (fun j hj => PWp_val Aw hj hk) (fun j hj => Wc_val hc hj hk).
  rewrite e hornerM (ks_N K) (V_cpt (ks_G K)) mulr0 => /esym/eqP.
  by rewrite mulf_eq0 (negbTE hb) (negbTE hv).
apply: (few_points ne sC _ up).
  rewrite (leq_trans (size_mul_leq _ _)) // size_V ?kN0 // addnS -pred_Sn.
  by apply: leq_trans hD2; rewrite addnC leq_add2l; apply: leq_trans (size_Poly _) sq.
move=> pt /hpts[evals [he /eqP]].
rewrite (vrf_evalCircuitE b ha (pwEvalsE Aw pt) (fun j => claimedE he (j := j))) => ->.
by rewrite /vanish ExpE ?kN // setBigInt_one hornerM pevalE !(hornerD, hornerN, hornerC, hornerXn).
Qed.

(** with several constraints the statement fails: all are multiplied by the same constant,
    so a violated assignment whose violations cancel is accepted at every challenge *)
Lemma arith_cancel pw w kW b pt evals : assigns pw w -> honestEvals kW w pt evals -> (N < 2 ^ 32)%N ->
  (N <= carithMax x)%N -> (forall i, (i < N)%N -> \sum_(c <- carith x) cval pw w i c = 0) ->
  exists quo, prv_arithCheck TE x b (pwNTT pw) (wNTT kW w) = Some quo /\
    vrf_arithCheck x b (vanish pt) (evalSlice quo pt) evals (pwEvals pw pt).
Proof.
by move=> A he h1 h2 h3; have [quo [e1 _ e2]] := arith_core b A he h1 h2 h3; exists quo.
Qed.

(** ** C36.  The challenges come in the order a, b, pt; the mask and its sum are fixed before
    them, the quotient and remainders before pt.  All but N-1 values of a, then all but L
    values of b (L the number of linear constraints), then fewer than max(N+R, 2R) values
    of pt. *)
Theorem C36_lin_sound wP mP msum proj R chk o i : committed R wP -> (N <= R < 2 ^ 32)%N -> (size mP <= N + R)%N ->
  (chasProj x -> projOK N proj) ->
  List.In chk (clinChk x) -> List.In (o, i) (odflt [::] (aget (clin x) (caddr chk))) ->
  nth [::] (extract wP) o <> TransformTo proj (cobj_of chk) (nseq N 0) (nth [::] (extract wP) i) ->
  exists PA : {poly F}, [/\ PA != 0, (size PA <= N)%N & forall a, ~~ root PA a ->
  exists PB : {poly F}, [/\ PB != 0, (size PB <= (size (lcons x (clinChk x))).+1)%N & forall b, ~~ root PB b ->
  forall quo lo hi pts, (size quo <= R)%N -> (size lo <= R)%N -> (size hi <= R)%N -> uniq pts ->
  (forall pt, pt \in pts -> exists evals, claimed wP pt evals /\
     vrf_linCheck U T TE x R proj b a (peval mP pt) pt (vanish pt) msum
       (peval quo pt) (peval lo pt) (peval hi pt) evals) ->
  (size pts < maxn (N + R) (2 * R))%N]].
Proof.
move=> hc /andP[hNR hR] sm hp hchk hio hv.
have [sW _] := hc; have hl := kLin; have [ho hi'] := hl chk (o, i) hchk hio; rewrite /= in ho hi'.
have hNE : (crank x <= E)%N by rewrite kN ltnW // kEN.
have sx j : (j < cwCnt x)%N -> size (nth [::] (extract wP) j) = N.
  by move=> hj; rewrite (nth_map [::]) ?sW // size_mkseq.
have lawP c : List.In c (clinChk x) -> match cobj_of c return Prop with OProj => projOK N proj | _ => True end.
  by move=> hcc; have := rg_pr kx hcc; case: (cobj_of c) => // /hp.
have [sT _ _] := obj_law (rg_ch kx hchk) (lawP chk hchk) (size_nseq N 0) (size_nseq N 0) (sx _ hi') (sx _ hi').
exists (Poly (defect x proj (extract wP) (chk, (o, i)))); split.
- apply/eqP => e; apply: hv; apply: (@eq_from_nth _ 0); rewrite sx ?sT // => k hk.
  have := coef_Poly (defect x proj (extract wP) (chk, (o, i))) k; rewrite e coef0 nth_mkseq ?kN //= => /esym/eqP.
  by rewrite subr_eq0 => /eqP.
- by apply: leq_trans (size_Poly _) _; rewrite size_mkseq kN.
move=> a ha; set vec := linCheckVec U x a.
have sv : size vec = crank x by apply: (size_linCheckVec U kN2 hNE).
have sv' : size vec = N by rewrite sv kN.
pose ds := [seq dot N (defect x proj (extract wP) t) vec | t <- lcons x (clinChk x)].
pose c0 := rsum n g (Poly mP) - msum * N%:R.
have dE t : dot N (defect x proj (extract wP) t) vec = (Poly (defect x proj (extract wP) t)).[a].
  rewrite -pevalE /peval /dot size_mkseq kN; apply: eq_bigr => k _.
  by rewrite (linCheckVecE U kN2 hNE) ?kN.
exists (Poly (c0 :: rev ds)); split.
- apply/eqP => e.
  have : List.In (dot N (defect x proj (extract wP) (chk, (o, i))) vec) ds.
    by apply/In_map; exists (chk, (o, i)); split=> //; apply/In_lcons.
  move=> /(@In_nth F (0 : F))[k [hk ek]].
  have := coef_Poly (c0 :: rev ds) (size ds - k); rewrite e coef0.
  have -> : (size ds - k = (size ds - k.+1).+1)%N by move: hk; lia.
  rewrite /= nth_rev; last by move: hk; lia.
  have -> : (size ds - (size ds - k.+1).+1 = k)%N by move: hk; lia.
  by rewrite ek dE => /esym/eqP; apply/negP.
- by apply: leq_trans (size_Poly _) _; rewrite /= size_rev size_map.
move=> b hb quo lo hi pts sq sl sh up hpts.
have hk := keeps sv' hp.
have hR2 : (crank x <= R < 2 ^ 32)%N by rewrite kN hNR hR.
pose S := linPoly T x (Wc wP) proj vec b * b%:P + Poly mP.
have sS : (size S <= N + R)%N.
  rewrite (leq_trans (size_add _ _)) // geq_max; apply/andP; split; last exact: leq_trans (size_Poly _) sm.
  rewrite -kN; apply: size_mulC; apply: (size_linPoly_gen T kN2 (nw := cwCnt x) _ sv b hk hl) => j; exact: sWc hc.
apply: (lohi_sound (ks_G K) kN2 hR2 sq sl sh sS _ up (c := msum)); last first.
  move=> pt /hpts[evals [he]]; rewrite /vrf_linCheck; case: eqP => // e1 /eqP e2; split=> //.
  have := @vrf_linLoopE _ T TE x n g (ks_G K) kN2 hNE (Wc wP) (cwCnt x) proj vec sv b evals pt hk hl (fun j => claimedE he (j := j)).
  move=> e3; move: e2; rewrite -/vec e3 /vanish setBigInt_one => e2.
  by rewrite hornerD hornerM hornerC -pevalE e2.
rewrite rsumD rsumC (rsum_linPoly (ks_G K) kN2 sv b (w := extract wP) (nw := cwCnt x)).
- rewrite -subr_eq0; apply: contra hb; rewrite kN => /eqP e; apply/rootP.
  rewrite /= cons_poly_def hornerD hornerM hornerX hornerC -pevalE -evalSliceE revK /c0.
  rewrite -[RHS]e -addrA; congr (_ * _ + _).
  by rewrite /ds; elim: (lcons _ _) (0 : F) => [|t l IH] e0 //=; rewrite IH.
- by move=> c hcc; rewrite kN; exact: (rg_ch kx hcc).
- by move=> c hcc; have := lawP c hcc; rewrite kN.
- exact: hl.
- by move=> j hj; rewrite kN sx.
- by move=> j k hj hkk; apply: (Wc_val hc) => //; rewrite -kN.
Qed.

(** ** C37, partial: the committed witness makes the total over all sum-check constraints
    non-zero.  All but two values of b, then fewer than max(D, 2R) values of pt. *)
Theorem C37_sum_sound_partial pw wP mP msum R D : size pw = cpwCnt x -> goodw N pw -> committed R wP ->
  (N <= R < 2 ^ 32)%N -> (size mP <= D)%N -> (forall c, List.In c (csum x) -> (maxRank R c <= D)%N) ->
  sumTotal pw (extract wP) != 0 ->
  exists PB : {poly F}, [/\ PB != 0, (size PB <= 3)%N & forall b, ~~ root PB b ->
  forall quo lo hi pts, (size quo <= R)%N -> (size lo <= R)%N -> (size hi <= R)%N -> uniq pts ->
  (forall pt, pt \in pts -> exists evals, claimed wP pt evals /\
     vrf_sumCheck x R b (peval mP pt) pt (vanish pt) msum (peval quo pt) (peval lo pt) (peval hi pt)
       evals (pwEvals pw pt)) ->
  (size pts < maxn D (2 * R))%N].
Proof.
move=> spw gpw hc /andP[hNR hR] sm hD hv; have [_ ha] := kAll; have [sW _] := hc.
have Aw : assigns pw (nseq (cwCnt x) (nseq N 0)).
  by split=> //; [rewrite size_nseq|move=> a; rewrite size_nseq => ha'; rewrite nth_nseq ha' size_nseq].
have R0 : (0 < R)%N by apply: leq_trans kN0 hNR.
have sP j : (j < cpwCnt x)%N -> (size (PWp pw j) <= R)%N.
  by move=> hj; apply: leq_trans (sPWp Aw hj) _; rewrite kN.
have sW' j : (j < cwCnt x)%N -> (size (Wc wP j) <= R.+1)%N by move=> hj; apply: leqW; exact: sWc hc hj.
pose c0 := rsum n g (Poly mP) - msum * N%:R.
exists (Poly [:: c0; 0; sumTotal pw (extract wP)]); split.
- apply/eqP => e; have := coef_Poly [:: c0; 0; sumTotal pw (extract wP)] 2; rewrite e coef0 /= => /esym/eqP.
  exact/negP.
- exact: size_Poly.
move=> b hb quo lo hi pts sq sl sh up hpts.
have sC := size_circ b ha R0 sP sW' hD.
pose S := sumPoly x (PWp pw) (Wc wP) b (Poly mP).
have sS : (size S <= D)%N.
  rewrite (leq_trans (size_add _ _)) // geq_max size_mulC //=; exact: leq_trans (size_Poly _) sm.
have hR2 : (crank x <= R < 2 ^ 32)%N by rewrite kN hNR hR.
apply: (lohi_sound (ks_G K) kN2 hR2 sq sl sh sS _ up (c := msum)); last first.
  move=> pt /hpts[evals [he]]; rewrite /vrf_sumCheck; case: eqP => // e1 /eqP e2; split=> //.
  move: e2; rewrite (vrf_evalCircuitE b ha (pwEvalsE Aw pt) (fun j => claimedE he (j := j))).
  by rewrite /vanish setBigInt_one => <-; rewrite hornerD hornerM hornerC -pevalE.
rewrite /S /sumPoly rsumD rsumC circE [b%:P * _]mulrC rsumC.
have -> : rsum n g (\sum_(c <- csum x) cpoly (PWp pw) (Wc wP) c) = sumTotal pw (extract wP).
  rewrite /rsum /sumTotal exchange_big (ks_N K); apply: eq_bigr => i _.
  have hi' : (i < N)%N by rewrite (ks_N K).
  have := circ_val 1 ha (fun j hj => PWp_val Aw hj hi') (fun j hj => Wc_val hc hj hi').
  by rewrite circE mul1r polyC1 mul1r.
rewrite -subr_eq0; apply: contra hb; rewrite kN => /eqP e; apply/rootP.
rewrite -pevalE -evalSliceE /= mul0r add0r addr0 -[RHS]e /c0 -addrA; congr (_ + _).
Qed.

(** The declared sums are never read: a witness whose total is zero is accepted at every
    challenge, whatever sums the circuit declares. *)
Lemma sum_zero_accepted pw w kW kS mask maskSum R b pt evals : assigns pw w -> honestEvals kW w pt evals ->
  (N < 2 ^ 32)%N -> (N - 1 <= R < 2 ^ 32)%N -> (N <= csumMax x)%N -> sumTotal pw w = 0 ->
  sumCheckMask TE x kS (csumMax x) = (mask, maskSum) ->
  exists quo lo hi, prv_sumCheck TE x R b mask (pwNTT pw) (wNTT kW w) = Some (quo, lo, hi) /\
    vrf_sumCheck x R b (evalSlice (take (csumMax x) mask) pt) pt (vanish pt) maskSum
      (evalSlice quo pt) (evalSlice lo pt) (evalSlice hi pt) evals (pwEvals pw pt).
Proof.
move=> A he h1 h2 h3 hs hmask.
have [quo [lo [hi [e1 _ e2]]]] := sum_core b A he h1 h2 h3 hmask; exists quo, lo, hi; split=> //.
by rewrite e2 hs mulr0.
Qed.

(** * C39 *)
Theorem C39_encode_values v r i : size v = N ->
  [/\ forall k, (N <= k)%N -> (encode T E v)`_k = 0,
      forall k, (N < k)%N -> (randEncode T E r v)`_k = 0 &
      (i < N)%N -> peval (encode T E v) (g ^+ brv n i) = v`_i /\ peval (randEncode T E r v) (g ^+ brv n i) = v`_i].
Proof.
move=> sv; have sv2 : size v = (2 ^ n)%N by rewrite sv (ks_N K).
rewrite (randEncodeE (ks_G K) hE') ?hE'' // (encodeE (ks_G K) hE') //.
have s1 : (size (interp T v) <= N)%N by rewrite (ks_N K); exact: size_interp.
have s2 : (size (blind T n r v) <= N.+1)%N by rewrite (ks_N K); exact: size_blind.
have hNE := ltnW kEN.
split.
- by move=> k hk; rewrite nth_cf ?(leq_trans s1) // nth_default // (leq_trans s1).
- by move=> k hk; rewrite nth_cf ?(leq_trans s2 kEN) // nth_default // (leq_trans s2).
- rewrite {1}(ks_N K) => hi; rewrite !peval_cf ?(leq_trans s1) ?(leq_trans s2 kEN) //.
  by rewrite (interp_val (ks_G K)) // (blind_val (ks_G K)).
Qed.

(** * C40.  The committed polynomial is the first N+1 coefficients. *)
Theorem C40_one_evaluation_hidden v pt : size v = N -> pt ^+ N != 1 ->
  bijective (fun r => evalSlice (take N.+1 (randEncode T E r v)) pt).
Proof.
move=> sv hpt; have sv2 : size v = (2 ^ n)%N by rewrite sv (ks_N K).
have nz : pt ^+ N - 1 != 0 by rewrite subr_eq0.
have eE r : evalSlice (take N.+1 (randEncode T E r v)) pt = (interp T v).[pt] + r * (pt ^+ N - 1).
  rewrite /evalSlice evalSliceE (randEncodeE (ks_G K) hE') ?hE'' // take_cf ?kEN // peval_cf; last first.
    by rewrite (ks_N K); exact: size_blind.
  by rewrite /blind -(ks_N K) hornerD hornerZ !(hornerD, hornerN, hornerXn, hornerC).
exists (fun y => (y - (interp T v).[pt]) / (pt ^+ N - 1)) => [r|y]; rewrite eE.
  by rewrite addrAC subrr add0r mulfK.
by rewrite divfK // addrC subrK.
Qed.

(** * C41 *)
Theorem C41_mask_sum kL mr mask maskSum : (N <= mr <= E)%N -> sumCheckMask TE x kL mr = (mask, maskSum) ->
  [/\ size mask = E, forall k, (mr <= k)%N -> mask`_k = 0 &
      \sum_(i < N) peval mask (g ^+ brv n i) = maskSum * N%:R].
Proof.
move=> /andP[h1 h2] e.
have N0 : (0 < crank x)%N by rewrite kN kN0.
have hNE : (crank x <= E)%N by rewrite kN ltnW // kEN.
have [M [eM sM cM]] := sumCheckMaskP (TE := TE) (x := x) kL N0 h2 hNE.
rewrite e /= in eM cM; rewrite eM; rewrite kN (maxn_idPr h1) in sM.
have sE := leq_trans sM h2; split; first by rewrite size_cf.
  by move=> k hk; rewrite nth_cf // nth_default // (leq_trans sM).
rewrite -cM kN2 (ks_N K) -(rsum_rem (ks_G K)); apply: eq_bigr => i _.
by rewrite peval_cf.
Qed.
End K.
End Props.

(** * A circuit of rank 8 over Z/193: w0 * w0 = w1, w1 = reverse of w0, and the total of
    w0 - p0 * w1 is zero; the prover's vectors are w0 = w1 = (1,0,0,1,1,0,0,1) and
    p0 = (2,0,0,0,0,0,0,2).  It meets the hypotheses of every theorem above. *)
Definition F193 := [fieldType of 'F_193].
Definition U193 : uint F193 := @uintFp 193 isT.
Definition exA : constraint F193 := [:: Term 1 None [:: 0; 0]%N; Term (-1) None [:: 1%N]].
Definition exS : constraint F193 := [:: Term 1 None [:: 0%N]; Term (-1) (Some 0%N) [:: 1%N]].
Definition exrev (o v : seq F193) : seq F193 := rev v.
Definition exc (s : Z) : seq (cmd F193) := [:: CArith exA; CSum exS s; CLin 1%N 0%N 0%N exrev exrev].
Definition ex01 : seq F193 := [:: 1; 0; 0; 1; 1; 0; 0; 1].
Definition exw2 : seq (seq F193) := [:: ex01; ex01].
Definition expw : seq (seq F193) := [:: [:: 2%:R; 0; 0; 0; 0; 0; 0; 2%:R]].

Lemma dot_rev (v u : seq F193) : size v = 8%N -> size u = 8%N -> dot 8 (rev v) u = dot 8 v (rev u).
Proof.
move=> sv su; rewrite /dot (reindex_inj rev_ord_inj) /=; apply: eq_bigr => i _.
have hi := ltn_ord i.
rewrite !nth_rev ?sv ?su //; last by move: hi; lia.
by congr (_`_ _ * _`_ _); move: hi; lia.
Qed.
Lemma ex_law : userLaw 8 exrev exrev.
Proof. by move=> o1 o2 v u _ _ sv su; split; rewrite ?size_rev //; exact: dot_rev. Qed.

Lemma cyc193 r : List.In r [:: 2; 4; 8; 16; 32]%N -> exists T, NewCyclicTransformer U193 r = Some T.
Proof.
move=> h; have [||T [n [g [e _ _]]]] := @NewCyclicP F193 U193 r; last by exists T.
  have p2 a k : r = (2 ^ a)%N -> (Z.of_nat (2 * r) * k = 192)%Z -> ntt_rank U193 r.
    by move=> e1 e2; exists a => //; exists k; rewrite Z.mul_comm; exact: esym e2.
  case: h => [e|[e|[e|[e|[e|//]]]]]; [apply: (p2 1%N 48%Z)|apply: (p2 2%N 24%Z)|apply: (p2 3%N 12%Z)|apply: (p2 4%N 6%Z)|apply: (p2 5%N 3%Z)]; by rewrite -?e.
by case: h => [<-|[<-|[<-|[<-|[<-|//]]]]].
Qed.

(** any program over Z/193 whose calls are plain ones *)
Lemma keys193 p0 n0 cs x : compiled U193 8 p0 n0 cs x -> (forall c, List.In c cs -> cmdLaw 8 c) ->
  List.In (embRank x) [:: 16; 32]%N -> exists T TE n g, keys U193 8 p0 n0 cs x T TE n g.
Proof.
move=> h1 h2 h3; have lt : (8 < embRank x)%N by case: h3 => [e|[e|[]]]; rewrite -e; exact: isT.
have [T hT] := @cyc193 8%N (or_intror (or_intror (or_introl erefl))).
have [TE hTE] := @cyc193 (embRank x) (or_intror (or_intror (or_intror h3))).
have [n [g K]] := keys_new h1 h2 hT hTE lt.
exists T, TE, n, g; exact: K.
Qed.

Definition evalsOf (x : context F193) (T TE : transformer F193) kW w pt := [seq evalSlice (take 9 (encW T TE kW w i)) pt | i <- iota 0 (cwCnt x)].
Lemma evalsOfP x T TE kW w pt : honestEvals 8 x T TE kW w pt (evalsOf x T TE kW w pt).
Proof. by move=> i hi; rewrite (nth_map 0%N) ?size_iota // nth_iota. Qed.

Lemma sum8' (f : nat -> F193) : \sum_(i < 8) f i = foldr (fun i a => f i + a) 0 [:: 0; 1; 2; 3; 4; 5; 6; 7]%N.
Proof. by rewrite !big_ord_recl big_ord0 /=. Qed.
Lemma case8 (P : nat -> Prop) : P 0%N -> P 1%N -> P 2%N -> P 3%N -> P 4%N -> P 5%N -> P 6%N -> P 7%N ->
  forall i, (i < 8)%N -> P i.
Proof. by move=> h0 h1 h2 h3 h4 h5 h6 h7; case=> [|[|[|[|[|[|[|[|i]]]]]]]]. Qed.

Definition exx (s : Z) : context F193 :=
  AddLinearConstraint (AddSumCheckConstraintBig (AddArithmeticConstraint (newContext F193 8 1 2) exA) exS s)
    1 0 (Chk (inl 0%N) (OUser exrev exrev)).

Example ex_checks s : exists T TE n g, [/\ keys U193 8 1 2 (exc s) (exx s) T TE n g,
  assigns 8 (exx s) expw exw2, arithSat (exx s) expw exw2, linSat (exx s) [::] exw2 &
  [/\ sumTotal 8 (exx s) expw exw2 = 0, sumSat U193 (exx 0) expw exw2, (8 <= carithMax (exx s))%N &
      (8 <= csumMax (exx s))%N]].
Proof.
have [|||T [TE [n [g K]]]] := @keys193 1 2 (exc s) (exx s).
- by split.
- by move=> c [<-|[<-|[<-|//]]] //; exact: ex_law.
- by right; left; vm_compute.
have cv : forall i, (i < 8)%N -> cval expw exw2 i exA = 0.
  by apply: (@case8 (fun i => cval expw exw2 i exA = 0)); rewrite /cval /tval_ /= !unlock /=; apply/eqP; vm_compute.
have tot : \sum_(i < 8) cval expw exw2 i exS = 0.
  by rewrite (sum8' (fun i => cval expw exw2 i exS)) /cval /tval_ !unlock /=; apply/eqP; vm_compute.
exists T, TE, n, g; split=> //.
- by split=> //; [move=> [|//]|move=> [|[|//]]].
- by move=> c [<-|//] i hi; exact: cv.
- by move=> chk o i [<-|//] [[<- <-]|//].
split; [|move=> c s0 [[<- <-]|//]|by []|by []].
  by rewrite /sumTotal big_seq1 tot.
by rewrite tot sb0.
Qed.

(** * C35: two constraints w0 = 0 and -w0 = 0, both violated by w0 = (1,...,1), and accepted
    for every batching constant, every blinding and every evaluation point. *)
Theorem C35_batch_refuted : exists cs x T TE n g pw w,
  [/\ keys U193 8 0 1 cs x T TE n g, assigns 8 x pw w,
      forall c, List.In c (carith x) -> forall i, (i < 8)%N -> cval pw w i c != 0, size (carith x) = 2%N &
  forall kW b pt evals, honestEvals 8 x T TE kW w pt evals ->
  exists quo, prv_arithCheck TE x b (pwNTT T TE pw) (wNTT x T TE kW w) = Some quo /\
    vrf_arithCheck x b (vanish U193 x pt) (evalSlice quo pt) evals (pwEvals T TE pw pt)].
Proof.
pose c1 : constraint F193 := [:: Term 1 None [:: 0; 0]%N]; pose c2 : constraint F193 := [:: Term (-1) None [:: 0; 0]%N].
pose cs := [:: CArith c1; CArith c2].
pose x := AddArithmeticConstraint (AddArithmeticConstraint (newContext F193 8 0 1) c1) c2.
have [|||T [TE [n [g K]]]] := @keys193 0 1 cs x.
- by split.
- by move=> c [<-|[<-|//]].
- by right; left; vm_compute.
exists cs, x, T, TE, n, g, [::], [:: nseq 8 1].
have A : assigns 8 x [::] [:: nseq 8 (1 : F193)] by split=> //; move=> [|//].
split=> //.
- by move=> c [<-|[<-|//]]; apply: (@case8 (fun i => cval _ _ i _ != 0)); rewrite /cval /tval_ !unlock; vm_compute.
- move=> kW b pt evals he; apply: (arith_cancel K b A he) => //.
  by apply: (@case8 (fun i => \sum_(c <- carith x) cval _ _ i c = 0)); rewrite !big_cons big_nil /cval /tval_ !unlock /=; apply/eqP; vm_compute.
Qed.

(** * C34 and C37: a declared sum that is not zero.  The circuit above with the sum 4 instead
    of 0: the honest witness w0 = w1 = (1,0,0,1,1,0,0,1), p0 = 0 has that sum and is rejected
    for every non-zero b; the witness with total 0 is accepted for every b. *)
Theorem C34_nonzero_sum_refuted : exists cs x T TE n g pw w,
  [/\ keys U193 8 1 2 cs x T TE n g, assigns 8 x pw w, sumSat U193 x pw w &
  forall kW kS mask maskSum R b pt evals, honestEvals 8 x T TE kW w pt evals -> (7 <= R < 2 ^ 32)%N -> b != 0 ->
  sumCheckMask TE x kS (csumMax x) = (mask, maskSum) ->
  exists quo lo hi, prv_sumCheck TE x R b mask (pwNTT T TE pw) (wNTT x T TE kW w) = Some (quo, lo, hi) /\
    vrf_sumCheck x R b (evalSlice (take (csumMax x) mask) pt) pt (vanish U193 x pt) maskSum
      (evalSlice quo pt) (evalSlice lo pt) (evalSlice hi pt) evals (pwEvals T TE pw pt) = false].
Proof.
have [T [TE [n [g [K [_ _ _ gw] _ _ [_ _ hA hS]]]]]] := ex_checks 4.
exists (exc 4), (exx 4), T, TE, n, g, [:: nseq 8 0], exw2.
have A : assigns 8 (exx 4) [:: nseq 8 (0 : F193)] exw2 by split=> //; move=> [|//].
have ss : sumSat U193 (exx 4) [:: nseq 8 (0 : F193)] exw2.
  move=> c s [[<- <-]|//]; rewrite -[crank _]/8%N (sum8' (fun i => cval _ _ i exS)) /cval /tval_ !unlock /=; apply/eqP; by vm_compute.
split=> // kW kS mask maskSum R b pt evals he hR hb hm.
apply: (nonzero_sum_rejected K A he _ hR hS ss _ hb hm) => //.
by rewrite big_seq1; vm_compute.
Qed.

Theorem C37_declared_sum_refuted : exists cs x T TE n g pw w,
  [/\ keys U193 8 1 2 cs x T TE n g, assigns 8 x pw w, ~ sumSat U193 x pw w &
  forall kW kS mask maskSum R b pt evals, honestEvals 8 x T TE kW w pt evals -> (7 <= R < 2 ^ 32)%N ->
  sumCheckMask TE x kS (csumMax x) = (mask, maskSum) ->
  exists quo lo hi, prv_sumCheck TE x R b mask (pwNTT T TE pw) (wNTT x T TE kW w) = Some (quo, lo, hi) /\
    vrf_sumCheck x R b (evalSlice (take (csumMax x) mask) pt) pt (vanish U193 x pt) maskSum
      (evalSlice quo pt) (evalSlice lo pt) (evalSlice hi pt) evals (pwEvals T TE pw pt)].
Proof.
have [T [TE [n [g [K A _ _ [tot _ hA hS]]]]]] := ex_checks 4.
exists (exc 4), (exx 4), T, TE, n, g, expw, exw2.
split=> // [ss|kW kS mask maskSum R b pt evals he hR hm].
  have := ss exS 4%Z (or_introl erefl); move: tot; rewrite /sumTotal big_seq1 => ->.
  by move/eqP; apply/negP; vm_compute.
by apply: (sum_zero_accepted K b A he _ hR hS tot hm).
Qed.

(** violated witnesses for C35-C37: with w0 committed as the constant polynomial 2 the first
    constraint fails at every slot, and the sum and the linear constraint fail too *)
Definition exbad : seq (seq F193) := [:: [:: 2%:R]; [:: 0; 1]].
Lemma pevals a b (t : F193) : peval [:: a; b] t = a + b * t.
Proof. by rewrite /peval !big_ord_recl big_ord0 /= expr0 expr1 mulr1 addr0. Qed.
Example ex_sound s : exists T TE n g, [/\ keys U193 8 1 2 (exc s) (exx s) T TE n g,
  committed (exx s) 20 exbad,
  \sum_(c <- carith (exx s)) cval expw (extract 8 n g exbad) 0 c != 0 &
  nth [::] (extract 8 n g exbad) 1 <>
    TransformTo [::] (OUser exrev exrev) (nseq 8 0) (nth [::] (extract 8 n g exbad) 0)].
Proof.
have [T [TE [n [g [K _ _ _ _]]]]] := ex_checks s; exists T, TE, n, g; split=> //.
- by split=> //; move=> [|[|//]].
- rewrite big_seq1 /cval !big_cons big_nil /tval_ /= !big_cons !big_nil.
  have -> : slot (extract 8 n g exbad) 0 0 = 2%:R :> F193 by rewrite /slot /= /peval big_ord_recl big_ord0 /= expr0 mulr1 addr0.
  have -> : slot (extract 8 n g exbad) 1 0 = 1 :> F193 by rewrite /slot /= pevals brv_zero expr0 add0r mulr1.
  by vm_compute.
rewrite -[TransformTo _ _ _ _]/(rev (nth [::] (extract 8 n g exbad) 0)).
move=> /(congr1 (fun v : seq F193 => v`_0)).
rewrite nth_rev; last by rewrite size_mkseq.
rewrite /= pevals brv_zero expr0 add0r mulr1.
by rewrite /peval big_ord_recl big_ord0 /= expr0 mulr1 addr0 => /eqP; apply/negP; vm_compute.
Qed.

Print Assumptions C30_no_wraparound.
Print Assumptions C32_arith_complete.
Print Assumptions C33_lin_complete.
Print Assumptions C34_sum_complete_partial.
Print Assumptions C34_nonzero_sum_refuted.
Print Assumptions C35_arith_sound_partial.
Print Assumptions C35_batch_refuted.
Print Assumptions C36_lin_sound.
Print Assumptions C37_sum_sound_partial.
Print Assumptions C37_declared_sum_refuted.
Print Assumptions C38_remHi_degree.
Print Assumptions C39_encode_values.
Print Assumptions C40_one_evaluation_hidden.
Print Assumptions C41_mask_sum.
