(** C73: proofs of arbitrary statements, when the commitment scheme binds only a weighted sum
    of the claimed evaluations (which is what jindo does, C59_weighted). *)
From Coq Require Import ZArith Lia.
From mathcomp Require Import all_ssreflect all_algebra zify.
From Verif Require Import RingTac Spec UintModel BigpolyModel BitrevProofs NttProofs NttCore UintProofs NttTables
  UintFp PolyProofs RingProofs NormModel BucklerModel DefineModel BucklerSpec FillProofs NormSound ContextProofs
  CheckerProofs NormComplete FillComplete Prop_Norm RangeProofs EncodeProofs CheckProofs CheckSound Prop_Check
  ProtocolModel ProtocolProofs Prop_Protocol.
Set Implicit Arguments. Unset Strict Implicit. Unset Printing Implicit Defensive.
Import GRing.Theory.
Local Open Scope ring_scope.
Delimit Scope Z_scope with Z.

Section Ext.
Variables (F : fieldType) (e e' : seq F).
(** the checks read the evaluations only at witness positions *)
Lemma vrf_term_ext pe np nw t : termIn np nw t -> (forall i, (i < nw)%N -> e`_i = e'`_i) ->
  vrf_term e pe t = vrf_term e' pe t.
Proof.
move=> /andP[_ hw] h; rewrite /vrf_term; move: (if tpw t is Some j then _ else _) hw.
by elim: (twit t) => [|j l IH] //= a /andP[hj hl]; rewrite h // IH.
Qed.
Lemma vrf_circuit_ext b cs pe np nw : (forall c, List.In c cs -> consIn np nw c) -> (forall i, (i < nw)%N -> e`_i = e'`_i) ->
  vrf_evalCircuit b cs e pe = vrf_evalCircuit b cs e' pe.
Proof.
move=> hc h; rewrite /vrf_evalCircuit.
have hcE c : consIn np nw c -> forall a, foldl (fun ev t => ev + vrf_term e pe t) a c = foldl (fun ev t => ev + vrf_term e' pe t) a c.
  by elim: c => [|t l IHl] //= /andP[ht hl] a; rewrite (vrf_term_ext _ ht h) IHl.
suff gen a : foldl (fun out c => out + foldl (fun ev t => ev + vrf_term e pe t) 0 c * b) a cs
   = foldl (fun out c => out + foldl (fun ev t => ev + vrf_term e' pe t) 0 c * b) a cs by exact: gen.
elim: cs hc a => [|c cs IH] hc a //=.
rewrite hcE; last by apply: hc; left.
by apply: IH => d hd; apply: hc; right.
Qed.
Lemma vrf_lin_ext T TE (x : context F) proj b pt vec vE :
  (forall k l o i, aget (clin x) k = Some l -> List.In (o, i) l -> (o < cwCnt x)%N /\ (i < cwCnt x)%N) ->
  (forall i, (i < cwCnt x)%N -> e`_i = e'`_i) ->
  vrf_linLoop T TE x proj b pt vec vE e = vrf_linLoop T TE x proj b pt vec vE e'.
Proof.
move=> hl h; rewrite /vrf_linLoop; congr fst; move: (0, nseq _ 0).
elim: (clinChk x) => [|chk l IH] [ev vtr] //=.
set tr := evalSlice _ _.
have -> : forall a, foldl (fun ev io => ev * b + (tr * e`_(io.2) - vE * e`_(io.1))) a (odflt [::] (aget (clin x) (caddr chk)))
   = foldl (fun ev io => ev * b + (tr * e'`_(io.2) - vE * e'`_(io.1))) a (odflt [::] (aget (clin x) (caddr chk))).
  case E: (aget _ _) => [ios|] //= a.
  have := hl _ _ _ _ E; elim: ios {E} a => [|[o i] ios IHi] a hio //=.
  have [ho hi] := hio o i (or_introl erefl).
  by rewrite !h // IHi // => o' i' hin; apply: hio; right.
exact: IH.
Qed.
End Ext.

Section Forge.
Variables (F : fieldType) (U : uint F).
Variables (P : pcs F) (H : bytes -> bytes) (name : nat -> bytes).
Variables (setBytes : bytes -> F) (marshal : F -> bytes).
Variable xofProj : nat -> bytes -> seq (seq bool).
Variables (N p0 n0 : nat) (cs : seq (cmd F)) (x : context F) (T TE : transformer F) (n : nat) (g : F).
Hypothesis K : keys U N p0 n0 cs x T TE n g.
Local Notation E := (trank TE).
Local Notation Verify := (Verify U H name setBytes marshal xofProj T TE x).
Local Notation pointOf := (pointOf H name setBytes marshal x).

(** the scheme accepts, for these commitments and this proof, every list of evaluations with
    the same [k]-weighted sum as [es] *)
Definition loose (pt : F) (cm : seq (com P)) (pf : epf P) (k : nat -> F) (es : seq F) : Prop :=
  forall es', size es' = batch x ->
  \sum_(i < batch x) k i * es'`_i = \sum_(i < batch x) k i * es`_i -> pVerify pt cm es' pf.

(** the first quotient of a linear or sum check *)
Definition iquo : nat := (cwCnt x + hasLin x + hasSum x + hasArith x)%N.

Section Run.
Variables (pw : seq (seq F)) (pf : proof P) (ew : seq F).
Let pt := pointOf pf.
Let ch i := nth [::] (vchs H name marshal x pf) i.
Let V := vanish U x pt.
Let pe := [seq evalSlice (encode T E v) pt | v <- pw].
Let c := cwCnt x.
Let i2 := (c + hasLin x + hasSum x)%N.
Let i4 := (iquo + (if hasLin x then 3 else 0))%N.
Let A := vrf_evalCircuit (setBytes (ch 1)) (carith x) ew pe.
Let vec := linCheckVec U x (setBytes (ch 3)).
Let Cl := vrf_linLoop T TE x (xofProj N (ch 0)) (setBytes (ch 2)) pt vec (evalSlice (encode T E vec) pt) ew * setBytes (ch 2).
Let Cs := vrf_evalCircuit (setBytes (ch 4)) (csum x) ew pe * setBytes (ch 4).

(** the claimed evaluations: the chosen ones at the witnesses, [mu] for the first mask, the
    quotients the three checks ask for, zero elsewhere *)
Definition fe (mu : F) (i : nat) : F :=
  if (i < c)%N then ew`_i else
  if i == c then mu else
  if i == iquo then ((if hasLin x then Cl - pfLinSum pf else Cs - pfSumSum pf) + mu) / V else
  if hasArith x && (i == i2) then A / V else
  if [&& hasLin x, hasSum x & i == i4] then (Cs - pfSumSum pf) / V else 0.
Definition forged (mu : F) : proof P :=
  Proof (pfWitness pf) (pfLinSum pf) (pfSumSum pf) (mkseq (fe mu) (batch x)) (pfEval pf).

Hypothesis hls : hasLin x || hasSum x.
Hypothesis hV : V != 0.

Lemma c_iquo : (c < iquo)%N.
Proof. by rewrite /iquo -/c; move: hls; case: (hasLin x); case: (hasSum x) => //= _; lia. Qed.
Lemma iquo_batch : (iquo + (if hasLin x then 3 else 0) + (if hasSum x then 3 else 0) = batch x)%N.
Proof. by rewrite /iquo /batch; case: (hasLin x); case: (hasSum x); case: (hasArith x) => /=; lia. Qed.

Lemma forged_checks mu : vChecks U setBytes xofProj T TE x pw (forged mu) (vchs H name marshal x pf) =
  pVerify pt (pfWitness pf) (mkseq (fe mu) (batch x)) (pfEval pf).
Proof.
rewrite /vChecks /= -/pt -/pe; case: (pVerify _ _ _ _) => //=.
set e := mkseq _ _.
have eE i : (i < batch x)%N -> e`_i = fe mu i by move=> hi; rewrite nth_mkseq.
have hb := iquo_batch; have hcq := c_iquo.
have hq0 : (iquo < batch x)%N by rewrite -hb; move: hls; case: (hasLin x); case: (hasSum x) => //= _; lia.
have ee i : (i < c)%N -> e`_i = ew`_i.
  by move=> hi; rewrite eE ?(ltn_trans hi) ?(ltn_trans hcq) // /fe hi.
have hA b : vrf_evalCircuit b (carith x) e pe = vrf_evalCircuit b (carith x) ew pe.
  by apply: (@vrf_circuit_ext _ _ _ _ _ _ (cpwCnt x) c) => // d /(rg_ar (kx K))[].
have hS b : vrf_evalCircuit b (csum x) e pe = vrf_evalCircuit b (csum x) ew pe.
  by apply: (@vrf_circuit_ext _ _ _ _ _ _ (cpwCnt x) c) => // d /(rg_su (kx K))[].
have hL proj b v vE : vrf_linLoop T TE x proj b pt v vE e = vrf_linLoop T TE x proj b pt v vE ew.
  by apply: vrf_lin_ext => //; exact: rg_li (kx K).
have eV : Exp pt (Z.of_nat (crank x)) - setBigInt U 1 = V by [].
have ec : e`_c = mu by rewrite eE ?(ltn_trans hcq) // /fe ltnn eqxx.
have eq1 : e`_iquo = ((if hasLin x then Cl - pfLinSum pf else Cs - pfSumSum pf) + mu) / V.
  by rewrite eE // /fe ltnNge ltnW //= gtn_eqF // eqxx.
(* the positions after the first quotient *)
have e0 i : (iquo < i)%N -> ~~ [&& hasLin x, hasSum x & i == i4] -> e`_i = 0.
  move=> hi hn; have [hb'|hb'] := ltnP i (batch x); last by rewrite nth_default // size_mkseq.
  rewrite eE // /fe ltnNge (ltnW (ltn_trans hcq hi)) /= (gtn_eqF (ltn_trans hcq hi)) (gtn_eqF hi).
  rewrite (negbTE hn) (_ : (i == i2) = false) ?andbF //.
  by apply/negbTE; rewrite neq_ltn -orbC (leq_ltn_trans _ hi) // /iquo -/c leq_addr.
apply/and3P; split; apply/implyP => ha.
- rewrite /vrf_arithCheck hA -/A -/i2 eV.
  have h2 : (i2 < iquo)%N by rewrite /iquo -/c -/i2 ha addn1.
  rewrite eE ?(ltn_trans h2) // /fe; have hc2 : (c < i2)%N by move: hls; rewrite /i2; case: (hasLin x); case: (hasSum x) => //= _; lia.
  by rewrite ltnNge ltnW //= gtn_eqF // ltn_eqF // ha eqxx divfK.
- rewrite /vrf_linCheck -/(iquo) !(e0 (iquo + _)%N) ?addn1 ?addn2 ?ltnS ?leqnSn //; last first.
  + by rewrite /i4 ha; apply/negP => /and3P[_ _ /eqP]; lia.
  + by rewrite /i4 ha; apply/negP => /and3P[_ _ /eqP]; lia.
  rewrite mulr0 eqxx /= mul0r addr0 eV hL (kN K).
  rewrite -/c ec eq1 divfK // ha /Cl -/vec; apply/eqP.
  by rewrite addrAC subrK.
- rewrite /vrf_sumCheck hS eV -/(iquo) -/i4.
  have z1 : e`_(i4 + 1) = 0 by apply: e0; [rewrite /i4; lia|apply/negP => /and3P[_ _ /eqP]; lia].
  have z2 : e`_(i4 + 2) = 0 by apply: e0; [rewrite /i4; lia|apply/negP => /and3P[_ _ /eqP]; lia].
  rewrite z1 z2 mulr0 eqxx /= mul0r addr0 -/Cs.
  case hl: (hasLin x); last first.
    rewrite /= addn0 ec /i4 hl addn0 eq1 hl divfK //; apply/eqP.
    by rewrite addrAC subrK.
  rewrite /= -/c.
  have h1 : (c + 1 < iquo)%N by rewrite /iquo -/c hl ha; lia.
  have -> : e`_(c + 1) = 0.
    rewrite eE ?(ltn_trans h1) // /fe ltnNge leq_addr /= gtn_eqF ?addn1 // -addn1 ltn_eqF //.
    rewrite [(c + 1)%N == i2]ltn_eqF ?andbF; last by rewrite /i2 hl ha; lia.
    by rewrite [_ == (iquo + _)%N]ltn_eqF ?andbF // hl; lia.
  have h4 : (iquo < i4)%N by rewrite /i4 hl; lia.
  rewrite eE; last by rewrite -hb /i4 ha hl; lia.
  rewrite /fe ltnNge (ltnW (ltn_trans hcq h4)) /= (gtn_eqF (ltn_trans hcq h4)) (gtn_eqF h4).
  rewrite [i4 == i2](_ : _ = false) ?andbF; last first.
    by apply/negbTE; rewrite neq_ltn -orbC (leq_ltn_trans _ h4) // /iquo -/c leq_addr.
  by rewrite hl ha eqxx /= divfK // addr0 subrK.
Qed.

(** the weighted sum is affine in [mu] *)
Lemma fe_affine mu (k : nat -> F) : \sum_(i < batch x) k i * (mkseq (fe mu) (batch x))`_i =
  \sum_(i < batch x) k i * (mkseq (fe 0) (batch x))`_i + mu * (k c + k iquo / V).
Proof.
have hb := iquo_batch; have hcq := c_iquo.
have hq0 : (iquo < batch x)%N by rewrite -hb; move: hls; case: (hasLin x); case: (hasSum x) => //= _; lia.
have hc0 := ltn_trans hcq hq0.
have -> : mu * (k c + k iquo / V) = \sum_(i < batch x) k i * (mu * ((i == c :> nat)%:R + (i == iquo :> nat)%:R / V)).
  rewrite (bigD1 (Ordinal hc0)) //= (bigD1 (Ordinal hq0)) /=; last first.
    by apply/eqP => -[e]; rewrite e ltnn in hcq.
  rewrite big1 => [|i /andP[ne0 ne1]].
    rewrite !eqxx ltn_eqF // gtn_eqF // mul0r !addr0 add0r mulr1 mul1r.
    by rewrite mulrDr addrC [k c * _]mulrC addrC [k iquo * (_ * _)]mulrCA.
  have -> : ((i : nat) == c) = false by apply: contraNF ne0 => /eqP e; apply/eqP/val_inj.
  have -> : ((i : nat) == iquo) = false by apply: contraNF ne1 => /eqP e; apply/eqP/val_inj.
  by rewrite mul0r addr0 !mulr0.
rewrite -big_split /=; apply: eq_bigr => i _; rewrite !nth_mkseq // -mulrDr; congr (_ * _).
rewrite /fe; case: (ltngtP i c) => hi.
- by rewrite ltn_eqF ?(ltn_trans hi) // mul0r addr0 mulr0 addr0.
- case: (i == iquo :> nat); last by rewrite mul0r addr0 mulr0 addr0.
  by rewrite add0r mul1r addr0 -mulrDl.
- by rewrite hi ltn_eqF // mul0r addr0 mulr1 add0r.
Qed.
End Run.

(** * C73 *)
(** For every circuit with a linear or a sum check, every statement (satisfiable or not), every
    choice of commitments, mask sums and witness evaluations: if the scheme proves some
    evaluations of those commitments, binding only their weighted sum, there are claimed
    evaluations which Verify accepts.  The two conditions on the point and the weights fail
    only for special challenges. *)
Theorem C73_forged_refuted ordT pw0 (pf : proof P) (es ew : seq F) (k : nat -> F) :
  (3 <= n)%N -> (N < 2 ^ 32)%N -> isOrder (ctwo x) ordT -> twoFits N (ctwo x) -> statement N p0 pw0 ->
  hasLin x || hasSum x -> size (pfWitness pf) = batch x ->
  loose (pointOf pf) (pfWitness pf) (pfEval pf) k es ->
  let V := pointOf pf ^+ N - 1 in V != 0 -> k (cwCnt x) * V + k iquo != 0 ->
  exists evals, (forall i, (i < cwCnt x)%N -> evals`_i = ew`_i) /\
    Verify ordT pw0 (Proof (pfWitness pf) (pfLinSum pf) (pfSumSum pf) evals (pfEval pf)) = Some true.
Proof.
move=> hn hN oT hf st hls hw hlo V hV hk.
have [pw [_ [e1 _ _ _ _]]] := fillPw_two K oT hf st st; have [h8 _] := k8 K hn.
have eV : vanish U x (pointOf pf) = V by rewrite /vanish (kN K) ExpE // setBigInt_one.
have hk' : k (cwCnt x) + k iquo / V != 0.
  by apply: contra hk => /eqP e; rewrite -[k iquo](divfK hV) -mulrDl e mul0r.
have hV' : vanish U x (pointOf pf) != 0 by rewrite eV.
pose s mu := \sum_(i < batch x) k i * (mkseq (fe pw pf ew mu) (batch x))`_i.
pose mu := (\sum_(i < batch x) k i * es`_i - s 0) / (k (cwCnt x) + k iquo / V).
exists (mkseq (fe pw pf ew mu) (batch x)); split.
  move=> i hi; rewrite nth_mkseq ?(leq_trans hi) //; first by rewrite /fe hi.
  by rewrite (leq_trans _ (batch_ge x)) ?leq_addr.
rewrite /ProtocolModel.Verify VerifyCE /VerifyE h8 (kN K) e1 /= hw size_mkseq ltnNge batch_ge andbF eqxx /=.
congr Some; rewrite -[Proof _ _ _ _ _]/(forged pw pf ew mu).
rewrite -[vchs _ _ _ _ (forged _ _ _ _)]/(vchs H name marshal x pf) (forged_checks pw ew hls hV').
apply: hlo; first by rewrite size_mkseq.
rewrite (fe_affine pw ew hls) ?eV // -/(s 0).
by rewrite {}/mu divfK // addrC subrK.
Qed.

(** the value the arithmetic check compares with quotient times vanishing polynomial, for
    witness evaluations [ew] and public evaluations [pe] *)
Definition arithValue (b : F) (ew pe : seq F) : F :=
  \sum_(c <- carith x) b * \sum_(t <- c)
    tcoeff t * (if tpw t is Some j then pe`_j else 1) * \prod_(j <- twit t) ew`_j.
Lemma arithValueE b ew pe : vrf_evalCircuit b (carith x) ew pe = arithValue b ew pe.
Proof.
rewrite /vrf_evalCircuit /arithValue.
have hm (l : seq nat) a : foldl (fun tm j => tm * ew`_j) a l = a * \prod_(j <- l) ew`_j.
  by elim: l a => [|j l IH] a /=; rewrite ?big_nil ?mulr1 // IH big_cons mulrA.
have hc (c : constraint F) a : foldl (fun ev t => ev + vrf_term ew pe t) a c =
   a + \sum_(t <- c) tcoeff t * (if tpw t is Some j then pe`_j else 1) * \prod_(j <- twit t) ew`_j.
  elim: c a => [|t c IH] a /=; rewrite ?big_nil ?addr0 // IH big_cons addrA; congr (_ + _ + _).
  by rewrite /vrf_term hm; case: (tpw t) => [j|]; rewrite ?mulr1.
suff gen a : foldl (fun out c => out + foldl (fun ev t => ev + vrf_term ew pe t) 0 c * b) a (carith x)
   = a + \sum_(c <- carith x) b * \sum_(t <- c)
    tcoeff t * (if tpw t is Some j then pe`_j else 1) * \prod_(j <- twit t) ew`_j by rewrite gen add0r.
elim: (carith x) a => [|c l IH] a /=; rewrite ?big_nil ?addr0 // IH big_cons addrA hc add0r.
by rewrite [_ * b]mulrC.
Qed.

(** A circuit with arithmetic constraints only: forging amounts to solving one polynomial
    equation in the freely chosen witness evaluations. *)
Theorem C73_arith_refuted ordT pw0 (pf : proof P) (es : seq F) (k : nat -> F) :
  (3 <= n)%N -> (N < 2 ^ 32)%N -> isOrder (ctwo x) ordT -> twoFits N (ctwo x) -> statement N p0 pw0 ->
  hasArith x -> ~~ hasLin x -> ~~ hasSum x -> size (pfWitness pf) = batch x ->
  loose (pointOf pf) (pfWitness pf) (pfEval pf) k es ->
  let V := pointOf pf ^+ N - 1 in V != 0 ->
  exists pe : seq F, [/\ size pe = cpwCnt x,
    forall a, (a < p0)%N -> pe`_a = (interp T (nth [::] pw0 a)).[pointOf pf] &
    forall ew, size ew = cwCnt x ->
    \sum_(i < cwCnt x) k i * ew`_i
       + k (cwCnt x) * (arithValue (setBytes (nth [::] (vchs H name marshal x pf) 1)) ew pe / V)
       = \sum_(i < batch x) k i * es`_i ->
     exists evals, Verify ordT pw0 (Proof (pfWitness pf) (pfLinSum pf) (pfSumSum pf) evals (pfEval pf)) = Some true].
Proof.
move=> hn hN oT hf st ha hl hs hw hlo V hV.
have [pw [pw' [e1 _ [s1 _ g1 _] kp _]]] := fillPw_two K oT hf st st; have [h8 _] := k8 K hn.
have eV : vanish U x (pointOf pf) = V by rewrite /vanish (kN K) ExpE // setBigInt_one.
set b := setBytes _.
have eb : batch x = (cwCnt x).+1 by rewrite /batch ha (negbTE hl) (negbTE hs) /= !addn0 addn1.
exists [seq evalSlice (encode T E v) (pointOf pf) | v <- pw]; rewrite size_map; split=> // [a hpa|ew sw he].
  have ha' : (a < size pw)%N by rewrite s1 (leq_trans hpa) //; have [hin hd] := ks_c K; have [T0 [hwf _]] := wf_define (wf_new F N p0 n0) hin hd; exact: wf_p hwf.
  rewrite (nth_map [::]) // /evalSlice evalSliceE pevalE.
  by rewrite (Poly_encode (ks_G K) (hE' K)) ?g1 //; [have [-> _] := kp _ hpa|exact: ks_N K].
set pe := [seq _ | v <- pw] in he *.
exists (rcons ew (arithValue b ew pe / V)); set e := rcons _ _.
have ee i : (i < cwCnt x)%N -> e`_i = ew`_i by move=> hi; rewrite nth_rcons sw hi.
have ec : e`_(cwCnt x) = arithValue b ew pe / V by rewrite nth_rcons sw ltnn eqxx.
rewrite /ProtocolModel.Verify VerifyCE /VerifyE h8 (kN K) e1 /= hw size_rcons sw -eb ltnNge batch_ge andbF eqxx /=.
congr Some; rewrite /vChecks /= (negbTE hl) (negbTE hs) ha /= !addn0 -/pe.
rewrite -[setBytes (c5 _ _ _ _ _)]/(pointOf pf) -[setBytes (c1 _ _ _ _)]/b.
rewrite hlo /=; last 2 first.
- by rewrite size_rcons sw eb.
- rewrite -he eb big_ord_recr /= ec; congr (_ + _); by apply: eq_bigr => i _; rewrite ee.
rewrite andbT /vrf_arithCheck ec -[Exp _ _ - _]/(vanish U x (pointOf pf)) eV divfK //.
rewrite -arithValueE; apply/eqP; apply: (@vrf_circuit_ext _ _ _ _ _ _ (cpwCnt x) (cwCnt x)) => // d /(rg_ar (kx K))[]//.
Qed.
End Forge.

(** * Instances *)
(** a scheme that binds only the plain sum of the evaluations *)
Definition sumPcs : pcs F193 := @Pcs F193 (seq F193) unit unit unit 64
  (fun _ p => (p, tt)) (fun p => [seq nat_of_ord a | a <- p])
  (fun _ pt ps _ _ => ([seq evalSlice p pt | p <- ps], tt))
  (fun pt cs es _ => \sum_(i < 2) es`_i == \sum_(i < 2) evalSlice (nth [::] cs i) pt).
Section Alg.
Variable R : comRingType.
Add Ring RRingForge : (rt R).
Lemma fx_lin (a c : R) : a - c + (2%:R * a - c) = 3%:R * a - 2%:R * c.
Proof. by norm_ring R; ring. Qed.
Lemma fx_root (e c v : R) : e * (1 + 9%:R * v) = 6%:R * c * v -> e + 3%:R * (3%:R * e - 2%:R * c) * v = 0.
Proof.
move=> h; have -> : e + 3%:R * (3%:R * e - 2%:R * c) * v = e * (1 + 9%:R * v) - 6%:R * c * v.
  by norm_ring R; ring.
by rewrite h subrr.
Qed.
End Alg.
(** w0 = p0 and 2 w0 = p0 with p0 = (1,...,1): nothing satisfies it *)
Definition uc1 : constraint F193 := [:: Term 1 None [:: 0%N]; Term (-1) (Some 0%N) [::]].
Definition uc2 : constraint F193 := [:: Term (2%:R) None [:: 0%N]; Term (-1) (Some 0%N) [::]].
Definition ucs : seq (cmd F193) := [:: CArith uc1; CArith uc2].
Definition ux : context F193 := AddArithmeticConstraint (AddArithmeticConstraint (newContext F193 8 1 1) uc1) uc2.
Definition upw : seq (seq F193) := [:: nseq 8 1].
Lemma ukeys : exists T TE n g, keys U193 8 1 1 ucs ux T TE n g.
Proof.
apply: keys193; first by split.
- by move=> c [<-|[<-|[]]]; exact: I.
- by left; vm_compute.
Qed.
Lemma uunsat w : ~ arithSat ux upw w.
Proof.
move=> h; have := h uc1 (or_introl erefl) 0%N isT; have := h uc2 (or_intror (or_introl erefl)) 0%N isT.
rewrite /cval /uc1 /uc2 !big_cons !big_nil /tval_ /= !big_cons !big_nil /=.
rewrite -[slot upw 0 0]/(1 : F193); move: (slot w 0 0) => z; rewrite !mulr1 !addr0 mul1r => e1 /eqP.
by rewrite subr_eq0 => /eqP e2; move: e1; rewrite e2 => /eqP; apply/negP; vm_compute.
Qed.
Definition upf : proof sumPcs := @Proof F193 sumPcs [:: [:: 0]; [:: 0]] 0 0 [::] tt.
Lemma u_arith b (e : F193) (pe : seq F193) : arithValue ux b [:: e] pe = b * (3%:R * e - 2%:R * pe`_0).
Proof.
rewrite /arithValue -[carith ux]/[:: uc1; uc2] /uc1 /uc2 !(big_cons, big_nil) /=.
by move: (pe`_0) => c; rewrite !mulr1 !addr0 mul1r !mulN1r -mulrDr fx_lin.
Qed.
Lemma u_point name marshal :
  pointOf (fun _ => [:: 3%N]) name (fun b => (sumn b)%:R) marshal ux upf = 3%:R :> F193.
Proof. by rewrite -[LHS]/((3 + 0)%N%:R : F193) addn0. Qed.
Lemma u_van : (3%:R : F193) ^+ 8 - 1 != 0.
Proof. by rewrite -natrX; vm_compute. Qed.
Lemma u_den : 1 + 9%:R * ((3%:R : F193) ^+ 8 - 1)^-1 != 0.
Proof. by rewrite -natrX; vm_compute. Qed.
Lemma u_root (v c : F193) : 1 + 9%:R * v != 0 ->
  exists e, e + 3%:R * (3%:R * e - 2%:R * c) * v = 0.
Proof. by move=> h; exists (6%:R * c * v / (1 + 9%:R * v)); apply: fx_root; exact: divfK. Qed.
Lemma u_loose pt : loose ux pt (pfWitness upf) tt (fun _ => 1) [:: 0; 0].
Proof.
move=> es' hs hsum; apply/eqP; move: hsum; rewrite -[batch ux]/2%N !big_ord_recl !big_ord0 /= !mul1r !addr0 => ->.
by rewrite /evalSlice !evalSliceE !pevalE /= !cons_poly_def !mul0r !add0r !hornerC addr0.
Qed.
Example ex_C73_arith : exists T TE n g, keys U193 8 1 1 ucs ux T TE n g /\
  (forall w, ~ arithSat ux upw w) /\ forall name marshal xofProj, exists evals,
  Verify U193 (fun _ => [:: 3%N]) name (fun b => (sumn b)%:R) marshal xofProj T TE ux [::] upw
   (@Proof F193 sumPcs [:: [:: 0]; [:: 0]] 0 0 evals tt) = Some true.
Proof.
have [T [TE [n [g K]]]] := ukeys; exists T, TE, n, g; split=> //; split; first exact: uunsat.
move=> name marshal xofProj.
have hn : (3 <= n)%N by rewrite -(@leq_exp2l 2) // -(ks_N K).
have h32 : (8 < 2 ^ 32)%N by rewrite -[8%N]/(2 ^ 3)%N ltn_exp2l.
have oT : isOrder (ctwo ux) [::] by split=> // -[].
have hf : twoFits 8 (ctwo ux) by move=> ? ? ? ? ? [].
have st : statement 8 1 upw by split=> //; case.
have hlo := u_loose (pointOf (fun _ => [:: 3%N]) name (fun b => (sumn b)%:R) marshal ux upf).
have hV : pointOf (fun _ => [:: 3%N]) name (fun b => (sumn b)%:R) marshal ux upf ^+ 8 - 1 != 0.
  by rewrite u_point; exact: u_van.
have [pe [_ _ h]] := C73_arith_refuted (pf := upf) xofProj K hn h32 oT hf st isT isT isT erefl hlo hV.
have [e he] := u_root pe`_0 u_den.
apply: (h [:: e] erefl).
rewrite -[batch ux]/2%N -[cwCnt ux]/1%N !big_ord_recl !big_ord0 /= !mul1r !addr0.
by rewrite u_arith u_point.
Qed.
Print Assumptions C73_forged_refuted.
Print Assumptions C73_arith_refuted.
