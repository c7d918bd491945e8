(** The verifier's equations as polynomial identities, sums over the roots of unity, and
    root counting. *)
From Coq Require Import ZArith Lia.
From mathcomp Require Import all_ssreflect all_algebra zify.
From Verif Require Import RingTac Spec UintModel BigpolyModel BitrevProofs NttProofs NttCore UintProofs NttTables
  PolyProofs RingProofs NormModel BucklerModel DefineModel BucklerSpec FillProofs ContextProofs CheckerProofs
  NormComplete RangeProofs EncodeProofs CheckProofs.
Set Implicit Arguments. Unset Strict Implicit. Unset Printing Implicit Defensive.
Import GRing.Theory.
Local Open Scope ring_scope.
Delimit Scope Z_scope with Z.
Local Notation V N := ('X^N - 1).

Section Sums.
Variables (F : fieldType) (T : transformer F) (n : nat) (g : F).
Hypothesis G : good_cyclic T n g.
Local Notation N := (2 ^ n)%N.

(** sum of the values on all roots *)
Definition rsum (A : {poly F}) : F := \sum_(i < N) A.[cpt n g i].

Lemma rsumD A B : rsum (A + B) = rsum A + rsum B.
Proof. by rewrite /rsum -big_split; apply: eq_bigr => i _; rewrite hornerD. Qed.
Lemma rsumC A b : rsum (A * b%:P) = rsum A * b.
Proof. by rewrite /rsum mulr_suml; apply: eq_bigr => i _; rewrite hornerM hornerC. Qed.
Lemma rsum0 : rsum 0 = 0.
Proof. by rewrite /rsum big1 // => i _; rewrite horner0. Qed.
Lemma N_nz : N%:R != 0 :> F. Proof. exact: (gy_rank_nz G). Qed.

Lemma rsum_horner b (l : seq {poly F}) A :
  rsum (horner_batch b l A) = foldl (fun e t => e * b + rsum t) (rsum A) l.
Proof. by elim: l A => [|t l IH] A //=; rewrite IH rsumD rsumC. Qed.

(** an identity with a remainder of the advertised shape fixes the sum *)
Lemma rsum_ident (S Q L : {poly F}) (c : F) : (size L <= N - 1)%N -> S = Q * V N + 'X * L + c%:P -> rsum S = c * N%:R.
Proof.
move=> sL e; rewrite /rsum (sum_vals_coef0 G).
have small : (size ('X * L + c%:P)%R <= N)%N.
  rewrite (leq_trans (size_add _ _)) // geq_max (leq_trans (size_polyC_deg _)) ?N_pos // andbT.
  rewrite (leq_trans (size_mul_leq _ _)) // size_polyX /=.
  by rewrite -(@prednK N) ?N_pos // ltnS -subn1.
have -> : S %% V N = 'X * L + c%:P.
  rewrite e -addrA modp_addl_mul_small // (@size_V _ N) ?ltnS //; exact: N_pos.
by rewrite coefD coefXM coefC /= add0r.
Qed.
Lemma rsum_rem S : rsum S = (S %% V N)`_0 * N%:R. Proof. exact: sum_vals_coef0 G _. Qed.
End Sums.

Section Roots.
Variable F : fieldType.
(** two different polynomials agree on few points *)
Lemma few_points (A B : {poly F}) d pts : A != B -> (size A <= d)%N -> (size B <= d)%N -> uniq pts ->
  (forall pt, pt \in pts -> A.[pt] = B.[pt]) -> (size pts < d)%N.
Proof.
move=> ne sA sB up he; have nz : A - B != 0 by rewrite subr_eq0.
have sD : (size (A - B)%R <= d)%N by rewrite (leq_trans (size_add _ _)) // size_opp geq_max sA.
apply: leq_trans sD; apply: max_poly_roots => //.
by apply/allP => pt /he e; rewrite /root hornerD hornerN e subrr.
Qed.

End Roots.

(** ** laws of the registered checkers *)
Section Laws.
Variable F : fieldType.
Implicit Types (o : cobj F).

Definition projOK (N : nat) (proj : seq (seq bool)) : Prop :=
  (0 < size proj <= N)%N /\ all (fun r => size r == N) proj.

Lemma size_proj_transform proj N (o v : seq F) : (size proj <= N)%N -> size o = N -> size (proj_transform proj o v) = N.
Proof.
move=> h s; rewrite /proj_transform s (maxn_idPr h).
have h2 : (0 + N <= size o)%N by rewrite s.
by have [-> _] := @foldl_set_from _ (fun i => if (i < size proj)%N then proj_row (nth [::] proj i) v else 0) o 0 N h2.
Qed.

Lemma obj_law N proj o : objLaw N o -> (if o is OProj then projOK N proj else True) ->
  forall o1 o2 v u : seq F, size o1 = N -> size o2 = N -> size v = N -> size u = N ->
  [/\ size (TransformTo proj o o1 v) = N, size (TransposeTo proj o o2 u) = N
    & dot N (TransformTo proj o o1 v) u = dot N v (TransposeTo proj o o2 u)].
Proof.
case: o => [tf tr||base] /=.
- by move=> h _; exact: h.
- move=> _ [/andP[p0 p1] p2] o1 o2 v u s1 s2 sv su; split.
  + exact: size_proj_transform.
  + by have [] := @proj_transposeP _ proj N o2 u p0 p2 s2.
  + by apply: proj_dot => //; rewrite p0.
- move=> hb _ o1 o2 v u s1 s2 sv su; split.
  + by have [-> _] := recomp_transformP o1 v hb.
  + by have [-> _] := recomp_transposeP o2 u hb.
  + exact: recomp_dot.
Qed.
End Laws.

Section Lin.
Variables (F : fieldType) (T TE : transformer F) (x : context F).
Variables (n m : nat) (g h : F).
Hypothesis GT : good_cyclic T n g.
Hypothesis GE : good_cyclic TE m h.
Hypothesis hN : crank x = (2 ^ n)%N.
Local Notation N := (crank x).
Local Notation E := (trank TE).
Hypothesis hNE : (N <= E)%N.
Variables (W : nat -> {poly F}) (nw : nat) (proj : seq (seq bool)) (vec : seq F).
Hypothesis sv : size vec = N.

Lemma vrf_linLoopE b (evals : seq F) pt : keepsSize x proj vec (clinChk x) -> linIn x nw (clinChk x) ->
  (forall j, (j < nw)%N -> evals`_j = (W j).[pt]) ->
  vrf_linLoop T TE x proj b pt vec (evalSlice (encode T E vec) pt) evals = (linPoly T x W proj vec b).[pt].
Proof.
move=> hk hi eW; rewrite /vrf_linLoop /linPoly.
have hEE : (2 ^ n <= E)%N by rewrite -hN.
have enc v : size v = N -> evalSlice (encode T E v) pt = (interp T v).[pt].
  by move=> s; rewrite /evalSlice evalSliceE pevalE (Poly_encode GT hEE) // -hN.
rewrite enc //.
have -> : (0 : F, nseq N (0 : F)) = ((0 : {poly F}).[pt], nseq N (0 : F)) by rewrite horner0.
have: size (nseq N (0 : F)) = N by rewrite size_nseq.
move: (nseq N 0) => vtr; move: (0 : {poly F}) => A.
elim: (clinChk x) vtr A hk hi => [|chk r IH] vtr A hk hi svt //=.
have s' := hk chk vtr (or_introl erefl) svt.
rewrite enc //; set vt' := TransposeTo _ _ _ _ in s' *.
have -> : foldl (fun ev io => ev * b + ((interp T vt').[pt] * evals`_io.2 - (interp T vec).[pt] * evals`_io.1))
    A.[pt] (odflt [::] (aget (clin x) (caddr chk)))
  = (horner_batch b [seq interp T vt' * W io.2 - interp T vec * W io.1 | io <- odflt [::] (aget (clin x) (caddr chk))] A).[pt].
  have := hi chk; elim: (odflt _ _) A => [|io l IHl] A hio //=.
  have [h1 h2] := hio io (or_introl erefl) (or_introl erefl).
  rewrite !eW // -IHl; last by move=> io' hc hl; apply: hio => //; right.
  by rewrite !(hornerD, hornerM, hornerN, hornerC).
rewrite /horner_batch foldl_cat IH //; first by move=> c v hc; apply: hk; right.
by move=> c io hc; apply: hi; right.
Qed.

(** the linear constraints in the order of the loop *)
Definition lcons (chks : seq (checker F)) : seq (checker F * (nat * nat)) :=
  flatten [seq [seq (chk, io) | io <- odflt [::] (aget (clin x) (caddr chk))] | chk <- chks].

(** the defect of one linear constraint, entry by entry *)
Definition defect (w : seq (seq F)) (t : checker F * (nat * nat)) : seq F :=
  mkseq (fun k => (TransformTo proj (cobj_of t.1) (nseq N 0) (nth [::] w t.2.2))`_k - slot w t.2.1 k) N.

Lemma rsum_linPoly b (w : seq (seq F)) :
  (forall chk, List.In chk (clinChk x) -> objLaw N (cobj_of chk)) ->
  (forall chk, List.In chk (clinChk x) -> if cobj_of chk is OProj then projOK N proj else True) ->
  linIn x nw (clinChk x) -> (forall j, (j < nw)%N -> size (nth [::] w j) = N) ->
  (forall j k, (j < nw)%N -> (k < N)%N -> (W j).[cpt n g k] = slot w j k) ->
  rsum n g (linPoly T x W proj vec b) = foldl (fun e t => e * b + dot N (defect w t) vec) 0 (lcons (clinChk x)).
Proof.
move=> hL hP hi sw vW; rewrite rsum_horner rsum0.
have: size (nseq N (0 : F)) = N by rewrite size_nseq.
move: (nseq N 0 : seq F) => vtr; move: (0 : F) => a.
elim: (clinChk x) vtr a hL hP hi => [|chk r IH] vtr a hL hP hi svt //=.
have [_ s' _] := obj_law (hL chk (or_introl erefl)) (hP chk (or_introl erefl)) (size_nseq N 0) svt sv sv.
rewrite foldl_cat [RHS]foldl_cat IH //.
- congr foldl; have := hi chk; elim: (odflt _ _) a => [|io l IHl] a hio //=.
  have [h1 h2] := hio io (or_introl erefl) (or_introl erefl).
  rewrite IHl; last by move=> io' hc hl; apply: hio => //; right.
  congr (foldl _ (_ * b + _) _); rewrite /rsum.
  have -> := sum_lterm GT hN sv s' (fun k hk => vW io.2 k h2 hk) (fun k hk => vW io.1 k h1 hk).
  have [_ _ e] := obj_law (hL chk (or_introl erefl)) (hP chk (or_introl erefl)) (size_nseq N 0) svt (sw _ h2) sv.
  have -> : dot N (TransposeTo proj (cobj_of chk) vtr vec) (nth [::] w io.2)
     = dot N (nth [::] w io.2) (TransposeTo proj (cobj_of chk) vtr vec).
    by apply: eq_bigr => k _; rewrite mulrC.
  rewrite -e /dot -sumrB; apply: eq_bigr => k _.
  by rewrite /defect nth_mkseq //= mulrBl (mulrC vec`_k).
- by move=> c hc; apply: hL; right.
- by move=> c hc; apply: hP; right.
- by move=> c io hc; apply: hi; right.
Qed.
End Lin.

(** ** the two equations of the linear and sum checks *)
Section LoHi.
Variables (F : fieldType) (T : transformer F) (x : context F) (n : nat) (g : F).
Hypothesis GT : good_cyclic T n g.
Hypothesis hN : crank x = (2 ^ n)%N.
Local Notation N := (crank x).

Lemma lohi_complete R (S : {poly F}) pt : (N - 1 <= R < 2 ^ 32)%N ->
  let L := tailp x (S %% V N) in
  peval (cf R ('X^(R - (N - 1)) * L)) pt = Exp pt (Z.of_nat (R - (N - 1))) * peval (cf (N - 1) L) pt.
Proof.
move=> /andP[hR hR2] L; have sL : (size L <= N - 1)%N := size_tailp x (S %% V N).
rewrite peval_cf; last first.
  rewrite (leq_trans (size_mul_leq _ _)) // size_polyXn addSn -pred_Sn.
  by rewrite -[X in (_ <= X)%N](subnK hR) leq_add2l.
rewrite peval_cf // ExpE; last by apply: leq_ltn_trans hR2; exact: leq_subr.
by rewrite hornerM hornerXn.
Qed.

Lemma lohi_sound R D (S : {poly F}) (quo lo hi : seq F) (c : F) pts :
  (N <= R < 2 ^ 32)%N -> (size quo <= R)%N -> (size lo <= R)%N -> (size hi <= R)%N -> (size S <= D)%N ->
  rsum n g S != c * N%:R -> uniq pts ->
  (forall pt, pt \in pts -> peval hi pt = Exp pt (Z.of_nat (R - (N - 1))) * peval lo pt /\
     S.[pt] = peval quo pt * (Exp pt (Z.of_nat N) - 1) + peval lo pt * pt + c) ->
  (size pts < maxn D (2 * R))%N.
Proof.
move=> /andP[hR hR2] sq sl sh sS hs up he.
have N0 : (0 < N)%N by rewrite hN N_pos.
have sQ : (size (Poly quo) <= R)%N by apply: leq_trans (size_Poly _) sq.
have sL : (size (Poly lo) <= R)%N by apply: leq_trans (size_Poly _) sl.
have sH : (size (Poly hi) <= R)%N by apply: leq_trans (size_Poly _) sh.
case: (leqP (size (Poly lo)) (N - 1)) => hl; last first.
  have ne : Poly hi != 'X^(R - (N - 1)) * Poly lo.
    apply/eqP => e; move: sH; rewrite e mulrC size_Mmonic ?monicXn // ?size_polyXn; first by move: hl hR N0; lia.
    by rewrite -size_poly_gt0; move: hl; lia.
  apply: (@leq_trans (2 * R)%N _ _ _ (leq_maxr D (2 * R))).
  apply: (few_points ne _ _ up).
  - by apply: leq_trans sH _; lia.
  - by rewrite (leq_trans (size_mul_leq _ _)) // size_polyXn addSn -pred_Sn; move: sL N0; lia.
  - move=> pt /he[e _]; rewrite -pevalE e ExpE; last by apply: leq_ltn_trans hR2; exact: leq_subr.
    by rewrite hornerM hornerXn pevalE.
have ne : S != Poly quo * V N + 'X * Poly lo + c%:P.
  apply/eqP => e; move/eqP: hs; apply; rewrite hN in hl e *.
  by apply: (rsum_ident GT hl e).
apply: (few_points ne _ _ up).
- exact: leq_trans sS (leq_maxl _ _).
- apply: (@leq_trans (2 * R)%N _ _ _ (leq_maxr D (2 * R))).
  rewrite (leq_trans (size_add _ _)) // geq_max; apply/andP; split; last first.
    by apply: leq_trans (size_polyC_deg _) _; move: hR N0; lia.
  rewrite (leq_trans (size_add _ _)) // geq_max; apply/andP; split.
    rewrite (leq_trans (size_mul_leq _ _)) // (size_V _ N0) addnS -pred_Sn; move: sQ hR; lia.
  rewrite (leq_trans (size_mul_leq _ _)) // size_polyX addSn -pred_Sn; move: hl hR; lia.
- move=> pt /he[_ e]; rewrite e ExpE; last exact: leq_ltn_trans hR hR2.
  by rewrite !(hornerD, hornerM, hornerN, hornerXn, hornerC, hornerX) !pevalE (mulrC _ pt).
Qed.
End LoHi.

(** degrees against an arbitrary committed polynomial *)
Section Deg.
Variables (F : fieldType) (T : transformer F) (x : context F) (n : nat).
Hypothesis hN : crank x = (2 ^ n)%N.
Local Notation N := (crank x).
Variables (W : nat -> {poly F}) (nw R : nat).
Hypothesis sW : forall j, (j < nw)%N -> (size (W j) <= R)%N.
Variables (proj : seq (seq bool)) (vec : seq F).
Hypothesis sv : size vec = N.

Lemma size_lterms_gen b (A : {poly F}) vtr chks : size vtr = N -> keepsSize x proj vec chks -> linIn x nw chks ->
  (size A <= N + R)%N -> (size (horner_batch b (lterms T x W proj vec vtr chks) A) <= N + R)%N.
Proof.
elim: chks vtr A => [|chk r IH] vtr A svt hk hi sA //=.
have s' := hk chk vtr (or_introl erefl) svt.
rewrite /horner_batch foldl_cat; apply: IH => //; first by move=> c v hc; apply: hk; right.
  by move=> c io hc; apply: hi; right.
set vt' := TransposeTo _ _ _ _ in s' *.
have := hi chk; elim: (odflt _ _) A sA => [|io l IHl] A sA hio //=.
have [h1 h2] := hio io (or_introl erefl) (or_introl erefl).
apply: IHl => [|io' hc hl]; last by apply: hio => //; right.
have pr v j : size v = N -> (j < nw)%N -> (size (interp T v * W j)%R <= N + R)%N.
  move=> s hj; apply: leq_trans (size_mul_leq _ _) _; apply: leq_trans (leq_pred _) _.
  by apply: leq_add (sW hj); rewrite hN; apply: size_interp; rewrite -hN.
rewrite (leq_trans (size_add _ _)) // geq_max size_mulC //=.
by rewrite (leq_trans (size_add _ _)) // geq_max size_opp !pr.
Qed.

Lemma size_linPoly_gen b : keepsSize x proj vec (clinChk x) -> linIn x nw (clinChk x) ->
  (size (linPoly T x W proj vec b) <= N + R)%N.
Proof. by move=> hk hi; apply: size_lterms_gen; rewrite ?size_nseq ?size_poly0. Qed.
End Deg.
