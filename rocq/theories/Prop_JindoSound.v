(** C45 (jindo part), C75, C76: malformed proofs, binding and special soundness of the
    commitment scheme. *)
From Coq Require Import ZArith.
From mathcomp Require Import all_ssreflect all_algebra zify ssrZ.
From Verif Require Import RingTac UintModel UintFp JindoIntModel JindoIntProofs Prop_JindoInt CycModel JindoModel JindoProofs LayoutProofs Prop_JindoEnc JindoComplete JindoHonest Prop_JindoCommit.
Set Implicit Arguments. Unset Strict Implicit. Unset Printing Implicit Defensive.
Import GRing.Theory.
Delimit Scope Z_scope with Z.
Local Open Scope ring_scope.
Local Arguments Z.mul : simpl never.
Local Arguments Z.add : simpl never.
Local Arguments Z.sub : simpl never.
Local Arguments Z.pow : simpl never.
Local Arguments Z.of_nat : simpl never.

(** coefficientwise difference *)
Definition subZ (a b : seq Z) : seq Z := [seq (p.1 - p.2)%Z | p <- zip a b].
Definition subZs (a b : seq (seq Z)) : seq (seq Z) := [seq subZ p.1 p.2 | p <- zip a b].
Lemma sq1 a b : size a = size b -> (sqSum [:: subZ a b] <= 2 * (sqSum [:: a] + sqSum [:: b]))%Z.
Proof.
rewrite /sqSum /= !cats0; elim: a b => [|x a IH] [|y b] //= [/IH h].
move: h; rewrite /subZ; set X := foldr _ _ _; set A := foldr _ _ _; set B := foldr _ _ _ => h.
have h2 := Z.square_nonneg (x + y); rewrite /Z.square in h2; nia.
Qed.
Lemma sqSum_sub a b : size a = size b -> (forall i, (i < size a)%N -> size (nth [::] a i) = size (nth [::] b i)) ->
  (sqSum (subZs a b) <= 2 * (sqSum a + sqSum b))%Z.
Proof.
elim: a b => [|x a IH] [|y b] // [/IH h] hn.
have E z (c : seq (seq Z)) : sqSum (z :: c) = (sqSum [:: z] + sqSum c)%Z by rewrite -cat1s sqSum_cat.
have -> : subZs (x :: a) (y :: b) = subZ x y :: subZs a b by [].
rewrite (E (subZ x y)) (E x) (E y).
have := sq1 (hn 0%N isT : size x = size y); have := h (fun i hi => hn i.+1 hi); lia.
Qed.
Lemma sqSum_sub4 a b N : size a = size b -> (forall i, (i < size a)%N -> size (nth [::] a i) = size (nth [::] b i)) ->
  normOk a N -> normOk b N -> (sqSum (subZs a b) < 4 * (N * N))%Z.
Proof. by move=> h1 h2 /normOk_sq h3 /normOk_sq h4; have := sqSum_sub h1 h2; lia. Qed.
Lemma Poly_sub (a b : seq Z) : size a = size b -> Poly (subZ a b) = Poly a - Poly b :> {poly Z}.
Proof.
move=> h; apply/polyP => k; rewrite coefB !coef_Poly /subZ; have [hk|hk] := ltnP k (size a).
  rewrite (nth_map (0%Z, 0%Z)) ?size_zip -?h ?minnn // nth_zip //.
by rewrite !nth_default ?size_map ?size_zip -?h ?minnn.
Qed.

Section Alg.
Variable R : comRingType.
Add Ring RRing : (rt R).
Lemma cancelY (a a' b b' c c' Y Y' : R) :
  a - a' + (b - b') + (c - c') + (Y - (a + b + c) - (Y' - (a' + b' + c'))) = Y - Y'.
Proof. by norm_ring R; ring. Qed.
End Alg.

Section Sound.
Variables (F : fieldType) (U : uint F) (P : jparams) (inv : Z -> Z -> Z).
Local Notation s := (slots P).
Local Notation d := (slots P * exp P)%N.
Local Notation Q := (prodz (qs P)).
Local Notation Qo := (prodz (qos P)).
Variables (RQ : cyc d Q) (RO : cyc d Qo).
Variable ck : ckey RQ RO.
Hypothesis K : jsetting U P inv.
Let hs := js_slots K. Let he := js_exp K. Let hp := js_p K.
Let hd : (0 < d)%N. Proof. by rewrite muln_gt0 hs. Qed.

(** * C45 *)
Section Panics.
Variable xof : seq (item F RQ RO) -> nat -> Z * Z.
Hypothesis hexp : (2 <= exp P <= 120)%N.
(** the lengths NewProof makes *)
Definition wellFormed (pf : proof RQ RO) : Prop :=
  [/\ size (pIn pf) = dcmpLen P, size (pPartial pf) = cols P, size (pEnc pf) = rows P & size (pMLWE pf) = (mlweRank P + inRank P)%N].
Theorem C45_jindo_total_partial x com y pf : size com = batch P -> size y = batch P -> wellFormed pf ->
  exists b, Verify U inv ck xof x com y pf = Some b.
Proof.
move=> h1 h2 [h3 h4 h5 h6]; rewrite /Verify h1 h2 h3 h4 h5 h6 eqxx !ltnn /=.
have [bt ->] := chalsOf_total K (batchBytes ck xof x com) hexp.
have [ch ->] := chalsOf_total K (chalBytes ck xof x com (pPartial pf) (pMask pf)) hexp.
case: ifP => _; first by eexists.
case: ifP => _; first by eexists.
have [lv ->] := lv_total RQ K x; case: ifP => _; by eexists.
Qed.
(** a proof with a first list of the wrong length, or any list too long, makes Verify panic,
    whatever the other contents *)
Theorem C45_jindo_panics_refuted x com y pf :
  (size (pIn pf) != dcmpLen P) || (cols P < size (pPartial pf))%N || (rows P < size (pEnc pf))%N ->
  Verify U inv ck xof x com y pf = None.
Proof.
move=> h; rewrite /Verify; case: ifP => // _; case: (chalsOf _ _) => // bt; case: (chalsOf _ _) => // ch.
case: ifP => // /negbT; rewrite !negb_or => /and4P[h1 h2 h3 h4]; rewrite (negbTE h1) (negbTE h2) !orbF in h.
by rewrite ltn_neqAle h leqNgt h4.
Qed.
(** an accepting run exists only with exactly these lengths *)
Theorem C45_jindo_accept_sizes x com y pf : Verify U inv ck xof x com y pf = Some true ->
  [/\ size com = batch P, size y = batch P & wellFormed pf].
Proof.
rewrite /Verify; case: ifP => // /negbT; rewrite negb_or !negbK => /andP[/eqP h1 /eqP h2].
case: (chalsOf _ _) => // bt; case: (chalsOf _ _) => // ch.
case: ifP => // /negbT; rewrite !negb_or -!leqNgt => /and4P[a1 a2 a3 a4].
case: ifP => // /negbT; rewrite -leqNgt => b1; case: ifP => // _.
case: ifP => // /negbT; rewrite negb_or -!leqNgt => /andP[b2 b3]; case: ifP => // _.
case: (allSome _) => // lv; case: ifP => // /negbT; rewrite -leqNgt => b4 _.
by split=> //; split; apply/eqP; rewrite eqn_leq ?a1 ?a2 ?a3 ?a4.
Qed.
End Panics.

(** what an accepting run establishes *)
Record accepts (xof : seq (item F RQ RO) -> nat -> Z * Z) x com (y : seq F) pf bt ch lv : Prop := Accepts {
  ac_bt : chalsOf P (batchBytes ck xof x com) = Some bt;
  ac_ch : chalsOf P (chalBytes ck xof x com (pPartial pf) (pMask pf)) = Some ch;
  ac_lv : allSome [seq encode U RQ [:: l] | l <- leftVec P x] = Some lv;
  ac_out : verifyOuter inv ck bt com pf;
  ac_in : verifyInner inv ck ch pf;
  ac_cons : verifyConsistency lv ch pf;
  ac_eval : verifyEval U inv x bt y pf
}.
Lemma VerifyP xof x com y pf : Verify U inv ck xof x com y pf = Some true ->
  wellFormed pf /\ exists bt ch lv, accepts xof x com y pf bt ch lv.
Proof.
move=> h; split; first by case: (C45_jindo_accept_sizes h).
move: h; rewrite /Verify; case: ifP => // _; case E1: (chalsOf _ _) => [bt|] //; case E2: (chalsOf _ _) => [ch|] //.
case: ifP => // _; case: ifP => // _; case: ifP => // /negbFE h1; case: ifP => // _; case: ifP => // /negbFE h2.
case E3: (allSome _) => [lv|] //; case: ifP => // _; case: ifP => // /negbFE h3 [h4].
by exists bt, ch, lv; split.
Qed.

Let szO (r : RO) : size (bigO inv r) = d. Proof. by rewrite size_map co_size. Qed.
Let szQ (r : RQ) : size (bigQ inv r) = d. Proof. exact: bigQ_size. Qed.
Lemma toO_sub (a b : RO) : toO RO (subZ (bigO inv a) (bigO inv b)) = a - b.
Proof.
rewrite /toO Poly_sub ?szO // rmorphB; congr (_ - _).
  exact: (@pr_bigQ (outP P) inv RO (js_inv K) (js_qos K) (js_qos0 K) a).
exact: (@pr_bigQ (outP P) inv RO (js_inv K) (js_qos K) (js_qos0 K) b).
Qed.
Lemma toQ_sub (a b : RQ) : toQ RQ (subZ (bigQ inv a) (bigQ inv b)) = a - b.
Proof.
by rewrite /toQ Poly_sub ?szQ // rmorphB; congr (_ - _); apply: (pr_bigQ (js_inv K) (js_qs K) (js_qs0 K)).
Qed.

(** * C75 *)
(** a short solution of the outer relation [ckOut | 1] z = 0, nonzero modulo Qo *)
Definition outerSolution : Prop := exists z : seq (seq Z),
  [/\ size z = (dcmpLen P + outRank P)%N, forall i, (i < size z)%N -> size (nth [::] z i) = d,
      (sqSum z < 4 * (dcmpNm P * dcmpNm P))%Z,
      exists j, (j < dcmpLen P)%N /\ toO RO (nth [::] z j) != 0 &
      forall i, (i < outRank P)%N ->
        \sum_(j < dcmpLen P) ckOut ck i j * toO RO (nth [::] z j) + toO RO (nth [::] z (dcmpLen P + i)) = 0].
(** the same for the inner relation [ckIn | ckMLWE | 1 | 1] *)
Definition innerSolution : Prop := exists z : seq (seq Z),
  let n := (rows P + (mlweRank P + inRank P))%N in
  [/\ size z = (n + inRank P)%N, forall i, (i < size z)%N -> size (nth [::] z i) = d,
      (sqSum z < 4 * (resNm P * resNm P))%Z,
      exists j, (j < n)%N /\ toQ RQ (nth [::] z j) != 0 &
      forall i, (i < inRank P)%N ->
        \sum_(k < rows P) ckIn ck i k * toQ RQ (nth [::] z k) + \sum_(k < mlweRank P) ckMLWE ck i k * toQ RQ (nth [::] z (rows P + k))
          + toQ RQ (nth [::] z (rows P + (mlweRank P + i))) + toQ RQ (nth [::] z (n + i)) = 0].

Lemma nth_subZs a b i : size a = size b -> (i < size a)%N -> nth [::] (subZs a b) i = subZ (nth [::] a i) (nth [::] b i).
Proof. by move=> h hi; rewrite (nth_map ([::], [::])) ?size_zip -?h ?minnn // nth_zip. Qed.
Lemma size_subZs (a b : seq (seq Z)) : size a = size b -> size (subZs a b) = size a.
Proof. by move=> h; rewrite size_map size_zip -h minnn. Qed.
Lemma size_subZ (a b : seq Z) : size a = size b -> size (subZ a b) = size a.
Proof. by move=> h; rewrite size_map size_zip -h minnn. Qed.

Lemma neq_nth (T : eqType) (x0 : T) (a b : seq T) : size a = size b -> a != b -> exists j, (j < size a)%N /\ nth x0 a j != nth x0 b j.
Proof.
move=> h ne; have [/hasP[j hj hn]|hno] := boolP (has (fun j => nth x0 a j != nth x0 b j) (iota 0 (size a))).
  by exists j; move: hj; rewrite mem_iota.
case/eqP: ne; apply: (@eq_from_nth _ x0) => // j hj; apply/eqP; move/hasPn: hno => /(_ j); rewrite negbK; apply.
by rewrite mem_iota.
Qed.

Section Lists.
(** elements of the two norm lists *)
Let lO bt com (pf : proof RQ RO) := [seq bigO inv r | r <- pIn pf ++ mkseq (cutOuter ck bt com pf) (outRank P)].
Lemma verifyOuterE bt com pf : verifyOuter inv ck bt com pf = normOk (lO bt com pf) (dcmpNm P).
Proof. by rewrite /verifyOuter /lO map_cat -map_comp. Qed.
Let lQ ch (pf : proof RQ RO) := [seq bigQ inv r | r <- (pEnc pf ++ pMLWE pf) ++ mkseq (cutInner ck ch pf) (inRank P)].
Lemma verifyInnerE ch pf : verifyInner inv ck ch pf = normOk (lQ ch pf) (resNm P).
Proof. by rewrite /verifyInner /lQ [in RHS]map_cat -map_comp. Qed.

Lemma outer_break bt com pf pf' : wellFormed pf -> wellFormed pf' ->
  verifyOuter inv ck bt com pf -> verifyOuter inv ck bt com pf' -> pIn pf != pIn pf' -> outerSolution.
Proof.
move=> [a1 _ _ _] [b1 _ _ _]; rewrite !verifyOuterE => h1 h2 ne.
set A := pIn pf ++ mkseq (cutOuter ck bt com pf) (outRank P); set B := pIn pf' ++ mkseq (cutOuter ck bt com pf') (outRank P).
have sA : size (lO bt com pf) = (dcmpLen P + outRank P)%N by rewrite size_map size_cat size_mkseq a1.
have sB : size (lO bt com pf') = (dcmpLen P + outRank P)%N by rewrite size_map size_cat size_mkseq b1.
have sAB : size (lO bt com pf) = size (lO bt com pf') by rewrite sA sB.
have eA j : (j < dcmpLen P + outRank P)%N -> nth [::] (lO bt com pf) j = bigO inv (nth 0 A j).
  by move=> hj; rewrite (nth_map 0) // -[size _](size_map (@bigO P inv RO)) -/(lO bt com pf) sA.
have eB j : (j < dcmpLen P + outRank P)%N -> nth [::] (lO bt com pf') j = bigO inv (nth 0 B j).
  by move=> hj; rewrite (nth_map 0) // -[size _](size_map (@bigO P inv RO)) -/(lO bt com pf') sB.
have ez j : (j < dcmpLen P + outRank P)%N -> toO RO (nth [::] (subZs (lO bt com pf) (lO bt com pf')) j) = nth 0 A j - nth 0 B j.
  by move=> hj; rewrite nth_subZs // ?sA // eA // eB // toO_sub.
exists (subZs (lO bt com pf) (lO bt com pf')); split.
- by rewrite size_subZs.
- by rewrite size_subZs // sA => i hi; rewrite nth_subZs // ?sA // eA // eB // size_subZ ?szO.
- by apply: sqSum_sub4 => //; rewrite sA => i hi; rewrite eA // eB // !szO.
- have [|j [hj hn]] := @neq_nth _ (0 : RO) (pIn pf) (pIn pf') _ ne; first by rewrite a1 b1.
  rewrite a1 in hj; exists j; split=> //; rewrite ez ?ltn_addr // /A /B !nth_cat a1 b1 hj.
  by rewrite subr_eq0.
move=> i hi; rewrite ez ?ltn_add2l // /A /B !nth_cat a1 b1 ltnNge leq_addr /= addKn !nth_mkseq //.
under eq_bigr => j _ do rewrite ez ?ltn_addr // /A /B !nth_cat a1 b1 ltn_ord mulrBr.
rewrite sumrB /cutOuter; set X := (if _ then _ else _) * _; set SA := \sum_(j < _) _; set SB := \sum_(j < _) _.
have -> : X - SA - (X - SB) = SB - SA by rewrite opprB addrC addrA subrK.
by rewrite addrA subrK subrr.
Qed.

(** what the inner residual is the rest of *)
Definition innerY (ch : seq (seq Z)) (pf : proof RQ RO) (i : nat) : RQ :=
  (\sum_(j < cols P) modUp RQ (nth 0 (pIn pf) (j * inRank P + i)) * toQ RQ (nth [::] ch j)
     + modUp RQ (nth 0 (pIn pf) (cols P * inRank P + i))) * pr RQ (2 ^ logIn P)%Z%:P.
Local Notation n := (rows P + (mlweRank P + inRank P))%N.
(** the difference of two responses *)
Definition shortRelation (z : seq (seq Z)) (Y : nat -> RQ) : Prop :=
  [/\ size z = (n + inRank P)%N, forall i, (i < size z)%N -> size (nth [::] z i) = d,
      (sqSum z < 4 * (resNm P * resNm P))%Z &
      forall i, (i < inRank P)%N ->
        \sum_(k < rows P) ckIn ck i k * toQ RQ (nth [::] z k) + \sum_(k < mlweRank P) ckMLWE ck i k * toQ RQ (nth [::] z (rows P + k))
          + toQ RQ (nth [::] z (rows P + (mlweRank P + i))) + toQ RQ (nth [::] z (n + i)) = Y i].
Lemma inner_diff ch ch' pf pf' : wellFormed pf -> wellFormed pf' ->
  verifyInner inv ck ch pf -> verifyInner inv ck ch' pf' ->
  exists z, shortRelation z (fun i => innerY ch pf i - innerY ch' pf' i) /\
    forall j, (j < n)%N -> toQ RQ (nth [::] z j) = nth 0 (pEnc pf ++ pMLWE pf) j - nth 0 (pEnc pf' ++ pMLWE pf') j.
Proof.
move=> [_ _ a1 a2] [_ _ b1 b2]; rewrite !verifyInnerE => h1 h2.
set A := (pEnc pf ++ pMLWE pf) ++ mkseq (cutInner ck ch pf) (inRank P); set B := (pEnc pf' ++ pMLWE pf') ++ mkseq (cutInner ck ch' pf') (inRank P).
have sA : size (lQ ch pf) = (n + inRank P)%N by rewrite size_map !size_cat size_mkseq a1 a2.
have sB : size (lQ ch' pf') = (n + inRank P)%N by rewrite size_map !size_cat size_mkseq b1 b2.
have sAB : size (lQ ch pf) = size (lQ ch' pf') by rewrite sA sB.
have eA j : (j < n + inRank P)%N -> nth [::] (lQ ch pf) j = bigQ inv (nth 0 A j).
  by move=> hj; rewrite (nth_map 0) // -[size _](size_map (@bigQ P inv RQ)) -/(lQ ch pf) sA.
have eB j : (j < n + inRank P)%N -> nth [::] (lQ ch' pf') j = bigQ inv (nth 0 B j).
  by move=> hj; rewrite (nth_map 0) // -[size _](size_map (@bigQ P inv RQ)) -/(lQ ch' pf') sB.
have ez j : (j < n + inRank P)%N -> toQ RQ (nth [::] (subZs (lQ ch pf) (lQ ch' pf')) j) = nth 0 A j - nth 0 B j.
  by move=> hj; rewrite nth_subZs // ?sA // eA // eB // toQ_sub.
have sa : size (pEnc pf ++ pMLWE pf) = n by rewrite size_cat a1 a2.
have sb : size (pEnc pf' ++ pMLWE pf') = n by rewrite size_cat b1 b2.
have el j : (j < n)%N -> toQ RQ (nth [::] (subZs (lQ ch pf) (lQ ch' pf')) j) = nth 0 (pEnc pf ++ pMLWE pf) j - nth 0 (pEnc pf' ++ pMLWE pf') j.
  move=> hj; rewrite (ez j (ltn_addr _ hj)); congr (_ - _); first by rewrite /A nth_cat sa hj.
  by rewrite /B nth_cat sb hj.
exists (subZs (lQ ch pf) (lQ ch' pf')); split=> //; split.
- by rewrite size_subZs.
- by rewrite size_subZs // sA => i hi; rewrite nth_subZs // ?sA // eA // eB // size_subZ ?szQ.
- by apply: sqSum_sub4 => //; rewrite sA => i hi; rewrite eA // eB // !szQ.
move=> i hi; have nA : nth 0 A (n + i) = cutInner ck ch pf i.
  by rewrite /A nth_cat sa ltnNge leq_addr /= addKn nth_mkseq.
have nB : nth 0 B (n + i) = cutInner ck ch' pf' i by rewrite /B nth_cat sb ltnNge leq_addr /= addKn nth_mkseq.
rewrite (ez (n + i)%N) ?ltn_add2l // nA nB.
have e1 k : (k < rows P)%N -> toQ RQ (nth [::] (subZs (lQ ch pf) (lQ ch' pf')) k) = nth 0 (pEnc pf) k - nth 0 (pEnc pf') k.
  by move=> hk; rewrite el ?ltn_addr // !nth_cat a1 b1 hk.
have e2 k : (k < mlweRank P + inRank P)%N -> toQ RQ (nth [::] (subZs (lQ ch pf) (lQ ch' pf')) (rows P + k)) = nth 0 (pMLWE pf) k - nth 0 (pMLWE pf') k.
  by move=> hk; rewrite el ?ltn_add2l // !nth_cat a1 b1 ltnNge leq_addr /= addKn.
rewrite e2 ?ltn_add2l //.
under eq_bigr => k _ do rewrite e1 // mulrBr.
under [X in _ + X + _ + _]eq_bigr => k _ do rewrite e2 ?ltn_addr // mulrBr.
rewrite !sumrB /cutInner -!/(innerY _ _ _) /inner.
set a := \sum_(k < _) _; set a' := \sum_(k < _) _; set b := \sum_(k < _) _; set b' := \sum_(k < _) _.
set c := nth 0 _ _; set c' := nth 0 _ _; set Y := innerY _ _ _; set Y' := innerY _ _ _.
exact: cancelY.
Qed.
Lemma inner_break ch pf pf' : wellFormed pf -> wellFormed pf' -> verifyInner inv ck ch pf -> verifyInner inv ck ch pf' ->
  pIn pf = pIn pf' -> pEnc pf ++ pMLWE pf != pEnc pf' ++ pMLWE pf' -> innerSolution.
Proof.
move=> w w' h1 h2 ei ne; have [z [[z1 z2 z3 z4] z5]] := inner_diff w w' h1 h2.
case: w w' => [_ _ a1 a2] [_ _ b1 b2].
exists z; split=> //.
  have [|j [hj hn]] := @neq_nth _ (0 : RQ) (pEnc pf ++ pMLWE pf) (pEnc pf' ++ pMLWE pf') _ ne.
    by rewrite !size_cat a1 a2 b1 b2.
  have hj' : (j < n)%N by rewrite size_cat a1 a2 in hj.
  by exists j; split=> //; rewrite z5 // subr_eq0.
by move=> i hi; rewrite z4 // /innerY ei subrr.
Qed.
End Lists.

Variable xof : seq (item F RQ RO) -> nat -> Z * Z.
(** two accepted openings of one list of commitments, at one point, or at two points if there
    is a single commitment *)
Theorem C75_outer_binding x x' com y y' pf pf' : x = x' \/ batch P = 1%N ->
  Verify U inv ck xof x com y pf = Some true -> Verify U inv ck xof x' com y' pf' = Some true ->
  pIn pf != pIn pf' -> outerSolution.
Proof.
move=> hx /VerifyP[w [bt [ch [lv h]]]] /VerifyP[w' [bt' [ch' [lv' h']]]].
have e : bt' = bt.
  have := ac_bt h; have := ac_bt h'; rewrite /batchBytes; case: hx => [->|->] -> //; by case.
by have := ac_out h; have := ac_out h'; rewrite e => h1 h2; exact: outer_break h2 h1.
Qed.
(** with the first message fixed as well, the whole response is determined, or one of the two
    public relations has a short nonzero solution *)
Theorem C75_response_binding x com y y' pf pf' :
  Verify U inv ck xof x com y pf = Some true -> Verify U inv ck xof x com y' pf' = Some true ->
  pPartial pf = pPartial pf' -> pMask pf = pMask pf' ->
  [\/ pf = pf', outerSolution | innerSolution].
Proof.
move=> hv hv' ep em; have [e1|ne] := eqVneq (pIn pf) (pIn pf'); last first.
  by apply: Or32; apply: (C75_outer_binding (or_introl erefl) hv hv').
move: (hv) (hv') => /VerifyP[w [bt [ch [lv h]]]] /VerifyP[w' [bt' [ch' [lv' h']]]].
have e : ch' = ch by have := ac_ch h; have := ac_ch h'; rewrite ep em => -> [].
have [e2|ne] := eqVneq (pEnc pf ++ pMLWE pf) (pEnc pf' ++ pMLWE pf'); last first.
  by apply: Or33; have := ac_in h; have := ac_in h'; rewrite e => h1 h2; apply: (inner_break w w' h2 h1).
apply: Or31; case: w w' => [_ _ a1 _] [_ _ b1 _].
move: ep em e1 e2 a1 b1; case: (pf) (pf') => [i1 i2 i3 i4 i5] [j1 j2 j3 j4 j5] /= -> -> -> e2 a1 b1.
by move/eqP: e2; rewrite eqseq_cat ?a1 ?b1 // => /andP[/eqP -> /eqP ->].
Qed.

(** * C76 *)
Local Notation n := (rows P + (mlweRank P + inRank P))%N.
Lemma sum_except (V : zmodType) m (f g : nat -> V) j0 : (j0 < m)%N -> (forall j, (j < m)%N -> j != j0 -> f j = g j) ->
  \sum_(j < m) f j - \sum_(j < m) g j = f j0 - g j0.
Proof.
move=> h0 he'; rewrite (bigD1 (Ordinal h0)) //= [X in _ - X](bigD1 (Ordinal h0)) //=.
have -> : \sum_(i < m | i != Ordinal h0) f i = \sum_(i < m | i != Ordinal h0) g i.
  by apply: eq_bigr => i hi; apply: he' => //; apply: contraNN hi => /eqP e; apply/eqP/val_inj.
by rewrite opprD addrACA subrr addr0.
Qed.
(** the transcript is run twice with the same first message and challenges that differ in
    column j0 only: the difference z of the responses is a short opening, up to the challenge
    difference, of the inner commitment of column j0 and of its claimed partial evaluation *)
Theorem C76_special_soundness xof' x com y y' pf pf' ch ch' j0 lv :
  Verify U inv ck xof x com y pf = Some true -> Verify U inv ck xof' x com y' pf' = Some true ->
  pIn pf = pIn pf' -> pPartial pf = pPartial pf' -> pMask pf = pMask pf' ->
  chalsOf P (chalBytes ck xof x com (pPartial pf) (pMask pf)) = Some ch ->
  chalsOf P (chalBytes ck xof' x com (pPartial pf) (pMask pf)) = Some ch' ->
  (j0 < cols P)%N -> (forall j, (j < cols P)%N -> j != j0 -> nth [::] ch j = nth [::] ch' j) ->
  allSome [seq encode U RQ [:: l] | l <- leftVec P x] = Some lv ->
  let dc := toQ RQ (nth [::] ch j0) - toQ RQ (nth [::] ch' j0) in
  exists z, shortRelation z (fun i => modUp RQ (nth 0 (pIn pf) (j0 * inRank P + i)) * dc * pr RQ (2 ^ logIn P)%Z%:P) /\
    \sum_(i < rows P) nth 0 lv i * toQ RQ (nth [::] z i) = dc * nth 0 (pPartial pf) j0.
Proof.
move=> /VerifyP[w [bt [c [l h]]]] /VerifyP[w' [bt' [c' [l' h']]]] e1 e2 e3 hc hc' hj hne hl dc.
have ec : c = ch by have := ac_ch h; rewrite hc => -[].
have ec' : c' = ch' by have := ac_ch h'; rewrite -e2 -e3 hc' => -[].
have el : l = lv by have := ac_lv h; rewrite hl => -[].
have el' : l' = lv by have := ac_lv h'; rewrite hl => -[].
rewrite ec el in h; rewrite ec' el' in h'.
have [z [[z1 z2 z3 z4] z5]] := inner_diff w w' (ac_in h) (ac_in h'); exists z; split.
  split=> // i hi; rewrite z4 // /innerY -e1 -mulrBl; congr (_ * _).
  set X := modUp RQ (nth 0 (pIn pf) (cols P * inRank P + i)).
  rewrite opprD addrACA subrr addr0.
  rewrite (@sum_except _ _ (fun j => modUp RQ (nth 0 (pIn pf) (j * inRank P + i)) * toQ RQ (nth [::] ch j))
    (fun j => modUp RQ (nth 0 (pIn pf) (j * inRank P + i)) * toQ RQ (nth [::] ch' j)) j0) // -?mulrBr // => j h1 h2.
  by rewrite hne.
case: (w) (w') => [_ _ a1 a2] [_ _ b1 b2].
have ez k : (k < rows P)%N -> toQ RQ (nth [::] z k) = nth 0 (pEnc pf) k - nth 0 (pEnc pf') k.
  by move=> hk; rewrite z5 ?ltn_addr // !nth_cat a1 b1 hk.
under eq_bigr => i _ do rewrite ez // mulrBr.
rewrite sumrB; have := ac_cons h; have := ac_cons h'; rewrite /verifyConsistency -e2 -e3.
rewrite subr_eq0 subr_eq => /eqP ->; rewrite subr_eq0 subr_eq => /eqP ->.
rewrite opprD addrACA subrr add0r.
rewrite (@sum_except _ _ (fun j => toQ RQ (nth [::] ch j) * nth 0 (pPartial pf) j)
    (fun j => toQ RQ (nth [::] ch' j) * nth 0 (pPartial pf) j) j0) // -?mulrBl // => j h1 h2.
by rewrite hne.
Qed.

(** in the field: if the claimed partial evaluation is short, its slots times the decoded
    challenge difference are the left combination of the slots of the extracted opening *)
Lemma coef_lt (z : seq (seq Z)) N i k : (0 <= N)%Z -> (sqSum z < 4 * (N * N))%Z -> (Z.abs (nth 0%Z (nth [::] z i) k) <= 2 * N)%Z.
Proof.
move=> hN hz; have [hi|hi] := ltnP i (size z); last by rewrite (nth_default [::]) // nth_nil; clear -hN; lia.
have [hk|hk] := ltnP k (size (nth [::] z i)); last by rewrite nth_default //; clear -hN; lia.
have h1 : (nth 0%Z (nth [::] z i) k * nth 0%Z (nth [::] z i) k <= sqSum z)%Z.
  have -> : z = take i z ++ [:: nth [::] z i] ++ drop i.+1 z.
    by rewrite cat1s -drop_nth // cat_take_drop.
  rewrite !sqSum_cat !nth_cat size_take hi ltnn subnn /=.
  have := @sqSum_ge0 (take i z); have := @sqSum_ge0 (drop i.+1 z).
  suff : (nth 0%Z (nth [::] z i) k * nth 0%Z (nth [::] z i) k <= sqSum [:: nth [::] z i])%Z by clear; lia.
  move: hk; rewrite /sqSum /= cats0; move: (nth [::] z i) k => {hi}; elim=> [//|a u IH] [|k] /= hk.
    have : (0 <= foldr (fun z acc => (z * z + acc)%Z) 0%Z u)%Z by elim: (u) => //= b v; nia.
    by nia.
  by have := IH k hk; nia.
move: h1 hz hN; clear; move: (sqSum z) (nth _ _ _) => S a; nia.
Qed.
Lemma decodeSlot_Dp (a : seq Z) i : (size a <= d)%N -> (i < s)%N -> decodeSlot U P a i = (Dp U P (Poly a))`_i.
Proof.
move=> ha hi; rewrite decodeSlotE (Dp_coef U hs) //; last exact: leq_trans (size_Poly _) ha.
by apply: eq_bigr => j _; rewrite coef_Poly.
Qed.
Lemma drepN (r : RQ) X f : drep U r X f -> drep U (- r) X (- f).
Proof.
move=> [p [a1 a2 a3 a4]]; exists (- p); split.
- by rewrite size_opp.
- by move=> k; rewrite coefN -[X in Z.abs X]/(Z.opp p`_k) Z.abs_opp.
- by rewrite rmorphN a3.
apply/eqP; rewrite -addr_eq0 -a4 -(DpD U hs) addNr Dp0 //.
Qed.
Theorem C76_decoded z (lv : seq RQ) x c c' (e : RQ) A l b b' : (0 <= resNm P)%Z ->
  (sqSum z < 4 * (resNm P * resNm P))%Z -> (forall i, (i < rows P)%N -> size (nth [::] z i) = d) ->
  allSome [seq encode U RQ [:: a] | a <- leftVec P x] = Some lv -> size (leftVec P x) = rows P ->
  chalPoly P b = Some c -> chalPoly P b' = Some c' ->
  (forall k, (Z.abs (nth 0%Z (bigQ inv e) k) <= A)%Z) ->
  \sum_(i < rows P) nth 0 lv i * toQ RQ (nth [::] z i) = (toQ RQ c - toQ RQ c') * e ->
  (2 * (Z.of_nat (rows P) * (Z.of_nat (exp P) * base P * (2 * resNm P))) < Q - 1)%Z ->
  (2 * (2 * (chalN P * A)) < Q - 1)%Z -> (l < s)%N ->
  \sum_(i < rows P) nth 0 (leftVec P x) i * nth 0 (decode U inv (toQ RQ (nth [::] z i))) l
    = (decodeSlot U P c 0 - decodeSlot U P c' 0) * nth 0 (decode U inv e) l.
Proof.
move=> hN hz hsz hlv hsl hc hc' hA heq hw1 hw2 hl.
have [l1 l2] := allSomeP hlv; rewrite size_map hsl in l1 l2.
have [c1 _ _] := chalPolyP hs he (js_base K) (js_limbs0 K) (js_qs0 K) hc.
have [c1' _ _] := chalPolyP hs he (js_base K) (js_limbs0 K) (js_qs0 K) hc'.
pose f i := Dp U P (Poly (nth [::] z i)).
have hzr i : (i < rows P)%N -> drep U (toQ RQ (nth [::] z i)) (2 * resNm P) (f i).
  move=> hi; exists (Poly (nth [::] z i)); split=> //; first by apply: leq_trans (size_Poly _) _; rewrite hsz.
  by move=> k; rewrite coef_Poly; exact: coef_lt.
have hL : drep U (\sum_(i < rows P) nth 0 lv i * toQ RQ (nth [::] z i)) (Z.of_nat (rows P) * (Z.of_nat (exp P) * base P * (2 * resNm P)))
    (\sum_(i < rows P) nth 0 (leftVec P x) i *: f i).
  apply: (drep_sum hs he (r := fun i => nth 0 lv i * toQ RQ (nth [::] z i)) (f := fun i => nth 0 (leftVec P x) i *: f i)) => i hi.
  rewrite mulrC; apply: (drepM hs he hp (hzr i hi)).
  apply: (encode1_srep hs he (js_base K) hp (js_limbs K) (js_limbs0 K) (js_qs0 K)).
  by rewrite -(l2 0 i hi) (nth_map 0) ?hsl.
have he' : drep U e A (Dp U P (Poly (bigQ inv e))).
  exists (Poly (bigQ inv e)); split=> //; last exact: (pr_bigQ (js_inv K) (js_qs K) (js_qs0 K)).
    by apply: leq_trans (size_Poly _) _; rewrite szQ.
  by move=> k; rewrite coef_Poly; exact: hA.
have s1 := chal_srep U hs he (js_base K) (js_limbs0 K) (js_qs0 K) RQ hc.
have s2 := chal_srep U hs he (js_base K) (js_limbs0 K) (js_qs0 K) RQ hc'.
have hR := drepD hs (drepM hs he hp he' s1) (drepN (drepM hs he hp he' s2)).
have eR : (toQ RQ c - toQ RQ c') * e = e * pr RQ (Poly c) - e * pr RQ (Poly c') by rewrite mulrBl ![_ * e]mulrC.
have := drep_decode K hL hw1 hl; rewrite heq eR (drep_decode K hR _ hl); last by move: hw2; clear; lia.
rewrite coef_sum coefD coefN !coefZ => hE.
have -> : \sum_(i < rows P) nth 0 (leftVec P x) i * nth 0 (decode U inv (toQ RQ (nth [::] z i))) l = \sum_(i < rows P) (nth 0 (leftVec P x) i *: f i)`_l.
  apply: eq_bigr => i _; rewrite coefZ; congr (_ * _); apply: (drep_decode K (hzr i (ltn_ord i)) _ hl).
  have h1 := js_base K; have h2 : (1 <= Z.of_nat (rows P))%Z by have := ltn_ord i; clear; lia.
  have h3 : (1 <= Z.of_nat (exp P))%Z by move: he; clear; lia.
  have h4 : (1 <= Z.of_nat (rows P) * (Z.of_nat (exp P) * base P))%Z by move: h1 h2 h3; clear; nia.
  move: hw1 h4 hN; clear; rewrite Z.mul_assoc; set X := (Z.of_nat (rows P) * _)%Z; nia.
rewrite -hE nth_mkseq // !(decodeSlot_Dp _ hs) ?c1 ?c1' // (decodeSlot_Dp _ hl) ?szQ //.
by rewrite mulrBl.
Qed.
End Sound.

(** * Concrete cases, in the setting of Prop_JindoCommit *)
Local Notation ck1 := (ckey (RQ101 1) (RO101 1)).
Definition v1 : seq (seq F101) := [:: nth [::] v101 0].
Definition D1 : jdims (P101 1) := dims101 (isT : (0 < 1)%N).
Lemma nums1 : jnums (P101 1) 3 8. Proof. by split; vm_compute. Qed.
Lemma honest1 (ck : ck1) xof x ws : (forall t, okCoins (P101 1) 3 (ws t)) -> (forall t, okMLWE (P101 1) 8 (ws t)) ->
  exists com os y pf, [/\ committed U101 invSearch ck v1 ws com os, Evaluate U101 ck xof x v1 com os = Some (y, pf), size com = 1%N & size os = 1%N] /\
    Verify U101 invSearch ck xof x com y pf = Some true.
Proof.
move=> h1 h2.
have [com [os [y [pf [s1 s2 e1 e2]]]]] := @C58_total F101 U101 (P101 1) invSearch (RQ101 1) (RO101 1) ck (set101 1) D1 xof x v1 ws 3 Z03 (fun t _ => h1 t) isT erefl (fun v hv => ltac:(by move: hv; rewrite in_cons in_nil orbF => /eqP ->)).
exists com, os, y, pf; split; first by split.
by have [_ ->] := C58_complete (set101 1) D1 nums1 (fun t _ => h1 t) (fun t _ => h2 t) e1 e2.
Qed.
(** the honest proof has the right lengths; without its first list Verify panics *)
Example ex_C45_jindo (ck : ck1) xof x : exists com y pf pf', [/\ Verify U101 invSearch ck xof x com y pf = Some true,
  wellFormed pf, pEnc pf' = pEnc pf & Verify U101 invSearch ck xof x com y pf' = None].
Proof.
have h2 t : okMLWE (P101 1) 8 (w101 t) by move=> i j; split=> // -[|[|[|[|[|k]]]]].
have [com [os [y [pf [_ h]]]]] := honest1 ck xof x (okc101 1) h2.
have [_ _ hw] := C45_jindo_accept_sizes h.
exists com, y, pf, (Proof [::] (pPartial pf) (pMask pf) (pEnc pf) (pMLWE pf)); split=> //.
by apply: C45_jindo_panics_refuted.
Qed.
(** a key for which the outer relation is trivial, and two accepted openings of one commitment *)
Definition ck0 : ck1 := CKey [::] (fun _ _ => 0) (fun _ _ => 0) (fun _ _ => 0).
Definition wL (c : Z) (t : nat) : coins F101 := Coins [::] (fun _ => [::]) (fun _ _ => [::]) (fun _ _ => [:: c; 0; 0; 0]%Z).
Lemma wL_ok c t : okCoins (P101 1) 3 (wL c t). Proof. by split=> // i j [|k]. Qed.
Lemma wL_okm c t : (Z.abs c <= 8)%Z -> okMLWE (P101 1) 8 (wL c t).
Proof. by move=> h i j; split=> // -[|[|[|[|[|k]]]]]. Qed.
Lemma round1 (c : Z) : (Z.abs c <= 8)%Z -> roundIn invSearch (RO101 1) (toQ (RQ101 1) [:: c; 0; 0; 0]%Z) = toO (RO101 1) [:: Z.shiftr c 2; 0; 0; 0]%Z.
Proof.
move=> hc; rewrite /roundIn; congr (toO _ _).
have -> : bigQ invSearch (toQ (RQ101 1) [:: c; 0; 0; 0]%Z) = [:: c; 0; 0; 0]%Z; last by [].
have hcs k : (Z.abs (nth 0%Z [:: c; 0; 0; 0]%Z k) <= 8)%Z by move: k => [|[|[|[|[|k]]]]].
have hsz : (size (Poly [:: c; 0; 0; 0]%Z : {poly Z}) <= slots (P101 1) * exp (P101 1))%N by apply: leq_trans (size_Poly _) _.
apply: (@eq_from_nth _ 0%Z); first by rewrite bigQ_size.
move=> k; rewrite bigQ_size => hk; have S := set101 1.
rewrite (bigQE (RQ101 1) (js_slots S) (js_exp S) (js_inv S) (js_qs S) (js_qs0 S)) // nc_small // ?coef_Poly // => i.
rewrite coef_Poly; apply: (@Z.le_lt_trans _ (2 * 8)); last by [].
by apply: Z.mul_le_mono_nonneg_l; [by []|exact: hcs].
Qed.
Lemma z08 : (Z.abs 0 <= 8)%Z. Proof. by []. Qed.
Lemma z48 : (Z.abs 4 <= 8)%Z. Proof. by []. Qed.
Example ex_C75 xof x : exists com y y' (pf pf' : proof (RQ101 1) (RO101 1)), [/\
  Verify U101 invSearch ck0 xof x com y pf = Some true, Verify U101 invSearch ck0 xof x com y' pf' = Some true &
  pIn pf != pIn pf'].
Proof.
have [com [os [y [pf [[h1 h2 s1 s2] h]]]]] := honest1 ck0 xof x (wL_ok 0) (fun t => @wL_okm 0 t z08).
have [com' [os' [y' [pf' [[h1' h2' s1' s2'] h']]]]] := honest1 ck0 xof x (wL_ok 4) (fun t => @wL_okm 4 t z48).
have o := CommitP D1 (h1 0%N isT); have o' := CommitP D1 (h1' 0%N isT).
have ec : com' = com.
  apply: (@eq_from_nth _ [::]); rewrite s1' ?s1 // => -[|//] _; rewrite (op_com o) (op_com o').
  apply: eq_mkseq => i; congr (roundOut _ _); rewrite /outer !big1 // => j _; exact: mul0r.
exists com, y, y', pf, pf'; split=> //; first by rewrite -ec.
have [bt [lv [ch e]]] := EvaluateP h2; have [bt' [lv' [ch' e']]] := EvaluateP h2'.
rewrite (ev_in e) (ev_in e') /batchOpen -[(1 < batch (P101 1))%N]/false.
have z0 c u : opened U101 invSearch ck0 (nth [::] v1 0) (wL c 0) (nth [::] com 0) u ->
    nth 0 (oIn u) 0 = roundIn invSearch (RO101 1) (toQ (RQ101 1) [:: c; 0; 0; 0]%Z).
  move=> hu; have := op_in hu (isT : (0 <= cols (P101 1))%N) (isT : (0 < inRank (P101 1))%N); rewrite mul0n => ->.
  congr (roundIn _ _ _); rewrite /inner !big1 => [|k _|k _]; last by apply: mul0r. 2: by apply: mul0r.
  by rewrite !add0r (op_ml hu (isT : (0 <= cols (P101 1))%N)) nth_mkseq.
rewrite ec in o'.
apply/eqP => eqI; have := congr1 (fun l => nth 0 l 0%N) eqI; rewrite (z0 _ _ o) (z0 _ _ o') !round1 //.
rewrite /toO.
have -> : Poly [:: Z.shiftr 0 2; 0; 0; 0]%Z = 0 :> {poly Z} by apply/polyP => -[|[|[|[|[|k]]]]]; rewrite coef_Poly coef0.
have -> : Poly [:: Z.shiftr 4 2; 0; 0; 0]%Z = 1 :> {poly Z} by apply/polyP => -[|[|[|[|[|k]]]]]; rewrite coef_Poly coef1.
by rewrite rmorph0 rmorph1 => /esym/eqP; rewrite oner_eq0.
Qed.
(** one committed polynomial answered under two hash functions that differ in the first column *)
Definition xa (l : seq (item F101 (RQ101 1) (RO101 1))) (k : nat) : Z * Z := (7, 0)%Z.
Definition xb (l : seq (item F101 (RQ101 1) (RO101 1))) (k : nat) : Z * Z := if k is 0%N then (8, 0)%Z else (7, 0)%Z.
Example ex_C76 (ck : ck1) x : exists com y y' (pf pf' : proof (RQ101 1) (RO101 1)) ch ch',
  [/\ Verify U101 invSearch ck xa x com y pf = Some true, Verify U101 invSearch ck xb x com y' pf' = Some true,
      pIn pf = pIn pf', pPartial pf = pPartial pf' & pMask pf = pMask pf'] /\
  [/\ chalsOf (P101 1) (chalBytes ck xa x com (pPartial pf) (pMask pf)) = Some ch,
      chalsOf (P101 1) (chalBytes ck xb x com (pPartial pf) (pMask pf)) = Some ch',
      forall j, (j < 2)%N -> j != 0%N -> nth [::] ch j = nth [::] ch' j & nth [::] ch 0 != nth [::] ch' 0].
Proof.
have h2 t : okMLWE (P101 1) 8 (w101 t) by move=> i j; split=> // -[|[|[|[|[|k]]]]].
have [com [os [y [pf [[h1 e s1 s2] h]]]]] := honest1 ck xa x (okc101 1) h2.
have [com' [os' [y' [pf' [[h1' e' s1' s2'] h']]]]] := honest1 ck xb x (okc101 1) h2.
have [ec eo] : nth [::] com' 0 = nth [::] com 0 /\ nth (Opening [::] [::] [::]) os' 0 = nth (Opening [::] [::] [::]) os 0.
  by have := h1' 0%N isT; rewrite (h1 0%N isT) => -[-> ->].
have {}ec : com' = com by apply: (@eq_from_nth _ [::]); rewrite s1' ?s1 // => -[].
have [bt [lv [ch v]]] := EvaluateP e; have [bt' [lv' [ch' v']]] := EvaluateP e'.
have el : lv' = lv by have := ev_lv v; rewrite (ev_lv v') => -[].
have eb : batchOpen bt' os' = batchOpen bt os by rewrite /batchOpen -[(1 < batch (P101 1))%N]/false.
exists com, y, y', pf, pf', [:: [:: 2; 0; 1; 0]; [:: 2; 0; 1; 0]]%Z, [:: [:: -2; 0; 1; 0]; [:: 2; 0; 1; 0]]%Z; split.
  split=> //; first by rewrite -ec.
  - by rewrite (ev_in v) (ev_in v') eb.
  - by rewrite (ev_partial v) (ev_partial v') eb el.
  by rewrite (ev_mask v) (ev_mask v') eb el.
split; [by vm_compute|by vm_compute| |by []].
by move=> [|[|j]].
Qed.

Print Assumptions C45_jindo_total_partial.
Print Assumptions C45_jindo_panics_refuted.
Print Assumptions C45_jindo_accept_sizes.
Print Assumptions C75_outer_binding.
Print Assumptions C75_response_binding.
Print Assumptions C76_special_soundness.
Print Assumptions C76_decoded.
