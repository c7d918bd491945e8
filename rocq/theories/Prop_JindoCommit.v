(** C56 - C59: what Commit lays out, completeness of Evaluate and Verify, uniqueness of the
    claimed evaluations. *)
From Coq Require Import ZArith.
From mathcomp Require Import all_ssreflect all_algebra zify ssrZ.
From Verif Require Import UintModel UintFp JindoIntModel JindoIntProofs Prop_JindoInt CycModel JindoModel JindoProofs LayoutProofs Prop_JindoEnc JindoComplete JindoHonest.
Set Implicit Arguments. Unset Strict Implicit. Unset Printing Implicit Defensive.
Import GRing.Theory.
Delimit Scope Z_scope with Z.
Local Open Scope ring_scope.
Local Arguments Z.mul : simpl never.
Local Arguments Z.add : simpl never.
Local Arguments Z.pow : simpl never.
Local Arguments Z.of_nat : simpl never.

Lemma sqSum_cat a b : sqSum (a ++ b) = (sqSum a + sqSum b)%Z.
Proof.
rewrite /sqSum flatten_cat foldr_cat; elim: (flatten a) => [|z l IH] //=; by rewrite IH Z.add_assoc.
Qed.
Lemma sqSum_ge0 a : (0 <= sqSum a)%Z.
Proof. by rewrite /sqSum; elim: (flatten a) => [|z l IH] //=; nia. Qed.
Lemma sqSum_le zs n B : (0 <= B)%Z -> (forall i, (i < size zs)%N -> size (nth [::] zs i) = n) ->
  (forall i k, (Z.abs (nth 0%Z (nth [::] zs i) k) <= B)%Z) -> (sqSum zs <= Z.of_nat (size zs) * Z.of_nat n * (B * B))%Z.
Proof.
move=> hB; elim: zs => [|a zs IH] h1 h2 //; rewrite -cat1s sqSum_cat.
have := IH (fun i hi => h1 i.+1 hi) (fun i => h2 i.+1).
suff : (sqSum [:: a] <= Z.of_nat n * (B * B))%Z by rewrite /=; nia.
rewrite /sqSum /= cats0 -(h1 0%N isT) /=; move: (h2 0%N) => /=; elim: (a) => [|z l IHl] h //=.
have := IHl (fun k => h k.+1); have := h 0%N => /=; nia.
Qed.
Lemma normOk_lt zs b : (0 < b)%Z -> (sqSum zs < b * b)%Z -> normOk zs b.
Proof. by move=> hb h; apply/Z.ltb_lt; apply Z.sqrt_lt_square => //; [exact: sqSum_ge0|lia]. Qed.
Lemma normOk_sq zs b : normOk zs b -> (sqSum zs < b * b)%Z.
Proof.
move=> /Z.ltb_lt h; have h0 := @sqSum_ge0 zs; have := Z.sqrt_spec _ h0; have := Z.sqrt_nonneg (sqSum zs).
move: (Z.sqrt _) h => r; nia.
Qed.

Section Commit.
Variables (F : fieldType) (U : uint F) (P : jparams) (inv : Z -> Z -> Z).
Local Notation s := (slots P).
Local Notation d := (slots P * exp P)%N.
Local Notation Q := (prodz (qs P)).
Local Notation Qo := (prodz (qos P)).
Variables (RQ : cyc d Q) (RO : cyc d Qo).
Variable ck : ckey RQ RO.
Hypothesis K : jsetting U P inv.
Hypothesis D : jdims P.
Let hs := js_slots K. Let he := js_exp K. Let hp := js_p K.
Let hd : (0 < d)%N. Proof. by rewrite muln_gt0 hs. Qed.
Let hcs : (0 < cols P * slots P)%N. Proof. by rewrite muln_gt0 (jd_cols D). Qed.

(** * C56 *)
(** the public vectors of the two sides *)
Theorem C56_vectors (x : F) :
  leftVec P x = mkseq (fun j => if j == (rows P).-1 then x else x ^+ (j * (cols P * s))) (rows P) /\
  rightVec P x = mkseq (fun k => x ^+ k) (cols P * s).
Proof.
have [h1 h2] := leftVecE (jd_rows D) (jd_64 D) x; have [h3 h4] := rightVecE hcs x.
split; apply: (@eq_from_nth _ 0); rewrite ?size_mkseq // => i hi; rewrite nth_mkseq ?h2 ?h4 -?h1 -?h3 //.
Qed.
(** the field vector Commit stores at column i, row j, read off the opening *)
Definition slotOf (o : opening RQ RO) (i j l : nat) : F := nth 0 (decode U inv (nth 0 (nth [::] (oEnc o) i) j)) l.
Theorem C56_layout (v : seq F) (w : coins F) (B : Z) com o x : (0 <= B)%Z -> okCoins P B w -> (2 * encB P B < Q - 1)%Z ->
  Commit U inv ck v w = Some (com, o) ->
  \sum_(j < rows P) nth 0 (leftVec P x) j * (\sum_(i < cols P) \sum_(l < s) slotOf o i j l * nth 0 (rightVec P x) (i * s + l))
    = (Poly v).[x].
Proof.
move=> hB hok hw hc; have ho := CommitP D hc.
rewrite -(layout_eval hcs (jd_rows D) (jd_64 D) w); last first.
  by have /andP[_] := op_size ho; rewrite (jd_rank D) -mulnA mulnCA.
apply: eq_bigr => j _; congr (_ * _); rewrite mulnC.
rewrite (sum_grid (cols P) s (fun k => entry P v w j k * nth 0 (rightVec P x) k)) [RHS]exchange_big /=.
apply: eq_bigr => i _; apply: eq_bigr => l _; congr (_ * _).
have [r [e1 e2]] := @encCell_rep F U P inv RQ K D v w i j B hB hok.
move: e1; rewrite (op_enc ho) // ?(ltnW (ltn_ord i)) // => -[er]; rewrite /slotOf er.
rewrite (drep_decode K e2 hw (ltn_ord l)) coef_Poly /entry divnMDl // divn_small // addn0 modnMDl modn_small //.
Qed.

(** * C57 *)
Theorem C57_blinding (v t : seq F) : size t = (cols P * s).-1 ->
  exists! u, size u = (cols P * s).-1 /\ behead (firstRow P v u) = t.
Proof.
move=> ht; have [u [h1 h2 h3]] := firstRow_onto hcs v ht.
by exists u; split=> // u' [k1 k2]; symmetry; exact: h3.
Qed.

(** * C58 *)
Variable xof : seq (item F RQ RO) -> nat -> Z * Z.
Local Notation o0 := (Opening [::] [::] [::] : opening RQ RO).
(** a batch of commitments made by Commit *)
Definition committed (vs : seq (seq F)) (ws : nat -> coins F) (com : seq (seq RO)) (os : seq (opening RQ RO)) : Prop :=
  forall t, (t < batch P)%N -> Commit U inv ck (nth [::] vs t) (ws t) = Some (nth [::] com t, nth o0 os t).

(** what is checked of an honest proof beyond the two norms: nothing can fail *)
Theorem C58_verify x vs ws com os y pf B : (0 <= B)%Z -> (forall t, (t < batch P)%N -> okCoins P B (ws t)) ->
  (2 * parB P B < Q - 1)%Z -> (2 * (ChallengeBound (base P) (exp P) / 2) < Q - 1)%Z -> (2 * incB P < Qo - 1)%Z ->
  committed vs ws com os -> Evaluate U ck xof x vs com os = Some (y, pf) ->
  y = [seq (Poly v).[x] | v <- vs] /\
  exists bt ch, [/\ chalsOf P (batchBytes ck xof x com) = Some bt,
    chalsOf P (chalBytes ck xof x com (pPartial pf) (pMask pf)) = Some ch,
    (* the outer residual is the batched rounding error *)
    forall i, (i < outRank P)%N -> cutOuter ck bt com pf i = \sum_(t < batch P) errOut inv ck os t i * betaO RO bt t,
    (* the inner residual is the rounding error of the mask plus those of the columns times the challenges *)
    forall i, (i < inRank P)%N -> cutInner ck ch pf i =
      \sum_(t < batch P) errIn inv ck os t (cols P) i * betaQ RQ bt t
      + \sum_(j < cols P) (\sum_(t < batch P) errIn inv ck os t j i * betaQ RQ bt t) * toQ RQ (nth [::] ch j) &
    Verify U inv ck xof x com y pf = Some (verifyOuter inv ck bt com pf && verifyInner inv ck ch pf)].
Proof.
move=> hB hok hpar hbe hinc hcom hev.
have hop t (ht : (t < batch P)%N) := CommitP D (hcom t ht).
have [bt [lv [ch he']]] := EvaluateP hev; split; first exact: (ev_y he').
exists bt, ch; split; first exact: ev_bt he'; first exact: ev_ch he'.
- by move=> i hi; exact: (honest_outer K D hop he').
- by move=> i hi; exact: (honest_inner K D hop he' hinc).
have [h1 h2 h3] := ev_sizes he'.
rewrite /Verify h2 {1}(ev_y he') size_map h1 eqxx /= (ev_bt he') (ev_ch he').
have s1 : size (pIn pf) = dcmpLen P.
  rewrite (ev_in he') /batchOpen; case: ifP => hb; first by rewrite size_mkseq.
  exact: (op_inS (hop 0%N (jd_batch D))).
have s2 : size (pPartial pf) = cols P by rewrite (ev_partial he') size_mkseq.
have s3 : size (pEnc pf) = rows P by rewrite (ev_enc he') size_mkseq.
have s4 : size (pMLWE pf) = (mlweRank P + inRank P)%N by rewrite (ev_ml he') size_mkseq.
rewrite s1 s2 s3 s4 !ltnn /=; case: (verifyOuter _ _ _ _ _) => //=; case: (verifyInner _ _ _ _) => //=.
rewrite (ev_lv he') (honest_consistency he') /=; congr Some.
exact: (honest_eval K D hop he' hB hok).
Qed.

(** challenges are always defined when 2 <= exp <= 120 *)
Lemma chalsOf_total bs : (2 <= exp P <= 120)%N -> exists cs, chalsOf P bs = Some cs.
Proof.
move=> h; apply: allSome_ex; rewrite size_map => i hi; rewrite (nth_map (0%Z, 0%Z)) //.
by rewrite /chalPoly encodeChallengeE; [eexists|apply: cb_pos => //; have := js_base K; clear; lia].
Qed.
Lemma lv_total x : exists lv, allSome [seq encode U RQ [:: l] | l <- leftVec P x] = Some lv.
Proof.
apply: allSome_ex; rewrite size_map => i hi; rewrite (nth_map 0) //; rewrite /encode; set l := nth _ _ _.
have [m [-> _ _ _]] := baseEncodeD hs he (js_base K) hp (js_limbs K) (js_limbs0 K) (js_qs0 K) (hs : (size [:: l] <= s)%N).
by eexists.
Qed.
(** Commit and Evaluate do not panic *)
Theorem C58_total x vs ws B : (0 <= B)%Z -> (forall t, (t < batch P)%N -> okCoins P B (ws t)) -> (2 <= exp P <= 120)%N ->
  size vs = batch P -> (forall v, v \in vs -> (0 < size v <= rank P)%N) ->
  exists com os y pf, [/\ size com = batch P, size os = batch P, committed vs ws com os & Evaluate U ck xof x vs com os = Some (y, pf)].
Proof.
move=> hB hok hexp hvs hv.
have [cs hcs'] : exists cs, allSome [seq Commit U inv ck (nth [::] vs t) (ws t) | t <- iota 0 (batch P)] = Some cs.
  apply: allSome_ex; rewrite size_map size_iota => t ht; rewrite (nth_map 0%N) ?size_iota // nth_iota // add0n.
  have [|c [o e]] := @Commit_total F U P inv RQ RO ck K D (nth [::] vs t) (ws t) B hB (hok t ht); first by apply: hv; rewrite mem_nth // hvs.
  by exists (c, o).
have [h1 h2] := allSomeP hcs'; rewrite size_map size_iota in h1 h2.
exists [seq c.1 | c <- cs], [seq c.2 | c <- cs].
have hcom : committed vs ws [seq c.1 | c <- cs] [seq c.2 | c <- cs].
  move=> t ht; rewrite (nth_map ([::], o0)) ?h1 // (nth_map ([::], o0)) ?h1 //.
  by have := h2 ([::], o0) t ht; rewrite (nth_map 0%N) ?size_iota // nth_iota // add0n => ->; case: (nth _ _ _).
rewrite /Evaluate !size_map h1 hvs eqxx /=.
have -> : has (fun u : seq F => (rank P < size u)%N) vs = false.
  by apply/negbTE/hasPn => v /hv/andP[_]; rewrite -leqNgt.
have [bt ->] := chalsOf_total (batchBytes ck xof x [seq c.1 | c <- cs]) hexp.
have [lv ->] := lv_total x.
set pa := mkseq _ _; set ma := \sum_(j < _) _.
have [ch ->] := chalsOf_total (chalBytes ck xof x [seq c.1 | c <- cs] pa ma) hexp.
by eexists; eexists; split; [| | |reflexivity].
Qed.

(** the samples of the MLWE part *)
Definition okMLWE (BL : Z) (w : coins F) : Prop :=
  forall i j, (size (coinL w i j) <= d)%N /\ forall k, (Z.abs (nth 0%Z (coinL w i j) k) <= BL)%Z.
(** the worst-case sizes of what the verifier measures *)
Definition bn (X : Z) : Z := (Z.of_nat (batch P) * (betaN P * X))%Z.
Definition rs (X : Z) : Z := (bn X + Z.of_nat (cols P) * (chalN P * bn X))%Z.
Definition outE : Z := (2 ^ logOut P - 1)%Z.
Definition inE : Z := (2 ^ logIn P - 1)%Z.
Definition sq (n : nat) (X : Z) : Z := (Z.of_nat n * Z.of_nat d * (X * X))%Z.
Record jnums (B BL : Z) : Prop := JNums {
  jn_B : (0 <= B)%Z; jn_BL : (0 <= BL)%Z;
  jn_par : (2 * parB P B < Q - 1)%Z;
  jn_beta : (2 * (ChallengeBound (base P) (exp P) / 2) < Q - 1)%Z;
  jn_inc : (2 * incB P < Qo - 1)%Z;
  jn_out : (2 * bn outE < Qo - 1)%Z;
  jn_enc : (2 * rs (encB P B) < Q - 1)%Z;
  jn_ml : (2 * rs BL < Q - 1)%Z;
  jn_in : (2 * rs inE < Q - 1)%Z;
  jn_dcmpNm : (0 < dcmpNm P)%Z; jn_resNm : (0 < resNm P)%Z;
  jn_dcmp : (sq (dcmpLen P) (incB P) + sq (outRank P) (bn outE) < dcmpNm P * dcmpNm P)%Z;
  jn_res : (sq (rows P) (rs (encB P B)) + sq (mlweRank P + inRank P) (rs BL) + sq (inRank P) (rs inE) < resNm P * resNm P)%Z
}.


(** elements with a small representative, whatever it decodes to *)
Section Brep.
Variables (q : Z) (R : cyc d q).
Definition brep (r : R) (X : Z) : Prop := exists f, drep U r X f.
Lemma brep_sum n (r : nat -> R) X : (forall i, (i < n)%N -> brep (r i) X) -> brep (\sum_(i < n) r i) (Z.of_nat n * X).
Proof.
elim: n => [|n IH] h; first by rewrite big_ord0; exists 0; exact: drep0.
have [f hf] := IH (fun i hi => h i (ltnW hi)); have [g hg] := h n (ltnSn n); rewrite big_ord_recr /=.
exists (f + g); apply: (drepW hs he (drepD hs hf hg)); clear; lia.
Qed.
Lemma brepM r c X N k : brep r X -> srep U c N k -> brep (r * c) (N * X).
Proof. by case=> f hf hc; exists (k *: f); exact: (drepM hs he hp hf hc). Qed.
Lemma brepD r r' X X' : brep r X -> brep r' X' -> brep (r + r') (X + X').
Proof. by case=> f hf [g hg]; exists (f + g); exact: (drepD hs hf hg). Qed.
Lemma brep_list (l : seq Z) X : (size l <= d)%N -> (0 <= X)%Z -> (forall k, (Z.abs (nth 0%Z l k) <= X)%Z) -> brep (pr R (Poly l)) X.
Proof.
move=> h1 h0 h2; exists (Dp U P (Poly l)), (Poly l); split=> //; first exact: leq_trans (size_Poly _) _.
by move=> k; rewrite coef_Poly; exact: h2.
Qed.
End Brep.

Section Sizes.
Variables (B BL : Z).
Hypothesis N : jnums B BL.
Variables (x : F) (vs : seq (seq F)) (ws : nat -> coins F) (com : seq (seq RO)) (os : seq (opening RQ RO)).
Variables (y : seq F) (pf : proof RQ RO) (bt : seq (seq Z)) (lv : seq RQ) (ch : seq (seq Z)).
Hypothesis hop : forall t, (t < batch P)%N -> opened U inv ck (nth [::] vs t) (ws t) (nth [::] com t) (nth o0 os t).
Hypothesis hok : forall t, (t < batch P)%N -> okCoins P B (ws t).
Hypothesis hml : forall t, (t < batch P)%N -> okMLWE BL (ws t).
Hypothesis hev : evaluated U ck xof x vs com os y pf bt lv ch.
Lemma bnQ (r : nat -> RQ) X : (forall t, (t < batch P)%N -> brep (r t) X) -> brep (\sum_(t < batch P) r t * betaQ RQ bt t) (bn X).
Proof.
move=> h; apply: (@brep_sum _ RQ (batch P) (fun t => r t * betaQ RQ bt t)) => t ht.
exact: (brepM (h t ht) (betaQ_srep K hev ht)).
Qed.
Lemma bnO (r : nat -> RO) X : (forall t, (t < batch P)%N -> brep (r t) X) -> brep (\sum_(t < batch P) r t * betaO RO bt t) (bn X).
Proof.
move=> h; apply: (@brep_sum _ RO (batch P) (fun t => r t * betaO RO bt t)) => t ht.
exact: (brepM (h t ht) (betaO_srep K hev ht)).
Qed.
Lemma rsQ (m : RQ) (r : nat -> RQ) X : brep m X -> (forall j, (j < cols P)%N -> brep (r j) X) ->
  brep (m + \sum_(j < cols P) toQ RQ (nth [::] ch j) * r j) (X + Z.of_nat (cols P) * (chalN P * X)).
Proof.
move=> hm hr; apply: brepD => //.
apply: (@brep_sum _ RQ (cols P) (fun j => toQ RQ (nth [::] ch j) * r j)) => j hj; rewrite mulrC.
have [b hb] := ch_chal hev hj.
exact: (brepM (hr j hj) (chal_srep U hs he (js_base K) (js_limbs0 K) (js_qs0 K) RQ hb)).
Qed.
Lemma honest_encB i : (i < rows P)%N -> brep (nth 0 (pEnc pf) i) (rs (encB P B)).
Proof.
move=> hi; rewrite (ev_enc hev) nth_mkseq //; rewrite /rs.
apply: (rsQ (r := fun j => nth 0 (nth [::] (oEnc (batchOpen bt os)) j) i)) => [|j hj]; rewrite (bo_enc D) // ?(ltnW hj) //.
  by apply: (bnQ (r := fun t => nth 0 (nth [::] (oEnc (nth o0 os t)) (cols P)) i)) => t ht; eexists; exact: (enc_rep K D hop (jn_B N) hok).
apply: (bnQ (r := fun t => nth 0 (nth [::] (oEnc (nth o0 os t)) j) i)) => t ht; eexists; apply: (enc_rep K D hop (jn_B N) hok) => //; exact: ltnW.
Qed.
Lemma honest_mlB i : (i < mlweRank P + inRank P)%N -> brep (nth 0 (pMLWE pf) i) (rs BL).
Proof.
move=> hi; have hc t j : (t < batch P)%N -> (j <= cols P)%N -> brep (nth 0 (nth [::] (oMLWE (nth o0 os t)) j) i) BL.
  move=> ht hj; rewrite (op_ml (hop ht) hj) nth_mkseq; last by rewrite addnC.
  by have [h1 h2] := hml ht j i; apply: brep_list => //; exact: jn_BL N.
rewrite (ev_ml hev) nth_mkseq //; rewrite /rs.
apply: (rsQ (r := fun j => nth 0 (nth [::] (oMLWE (batchOpen bt os)) j) i)) => [|j hj]; rewrite (bo_ml D) // ?(ltnW hj) //.
  by apply: (bnQ (r := fun t => nth 0 (nth [::] (oMLWE (nth o0 os t)) (cols P)) i)) => t ht; exact: hc.
by apply: (bnQ (r := fun t => nth 0 (nth [::] (oMLWE (nth o0 os t)) j) i)) => t ht; apply: hc => //; exact: ltnW.
Qed.
Lemma honest_inB i : (i < inRank P)%N -> brep (cutInner ck ch pf i) (rs inE).
Proof.
move=> hi; rewrite (honest_inner K D hop hev (jn_inc N) hi) /rs.
have e : \sum_(j < cols P) (\sum_(t < batch P) errIn inv ck os t j i * betaQ RQ bt t) * toQ RQ (nth [::] ch j)
   = \sum_(j < cols P) toQ RQ (nth [::] ch j) * (\sum_(t < batch P) errIn inv ck os t j i * betaQ RQ bt t).
  by apply: eq_bigr => j _; exact: mulrC.
rewrite e; apply: (rsQ (r := fun j => \sum_(t < batch P) errIn inv ck os t j i * betaQ RQ bt t)) => [|j hj].
  by apply: (bnQ (r := fun t => errIn inv ck os t (cols P) i)) => t ht; exact: (low_rep K _ (jd_logIn D)).
by apply: (bnQ (r := fun t => errIn inv ck os t j i)) => t ht; exact: (low_rep K _ (jd_logIn D)).
Qed.
Lemma honest_outB i : (i < outRank P)%N -> brep (cutOuter ck bt com pf i) (bn outE).
Proof.
move=> hi; rewrite (honest_outer K D hop hev hi).
apply: (bnO (r := fun t => errOut inv ck os t i)) => t ht.
exact: (@low_rep F U (outP P) inv RO (js_out K) _ _ (jd_logOut D)).
Qed.
Lemma honest_incB k : (k < dcmpLen P)%N -> brep (nth 0 (pIn pf) k) (incB P).
Proof.
move=> hk; have hR := jd_in D; have hj : (k %/ inRank P <= cols P)%N by rewrite -ltnS ltn_divLR // -(jd_dcmp D).
have hi : (k %% inRank P < inRank P)%N by rewrite ltn_mod.
rewrite (divn_eq k (inRank P)) (pInE K D hop hev hj hi).
exists (Dp U P (incP inv ck os bt (k %/ inRank P) (k %% inRank P))), (incP inv ck os bt (k %/ inRank P) (k %% inRank P)); split=> //.
  exact: (@incP_size F U P inv RQ RO ck K).
exact: (incP_bound K D hev).
Qed.
Lemma bigQ_brep (r : RQ) X k : brep r X -> (2 * X < Q - 1)%Z -> (Z.abs (nth 0%Z (bigQ inv r) k) <= X)%Z.
Proof. by case=> f hf; exact: (@bigQ_small F U P inv RQ K _ _ _ _ hf). Qed.
Lemma bigO_brep (r : RO) X k : brep r X -> (2 * X < Qo - 1)%Z -> (Z.abs (nth 0%Z (bigO inv r) k) <= X)%Z.
Proof. by case=> f hf; exact: (@bigQ_small F U (outP P) inv RO (js_out K) _ _ _ _ hf). Qed.
Lemma brep0_ge (q : Z) (R : cyc d q) (r : R) X : brep r X -> (0 <= X)%Z.
Proof. by case=> f; exact: drep_ge0. Qed.
(** a list of ring elements with coefficients within X *)
Lemma sqQ (l : seq RQ) X : (0 <= X)%Z -> (2 * X < Q - 1)%Z -> (forall i, (i < size l)%N -> brep (nth 0 l i) X) ->
  (sqSum [seq bigQ inv r | r <- l] <= sq (size l) X)%Z.
Proof.
move=> h0 hX h; rewrite /sq -(size_map (@bigQ P inv RQ) l); apply: sqSum_le => // [i|i k].
  by rewrite size_map => hi; rewrite (nth_map 0) // bigQ_size.
have [hi|hi] := ltnP i (size l); first by rewrite (nth_map 0) //; exact: bigQ_brep (h i hi) hX.
by rewrite (nth_default [::]) ?size_map // nth_nil.
Qed.
Lemma sqO (l : seq RO) X : (0 <= X)%Z -> (2 * X < Qo - 1)%Z -> (forall i, (i < size l)%N -> brep (nth 0 l i) X) ->
  (sqSum [seq bigO inv r | r <- l] <= sq (size l) X)%Z.
Proof.
move=> h0 hX h; rewrite /sq -(size_map (@bigO P inv RO) l); apply: sqSum_le => // [i|i k].
  by rewrite size_map => hi; rewrite (nth_map 0) // size_map co_size.
have [hi|hi] := ltnP i (size l); first by rewrite (nth_map 0) //; exact: bigO_brep (h i hi) hX.
by rewrite (nth_default [::]) ?size_map // nth_nil.
Qed.
Lemma betaN_ge0 : (0 <= betaN P)%Z.
Proof. exact: srep_ge0 (betaQ_srep K hev (jd_batch D)). Qed.
Lemma chalN_ge0 : (0 <= chalN P)%Z.
Proof. by have [b hb] := ch_chal hev (jd_cols D); apply: srep_ge0 (chal_srep U hs he (js_base K) (js_limbs0 K) (js_qs0 K) RQ hb). Qed.
Lemma bn_ge0 X : (0 <= X)%Z -> (0 <= bn X)%Z.
Proof. by have := betaN_ge0; clear; rewrite /bn; nia. Qed.
Lemma rs_ge0 X : (0 <= X)%Z -> (0 <= rs X)%Z.
Proof. move=> /bn_ge0; have := chalN_ge0; clear; rewrite /rs; nia. Qed.
Lemma honest_norm_outer : verifyOuter inv ck bt com pf.
Proof.
have hE : (0 <= outE)%Z by have := Z.pow_pos_nonneg 2 (logOut P) erefl (jd_logOut D); rewrite /outE; clear; lia.
have s1 : size (pIn pf) = dcmpLen P.
  rewrite (ev_in hev) /batchOpen; case: ifP => hb; first by rewrite size_mkseq.
  exact: (op_inS (hop (jd_batch D))).
apply: normOk_lt (jn_dcmpNm N) _; rewrite sqSum_cat.
have h1 : (sqSum [seq bigO inv r | r <- pIn pf] <= sq (size (pIn pf)) (incB P))%Z.
  apply: sqO (jn_inc N) _; last by move=> i; rewrite s1; exact: honest_incB.
  by apply: (brep0_ge (r := nth 0 (pIn pf) 0)); apply: honest_incB; rewrite (jd_dcmp D) muln_gt0 (jd_in D).
have h2 : (sqSum (mkseq (fun i => bigO inv (cutOuter ck bt com pf i)) (outRank P)) <= sq (outRank P) (bn outE))%Z.
  rewrite /mkseq (map_comp (@bigO P inv RO) (cutOuter ck bt com pf)).
  have := @sqO (mkseq (cutOuter ck bt com pf) (outRank P)) (bn outE) (bn_ge0 hE) (jn_out N); rewrite size_mkseq; apply.
  by move=> i hi; rewrite nth_mkseq //; exact: honest_outB.
have := jn_dcmp N; rewrite s1 in h1; move: h1 h2; clear; lia.
Qed.
Lemma honest_norm_inner : verifyInner inv ck ch pf.
Proof.
have hE : (0 <= inE)%Z by have := Z.pow_pos_nonneg 2 (logIn P) erefl (jd_logIn D); rewrite /inE; clear; lia.
have s3 : size (pEnc pf) = rows P by rewrite (ev_enc hev) size_mkseq.
have s4 : size (pMLWE pf) = (mlweRank P + inRank P)%N by rewrite (ev_ml hev) size_mkseq.
have hen : (0 <= encB P B)%Z by have := js_base K; have := jn_B N; rewrite /encB; clear; nia.
apply: normOk_lt (jn_resNm N) _; rewrite map_cat !sqSum_cat.
have h1 : (sqSum [seq bigQ inv r | r <- pEnc pf] <= sq (rows P) (rs (encB P B)))%Z.
  by rewrite -s3; apply: sqQ (rs_ge0 hen) (jn_enc N) _ => i; rewrite s3; exact: honest_encB.
have h2 : (sqSum [seq bigQ inv r | r <- pMLWE pf] <= sq (mlweRank P + inRank P) (rs BL))%Z.
  by rewrite -s4; apply: sqQ (rs_ge0 (jn_BL N)) (jn_ml N) _ => i; rewrite s4; exact: honest_mlB.
have h3 : (sqSum (mkseq (fun i => bigQ inv (cutInner ck ch pf i)) (inRank P)) <= sq (inRank P) (rs inE))%Z.
  rewrite /mkseq (map_comp (@bigQ P inv RQ) (cutInner ck ch pf)).
  have := @sqQ (mkseq (cutInner ck ch pf) (inRank P)) (rs inE) (rs_ge0 hE) (jn_in N); rewrite size_mkseq; apply.
  by move=> i hi; rewrite nth_mkseq //; exact: honest_inB.
have := jn_res N; move: h1 h2 h3; clear; lia.
Qed.
End Sizes.

(** completeness: with samples inside the bounds, Verify accepts the evaluations *)
Theorem C58_complete x vs ws com os y pf B BL : jnums B BL ->
  (forall t, (t < batch P)%N -> okCoins P B (ws t)) -> (forall t, (t < batch P)%N -> okMLWE BL (ws t)) ->
  committed vs ws com os -> Evaluate U ck xof x vs com os = Some (y, pf) ->
  y = [seq (Poly v).[x] | v <- vs] /\ Verify U inv ck xof x com y pf = Some true.
Proof.
move=> N hok hml hcom hev; have hop t (ht : (t < batch P)%N) := CommitP D (hcom t ht).
have [hy [bt [ch [hb hc _ _ ->]]]] := C58_verify (jn_B N) hok (jn_par N) (jn_beta N) (jn_inc N) hcom hev.
have [bt' [lv [ch' he']]] := EvaluateP hev.
have e1 : bt' = bt by have := ev_bt he'; rewrite hb => -[].
have e2 : ch' = ch by have := ev_ch he'; rewrite hc => -[].
rewrite e1 e2 in he'; split=> //.
by rewrite (honest_norm_outer N hop he') (honest_norm_inner N hop hok hml he').
Qed.

(** * C59 *)
(** the batching weights the verifier uses *)
Definition weight (x : F) (com : seq (seq RO)) (t : nat) : F :=
  if (1 < batch P)%N then
    if chalsOf P (batchBytes ck xof x com) is Some bt then nth 0 (decode U inv (toQ RQ (nth [::] bt t))) 0 else 0
  else 1.
Definition wsum x com (y : seq F) : F := \sum_(t < batch P) weight x com t * nth 0 y t.
Lemma yBatchW x com y bt : chalsOf P (batchBytes ck xof x com) = Some bt -> yBatch U inv RQ bt y = wsum x com y.
Proof.
move=> e; rewrite /yBatch /wsum /weight e; case: ifP => // hb.
have -> : batch P = 1%N by have := jd_batch D; move: hb; case: (batch P) => [|[|n]].
by rewrite big_ord1 mul1r.
Qed.
(** the verdict depends on the evaluations only through their weighted sum *)
Theorem C59_weighted x com y y' pf : size y' = batch P -> Verify U inv ck xof x com y pf = Some true ->
  (Verify U inv ck xof x com y' pf = Some true <-> wsum x com y' = wsum x com y).
Proof.
move=> hy'; rewrite /Verify hy' eqxx; case: (size com != batch P) => //=; case: (size y != batch P) => //=.
case E: (chalsOf _ _) => [bt|//]; case: (chalsOf _ _) => [ch|//]; case: ifP => // _; case: ifP => // _.
case: ifP => // _; case: ifP => // _; case: ifP => // _; case: (allSome _) => [lv|//]; case: ifP => // _; case: ifP => // _.
rewrite /verifyEval !(yBatchW _ E) => -[/eqP ->]; split=> [[/eqP->//]|->]; by rewrite eqxx.
Qed.
(** a single polynomial: at most one value is accepted *)
Theorem C59_batch_one x com y y' pf : batch P = 1%N ->
  Verify U inv ck xof x com y pf = Some true -> Verify U inv ck xof x com y' pf = Some true -> y = y'.
Proof.
move=> hb h h'; have hsz z : Verify U inv ck xof x com z pf = Some true -> size z = 1%N.
  by rewrite /Verify -hb; case: eqP; case: eqP.
have := (C59_weighted (etrans (hsz _ h') (esym hb)) h).1 h'.
rewrite /wsum /weight hb ltnn !big_ord1 !mul1r; move: (hsz _ h) (hsz _ h'); clear.
by case: y => [|a [|b l]] //; case: y' => [|a' [|b' l']] //= _ _ ->.
Qed.
Lemma weightE x com bt t : (1 < batch P)%N -> (t < batch P)%N -> (2 * (ChallengeBound (base P) (exp P) / 2) < Q - 1)%Z ->
  chalsOf P (batchBytes ck xof x com) = Some bt -> weight x com t = decodeSlot U P (nth [::] bt t) 0.
Proof.
move=> hb ht hw e; rewrite /weight hb e nth_mkseq //.
have [e1 e2] := chalsOfP e; have [|c1 _ c3] := chalPolyP hs he (js_base K) (js_limbs0 K) (js_qs0 K) (e2 t _).
  by rewrite /batchBytes hb size_mkseq.
congr (decodeSlot U P _ 0); apply: (@eq_from_nth _ 0%Z); rewrite ?bigQ_size // => k hk; rewrite ?c1 in hk *.
have hn : (size (Poly (nth [::] bt t) : {poly Z}) <= d)%N by apply: leq_trans (size_Poly _) _; rewrite c1.
rewrite (bigQE RQ hs he (js_inv K) (js_qs K) (js_qs0 K)) // nc_small // ?coef_Poly // => i.
rewrite coef_Poly; have := c3 i; move: hw; clear; set C := ChallengeBound _ _; set z := nth _ _ _; lia.
Qed.
(** more than one: every accepted list has accepted neighbours *)
Theorem C59_refuted x com y pf : (1 < batch P)%N -> Verify U inv ck xof x com y pf = Some true ->
  exists y', y' != y /\ Verify U inv ck xof x com y' pf = Some true.
Proof.
move=> hb h; have hy : size y = batch P by move: h; rewrite /Verify; case: eqP => //=; case: eqP.
pose k0 := weight x com 0; pose k1 := weight x com 1.
pose dl := if k1 == 0 then [:: 0; 1 : F] else [:: k1; - k0].
pose y' := mkseq (fun t => nth 0 y t + nth 0 dl t) (batch P); exists y'; split.
  apply/eqP => e; have : nth 0 y' (k1 == 0) = nth 0 y (k1 == 0) by rewrite e.
  rewrite nth_mkseq; last by case: (k1 == 0) => //; exact: ltnW.
  move/eqP; rewrite -subr_eq0 addrAC subrr add0r /dl; case: ifP => /= hk; last by rewrite hk.
  by rewrite oner_eq0.
apply/(C59_weighted (y' := y') _ h); first by rewrite size_mkseq.
have -> : wsum x com y' = wsum x com y + \sum_(t < batch P) weight x com t * nth 0 dl t.
  by rewrite /wsum -big_split /=; apply: eq_bigr => t _; rewrite nth_mkseq // mulrDr.
have -> : \sum_(t < batch P) weight x com t * nth 0 dl t = k0 * nth 0 dl 0 + k1 * nth 0 dl 1.
  rewrite (bigD1 (Ordinal (ltnW hb))) //= (bigD1 (Ordinal hb)) //= [X in _ + (_ + X)]big1 ?addr0 // => t /andP[n0 n1].
  have h0 : (t : nat) != 0%N by apply: contra n0 => /eqP e; apply/eqP/val_inj.
  have h1 : (t : nat) != 1%N by apply: contra n1 => /eqP e; apply/eqP/val_inj.
  rewrite [X in _ * X]nth_default ?mulr0 // /dl; case: ifP => _ /=; by case: (nat_of_ord t) h0 h1 => [|[|n]].
rewrite /dl; case: ifP => [/eqP ->|_] /=; first by rewrite mulr0 mul0r !addr0.
by rewrite mulrN [k1 * _]mulrC subrr addr0.
Qed.
(** any value can be claimed at position t when another position has a nonzero weight *)
Theorem C59_forge x com y pf t u z : (t < batch P)%N -> (u < batch P)%N -> t != u -> weight x com u != 0 ->
  Verify U inv ck xof x com y pf = Some true ->
  exists y', nth 0 y' t = z /\ Verify U inv ck xof x com y' pf = Some true.
Proof.
move=> ht hu ne hw h.
pose c := weight x com t * (z - nth 0 y t) / weight x com u.
pose dl i := if i == t then z - nth 0 y t else if i == u then - c else 0.
pose y' := mkseq (fun i => nth 0 y i + dl i) (batch P); exists y'; split.
  by rewrite nth_mkseq // /dl eqxx addrC subrK.
apply/(C59_weighted (y' := y') _ h); first by rewrite size_mkseq.
have -> : wsum x com y' = wsum x com y + \sum_(i < batch P) weight x com i * dl i.
  by rewrite /wsum -big_split /=; apply: eq_bigr => i _; rewrite nth_mkseq // mulrDr.
rewrite (bigD1 (Ordinal ht)) //= (bigD1 (Ordinal hu)) /=; last by apply/eqP => -[e]; rewrite e eqxx in ne.
rewrite big1 => [|i /andP[n0 n1]].
  have nu : (u == t) = false by rewrite eq_sym (negbTE ne).
  by rewrite /dl !eqxx nu mulrN /c [weight x com u * _]mulrC divfK // addr0 subrr addr0.
rewrite /dl; have -> : ((i : nat) == t) = false by apply: contraNF n0 => /eqP e; apply/eqP/val_inj.
have -> : ((i : nat) == u) = false by apply: contraNF n1 => /eqP e; apply/eqP/val_inj.
exact: mulr0.
Qed.
End Commit.

(** * A concrete batch: p = 101, two slots, degree 4, two columns, three rows, two polynomials *)
Lemma dims101 b : (0 < b)%N -> jdims (P101 b). Proof. by move=> h; split. Qed.
Lemma nums101 b : (b < 3)%N -> jnums (P101 b) 3 3.
Proof. by case: b => [|[|[|//]]] _; split; vm_compute. Qed.
Definition w101 (t : nat) : coins F101 := Coins [:: 5%:R; 7%:R; 11%:R] (fun j => [:: j%:R; t%:R]) (fun i j => [:: 1; -2; 3; 0]%Z) (fun i j => [:: -1; 0; 2; 3]%Z).
Definition v101 : seq (seq F101) := [:: [:: 1; 2%:R; 3%:R; 4%:R; 5%:R; 6%:R; 7%:R; 8%:R]; [:: 100%:R; 0; 50%:R]].
Lemma okc101 b t : okCoins (P101 b) 3 (w101 t).
Proof. by split=> // i j [|[|[|[|[|k]]]]]. Qed.
Lemma okm101 b t : okMLWE (P101 b) 3 (w101 t).
Proof. by move=> i j; split=> // -[|[|[|[|[|k]]]]]. Qed.
Lemma Z03 : (0 <= 3)%Z. Proof. by []. Qed.
Section Ex.
Variable ck : ckey (RQ101 2) (RO101 2).
Variable xof : seq (item F101 (RQ101 2) (RO101 2)) -> nat -> Z * Z.
Lemma ev101 x : exists com os y pf, [/\ size com = 2%N, size os = 2%N, committed U101 invSearch ck v101 w101 com os &
  Evaluate U101 ck xof x v101 com os = Some (y, pf)].
Proof.
by apply: (@C58_total F101 U101 (P101 2) invSearch (RQ101 2) (RO101 2) ck (set101 2) (dims101 (isT : (0 < 2)%N)) xof x v101 w101 3 Z03 (fun t _ => okc101 2 t) isT erefl) => v; rewrite !in_cons in_nil orbF => /orP[]/eqP->.
Qed.
(** completeness, and the second accepted list of evaluations *)
Example ex_C58 x : exists com os y pf, [/\ committed U101 invSearch ck v101 w101 com os,
  Evaluate U101 ck xof x v101 com os = Some (y, pf), Verify U101 invSearch ck xof x com y pf = Some true &
  exists y', y' != y /\ Verify U101 invSearch ck xof x com y' pf = Some true].
Proof.
have [com [os [y [pf [_ _ h1 h2]]]]] := ev101 x; exists com, os, y, pf.
have D := dims101 (isT : (0 < 2)%N); have h : Verify U101 invSearch ck xof x com y pf = Some true.
  by have [||_ ->] := C58_complete (set101 2) D (nums101 (isT : (2 < 3)%N)) _ _ h1 h2 => // t _; [exact: okc101|exact: okm101].
by split=> //; exact: (C59_refuted D _ h).
Qed.
(** the opening decodes to the layout *)
Example ex_C56 : exists com o, Commit U101 invSearch ck (nth [::] v101 0) (w101 0) = Some (com, o) /\
  \sum_(j < 3) nth 0 (leftVec (P101 2) (3%:R : F101)) j *
    (\sum_(i < 2) \sum_(l < 2) slotOf U101 invSearch o i j l * nth 0 (rightVec (P101 2) (3%:R : F101)) (i * 2 + l))
  = (Poly (nth [::] v101 0)).[3%:R].
Proof.
have D := dims101 (isT : (0 < 2)%N).
have [com [o e]] := @Commit_total F101 U101 (P101 2) invSearch (RQ101 2) (RO101 2) ck (set101 2) D (nth [::] v101 0) (w101 0) 3 Z03 (okc101 2 0) isT.
have hw : (2 * encB (P101 2) 3 < prodz (qs (P101 2)) - 1)%Z by [].
exists com, o; split; first exact: e.
exact: (C56_layout (set101 2) D 3%:R Z03 (okc101 2 0) hw e).
Qed.
Example ex_C57 : exists! u, size u = 3%N /\ behead (firstRow (P101 2) (nth [::] v101 0) u) = [:: 9%:R; 8%:R; 7%:R].
Proof. exact: (C57_blinding (set101 2) (dims101 (isT : (0 < 2)%N)) (nth [::] v101 0) (t := [:: 9%:R; 8%:R; 7%:R]) erefl). Qed.
End Ex.
(** one polynomial: the value is unique; two: any first value *)
Example ex_C59 (ck : ckey (RQ101 1) (RO101 1)) xof x : exists com os y pf, [/\
  committed U101 invSearch ck v101 w101 com os, Evaluate U101 ck xof x [:: nth [::] v101 0] com os = Some (y, pf),
  Verify U101 invSearch ck xof x com y pf = Some true &
  forall y', Verify U101 invSearch ck xof x com y' pf = Some true -> y' = y].
Proof.
have D := dims101 (isT : (0 < 1)%N).
have [com [os [y [pf [_ _ h1 h2]]]]] := @C58_total F101 U101 (P101 1) invSearch (RQ101 1) (RO101 1) ck (set101 1) D xof x [:: nth [::] v101 0] w101 3 Z03 (fun t _ => okc101 1 t) isT erefl (fun v hv => ltac:(by move: hv; rewrite in_cons in_nil orbF => /eqP ->)).
exists com, os, y, pf.
have h1' : committed U101 invSearch ck v101 w101 com os by case=> // _; exact: (h1 0%N).
have h : Verify U101 invSearch ck xof x com y pf = Some true.
  by have [||_ ->] := C58_complete (set101 1) D (nums101 (isT : (1 < 3)%N)) _ _ h1 h2 => // t _; [exact: okc101|exact: okm101].
by split=> // y' h'; exact: (C59_batch_one D _ h' h).
Qed.

Definition xof101 (l : seq (item F101 (RQ101 2) (RO101 2))) (k : nat) : Z * Z := (Z.of_nat k + 7, 0)%Z.
Example ex_C59_forge (ck : ckey (RQ101 2) (RO101 2)) x (z : F101) : exists com os y pf y',
  let xof := xof101 in [/\
  committed U101 invSearch ck v101 w101 com os, Evaluate U101 ck xof x v101 com os = Some (y, pf),
  nth 0 y' 0 = z & Verify U101 invSearch ck xof x com y' pf = Some true].
Proof.
have D := dims101 (isT : (0 < 2)%N); pose xof := xof101.
have [com [os [y [pf [_ _ h1 h2]]]]] := ev101 ck xof x; exists com, os, y, pf.
have h : Verify U101 invSearch ck xof x com y pf = Some true.
  by have [||_ ->] := C58_complete (set101 2) D (nums101 (isT : (2 < 3)%N)) _ _ h1 h2 => // t _; [exact: okc101|exact: okm101].
have hb : chalsOf (P101 2) (batchBytes ck xof x com) = Some [:: [:: 2; 0; 1; 0]; [:: -2; 0; 1; 0]]%Z by vm_compute.
have hw : weight U101 invSearch ck xof x com 1 != 0.
  by rewrite (weightE (set101 2) _ _ _ hb) //; vm_compute.
by have [y' [e1 e2]] := C59_forge D z (isT : (0 < 2)%N) (isT : (1 < 2)%N) isT hw h; exists y'.
Qed.

Print Assumptions C56_vectors.
Print Assumptions C56_layout.
Print Assumptions C57_blinding.
Print Assumptions C58_verify.
Print Assumptions C58_total.
Print Assumptions C58_complete.
Print Assumptions C59_weighted.
Print Assumptions C59_batch_one.
Print Assumptions C59_refuted.
Print Assumptions C59_forge.
