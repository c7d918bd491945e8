(** What an honest prover of the commitment scheme sends. *)
From Coq Require Import ZArith.
From mathcomp Require Import all_ssreflect all_algebra zify ssrZ.
From Verif Require Import RingTac UintModel JindoIntModel JindoIntProofs Prop_JindoInt CycModel JindoModel JindoProofs LayoutProofs Prop_JindoEnc JindoComplete.
Set Implicit Arguments. Unset Strict Implicit. Unset Printing Implicit Defensive.
Import GRing.Theory Pdiv.Ring Pdiv.CommonRing Pdiv.RingMonic.
Delimit Scope Z_scope with Z.
Local Open Scope ring_scope.
Local Arguments Z.mul : simpl never.
Local Arguments Z.add : simpl never.
Local Arguments Z.pow : simpl never.
Local Arguments Z.of_nat : simpl never.
Local Arguments phi : simpl never.

(** the sizes NewParameters computes (params.go 262-281) *)
Record jdims (P : jparams) : Prop := JDims {
  jd_rows : (2 <= rows P)%N;
  jd_cols : (0 < cols P)%N;
  jd_rank : rank P = (cols P * (rows P).-1 * slots P)%N;
  jd_64 : (Z.of_nat (cols P * slots P) < 2 ^ 64)%Z;
  jd_dcmp : dcmpLen P = ((cols P).+1 * inRank P)%N;
  jd_batch : (0 < batch P)%N;
  jd_in : (0 < inRank P)%N;
  jd_logIn : (0 <= logIn P)%Z;
  jd_logOut : (0 <= logOut P)%Z
}.
(** the coins of Commit: masks of [slots] elements, samples for each coefficient, bounded *)
Record okCoins (F : fieldType) (P : jparams) (B : Z) (w : coins F) : Prop := OkCoins {
  ok_mask : forall j, (size (coinM w j) <= slots P)%N;
  ok_samples : forall i j, (size (coinS w i j) <= slots P * exp P)%N;
  ok_bound : forall i j k, (Z.abs (nth 0%Z (coinS w i j) k) <= B)%Z
}.

(** the parameters with the outer ring in place of the inner one *)
Definition outP (P : jparams) : jparams :=
  JParams (batch P) (rank P) (rows P) (cols P) (base P) (exp P) (slots P) (inRank P) (outRank P) (mlweRank P)
    (logIn P) (logOut P) (dcmpLen P) (qos P) (qs P) (resNm P) (dcmpNm P) (limbs P).

(** rounding *)
Section Round.
Variables (F : fieldType) (U : uint F) (P : jparams) (inv : Z -> Z -> Z).
Local Notation d := (slots P * exp P)%N.
Variable RQ : cyc d (prodz (qs P)).
Hypothesis K : jsetting U P inv.
Let hd : (0 < d)%N. Proof. by rewrite muln_gt0 (js_slots K) (js_exp K). Qed.
Lemma bigQ_half (r : RQ) k : (2 * Z.abs (nth 0%Z (bigQ inv r) k) <= prodz (qs P) + 1)%Z.
Proof.
have hQ := prodz_pos (js_qs K).
have [hk|hk] := ltnP k d; last by rewrite nth_default ?bigQ_size //; lia.
rewrite (nth_map 0%Z) ?co_size //; have := reconstructP (js_inv K) (js_qs K) (nth 0%Z (co r) k) (js_qs0 K).
move=> [[_ h]|[h _]]; move: h hQ; move: (reconstruct _ _ _) => v; move: (prodz (qs P)) => q; first by clear; lia.
rewrite Z.shiftr_div_pow2 // Z.pow_1_r; have := Z.div_mod q 2; have := Z.mod_pos_bound q 2; clear; lia.
Qed.
Lemma bigQ_small (r : RQ) B f k : drep U r B f -> (2 * B < prodz (qs P) - 1)%Z -> (Z.abs (nth 0%Z (bigQ inv r) k) <= B)%Z.
Proof.
move=> [p [h1 h2 <- _]] hB; have [hk|hk] := ltnP k d.
  rewrite (bigQE RQ (js_slots K) (js_exp K) (js_inv K) (js_qs K) (js_qs0 K)) // nc_small //.
  by move=> i; have := h2 i; lia.
by rewrite nth_default ?bigQ_size //; have := infLe_ge0 h2.
Qed.
Lemma drep_decode (r : RQ) A f i : drep U r A f -> (2 * A < prodz (qs P) - 1)%Z -> (i < slots P)%N -> nth 0 (decode U inv r) i = f`_i.
Proof.
move=> [p [h1 h2 <- <-]] hA hi.
rewrite (decodeE RQ (js_slots K) (js_exp K) (js_p K) (js_inv K) (js_qs K) (js_qs0 K)) // nc_small // => k; have := h2 k; lia.
Qed.
(** what shifting out the low bits leaves: 2^l * high = r - low *)
Lemma roundE (r : RQ) l : (0 <= l)%Z ->
  toQ RQ [seq Z.shiftr z l | z <- bigQ inv r] * pr RQ (2 ^ l)%Z%:P = r + toQ RQ [seq (- (z mod 2 ^ l))%Z | z <- bigQ inv r].
Proof.
move=> hl; rewrite -{2}[r](pr_bigQ (js_inv K) (js_qs K) (js_qs0 K)) /toQ -rmorphM -rmorphD; congr (pr RQ _).
apply/polyP => k; rewrite coefMC coefD !coef_Poly.
have [hk|hk] := ltnP k d; last by rewrite !nth_default ?size_map ?co_size // mul0r addr0.
have hz : (k < size (bigQ inv r))%N by rewrite bigQ_size.
rewrite !(nth_map 0%Z 0%Z _ hz) Z.shiftr_div_pow2 //.
have hP : (2 ^ l <> 0)%Z by apply: Z.pow_nonzero.
set z := nth _ _ _; rewrite -[(_ * _)%R]/(z / 2 ^ l * 2 ^ l)%Z -[RHS]/(z + - (z mod 2 ^ l))%Z.
by have := Z.div_mod z _ hP; lia.
Qed.
Lemma low_rep (r : RQ) l : (0 <= l)%Z -> exists f, drep U (toQ RQ [seq (- (z mod 2 ^ l))%Z | z <- bigQ inv r]) (2 ^ l - 1) f.
Proof.
move=> hl; have hP : (0 < 2 ^ l)%Z by apply: Z.pow_pos_nonneg.
eexists; eexists; split; [|move=> k|by []|by []].
  by apply: leq_trans (size_Poly _) _; rewrite !size_map co_size.
rewrite coef_Poly; have [hk|hk] := ltnP k d; last by rewrite nth_default ?size_map ?co_size //; lia.
have hz : (k < size (bigQ inv r))%N by rewrite bigQ_size.
rewrite (nth_map 0%Z 0%Z _ hz); have := Z.mod_pos_bound (nth 0%Z (bigQ inv r) k) _ hP; lia.
Qed.
(** the high part, in any ring *)
Definition highB (l : Z) : Z := ((prodz (qs P) + 1) / 2 / 2 ^ l + 1)%Z.
Lemma high_bound (r : RQ) l k : (0 <= l)%Z -> (Z.abs (nth 0%Z [seq Z.shiftr z l | z <- bigQ inv r] k) <= highB l)%Z.
Proof.
move=> hl; have hP : (0 < 2 ^ l)%Z by apply: Z.pow_pos_nonneg.
have hQ := prodz_pos (js_qs K).
have hH : (0 <= (prodz (qs P) + 1) / 2)%Z by apply: Z.div_pos; lia.
have hH2 : (0 <= (prodz (qs P) + 1) / 2 / 2 ^ l)%Z by apply: Z.div_pos; lia.
have [hk|hk] := ltnP k d; last by rewrite nth_default ?size_map ?co_size // /highB; lia.
have hzs : (k < size (bigQ inv r))%N by rewrite bigQ_size.
rewrite (nth_map 0%Z 0%Z _ hzs) Z.shiftr_div_pow2 //; have := @bigQ_half r k; set z := nth _ _ _ => hz.
have hz' : (Z.abs z <= (prodz (qs P) + 1) / 2)%Z by apply: Z.div_le_lower_bound; lia.
rewrite /highB; move: hz' hH hH2; set A := (_ / 2)%Z => hz' hH hH2.
have h1 : (z / 2 ^ l <= A / 2 ^ l)%Z by apply: Z.div_le_mono; lia.
have h2 : (- A / 2 ^ l <= z / 2 ^ l)%Z by apply: Z.div_le_mono; lia.
have h3 : (- (A / 2 ^ l) - 1 <= - A / 2 ^ l)%Z.
  apply: Z.div_le_lower_bound; first by []; have := Z.div_mod A (2 ^ l); have := Z.mod_pos_bound A (2 ^ l); nia.
by lia.
Qed.
End Round.

Lemma js_out F (U : uint F) P inv : jsetting U P inv -> jsetting U (outP P) inv.
Proof. by case. Qed.


Section Honest.
Variables (F : fieldType) (U : uint F) (P : jparams) (inv : Z -> Z -> Z).
Local Notation s := (slots P).
Local Notation d := (slots P * exp P)%N.
Local Notation Q := (prodz (qs P)).
Local Notation Qo := (prodz (qos P)).
Variables (RQ : cyc d Q) (RO : cyc d Qo).
Variable ck : ckey RQ RO.
Variable xof : seq (item F RQ RO) -> nat -> Z * Z.
Hypothesis K : jsetting U P inv.
Hypothesis D : jdims P.
Let hs := js_slots K. Let he := js_exp K. Let hp := js_p K.
Let hd : (0 < d)%N. Proof. by rewrite muln_gt0 hs. Qed.

Let hcs : (0 < cols P * slots P)%N. Proof. by rewrite muln_gt0 (jd_cols D). Qed.
Definition encB (B : Z) : Z := (base P + (base P + 1) * B)%Z.
Lemma randEncode_rep (v : seq F) (S : seq Z) (B : Z) : (size v <= s)%N -> (size S <= d)%N ->
  (forall i, (Z.abs (nth 0%Z S i) <= B)%Z) ->
  exists r, randEncode U RQ v S = Some r /\ drep U r (encB B) (Poly v).
Proof.
case: K => h1 h2 h3 h4 h5 h6 h7 h8 h9 _ _ hv hS hB.
have [m [e1 e2 e3 e4 e5]] := randEncodeE RQ h1 h2 h3 h4 h5 h6 h9 hv hS.
exists (pr RQ (randPoly P m S)); split=> //; exists (nc d (randPoly P m S)); split.
- exact: nc_size.
- rewrite randPoly_nc ?e3 // => k; rewrite coefB coefD coefZ !coef_Poly.
  have hk := e4 k; have hsh : (Z.abs (nth 0%Z (shiftSample P S) k) <= B)%Z.
    have hB0 := hB 0%N; have [hkd|hkd] := ltnP k d; last by rewrite nth_default ?size_mkseq //; lia.
    by rewrite nth_mkseq //; case: ifP => _; [have := hB (d - slots P + k)%N; lia|exact: hB].
  have hSk := hB k.
  have hbS : (Z.abs (base P * nth 0%Z S k) <= base P * B)%Z.
    by rewrite Z.abs_mul (Z.abs_eq (base P)); [apply: Z.mul_le_mono_nonneg_l; lia|lia].
  rewrite -[X in Z.abs X]/(nth 0%Z m k + nth 0%Z (shiftSample P S) k - base P * nth 0%Z S k)%Z /encB.
  move: hk hsh hbS; move: (nth 0%Z m k) (nth 0%Z (shiftSample P S) k) (base P * nth 0%Z S k)%Z => a c g.
  by rewrite Z.mul_add_distr_r Z.mul_1_l; lia.
- by rewrite pr_nc.
by rewrite (@Dp_nc F U P).
Qed.

Lemma cell_size (v : seq F) (w : coins F) i j B c : okCoins P B w -> cell P v w i j = Some c -> (size c <= s)%N.
Proof.
move=> [hm _ _]; rewrite /cell; have h a : ((a.+1 * s - a * s)%N = s) by rewrite mulSn addnK.
have hsub (T : Type) (x : seq T) a b : (size (sub x a b) <= b - a)%N by rewrite size_take; case: ltnP.
case: ifP => _; first by case: ifP => // _ [<-].
case: ifP => _; first by case=> <-; apply: leq_trans (hsub _ _ _ _) _; rewrite h.
case: ifP => _; first by case=> <-; apply: leq_trans (hsub _ _ _ _) _; rewrite h.
case: ifP => // _ [<-]; apply: leq_trans (hsub _ _ _ _) _.
set a := (j * _ * _)%N; apply: (@leq_trans ((a + i.+1 * s) - (a + i * s))).
  by apply: leq_sub2r; exact: geq_minl.
by rewrite subnDl h.
Qed.
Lemma encCell_rep (v : seq F) (w : coins F) i j B : (0 <= B)%Z -> okCoins P B w ->
  exists r, encCell U RQ v w i j = Some r /\ drep U r (encB B) (Poly (odflt [::] (cell P v w i j))).
Proof.
move=> hB hok; rewrite /encCell; case E: (cell P v w i j) => [c|] /=.
  by case: (hok) => _ h1 h2; apply: randEncode_rep => //; exact: cell_size hok E.
exists 0; split=> //; apply: (drepW hs he (drep0 U RQ)).
by have := js_base K; rewrite /encB; nia.
Qed.

Record opened (v : seq F) (w : coins F) (com : seq RO) (o : opening RQ RO) : Prop := Opened {
  op_size : (0 < size v <= rank P)%N;
  op_enc : forall i j, (i <= cols P)%N -> (j < rows P)%N -> encCell U RQ v w i j = Some (nth 0 (nth [::] (oEnc o) i) j);
  op_ml : forall i, (i <= cols P)%N -> nth [::] (oMLWE o) i = mlweCol RQ w i;
  op_inS : size (oIn o) = dcmpLen P;
  op_in : forall i j, (i <= cols P)%N -> (j < inRank P)%N ->
    nth 0 (oIn o) (i * inRank P + j) = roundIn inv RO (inner ck (nth [::] (oEnc o) i) (nth [::] (oMLWE o) i) j);
  op_com : com = mkseq (fun i => roundOut inv (outer ck (oIn o) i)) (outRank P)
}.
Lemma CommitP (v : seq F) (w : coins F) com o : Commit U inv ck v w = Some (com, o) -> opened v w com o.
Proof.
rewrite /Commit; case: ifP => // hv.
case E: (allSome _) => [enc|//]; set ml := mkseq _ _; set inc := flatten _ => -[<- <-]; have [e1 e2] := allSomeP E.
rewrite size_map size_iota in e1 e2.
split; rewrite /oEnc /oMLWE /oIn //.
- by move: hv; case: ltnP => //= h1; rewrite lt0n => ->.
- move=> i j hi hj; move: (e2 [::] i); rewrite ltnS hi (nth_map 0%N) ?size_iota // nth_iota // => /(_ isT) h.
  have [f1 f2] := allSomeP h; rewrite size_map size_iota in f1 f2.
  by have := f2 0 j hj; rewrite (nth_map 0%N) ?size_iota // nth_iota.
- by move=> i hi; rewrite nth_mkseq.
- by rewrite /inc size_grid (jd_dcmp D).
by move=> i j hi hj; rewrite /inc nth_grid.
Qed.
Lemma Commit_total (v : seq F) (w : coins F) B : (0 <= B)%Z -> okCoins P B w -> (0 < size v <= rank P)%N ->
  exists com o, Commit U inv ck v w = Some (com, o).
Proof.
move=> hB hok /andP[h1 h2]; rewrite /Commit.
have -> : (rank P < size v)%N || (size v == 0)%N = false by rewrite ltnNge h2 -leqn0 leqNgt h1.
set l := map _ _; have [|enc ->] := @allSome_ex _ l; last by eexists; eexists; reflexivity.
rewrite size_map size_iota => i hi; rewrite (nth_map 0%N) ?size_iota // nth_iota //.
apply: allSome_ex; rewrite size_map size_iota => j hj; rewrite (nth_map 0%N) ?size_iota // nth_iota //.
by have [r [-> _]] := @encCell_rep v w i j B hB hok; exists r.
Qed.

(** ** The batched opening *)
Variables (x : F) (vs : seq (seq F)) (ws : nat -> coins F) (com : seq (seq RO)) (os : seq (opening RQ RO)).
Local Notation o0 := (Opening [::] [::] [::] : opening RQ RO).
Hypothesis hcom : forall t, (t < batch P)%N -> opened (nth [::] vs t) (ws t) (nth [::] com t) (nth o0 os t).

Definition betaQ (bt : seq (seq Z)) (t : nat) : RQ := if (1 < batch P)%N then toQ RQ (nth [::] bt t) else 1.
Definition betaO (bt : seq (seq Z)) (t : nat) : RO := if (1 < batch P)%N then toO RO (nth [::] bt t) else 1.
Lemma batch1 : (1 < batch P)%N = false -> batch P = 1%N.
Proof. by have := jd_batch D; case: (batch P) => [|[|n]]. Qed.
Lemma sum_batch1 (V : zmodType) (f : nat -> V) : (1 < batch P)%N = false -> \sum_(t < batch P) f t = f 0%N.
Proof. by move=> /batch1 ->; rewrite big_ord1. Qed.

Lemma bo_in bt j : (j < dcmpLen P)%N ->
  nth 0 (oIn (batchOpen bt os)) j = \sum_(t < batch P) nth 0 (oIn (nth o0 os t)) j * betaO bt t.
Proof.
move=> hj; rewrite /batchOpen /betaO; case: ifP => h; first by rewrite nth_mkseq.
by rewrite (sum_batch1 (fun t => nth 0 (oIn (nth o0 os t)) j * 1)) // mulr1.
Qed.
Lemma bo_enc bt i j : (i <= cols P)%N -> (j < rows P)%N ->
  nth 0 (nth [::] (oEnc (batchOpen bt os)) i) j = \sum_(t < batch P) nth 0 (nth [::] (oEnc (nth o0 os t)) i) j * betaQ bt t.
Proof.
move=> hi hj; rewrite /batchOpen /betaQ; case: ifP => h; first by rewrite !nth_mkseq.
by rewrite (sum_batch1 (fun t => nth 0 (nth [::] (oEnc (nth o0 os t)) i) j * 1)) // mulr1.
Qed.
Lemma bo_ml bt i j : (i <= cols P)%N -> (j < mlweRank P + inRank P)%N ->
  nth 0 (nth [::] (oMLWE (batchOpen bt os)) i) j = \sum_(t < batch P) nth 0 (nth [::] (oMLWE (nth o0 os t)) i) j * betaQ bt t.
Proof.
move=> hi hj; rewrite /batchOpen /betaQ; case: ifP => h; first by rewrite !nth_mkseq.
by rewrite (sum_batch1 (fun t => nth 0 (nth [::] (oMLWE (nth o0 os t)) i) j * 1)) // mulr1.
Qed.

(** ** The proof *)
Record evaluated (y : seq F) (pf : proof RQ RO) (bt : seq (seq Z)) (lv : seq RQ) (ch : seq (seq Z)) : Prop := Evaluated {
  ev_sizes : [/\ size vs = batch P, size com = batch P & size os = batch P];
  ev_y : y = [seq evalP u x | u <- vs];
  ev_bt : chalsOf P (batchBytes ck xof x com) = Some bt;
  ev_lv : allSome [seq encode U RQ [:: l] | l <- leftVec P x] = Some lv;
  ev_ch : chalsOf P (chalBytes ck xof x com (pPartial pf) (pMask pf)) = Some ch;
  ev_in : pIn pf = oIn (batchOpen bt os);
  ev_partial : pPartial pf = mkseq (fun i => \sum_(j < rows P) nth 0 lv j * nth 0 (nth [::] (oEnc (batchOpen bt os)) i) j) (cols P);
  ev_mask : pMask pf = \sum_(j < rows P) nth 0 lv j * nth 0 (nth [::] (oEnc (batchOpen bt os)) (cols P)) j;
  ev_enc : pEnc pf = mkseq (fun i => nth 0 (nth [::] (oEnc (batchOpen bt os)) (cols P)) i +
     \sum_(j < cols P) toQ RQ (nth [::] ch j) * nth 0 (nth [::] (oEnc (batchOpen bt os)) j) i) (rows P);
  ev_ml : pMLWE pf = mkseq (fun i => nth 0 (nth [::] (oMLWE (batchOpen bt os)) (cols P)) i +
     \sum_(j < cols P) toQ RQ (nth [::] ch j) * nth 0 (nth [::] (oMLWE (batchOpen bt os)) j) i) (mlweRank P + inRank P)
}.
Lemma EvaluateP y pf : Evaluate U ck xof x vs com os = Some (y, pf) -> exists bt lv ch, evaluated y pf bt lv ch.
Proof.
rewrite /Evaluate; case: ifP => // /negbT; rewrite !negb_or !negbK => /andP[/andP[/andP[/eqP h1 /eqP h2] /eqP h3] _].
case E1: (chalsOf _ _) => [bt|//]; case E2: (allSome _) => [lv|//]; case E3: (chalsOf _ _) => [ch|//] [<- <-].
by exists bt, lv, ch; split=> //; rewrite -h1 -h2 h3.
Qed.

Variables (y : seq F) (pf : proof RQ RO) (bt : seq (seq Z)) (lv : seq RQ) (ch : seq (seq Z)).
Hypothesis hev : evaluated y pf bt lv ch.

Lemma honest_consistency : verifyConsistency lv ch pf.
Proof.
case: hev => _ _ _ _ _ _ e1 e2 e3 _; rewrite /verifyConsistency e1 e2 e3.
have -> : \sum_(i < rows P) nth 0 lv i * nth 0 (mkseq (fun i => nth 0 (nth [::] (oEnc (batchOpen bt os)) (cols P)) i +
     \sum_(j < cols P) toQ RQ (nth [::] ch j) * nth 0 (nth [::] (oEnc (batchOpen bt os)) j) i) (rows P)) i =
   \sum_(i < rows P) nth 0 lv i * nth 0 (nth [::] (oEnc (batchOpen bt os)) (cols P)) i +
   \sum_(j < cols P) toQ RQ (nth [::] ch j) * (\sum_(i < rows P) nth 0 lv i * nth 0 (nth [::] (oEnc (batchOpen bt os)) j) i).
  under eq_bigr do rewrite nth_mkseq // mulrDr.
  rewrite big_split /=; congr (_ + _).
  under [RHS]eq_bigr do rewrite mulr_sumr.
  rewrite exchange_big /=; apply: eq_bigr => i _; rewrite mulr_sumr; apply: eq_bigr => j _; exact: mulrCA.
have -> : \sum_(i < cols P) toQ RQ (nth [::] ch i) * nth 0 (mkseq (fun i => \sum_(j < rows P) nth 0 lv j * nth 0 (nth [::] (oEnc (batchOpen bt os)) i) j) (cols P)) i =
    \sum_(j < cols P) toQ RQ (nth [::] ch j) * (\sum_(i < rows P) nth 0 lv i * nth 0 (nth [::] (oEnc (batchOpen bt os)) j) i).
  by apply: eq_bigr => i _; rewrite nth_mkseq.
by rewrite addrK subrr.
Qed.

(** ** The evaluation *)
Definition betaN : Z := if (1 < batch P)%N then chalN P else 1%Z.
Definition kappa (bt : seq (seq Z)) (t : nat) : F := if (1 < batch P)%N then (Dp U P (Poly (nth [::] bt t)))`_0 else 1.
Lemma chalsOfP bs cs : chalsOf P bs = Some cs -> size cs = size bs /\ forall t, (t < size bs)%N ->
  chalPoly P (nth (0%Z, 0%Z) bs t) = Some (nth [::] cs t).
Proof.
move=> h; have [h1 h2] := allSomeP h; rewrite size_map in h1 h2; split=> // t ht.
by rewrite -(h2 [::] t ht) (nth_map (0%Z, 0%Z)).
Qed.
Lemma bt_chal t : (1 < batch P)%N -> (t < batch P)%N -> exists b, chalPoly P b = Some (nth [::] bt t).
Proof.
move=> hb ht; have [e1 e2] := chalsOfP (ev_bt hev); eexists; apply: e2.
by rewrite /batchBytes hb size_mkseq.
Qed.
Lemma ch_chal j : (j < cols P)%N -> exists b, chalPoly P b = Some (nth [::] ch j).
Proof. by move=> hj; have [e1 e2] := chalsOfP (ev_ch hev); eexists; apply: e2; rewrite /chalBytes size_mkseq. Qed.
Lemma betaQ_srep t : (t < batch P)%N -> srep U (betaQ bt t) betaN (kappa bt t).
Proof.
move=> ht; rewrite /betaQ /betaN /kappa; case: ifP => hb; last by apply: srep1.
have [b hb'] := bt_chal hb ht; exact: (chal_srep U hs he (js_base K) (js_limbs0 K) (js_qs0 K) _ hb').
Qed.
Lemma betaO_srep t : (t < batch P)%N -> srep U (betaO bt t) betaN (kappa bt t).
Proof.
move=> ht; rewrite /betaO /betaN /kappa; case: ifP => hb; last by apply: srep1.
have [b hb'] := bt_chal hb ht; exact: (chal_srep U hs he (js_base K) (js_limbs0 K) (js_qs0 K) _ hb').
Qed.
Lemma lv_size : size lv = rows P.
Proof.
have [e1 _] := allSomeP (ev_lv hev); rewrite e1 size_map.
by have [] := leftVecE (jd_rows D) (jd_64 D) x.
Qed.
Lemma lv_srep j : (j < rows P)%N -> srep U (nth 0 lv j) (Z.of_nat (exp P) * base P) (nth 0 (leftVec P x) j).
Proof.
move=> hj; have [e1 e2] := allSomeP (ev_lv hev); rewrite size_map in e1 e2.
have hl : (j < size (leftVec P x))%N by rewrite -e1 lv_size.
apply: (encode1_srep hs he (js_base K) hp (js_limbs K) (js_limbs0 K) (js_qs0 K)).
by rewrite -(e2 0 j hl) (nth_map 0).
Qed.

Variable B : Z.
Hypothesis hB : (0 <= B)%Z.
Hypothesis hok : forall t, (t < batch P)%N -> okCoins P B (ws t).
(** what bounds the coefficients of the batched encodings and of the partial sums *)
Definition benB : Z := (Z.of_nat (batch P) * (betaN * encB B))%Z.
Definition parB : Z := (Z.of_nat (rows P) * (Z.of_nat (exp P) * base P * benB))%Z.
Definition fld (t i j : nat) : seq F := odflt [::] (cell P (nth [::] vs t) (ws t) i j).
Lemma enc_rep t i j : (t < batch P)%N -> (i <= cols P)%N -> (j < rows P)%N ->
  drep U (nth 0 (nth [::] (oEnc (nth o0 os t)) i) j) (encB B) (Poly (fld t i j)).
Proof.
move=> ht hi hj; have [r [e1 e2]] := encCell_rep (nth [::] vs t) i j hB (hok ht).
by move: e1; rewrite (op_enc (hcom ht)) // => -[->].
Qed.
Lemma ben_rep i j : (i <= cols P)%N -> (j < rows P)%N ->
  drep U (nth 0 (nth [::] (oEnc (batchOpen bt os)) i) j) benB (\sum_(t < batch P) kappa bt t *: Poly (fld t i j)).
Proof.
move=> hi hj; rewrite bo_enc //.
apply: (drep_sum hs he (r := fun t => nth 0 (nth [::] (oEnc (nth o0 os t)) i) j * betaQ bt t) (f := fun t => kappa bt t *: Poly (fld t i j))) => t ht.
by apply: (drepM hs he hp); [exact: enc_rep|exact: betaQ_srep].
Qed.
Lemma par_rep i : (i < cols P)%N -> drep U (nth 0 (pPartial pf) i) parB
  (\sum_(j < rows P) nth 0 (leftVec P x) j *: (\sum_(t < batch P) kappa bt t *: Poly (fld t i j))).
Proof.
move=> hi; rewrite (ev_partial hev) nth_mkseq //.
apply: (drep_sum hs he (r := fun j => nth 0 lv j * nth 0 (nth [::] (oEnc (batchOpen bt os)) i) j)
   (f := fun j => nth 0 (leftVec P x) j *: (\sum_(t < batch P) kappa bt t *: Poly (fld t i j)))) => j hj.
by rewrite mulrC; apply: (drepM hs he hp); [apply: ben_rep => //; exact: ltnW|exact: lv_srep].
Qed.
Hypothesis hwrap : (2 * parB < Q - 1)%Z.
Hypothesis hbeta : (2 * (ChallengeBound (base P) (exp P) / 2) < Q - 1)%Z.
Lemma yBatchE : yBatch U inv RQ bt y = \sum_(t < batch P) kappa bt t * (Poly (nth [::] vs t)).[x].
Proof.
have [h1 h2 h3] := ev_sizes hev; rewrite (ev_y hev) /yBatch /kappa; case: ifP => hb; last first.
  by rewrite (sum_batch1 (fun t => 1 * (Poly (nth [::] vs t)).[x])) // (nth_map [::]) ?mul1r // h1 batch1.
apply: eq_bigr => t _; rewrite (nth_map [::]) ?h1 //; congr (_ * _).
have [b hb'] := bt_chal hb (ltn_ord t).
have [c1 c2 c3] := chalPolyP hs he (js_base K) (js_limbs0 K) (js_qs0 K) hb'.
apply: (@drep_decode F U P inv RQ K _ (ChallengeBound (base P) (exp P) / 2)) => //.
exists (Poly (nth [::] bt t)); split=> //; first by apply: leq_trans (size_Poly _) _; rewrite c1.
by move=> k; rewrite coef_Poly; exact: c3.
Qed.
Lemma honest_eval : verifyEval U inv x bt y pf.
Proof.
rewrite /verifyEval yBatchE; apply/eqP.
pose g t j k := entry P (nth [::] vs t) (ws t) j k.
have e1 (i : 'I_(cols P)) (l : 'I_s) : nth 0 (decode U inv (nth 0 (pPartial pf) i)) l =
    \sum_(j < rows P) nth 0 (leftVec P x) j * (\sum_(t < batch P) kappa bt t * g t j (i * s + l)%N).
  rewrite (drep_decode K (par_rep (ltn_ord i)) hwrap (ltn_ord l)) coef_sum; apply: eq_bigr => j _.
  rewrite coefZ coef_sum; congr (_ * _); apply: eq_bigr => t _; rewrite coefZ coef_Poly; congr (_ * _).
  by rewrite /g /entry /fld divnMDl // divn_small // addn0 modnMDl modn_small.
transitivity (\sum_(t < batch P) kappa bt t * (\sum_(j < rows P) nth 0 (leftVec P x) j *
    (\sum_(k < cols P * s) g t j k * nth 0 (rightVec P x) k))); last first.
  apply: eq_bigr => t _; congr (_ * _); apply: (layout_eval hcs (jd_rows D) (jd_64 D)).
  have /andP[_] := op_size (hcom (ltn_ord t)); rewrite (jd_rank D) => h; apply: leq_trans h _.
  by rewrite -mulnA mulnCA.
transitivity (\sum_(k < s * cols P) nth 0 (rightVec P x) k *
   (\sum_(j < rows P) nth 0 (leftVec P x) j * (\sum_(t < batch P) kappa bt t * g t j k))).
  rewrite (sum_grid (cols P) s (fun k => nth 0 (rightVec P x) k *
   (\sum_(j < rows P) nth 0 (leftVec P x) j * (\sum_(t < batch P) kappa bt t * g t j k)))) exchange_big /=.
  by apply: eq_bigr => i _; apply: eq_bigr => l _; rewrite e1.
rewrite mulnC.
under eq_bigr do rewrite mulr_sumr.
rewrite exchange_big /=.
under [RHS]eq_bigr do rewrite mulr_sumr.
rewrite [RHS]exchange_big /=; apply: eq_bigr => j _.
under [RHS]eq_bigr do rewrite mulrCA mulr_sumr.
rewrite -mulr_sumr exchange_big /= mulr_sumr; apply: eq_bigr => k _; rewrite mulrCA; congr (_ * _).
by rewrite mulr_sumr; apply: eq_bigr => t _; rewrite mulrC -mulrA.
Qed.

(** ** The residuals *)
Definition errOut (t i : nat) : RO :=
  toO RO [seq (- (z mod 2 ^ logOut P))%Z | z <- bigO inv (outer ck (oIn (nth o0 os t)) i)].
Lemma honest_outer i : (i < outRank P)%N ->
  cutOuter ck bt com pf i = \sum_(t < batch P) errOut t i * betaO bt t.
Proof.
move=> hi; have rE (r : RO) : roundOut inv r * pr RO (2 ^ logOut P)%Z%:P = r + toO RO [seq (- (z mod 2 ^ logOut P))%Z | z <- bigO inv r].
  exact: (@roundE F U (outP P) inv RO (js_out K) r (logOut P) (jd_logOut D)).
have -> : cutOuter ck bt com pf i = (\sum_(t < batch P) nth 0 (nth [::] com t) i * betaO bt t) * pr RO (2 ^ logOut P)%Z%:P
    - \sum_(j < dcmpLen P) ckOut ck i j * nth 0 (pIn pf) j.
  rewrite /cutOuter /betaO; case: ifP => hb //.
  by rewrite (sum_batch1 (fun t => nth 0 (nth [::] com t) i * 1)) // mulr1.
have -> : \sum_(j < dcmpLen P) ckOut ck i j * nth 0 (pIn pf) j = \sum_(t < batch P) outer ck (oIn (nth o0 os t)) i * betaO bt t.
  rewrite (ev_in hev); under eq_bigr do rewrite bo_in // mulr_sumr.
  rewrite exchange_big /=; apply: eq_bigr => t _; rewrite /outer mulr_suml; apply: eq_bigr => j _; exact: mulrA.
rewrite mulr_suml -sumrB; apply: eq_bigr => t _.
rewrite (op_com (hcom (ltn_ord t))) nth_mkseq // mulrAC rE mulrDl addrAC subrr add0r //.
Qed.

(** the batching challenges as integer polynomials *)
Definition bpoly (t : nat) : {poly Z} := if (1 < batch P)%N then Poly (nth [::] bt t) else 1.
Lemma betaQE t : betaQ bt t = pr RQ (bpoly t). Proof. by rewrite /betaQ /bpoly; case: ifP => // _; rewrite rmorph1. Qed.
Lemma betaOE t : betaO bt t = pr RO (bpoly t). Proof. by rewrite /betaO /bpoly; case: ifP => // _; rewrite rmorph1. Qed.
Lemma bpoly_size t : (t < batch P)%N -> (size (bpoly t) <= d)%N.
Proof.
move=> ht; rewrite /bpoly; case: ifP => hb; last by rewrite size_poly1.
have [b hb'] := bt_chal hb ht; have [c1 _ _] := chalPolyP hs he (js_base K) (js_limbs0 K) (js_qs0 K) hb'.
by apply: leq_trans (size_Poly _) _; rewrite c1.
Qed.
Lemma bpoly_l1 t : (t < batch P)%N -> ((\sum_(i < d) Z.abs (bpoly t)`_i)%R <= betaN)%Z.
Proof.
move=> ht; rewrite /bpoly /betaN; case: ifP => hb.
  have [b hb'] := bt_chal hb ht; have [c1 c2 c3] := chalPolyP hs he (js_base K) (js_limbs0 K) (js_qs0 K) hb'.
  by apply: l1_scalar => //; rewrite c1.
rewrite (bigD1 (Ordinal hd)) //= coef1 big1 // => i ne; rewrite coef1.
by have -> : ((i : nat) == 0%N) = false by apply: contraNF ne => /eqP h; apply/eqP/val_inj.
Qed.
Lemma modUpE (p : {poly Z}) : (size p <= d)%N -> noWrap Qo p -> modUp RQ (pr RO p) = pr RQ p.
Proof.
move=> hsz hw; rewrite /modUp /toQ; congr (pr RQ _); apply/polyP => k; rewrite coef_Poly.
have [hk|hk] := ltnP k d; last by rewrite !nth_default ?size_map ?co_size //; exact: leq_trans hsz hk.
rewrite (nth_map 0%Z) ?co_size // co_pr //.
have hQ := prodz_pos (js_qos K); move: (hw k) hQ; move: (p`_k) (prodz (qos P)) => z q hz hq.
have -> : ((z mod q + q / 2) mod q = z + q / 2)%Z.
  rewrite Zplus_mod_idemp_l Z.mod_small //; have := Z.div_mod q 2; have := Z.mod_pos_bound q 2; lia.
by lia.
Qed.
Local Notation H := (highB P (logIn P)).
Definition incB : Z := (Z.of_nat (batch P) * (betaN * H))%Z.
Hypothesis hincB : (2 * incB < Qo - 1)%Z.
Definition comIn (t j i : nat) : RQ := inner ck (nth [::] (oEnc (nth o0 os t)) j) (nth [::] (oMLWE (nth o0 os t)) j) i.
Definition high (t j i : nat) : seq Z := [seq Z.shiftr z (logIn P) | z <- bigQ inv (comIn t j i)].
Definition errIn (t j i : nat) : RQ := toQ RQ [seq (- (z mod 2 ^ logIn P))%Z | z <- bigQ inv (comIn t j i)].
Definition incP (j i : nat) : {poly Z} := \sum_(t < batch P) nc d (Poly (high t j i) * bpoly t).
Lemma high_size t j i : (size (Poly (high t j i) : {poly Z}) <= d)%N.
Proof. by apply: leq_trans (size_Poly _) _; rewrite !size_map co_size. Qed.
Lemma incP_size j i : (size (incP j i) <= d)%N.
Proof. by apply: leq_trans (size_sum _ _ _) _; apply/bigmax_leqP => t _; exact: nc_size. Qed.
Lemma incP_bound j i : infLe (incP j i) incB.
Proof.
have h : infLe (incP j i) (\sum_(t < batch P) (betaN * H)%Z)%R.
  apply: (@infLe_sum (batch P) (fun t => nc d (Poly (high t j i) * bpoly t)) (fun _ => (betaN * H)%Z)) => t ht k.
  have hH : infLe (Poly (high t j i)) H by move=> m; rewrite coef_Poly; apply: (@high_bound F U P inv RQ K); exact: (jd_logIn D).
  have h1 := @nc_mul_bound d hd _ _ _ (high_size t j i) (bpoly_size ht) hH k.
  apply: (Z.le_trans _ _ _ h1); have -> : (\sum_(k0 < d) (Z.abs (bpoly t)`_k0 * H)%Z)%R = ((\sum_(k0 < d) Z.abs (bpoly t)`_k0)%R * H)%Z.
    by rewrite -[RHS]/((\sum_(k0 < d) Z.abs (bpoly t)`_k0)%R * H)%R mulr_suml.
  by apply: Z.mul_le_mono_nonneg_r; [exact: infLe_ge0 hH|exact: bpoly_l1].
move=> k; apply: (Z.le_trans _ _ _ (h k)); by apply: (@sumZ_le (batch P) (fun _ => (betaN * H)%Z)) => ? _; exact: Z.le_refl.
Qed.
Lemma idx_in j i : (j <= cols P)%N -> (i < inRank P)%N -> (j * inRank P + i < dcmpLen P)%N.
Proof.
move=> hj hi; rewrite (jd_dcmp D); apply: (@leq_trans (j.+1 * inRank P)); first by rewrite mulSn addnC ltn_add2r.
by rewrite leq_mul2r ltnS hj orbT.
Qed.
Lemma pInE j i : (j <= cols P)%N -> (i < inRank P)%N -> nth 0 (pIn pf) (j * inRank P + i) = pr RO (incP j i).
Proof.
move=> hj hi; rewrite (ev_in hev) bo_in ?idx_in // /incP rmorph_sum; apply: eq_bigr => t _.
by rewrite (op_in (hcom (ltn_ord t))) // pr_nc // rmorphM betaOE.
Qed.
Lemma modUp_in j i : (j <= cols P)%N -> (i < inRank P)%N ->
  modUp RQ (nth 0 (pIn pf) (j * inRank P + i)) * pr RQ (2 ^ logIn P)%Z%:P = \sum_(t < batch P) (comIn t j i + errIn t j i) * betaQ bt t.
Proof.
move=> hj hi; rewrite pInE // modUpE ?incP_size //; last by move=> k; have := @incP_bound j i k; lia.
rewrite /incP rmorph_sum mulr_suml; apply: eq_bigr => t _.
by rewrite pr_nc // rmorphM -betaQE mulrAC (roundE K (comIn t j i) (jd_logIn D)).
Qed.

(** the inner commitment is linear in the opening *)
Definition innerF (e m : nat -> RQ) (i : nat) : RQ :=
  \sum_(k < rows P) ckIn ck i k * e k + \sum_(k < mlweRank P) ckMLWE ck i k * m k + m (mlweRank P + i)%N.
Lemma innerE enc ml i : inner ck enc ml i = innerF (nth 0 enc) (nth 0 ml) i. Proof. by []. Qed.
Lemma innerF_eq e m e' m' i : (i < inRank P)%N -> (forall k, (k < rows P)%N -> e k = e' k) ->
  (forall k, (k < mlweRank P + inRank P)%N -> m k = m' k) -> innerF e m i = innerF e' m' i.
Proof.
move=> hi h1 h2; rewrite /innerF h2 ?ltn_add2l //; congr (_ + _ + _); apply: eq_bigr => k _; first by rewrite h1.
by rewrite h2 // ltn_addr.
Qed.
Lemma innerF_add e m e' m' i : innerF (fun k => e k + e' k) (fun k => m k + m' k) i = innerF e m i + innerF e' m' i.
Proof.
rewrite /innerF; under eq_bigr do rewrite mulrDr; under [X in _ + X + _]eq_bigr do rewrite mulrDr.
rewrite !big_split /=; set a := \sum_(k < _) _; set a' := \sum_(k < _) _; set b := \sum_(k < _) _; set b' := \sum_(k < _) _.
by rewrite [RHS]addrACA; congr (_ + _); exact: addrACA.
Qed.
Lemma innerF_sum n (c : nat -> RQ) (e m : nat -> nat -> RQ) i :
  innerF (fun k => \sum_(t < n) e t k * c t) (fun k => \sum_(t < n) m t k * c t) i = \sum_(t < n) innerF (e t) (m t) i * c t.
Proof.
elim: n => [|n IH].
  rewrite /innerF; under eq_bigr do rewrite big_ord0 mulr0; under [X in _ + X + _]eq_bigr do rewrite big_ord0 mulr0.
  by rewrite !big_ord0 !big1 ?addr0.
rewrite big_ord_recr /= -IH -[innerF (e n) (m n) i * c n](_ : innerF (fun k => e n k * c n) (fun k => m n k * c n) i = _).
  rewrite -innerF_add /innerF; congr (_ + _ + _); rewrite ?big_ord_recr //; apply: eq_bigr => k _; by rewrite big_ord_recr.
rewrite /innerF !mulrDl !mulr_suml; congr (_ + _ + _); apply: eq_bigr => k _; exact: mulrA.
Qed.
Lemma inner_pf i : (i < inRank P)%N -> inner ck (pEnc pf) (pMLWE pf) i =
  \sum_(t < batch P) comIn t (cols P) i * betaQ bt t + \sum_(j < cols P) (\sum_(t < batch P) comIn t j i * betaQ bt t) * toQ RQ (nth [::] ch j).
Proof.
move=> hi.
pose E j k := \sum_(t < batch P) nth 0 (nth [::] (oEnc (nth o0 os t)) j) k * betaQ bt t.
pose M j k := \sum_(t < batch P) nth 0 (nth [::] (oMLWE (nth o0 os t)) j) k * betaQ bt t.
have eEM j : innerF (E j) (M j) i = \sum_(t < batch P) comIn t j i * betaQ bt t.
  exact: (innerF_sum (batch P) (betaQ bt) (fun t => nth 0 (nth [::] (oEnc (nth o0 os t)) j)) (fun t => nth 0 (nth [::] (oMLWE (nth o0 os t)) j))).
rewrite innerE (@innerF_eq _ _ (fun k => E (cols P) k + \sum_(j < cols P) E j k * toQ RQ (nth [::] ch j))
   (fun k => M (cols P) k + \sum_(j < cols P) M j k * toQ RQ (nth [::] ch j))) //.
- rewrite innerF_add eEM; congr (_ + _).
  rewrite (innerF_sum (cols P) (fun j => toQ RQ (nth [::] ch j)) E M); apply: eq_bigr => j _; by rewrite eEM.
- move=> k hk; rewrite (ev_enc hev) nth_mkseq // bo_enc //; congr (_ + _); apply: eq_bigr => j _.
  by rewrite bo_enc // ?(ltnW (ltn_ord j)) // mulrC.
move=> k hk; rewrite (ev_ml hev) nth_mkseq // bo_ml //; congr (_ + _); apply: eq_bigr => j _.
by rewrite bo_ml // ?(ltnW (ltn_ord j)) // mulrC.
Qed.
Lemma honest_inner i : (i < inRank P)%N -> cutInner ck ch pf i =
  \sum_(t < batch P) errIn t (cols P) i * betaQ bt t + \sum_(j < cols P) (\sum_(t < batch P) errIn t j i * betaQ bt t) * toQ RQ (nth [::] ch j).
Proof.
move=> hi; rewrite /cutInner inner_pf // mulrDl modUp_in // mulr_suml.
have spl j : \sum_(t < batch P) (comIn t j i + errIn t j i) * betaQ bt t =
   \sum_(t < batch P) comIn t j i * betaQ bt t + \sum_(t < batch P) errIn t j i * betaQ bt t.
  by rewrite -big_split /=; apply: eq_bigr => t _; rewrite mulrDl.
under eq_bigr => j _ do rewrite mulrAC (modUp_in (ltnW (ltn_ord j)) hi) spl mulrDl.
rewrite big_split /= spl.
have alg (V : zmodType) (a b c g : V) : a + b + (c + g) - (c + a) = g + b.
  by rewrite addrACA [c + a]addrC addrAC subrr add0r addrC.
exact: alg.
Qed.
End Honest.
