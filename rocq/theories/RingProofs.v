(** Ring-level lemmas: multiplication via the NTT, automorphisms, division by X^N - 1,
    modulus switching, evaluation, exponentiation. *)
From Coq Require Import ZArith Lia Zpow_facts.
From mathcomp Require Import all_ssreflect all_algebra zify.
From Verif Require Import Spec UintModel BigpolyModel BitrevProofs RingTac NttProofs NttCore UintProofs NttTables PolyProofs.
Set Implicit Arguments. Unset Strict Implicit. Unset Printing Implicit Defensive.
Import GRing.Theory.
Local Open Scope ring_scope.
Delimit Scope Z_scope with Z.

Section Good.
Variables (F : fieldType) (U : uint F).
Lemma NewCyclotomic_good rank T : NewCyclotomicTransformer U rank = Some T ->
  exists n g, rank = (2 ^ n)%N /\ good_cyclotomic T n g.
Proof.
move=> h; have : ntt_rank U rank.
  move: h; rewrite /NewCyclotomicTransformer.
  case: ifP => // /negbFE/isPowerOfTwoP[n hn]; case: ifP => // /negbFE/Z.eqb_eq e _.
  exists n => //; rewrite -pNegOneE; apply/Z.mod_divide => //.
  by have := expn_gt0 2 n; rewrite hn; lia.
move=> /NewCyclotomicP[T' [n [g [h1 h2 h3]]]].
by exists n, g; split=> //; move: h1; rewrite h => -[->].
Qed.

Lemma NewCyclic_good rank T : NewCyclicTransformer U rank = Some T ->
  exists n g, rank = (2 ^ n)%N /\ good_cyclic T n g.
Proof.
move=> h; have [h1 h2] : ntt_rank U rank /\ (1 < rank)%N.
  move: h; rewrite /NewCyclicTransformer.
  case: ifP => // /negbFE/isPowerOfTwoP[n hn]; case: ifP => // /negbFE/Z.eqb_eq e.
  case: ifP => // h2 _; split; last by lia.
  exists n => //; rewrite -pNegOneE; apply/Z.mod_divide => //.
  by have := expn_gt0 2 n; rewrite hn; lia.
have [T' [n [g [h3 h4 h5]]]] := NewCyclicP h1 h2.
by exists n, g; split=> //; move: h3; rewrite h => -[->].
Qed.
End Good.

Section R.
Variable F : fieldType.
Add Ring FRing : (rt [comRingType of F]).
Ltac fring := norm_ring [comRingType of F]; ring.
Add Ring FPRing : (rt [comRingType of {poly F}]).
Ltac fpring := norm_ring [comRingType of {poly F}]; ring.

Lemma Poly_sum (c : seq F) : Poly c = \sum_(i < size c) c`_i *: 'X^i.
Proof.
apply/polyP => k; rewrite coef_Poly coef_sum.
case: (ltnP k (size c)) => h.
  rewrite (bigD1 (Ordinal h)) //= coefZ coefXn eqxx mulr1 big1 ?addr0 // => i ni.
  rewrite coefZ coefXn; case: eqP => [e|]; last by rewrite mulr0.
  by case/eqP: ni; apply: val_inj.
rewrite nth_default // big1 // => i _; rewrite coefZ coefXn; case: eqP => [e|]; last by rewrite mulr0.
by have := ltn_ord i; lia.
Qed.

Lemma pevalE (c : seq F) x : peval c x = (Poly c).[x].
Proof.
rewrite Poly_sum horner_sum; apply: eq_bigr => i _.
by rewrite hornerZ hornerXn.
Qed.

Lemma Poly_inj_size (a b : seq F) : size a = size b -> Poly a = Poly b -> a = b.
Proof.
move=> s e; apply: (@eq_from_nth _ 0) => // i _.
by have := coef_Poly a i; rewrite e coef_Poly.
Qed.

Lemma eq_modp_roots (M A R : {poly F}) (xs : seq F) N :
  uniq xs -> size xs = N -> size M = N.+1 -> all (root M) xs -> (size R <= N)%N ->
  (forall x, x \in xs -> R.[x] = A.[x]) -> R = A %% M.
Proof.
move=> u sx sM hM sR h.
have nM : M != 0 by rewrite -size_poly_eq0 sM.
apply/eqP; rewrite -subr_eq0; apply/eqP.
apply: (@roots_geq_poly_eq0 _ _ xs) => //.
  apply/allP => x hx; rewrite /root hornerD hornerN h // {1}(divp_eq A M) hornerD hornerM.
  by have /eqP -> := allP hM _ hx; rewrite mulr0 add0r subrr.
rewrite sx; apply: leq_trans (size_add _ _) _; rewrite size_opp geq_max sR /=.
by have := ltn_modp A M; rewrite nM sM ltnS => ->.
Qed.

Lemma eq_modp_dvd (M A R : {poly F}) N : size M = N.+1 -> (size R <= N)%N ->
  M %| (A - R) -> R = A %% M.
Proof.
move=> sM sR hd.
have nM : M != 0 by rewrite -size_poly_eq0 sM.
have -> : A = (A - R) + R by rewrite subrK.
rewrite modpD (eqP hd) add0r modp_small // sM ltnS //.
Qed.

Lemma size_XnD1 N : (0 < N)%N -> size ('X^N + 1 : {poly F}) = N.+1.
Proof. by move=> h; rewrite size_addl size_polyXn // size_poly1. Qed.

Lemma size_Poly_le (c : seq F) : (size (Poly c) <= size c)%N.
Proof. exact: size_Poly. Qed.

Lemma order_inj (g : F) N a b : has_order g N -> (a < N)%N -> (b < N)%N -> g ^+ a = g ^+ b -> a = b.
Proof.
move=> [N0 [g1 go]].
have g0 : g != 0.
  apply/eqP => e; move: g1; rewrite e expr0n; case: (N) N0 => //= m _ /esym/eqP.
  by rewrite oner_eq0.
have gen : forall c d, (c < d < N)%N -> g ^+ c <> g ^+ d.
  move=> c d /andP[h1 h2] e; apply: (go (d - c)%N); first by lia.
  have e2 : d = ((d - c) + c)%N by lia.
  by apply: (mulIf (expf_neq0 c g0)); rewrite mul1r -exprD -e2.
move=> ha hb e; case: (ltngtP a b) => // h.
  by case: (@gen a b); rewrite ?h.
by case: (@gen b a); rewrite ?h.
Qed.

(** Evaluation points *)
Definition cyclo_pts (g : F) n := [seq g ^+ (brv n i).*2.+1 | i <- iota 0 (2 ^ n)].
Definition cyc_pts (g : F) n := [seq g ^+ brv n i | i <- iota 0 (2 ^ n)].

Lemma two_nz_rank n : (0 < n)%N -> (2 ^ n)%:R != 0 :> F -> 2%:R != 0 :> F.
Proof.
by move=> hn; rewrite natrX expf_eq0 hn.
Qed.

Lemma cyclo_pts_uniq g n : (0 < n)%N -> (2 ^ n)%:R != 0 :> F -> g ^+ (2 ^ n) = -1 -> uniq (cyclo_pts g n).
Proof.
move=> hn hz gN; have ho := order_of_neg1 (two_nz_rank hn hz) gN.
rewrite map_inj_in_uniq ?iota_uniq // => i j; rewrite !mem_iota /= add0n => hi hj e.
have b1 := brv_lt n i; have b2 := brv_lt n j.
have := order_inj ho _ _ e; rewrite expnS => h.
by apply: (brv_inj hi hj); have := h; lia.
Qed.

Lemma cyc_pts_uniq g n : (0 < n)%N -> (2 ^ n)%:R != 0 :> F -> g ^+ (2 ^ n.-1) = -1 -> uniq (cyc_pts g n).
Proof.
move=> hn hz gN; have ho := order_of_neg1 (two_nz_rank hn hz) gN.
rewrite prednK // in ho.
rewrite map_inj_in_uniq ?iota_uniq // => i j; rewrite !mem_iota /= add0n => hi hj e.
by apply: (brv_inj hi hj); apply: (order_inj ho _ _ e); apply: brv_lt.
Qed.

Lemma cyclo_pts_root g n : g ^+ (2 ^ n) = -1 -> all (root ('X^(2 ^ n) + 1)) (cyclo_pts g n).
Proof.
move=> gN; apply/allP => x /mapP[i _ ->].
rewrite /root hornerD hornerXn hornerC -exprM mulnC exprM gN.
by rewrite -signr_odd /= odd_double /= expr1 addNr.
Qed.

Lemma cyc_pts_root g n : (0 < n)%N -> g ^+ (2 ^ n.-1) = -1 -> all (root ('X^(2 ^ n) - 1)) (cyc_pts g n).
Proof.
move=> hn gN; apply/allP => x /mapP[i _ ->].
rewrite /root hornerD hornerN hornerXn hornerC -exprM mulnC exprM.
have -> : g ^+ (2 ^ n) = 1 by rewrite -(prednK hn) expnSr exprM gN sqrrN expr1n.
by rewrite expr1n subrr.
Qed.

Section Tr.
Variables (T : transformer F) (n : nat) (g : F).

Lemma fwd_cyclo_nth v i : good_cyclotomic T n g -> size v = (2 ^ n)%N -> (i < 2 ^ n)%N ->
  (fwdNTT T v)`_i = peval v (g ^+ (brv n i).*2.+1).
Proof. by move=> [_ gN ht _ _ _] sv hi; apply: cyclo_evals. Qed.

Lemma fwd_cyc_nth v i : good_cyclic T n g -> size v = (2 ^ n)%N -> (i < 2 ^ n)%N ->
  (fwdNTT T v)`_i = peval v (g ^+ brv n i).
Proof. by move=> [_ hn gN ht _ _ _] sv hi; apply: cyc_evals. Qed.

Lemma inv_fwd_cyclo v : good_cyclotomic T n g -> size v = (2 ^ n)%N -> invNTT T (fwdNTT T v) = v.
Proof.
by move=> G sv; apply: (inv_fwdNTT (good_cyclotomic_inverse G)) => //; case: G.
Qed.
Lemma fwd_inv_cyclo v : good_cyclotomic T n g -> size v = (2 ^ n)%N -> fwdNTT T (invNTT T v) = v.
Proof.
by move=> G sv; apply: (fwd_invNTT (good_cyclotomic_inverse G)) => //; case: G.
Qed.
Lemma inv_fwd_cyc v : good_cyclic T n g -> size v = (2 ^ n)%N -> invNTT T (fwdNTT T v) = v.
Proof.
by move=> G sv; apply: (inv_fwdNTT (good_cyclic_inverse G)) => //; case: G.
Qed.
Lemma fwd_inv_cyc v : good_cyclic T n g -> size v = (2 ^ n)%N -> fwdNTT T (invNTT T v) = v.
Proof.
by move=> G sv; apply: (fwd_invNTT (good_cyclic_inverse G)) => //; case: G.
Qed.

Definition mulv (a b : seq F) := [seq x.1 * x.2 | x <- zip a b].

Lemma size_mulv a b : size a = size b -> size (mulv a b) = size a.
Proof. by move=> e; rewrite size_map size_zip e minnn. Qed.

Lemma nth_mulv a b i : size a = size b -> (mulv a b)`_i = a`_i * b`_i.
Proof.
move=> e; case: (ltnP i (size a)) => h.
  by rewrite (nth_map (0, 0)) ?nth_zip // size_zip e minnn -e.
by rewrite !nth_default ?mulr0 ?size_mulv // -e.
Qed.

Lemma mul_cyclo a b : good_cyclotomic T n g -> (0 < n)%N -> size a = (2 ^ n)%N -> size b = (2 ^ n)%N ->
  Poly (invNTT T (mulv (fwdNTT T a) (fwdNTT T b))) = (Poly a * Poly b) %% ('X^(2 ^ n) + 1).
Proof.
move=> G hn sa sb; set c := invNTT T _.
have sfa := size_fwdNTT T sa; have sfb := size_fwdNTT T sb.
have sm : size (mulv (fwdNTT T a) (fwdNTT T b)) = (2 ^ n)%N by rewrite size_mulv ?sfa ?sfb.
have sc : size c = (2 ^ n)%N by apply: size_invNTT.
have [_ gN _ _ _ hz] := G.
apply: (@eq_modp_roots _ _ _ (cyclo_pts g n) (2 ^ n)).
- exact: cyclo_pts_uniq.
- by rewrite size_map size_iota.
- by apply: size_XnD1; rewrite expn_gt0.
- exact: cyclo_pts_root.
- by rewrite -sc size_Poly_le.
move=> x /mapP[i]; rewrite mem_iota /= add0n => hi ->.
rewrite hornerM -!pevalE -!(fwd_cyclo_nth G) // fwd_inv_cyclo // nth_mulv //.
by rewrite sfa sfb.
Qed.

Lemma mul_cyc a b : good_cyclic T n g -> size a = (2 ^ n)%N -> size b = (2 ^ n)%N ->
  Poly (invNTT T (mulv (fwdNTT T a) (fwdNTT T b))) = (Poly a * Poly b) %% ('X^(2 ^ n) - 1).
Proof.
move=> G sa sb; set c := invNTT T _.
have sfa := size_fwdNTT T sa; have sfb := size_fwdNTT T sb.
have sm : size (mulv (fwdNTT T a) (fwdNTT T b)) = (2 ^ n)%N by rewrite size_mulv ?sfa ?sfb.
have sc : size c = (2 ^ n)%N by apply: size_invNTT.
have [_ hn gN _ _ _ hz] := G.
apply: (@eq_modp_roots _ _ _ (cyc_pts g n) (2 ^ n)).
- exact: cyc_pts_uniq.
- by rewrite size_map size_iota.
- by apply: size_Xn_sub_1; rewrite expn_gt0.
- exact: cyc_pts_root.
- by rewrite -sc size_Poly_le.
move=> x /mapP[i]; rewrite mem_iota /= add0n => hi ->.
rewrite hornerM -!pevalE -!(fwd_cyc_nth G) // fwd_inv_cyc // nth_mulv //.
by rewrite sfa sfb.
Qed.
End Tr.

(** ** Automorphisms *)
Section Aut.
Variables (N n k : nat).
Hypothesis eN : N = (2 ^ n)%N.
Hypothesis ok : odd k.

Definition apos i := ((i * k) %% (2 * N))%N.
Definition atgt i := if (apos i < N)%N then apos i else (apos i - N)%N.

Lemma N_gt0 : (0 < N)%N. Proof. by rewrite eN expn_gt0. Qed.
Lemma apos_lt i : (apos i < 2 * N)%N.
Proof. by rewrite ltn_mod muln_gt0 N_gt0. Qed.
Lemma atgt_lt i : (atgt i < N)%N.
Proof. by rewrite /atgt; have h := apos_lt i; case: ifP => //; move: h; lia. Qed.
Lemma atgt_mod i : atgt i = ((i * k) %% N)%N.
Proof.
have e : ((i * k) %% N = apos i %% N)%N by rewrite /apos modn_dvdm // dvdn_mull.
rewrite e /atgt; have h := apos_lt i; case: ltnP => h2; first by rewrite modn_small.
have -> : (apos i = N + (apos i - N))%N by lia.
by rewrite modnDl addKn modn_small //; lia.
Qed.

Lemma co_kN : coprime k N.
Proof. by rewrite coprime_sym eN; case: (n) => [|m]; [rewrite coprime1n|rewrite coprime_pexpl // coprime2n]. Qed.

Lemma atgt_inj i j : (i < N)%N -> (j < N)%N -> atgt i = atgt j -> i = j.
Proof.
rewrite !atgt_mod => hi hj /eqP.
have hc : coprime N k by rewrite coprime_sym co_kN.
case: (leqP i j) => hij h.
  have : (N %| (j - i) * k)%N by rewrite mulnBl -eqn_mod_dvd ?leq_mul2r ?hij ?orbT // eq_sym.
  by rewrite Gauss_dvdl // => /dvdn_leq; case: (posnP (j - i)) => [|h0 /(_ isT)]; lia.
have : (N %| (i - j) * k)%N by rewrite mulnBl -eqn_mod_dvd ?leq_mul2r ?(ltnW hij) ?orbT.
by rewrite Gauss_dvdl // => /dvdn_leq; case: (posnP (i - j)) => [|h0 /(_ isT)]; lia.
Qed.

Definition asgn (p : seq F) i := if (apos i < N)%N then p`_i else - p`_i.

Lemma autTo_loop (buf p : seq F) m : size buf = N -> (m <= N)%N ->
  let b := foldl (fun b i =>
    let j := ((i * k) %% (2 * N))%N in
    if (j < N)%N then set_nth 0 b j p`_i else set_nth 0 b (j - N)%N (- p`_i)) buf (iota 0 m) in
  size b = N /\ forall i, (i < m)%N -> b`_(atgt i) = asgn p i.
Proof.
move=> sb; elim: m => [|m IH] hm; first by [].
rewrite iotaSr foldl_rcons add0n; have [] := IH (ltnW hm).
set b := foldl _ _ _ => sb' nb.
have -> : (let j := ((m * k) %% (2 * N))%N in
    if (j < N)%N then set_nth 0 b j p`_m else set_nth 0 b (j - N)%N (- p`_m))
  = set_nth 0 b (atgt m) (asgn p m).
  by rewrite /= /atgt /asgn -/(apos m); case: ifP.
split; first by rewrite size_set_in // sb' atgt_lt.
move=> i; rewrite ltnS leq_eqVlt nth_set_nth /= => /orP[/eqP ->|hi]; first by rewrite eqxx.
case: eqP => e; last exact: nb.
have hiN : (i < N)%N by lia.
by have := atgt_inj hiN hm e; lia.
Qed.

Lemma autTo_size (buf p : seq F) : size buf = N -> size (autTo N buf p k) = N.
Proof. by move=> sb; have [] := autTo_loop p sb (leqnn N). Qed.

Lemma autTo_nth (buf p : seq F) i : size buf = N -> (i < N)%N -> (autTo N buf p k)`_(atgt i) = asgn p i.
Proof. by move=> sb hi; have [_] := autTo_loop p sb (leqnn N); apply. Qed.

Lemma reindex_atgt (R : zmodType) (f : nat -> R) : \sum_(i < N) f i = \sum_(i < N) f (atgt i).
Proof.
pose h (i : 'I_N) : 'I_N := Ordinal (atgt_lt i).
rewrite (reindex h) //=; apply: onW_bij; apply: injF_bij => i j [e].
by apply: val_inj; apply: (atgt_inj (ltn_ord i) (ltn_ord j)).
Qed.

Lemma XnD1_dvd m : ('X^N + 1 : {poly F}) %| 'X^(m * (2 * N)) - 1.
Proof.
have e : ('X^(2 * N) - 1 : {poly F}) = ('X^N - 1) * ('X^N + 1).
  by rewrite mulnC exprM; move: ('X^N : {poly F}) => Y; rewrite expr2; fpring.
have h : ('X^N + 1 : {poly F}) %| 'X^(2 * N) - 1 by rewrite e dvdp_mull.
apply: dvdp_trans h _; rewrite [(m * _)%N]mulnC (exprM _ (2 * N)%N m).
by rewrite (subrX1 ('X^(2 * N)) m) dvdp_mulr.
Qed.

Lemma Xpow_red i : ('X^N + 1 : {poly F}) %| 'X^(i * k) - (if (apos i < N)%N then 'X^(atgt i) else - 'X^(atgt i)).
Proof.
have dv := divn_eq (i * k) (2 * N).
rewrite -/(apos i) in dv; set q := (_ %/ _)%N in dv.
have h1 : ('X^N + 1 : {poly F}) %| 'X^(i * k) - 'X^(apos i).
  rewrite {1}dv exprD -{2}['X^(apos i)]mul1r -mulrBl dvdp_mulr //; exact: XnD1_dvd.
rewrite /atgt; case: ltnP => h //.
have -> : ('X^(i * k) - - 'X^(apos i - N) : {poly F})
   = ('X^(i * k) - 'X^(apos i)) + 'X^(apos i - N) * ('X^N + 1).
  by rewrite mulrDr mulr1 -exprD subnK //; move: ('X^_) ('X^_) ('X^_) => A B C; fpring.
by apply: dvdp_add => //; apply: dvdp_mull.
Qed.

Lemma autTo_subst (buf p : seq F) : size buf = N -> size p = N ->
  Poly (autTo N buf p k) = (Poly p \Po 'X^k) %% ('X^N + 1).
Proof.
move=> sb sp; apply: (@eq_modp_dvd _ _ _ N).
- exact: size_XnD1 N_gt0.
- by rewrite -{2}(autTo_size p sb) size_Poly_le.
rewrite (Poly_sum (autTo _ _ _ _)) autTo_size //.
rewrite (reindex_atgt (fun i => (autTo N buf p k)`_i *: 'X^i)).
rewrite (Poly_sum p) sp linear_sum /= -sumrB.
apply: (big_ind (fun A => 'X^N + 1 %| A)); [exact: dvdp0|exact: dvdp_add|] => i _.
rewrite autTo_nth // linearZ /= rmorphX /= comp_polyX -exprM mulnC /asgn.
have := Xpow_red i; case: ifP => _ h.
  by rewrite -scalerBr -mul_polyC dvdp_mull.
by rewrite scaleNr -scalerN -scalerBr -mul_polyC dvdp_mull.
Qed.
End Aut.

Lemma normIdx_lt N idx : (0 < N)%N -> (normIdx N idx < 2 * N)%N.
Proof.
move=> h; rewrite /normIdx; have := Z.rem_bound_abs idx (Z.of_nat (2 * N)).
by case: Z.ltb_spec; lia.
Qed.

Lemma normIdx_mod N idx : (0 < N)%N -> (Z.of_nat (normIdx N idx) = idx mod Z.of_nat (2 * N))%Z.
Proof.
move=> h; rewrite /normIdx.
have h1 := Z.rem_bound_abs idx (Z.of_nat (2 * N)).
have h2 := Z.quot_rem idx (Z.of_nat (2 * N)).
set r := Z.rem _ _ in h1 h2 *; set q := Z.quot _ _ in h2.
case: Z.ltb_spec => hr.
  by apply: (Z.mod_unique _ _ (q - 1)%Z); lia.
by apply: (Z.mod_unique _ _ q); lia.
Qed.

(** Reducing the exponent modulo 2N does not change the result modulo X^N + 1. *)
Lemma comp_red N (A : {poly F}) k l : (0 < N)%N -> (k = l %[mod 2 * N])%N ->
  (A \Po 'X^k) %% ('X^N + 1) = (A \Po 'X^l) %% ('X^N + 1).
Proof.
wlog hkl : k l / (k <= l)%N.
  move=> H hN e; case: (leqP k l) => h; first exact: H.
  by symmetry; apply: H => //; exact: ltnW.
move=> hN e; apply/eqP; rewrite -subr_eq0 -modpN -modpD; apply/eqP/modp_eq0P.
have /dvdnP[q hq] : (2 * N %| l - k)%N by rewrite -eqn_mod_dvd //; apply/eqP.
rewrite !comp_polyE -sumrB.
apply: (big_ind (fun A => 'X^N + 1 %| A)); [exact: dvdp0|exact: dvdp_add|] => i _.
rewrite -scalerBr -mul_polyC dvdp_mull //.
have -> : l = (k + q * (2 * N))%N by lia.
rewrite -!exprM -opprB dvdpNr mulnDl exprD -[X in _ - X]mulr1 -mulrBr dvdp_mull //.
by rewrite mulnAC; apply: XnD1_dvd.
Qed.

(** Composition with an odd power respects congruence modulo X^N + 1. *)
Lemma comp_modp N (A : {poly F}) k : (0 < N)%N -> odd k ->
  ((A %% ('X^N + 1)) \Po 'X^k) %% ('X^N + 1) = (A \Po 'X^k) %% ('X^N + 1).
Proof.
move=> hN ok.
rewrite [in RHS](divp_eq A ('X^N + 1)) comp_polyD modpD comp_polyM.
suff -> : (A %/ ('X^N + 1) \Po 'X^k) * (('X^N + 1) \Po 'X^k) %% ('X^N + 1) = 0 by rewrite add0r.
apply/modp_eq0P/dvdp_mull.
rewrite comp_polyD comp_polyC rmorphX /= comp_polyX -exprM mulnC exprM.
have -> : ('X^N) ^+ k + 1%:P = 'X^N ^+ k - (-1) ^+ k :> {poly F}.
  by rewrite -signr_odd ok expr1 opprK.
by rewrite subrXX opprK dvdp_mulr.
Qed.

Lemma modp_mulr2 (M A B : {poly F}) : ((A %% M) * (B %% M)) %% M = (A * B) %% M.
Proof. by rewrite modp_mul mulrC modp_mul mulrC. Qed.

(** Horner evaluation *)
Lemma evalSliceE (c : seq F) x : foldl (fun z c => z * x + c) 0 (rev c) = peval c x.
Proof.
rewrite pevalE foldl_rev; elim: c => [|a c IH] /=; first by rewrite horner0.
by rewrite IH horner_cons.
Qed.

(** Division by X^N - 1 *)
Lemma quorem_loop rank N (p0 : seq F) m : size p0 = rank -> (0 < N)%N -> (m <= rank - N)%N ->
  let st := foldl (quorem_step N) (nseq rank 0, p0) (rev (iota (rank - m) m)) in
  [/\ size st.1 = rank, size st.2 = rank,
     forall i, (rank - m <= i)%N -> st.2`_i = 0,
     forall i, (i < rank - m - N)%N -> st.1`_i = 0
   & Poly p0 = Poly st.1 * ('X^N - 1) + Poly st.2].
Proof.
move=> sp hN; elim: m => [|m IH] hm.
  split=> //=; first by rewrite size_nseq.
  - by move=> i hi; rewrite nth_default // sp; lia.
  - by move=> i hi; rewrite nth_nseq; case: ifP.
  have -> : Poly (nseq rank (0 : F)) = 0.
    by apply/polyP => i; rewrite coef_Poly coef0 nth_nseq; case: ifP.
  by rewrite mul0r add0r.
have -> : iota (rank - m.+1) m.+1 = (rank - m.+1)%N :: iota (rank - m) m.
  by rewrite /=; congr (_ :: iota _ _); lia.
rewrite rev_cons foldl_rcons; have [] := IH; first by lia.
case: (foldl _ _ _) => q r /= sq sr zr zq e.
set i := (rank - m.+1)%N.
have hi : (i < rank)%N by rewrite /i; lia.
have hiN : (i - N < rank)%N by lia.
have hiNi : (i - N < i)%N by rewrite /i; lia.
split.
- by rewrite size_set_in // sq.
- by rewrite size_set_in ?size_set_in ?sr //.
- move=> j hj; rewrite !nth_set_nth /=; case: eqP => // nj.
  rewrite nth_set_nth /=; have -> : (j == (i - N)%N) = false by lia.
  by apply: zr; lia.
- move=> j hj; rewrite nth_set_nth /=; have -> : (j == (i - N)%N) = false by lia.
  by apply: zq; lia.
have e1 : Poly (set_nth 0 q (i - N) (q`_(i - N) + r`_i)) = Poly q + r`_i *: 'X^(i - N).
  apply/polyP => j; rewrite coefD coefZ coefXn !coef_Poly nth_set_nth /=.
  by case: eqP => [->|]; rewrite ?mulr1 // mulr0 addr0.
have e2 : Poly (set_nth 0 (set_nth 0 r (i - N) (r`_(i - N) + r`_i)) i 0)
  = Poly r + r`_i *: 'X^(i - N) - r`_i *: 'X^i.
  apply/polyP => j; rewrite !coefB coefD !coefZ !coefXn !coef_Poly !nth_set_nth /=.
  case: eqP => [->|nj].
    have -> : (i == (i - N)%N) = false by lia.
    by rewrite mulr0 addr0 mulr1 subrr.
  rewrite nth_set_nth /=; case: eqP => [->|]; first by rewrite mulr1 mulr0 subr0.
  by rewrite !mulr0 subr0 addr0.
rewrite e1 e2 e.
have -> : ('X^i : {poly F}) = 'X^(i - N) * 'X^N by rewrite -exprD subnK //; rewrite /i; lia.
rewrite -!mul_polyC; move: (Poly q) (Poly r) ('X^_) ('X^_) (_%:P) => A B C D E; fpring.
Qed.

Lemma quoremP rank N (p0 : seq F) : size p0 = rank -> (0 < N)%N ->
  let st := foldl (quorem_step N) (nseq rank 0, p0) (rev (iota N (rank - N))) in
  [/\ size st.1 = rank, size st.2 = rank,
     forall i, (N <= i)%N -> st.2`_i = 0,
     Poly st.1 = Poly p0 %/ ('X^N - 1) & Poly st.2 = Poly p0 %% ('X^N - 1)].
Proof.
move=> sp hN; have [] := quorem_loop sp hN (leqnn _).
case: (leqP rank N) => hr.
  have -> : (rank - N = 0)%N by lia.
  rewrite subn0 /= => h1 h2 h3 h4 h5.
  have h6 : (size (Poly p0) < size (('X^N - 1)%R : {poly F}))%N.
    by rewrite size_Xn_sub_1 // ltnS; apply: leq_trans (size_Poly _) _; rewrite sp.
  split=> //; [by move=> i hi; apply: h3; lia| |by rewrite modp_small].
  rewrite divp_small //; apply/polyP => i; rewrite coef_Poly coef0 nth_nseq; by case: ifP.
have -> : (rank - (rank - N) = N)%N by lia.
move=> h1 h2 h3 h4 h5.
set st := foldl _ _ _ in h1 h2 h3 h4 h5 *.
have hs : (size (Poly st.2) < size (('X^N - 1)%R : {poly F}))%N.
  rewrite size_Xn_sub_1 // ltnS; apply/leq_sizeP => i hi; rewrite coef_Poly; exact: h3.
split=> //; rewrite h5.
  by rewrite divp_addl_mul ?divp_small ?addr0 // -size_poly_eq0 size_Xn_sub_1.
by rewrite modp_addl_mul_small.
Qed.
End R.

(** Exponentiation *)
Lemma exp_loopS (F : fieldType) fuel (r t : F) e : exp_loop fuel.+1 r t e =
  if (0 <? e)%Z then
    exp_loop fuel (if (Z.land e 1 =? 1)%Z then r * t else r) (t * t) (Z.shiftr e 1)
  else r.
Proof. by []. Qed.

Lemma exp_loopE (F : fieldType) fuel (r t : F) e : (0 <= e < 2 ^ Z.of_nat fuel)%Z ->
  exp_loop fuel r t e = r * t ^+ Z.to_nat e.
Proof.
elim: fuel r t e => [|f IH] r t e he.
  have -> : e = 0%Z by move: he; rewrite /=; lia.
  by rewrite /= expr0 mulr1.
rewrite exp_loopS; case: Z.ltb_spec => h0; last first.
  have -> : e = 0%Z by lia.
  by rewrite expr0 mulr1.
have hs : Z.shiftr e 1 = (e / 2)%Z by rewrite Z.shiftr_div_pow2.
have hl : Z.land e 1 = (e mod 2)%Z by rewrite (Z.land_ones e 1).
rewrite hs hl IH; last first.
  move: he; rewrite Nat2Z.inj_succ Z.pow_succ_r; last lia.
  move=> he; split; first by apply: Z.div_pos; lia.
  by apply: Z.div_lt_upper_bound; lia.
have hm := Z.div_mod e 2.
have hb := Z.mod_pos_bound e 2.
rewrite -expr2 -exprM.
case: Z.eqb_spec => h1.
  have -> : Z.to_nat e = (2 * Z.to_nat (e / 2)).+1 by lia.
  by rewrite exprS mulrA.
by have -> : Z.to_nat e = (2 * Z.to_nat (e / 2))%N by lia.
Qed.

(** Rounding *)
Lemma modSwitchCoeffP q Q x : (0 < q)%Z -> (0 < Q)%Z ->
  exists z, (modSwitchCoeff q Q x = z mod q)%Z /\ (2 * Z.abs (z * Q - x * q) <= Q)%Z.
Proof.
move=> hq hQ; rewrite /modSwitchCoeff.
set c := (x * q)%Z; set r := (if _ then _ else _).
have hr : exists k, (c - r = k * Q)%Z.
  have hd := Z.div_mod c Q.
  rewrite /r; case: ifP => _.
    by exists (c / Q + 1)%Z; lia.
  by exists (c / Q)%Z; lia.
have [k hk] := hr; exists k; rewrite hk Z.div_mul; last lia.
split=> //.
have -> : (k * Q - c = - r)%Z by lia.
have hb := Z.mod_pos_bound c Q hQ.
have hs : (Z.shiftr Q 1 = Q / 2)%Z by rewrite Z.shiftr_div_pow2.
have h2 := Z.div_mod Q 2; have h3 := Z.mod_pos_bound Q 2.
by rewrite /r hs; case: Z.ltb_spec => h; lia.
Qed.
