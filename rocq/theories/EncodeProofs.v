(** Encoder (buckler/encoder.go), interpolation in the embedding domain, masks. *)
From Coq Require Import ZArith Lia.
From mathcomp Require Import all_ssreflect all_algebra zify.
From Verif Require Import RingTac Spec UintModel BigpolyModel BitrevProofs NttProofs NttCore UintProofs NttTables
  PolyProofs RingProofs NormModel BucklerModel.
Set Implicit Arguments. Unset Strict Implicit. Unset Printing Implicit Defensive.
Import GRing.Theory.
Local Open Scope ring_scope.
Delimit Scope Z_scope with Z.

Section Poly.
Variable F : fieldType.
Implicit Types (A B P Q : {poly F}).
Local Notation V N := ('X^N - 1 : {poly F}).

(** coefficient list padded to length E *)
Definition cf (E : nat) (P : {poly F}) : seq F := mkseq (fun i => P`_i) E.

Lemma size_cf E P : size (cf E P) = E. Proof. exact: size_mkseq. Qed.
Lemma nth_cf E P i : (size P <= E)%N -> (cf E P)`_i = P`_i.
Proof.
move=> h; case: (ltnP i E) => hi; first by rewrite nth_mkseq.
by rewrite !nth_default ?size_cf // (leq_trans h).
Qed.
Lemma Poly_cf E P : (size P <= E)%N -> Poly (cf E P) = P.
Proof. by move=> h; apply/polyP => i; rewrite coef_Poly nth_cf. Qed.
Lemma cf_Poly (c : seq F) : cf (size c) (Poly c) = c.
Proof.
apply: (@eq_from_nth _ 0); rewrite size_cf // => i hi.
by rewrite nth_mkseq // coef_Poly.
Qed.

Lemma size_V N : (0 < N)%N -> size (V N) = N.+1.
Proof. by move=> h; rewrite size_addl size_polyXn // size_opp size_poly1. Qed.
Lemma V_neq0 N : (0 < N)%N -> V N != 0.
Proof. by move=> h; rewrite -size_poly_eq0 size_V. Qed.
Lemma V_monic N : (0 < N)%N -> V N \is monic.
Proof.
move=> h; rewrite monicE lead_coefDl ?lead_coefXn //.
by rewrite size_opp size_poly1 size_polyXn.
Qed.

(** degree bounds in the form "size <= d + 1" *)
Lemma size_mul_deg A B a b : (size A <= a.+1)%N -> (size B <= b.+1)%N -> (size (A * B)%R <= (a + b).+1)%N.
Proof.
move=> ha hb; apply: (leq_trans (size_mul_leq _ _)).
by have : (size A + size B <= a.+1 + b.+1)%N by [rewrite leq_add|]; lia.
Qed.
Lemma size_polyC_deg (c : F) : (size c%:P <= 1)%N. Proof. exact: size_polyC_leq1. Qed.

Lemma size_div_V N A d : (0 < N)%N -> (size A <= d)%N -> (size (A %/ V N)%R <= d - N)%N.
Proof. by move=> h hd; rewrite size_divp ?V_neq0 // size_V //= leq_sub2r. Qed.
Lemma size_mod_V N A : (0 < N)%N -> (size (A %% V N)%R <= N)%N.
Proof. by move=> h; have := ltn_modp A (V N); rewrite V_neq0 // size_V // ltnS. Qed.

Section Cyc.
Variables (T : transformer F) (n : nat) (g : F).
Hypothesis G : good_cyclic T n g.
Local Notation N := (2 ^ n)%N.
Definition cpt (i : nat) : F := g ^+ brv n i.

Lemma cyc_order : has_order g N.
Proof.
have := @order_of_neg1 F g n.-1; rewrite prednK ?(gy_pos G) //; apply.
- exact: (two_nz_rank (gy_pos G) (gy_rank_nz G)).
- exact: gy_root G.
Qed.

Lemma cpt_N i : cpt i ^+ N = 1.
Proof. by rewrite /cpt -exprM mulnC exprM; have [_ [-> _]] := cyc_order; rewrite expr1n. Qed.
Lemma V_cpt i : (V N).[cpt i] = 0.
Proof. by rewrite hornerD hornerN hornerXn hornerC cpt_N subrr. Qed.
Lemma cpt_inj i j : (i < N)%N -> (j < N)%N -> cpt i = cpt j -> i = j.
Proof.
move=> hi hj e; apply: (brv_inj hi hj); apply: (order_inj cyc_order _ _ e); exact: brv_lt.
Qed.
Lemma N_pos : (0 < N)%N. Proof. by rewrite expn_gt0. Qed.

(** the values of P on the roots, in the order of the transform *)
Definition evs (P : {poly F}) : seq F := mkseq (fun i => P.[cpt i]) N.

Lemma size_evs P : size (evs P) = N. Proof. exact: size_mkseq. Qed.
Lemma nth_evs P i : (i < N)%N -> (evs P)`_i = P.[cpt i].
Proof. by move=> h; rewrite nth_mkseq. Qed.

Lemma fwd_evs (c : seq F) : size c = N -> fwdNTT T c = evs (Poly c).
Proof.
move=> sc; apply: (@eq_from_nth _ 0); rewrite (size_fwdNTT T sc) ?size_evs // => i hi.
by rewrite nth_evs // (fwd_cyc_nth G) // pevalE.
Qed.

Lemma inv_evs P : (size P <= N)%N -> invNTT T (evs P) = cf N P.
Proof. by move=> h; rewrite -(Poly_cf h) -(fwd_evs (size_cf N P)) (inv_fwd_cyc G) ?size_cf // Poly_cf. Qed.

(** interpolation of any vector *)
Definition interp (v : seq F) : {poly F} := Poly (invNTT T v).
Lemma size_interp v : size v = N -> (size (interp v) <= N)%N.
Proof. by move=> sv; have := size_Poly (invNTT T v); rewrite (size_invNTT T sv). Qed.
Lemma interp_val v i : size v = N -> (i < N)%N -> (interp v).[cpt i] = v`_i.
Proof.
move=> sv hi; rewrite -nth_evs // -fwd_evs ?(size_invNTT T sv) //.
by rewrite (fwd_inv_cyc G).
Qed.

(** two polynomials that agree on the roots are congruent modulo X^N - 1 *)
Lemma cong_of_vals A B : (forall i, (i < N)%N -> A.[cpt i] = B.[cpt i]) -> A %% V N = B %% V N.
Proof.
move=> h; apply/esym; rewrite -[in RHS](modp_small (p := A %% V N) (q := V N)); last by rewrite ltn_modp V_neq0 // N_pos.
apply: (@eq_modp_roots _ _ _ _ (cyc_pts g n) N).
- exact: (cyc_pts_uniq (gy_pos G) (gy_rank_nz G) (gy_root G)).
- by rewrite size_map size_iota.
- by rewrite size_V // N_pos.
- exact: (cyc_pts_root (gy_pos G) (gy_root G)).
- by rewrite size_mod_V // N_pos.
move=> y /mapP[i]; rewrite mem_iota add0n => hi ->; rewrite -/(cpt i).
have md C : (C %% V N).[cpt i] = C.[cpt i].
  by rewrite [in RHS](divp_eq C (V N)) hornerD hornerM V_cpt mulr0 add0r.
by rewrite !md h.
Qed.

Lemma modV_val A i : (A %% V N).[cpt i] = A.[cpt i].
Proof. by rewrite [in RHS](divp_eq A (V N)) hornerD hornerM V_cpt mulr0 add0r. Qed.

Lemma modV0_vals A : A %% V N = 0 <-> forall i, (i < N)%N -> A.[cpt i] = 0.
Proof.
split=> [h i hi|h]; first by rewrite -modV_val h horner0.
by rewrite (@cong_of_vals A 0) ?mod0p // => i hi; rewrite h // horner0.
Qed.

(** the constant coefficient of the remainder is the average over the roots *)
Lemma sum_cpt_pow k : (0 < k < N)%N -> \sum_(i < N) cpt i ^+ k = 0.
Proof.
move=> /andP[k0 kN].
pose h (i : 'I_N) : 'I_N := Ordinal (brv_lt n i).
have hb : bijective h.
  by apply: injF_bij => i j /(congr1 val) /= e; apply: val_inj; apply: (brv_inj (ltn_ord i) (ltn_ord j) e).
transitivity (\sum_(j < N) (g ^+ k) ^+ j).
  rewrite [RHS](reindex h) /=; last exact: onW_bij.
  by apply: eq_bigr => i _; rewrite /cpt -!exprM mulnC.
have [_ [gN gmin]] := cyc_order.
apply/eqP; have := subrX1 (g ^+ k) N; rewrite -exprM mulnC exprM gN expr1n subrr => /esym/eqP.
rewrite mulf_eq0 subr_eq0 => /orP[/eqP e|//]; by case: (gmin k); rewrite ?k0.
Qed.

Lemma sum_vals_coef0 A : \sum_(i < N) A.[cpt i] = (A %% V N)`_0 * N%:R.
Proof.
transitivity (\sum_(i < N) (A %% V N).[cpt i]); first by apply: eq_bigr => i _; rewrite modV_val.
have hs := size_mod_V A N_pos; set R := A %% V N in hs *.
under eq_bigr => i _ do rewrite (horner_coef_wide _ hs).
rewrite exchange_big /= (bigD1 (Ordinal N_pos)) //= [X in _ + X]big1 ?addr0.
  under eq_bigr => i _ do rewrite expr0 mulr1.
  by rewrite sumr_const card_ord mulr_natr.
move=> k nk; rewrite -mulr_sumr sum_cpt_pow ?mulr0 // ltn_ord andbT lt0n.
by apply: contra nk => /eqP e; apply/eqP; apply: val_inj.
Qed.

Lemma coef0_avg A : (A %% V N)`_0 = (\sum_(i < N) A.[cpt i]) / N%:R.
Proof. by rewrite sum_vals_coef0 mulfK // (gy_rank_nz G). Qed.
End Cyc.
End Poly.

(** * encode, randEncode *)
Section Enc.
Variables (F : fieldType) (T : transformer F) (n : nat) (g : F) (E : nat).
Hypothesis G : good_cyclic T n g.
Local Notation N := (2 ^ n)%N.
Hypothesis hE : (N <= E)%N.
Local Notation V := ('X^N - 1 : {poly F}).

Lemma Poly_cat0 (c : seq F) k : Poly (c ++ nseq k 0) = Poly c.
Proof.
apply/polyP => i; rewrite !coef_Poly nth_cat nth_nseq; case: ltnP => h //.
by rewrite nth_default //; case: ifP.
Qed.

Lemma size_encode v : size v = N -> size (encode T E v) = E.
Proof.
move=> sv; rewrite /encode (gy_rank G) take_oversize ?sv // size_cat size_nseq (size_invNTT T sv).
by rewrite subnKC.
Qed.
Lemma encodeE v : size v = N -> encode T E v = cf E (interp T v).
Proof.
move=> sv; rewrite -(cf_Poly (encode T E v)) size_encode //; congr cf.
by rewrite /encode (gy_rank G) take_oversize ?sv // Poly_cat0.
Qed.
Lemma Poly_encode v : size v = N -> Poly (encode T E v) = interp T v.
Proof. by move=> sv; rewrite encodeE // Poly_cf // (leq_trans (size_interp T sv)). Qed.

(** RandEncode adds r (X^N - 1) *)
Definition blind (r : F) (v : seq F) : {poly F} := interp T v + r *: V.

Lemma size_blind r v : size v = N -> (size (blind r v) <= N.+1)%N.
Proof.
move=> sv; rewrite (leq_trans (size_add _ _)) // geq_max (leq_trans (size_interp T sv)) //=.
by rewrite (leq_trans (size_scale_leq _ _)) // size_V // N_pos.
Qed.
Lemma blind_val r v i : size v = N -> (i < N)%N -> (blind r v).[cpt n g i] = v`_i.
Proof. by move=> sv hi; rewrite hornerD hornerZ (V_cpt G) mulr0 addr0 (interp_val G). Qed.

Lemma size_randEncode r v : (N < E)%N -> size v = N -> size (randEncode T E r v) = E.
Proof.
move=> hlt sv; rewrite /randEncode !size_set_nth (gy_rank G) size_encode //.
by rewrite (maxn_idPr _) ?(maxn_idPr _) // ?(leq_trans _ hlt) //; lia.
Qed.
Lemma randEncodeE r v : (N < E)%N -> size v = N -> randEncode T E r v = cf E (blind r v).
Proof.
move=> hlt sv; apply: (@eq_from_nth _ 0); first by rewrite size_randEncode ?size_cf.
rewrite size_randEncode // => i hi.
rewrite nth_cf; last by rewrite (leq_trans (size_blind r sv)).
have hv k : (encode T E v)`_k = (interp T v)`_k.
  by rewrite encodeE // nth_cf // (leq_trans (size_interp T sv)).
rewrite /randEncode (gy_rank G) !nth_set_nth /= !nth_set_nth /=.
rewrite coefD coefZ coefD coefN coefXn coef1 !hv.
have n0 := N_pos n; have iN : (interp T v)`_N = 0 by rewrite nth_default // size_interp.
have [->|ne0] := eqVneq i 0%N.
  by rewrite eqxx [0%N == N]eq_sym (gtn_eqF n0) /= sub0r mulrN mulr1.
have [->|neN] := eqVneq i N; first by rewrite iN subr0 mulr1 add0r.
by rewrite subr0 mulr0 addr0.
Qed.
Lemma Poly_randEncode r v : (N < E)%N -> size v = N -> Poly (randEncode T E r v) = blind r v.
Proof. by move=> hlt sv; rewrite randEncodeE // Poly_cf // (leq_trans (size_blind r sv)). Qed.
End Enc.

(** prefixes and shifts of coefficient lists *)
Section Take.
Variable F : fieldType.
Implicit Types (P : {poly F}).
Lemma take_cf k E P : (k <= E)%N -> take k (cf E P) = cf k P.
Proof.
move=> h; have st : size (take k (cf E P)) = k by rewrite size_takel // size_cf.
apply: (@eq_from_nth _ 0); first by rewrite st size_cf.
by rewrite st => i hi; rewrite nth_take // !nth_mkseq // (leq_trans hi).
Qed.
Lemma peval_cf k P x : (size P <= k)%N -> peval (cf k P) x = P.[x].
Proof. by move=> h; rewrite pevalE Poly_cf. Qed.
Lemma cf_size (c : seq F) k : size c = k -> c = cf k (Poly c).
Proof. by move=> <-; rewrite cf_Poly. Qed.
End Take.

(** * sumCheckMask *)
Section Mask.
Variables (F : fieldType) (TE : transformer F) (x : context F) (coins : nat -> F).
Local Notation N := (crank x).
Local Notation E := (trank TE).
Local Notation V := ('X^N - 1 : {poly F}).
Hypothesis N0 : (0 < N)%N.

Definition maskHead : {poly F} := Poly (mkseq coins N).

Lemma size_maskHead : (size maskHead <= N)%N.
Proof. by have := size_Poly (mkseq coins N); rewrite size_mkseq. Qed.

Lemma mask_loop k : (N + k <= E)%N ->
  let m := foldl (fun m i => let m := set_nth 0 m i (coins i) in
     set_nth 0 m (i - N)%N (m`_(i - N) - m`_i)) (mkseq coins N ++ nseq (E - N) 0) (iota N k) in
  [/\ size m = E, forall i, (N + k <= i)%N -> m`_i = 0 & exists Q, Poly m = maskHead + Q * V].
Proof.
elim: k => [|k IH] hk.
  split=> /=.
  - by rewrite size_cat size_mkseq size_nseq subnKC //; lia.
  - by move=> i; rewrite addn0 => hi; rewrite nth_cat size_mkseq ltnNge hi /= nth_nseq; case: ifP.
  - by exists 0; rewrite mul0r addr0 Poly_cat0.
have [|sm zm [Q eQ]] := IH; first by lia.
rewrite -addn1 iotaD foldl_cat; set m := foldl _ _ (iota N k) in sm zm eQ *; cbn [iota foldl].
have e1 : (N + k - N = k)%N by lia.
have z1 : m`_(N + k) = 0 by apply: zm.
set m1 := set_nth 0 m (N + k)%N (coins (N + k)%N); rewrite e1.
have hlt : (N + k < E)%N by lia.
have s1 : size m1 = E by rewrite size_set_in sm.
have k1 : (k < E)%N by lia.
have n1 i : m1`_i = if i == (N + k)%N then coins (N + k)%N else m`_i by rewrite nth_set_nth.
split.
- by rewrite size_set_in s1.
- move=> i hi; rewrite nth_set_nth /= !n1.
  have [e|_] := eqVneq i k; first by lia.
  have [e|_] := eqVneq i (N + k)%N; first by lia.
  by apply: zm; lia.
exists (Q + (coins (N + k)%N)%:P * 'X^k); rewrite mulrDl addrA -eQ.
apply/polyP => i; rewrite coef_Poly nth_set_nth /= !n1 eqxx coefD coef_Poly.
have -> : (coins (N + k)%N)%:P * 'X^k * V = (coins (N + k)%N) *: ('X^(N + k) - 'X^k).
  by rewrite -mulrA mul_polyC mulrBr mulr1 -exprD addnC.
rewrite coefZ coefD coefN !coefXn.
have [->|ne] := eqVneq i k.
  have -> : (k == N + k)%N = false by apply/eqP; lia.
  by rewrite /= sub0r mulrN mulr1.
have [->|ne2] := eqVneq i (N + k)%N; first by rewrite z1 subr0 mulr1 add0r.
by rewrite subr0 mulr0 addr0.
Qed.

Lemma sumCheckMaskP mr : (mr <= E)%N -> (N <= E)%N ->
  exists M : {poly F}, [/\ (sumCheckMask TE x coins mr).1 = cf E M, (size M <= maxn N mr)%N &
    (M %% V)`_0 = (sumCheckMask TE x coins mr).2].
Proof.
move=> hE hNE; rewrite /sumCheckMask /=; have [|sm zm [Q eQ]] := @mask_loop (mr - N)%N; first by lia.
set m := foldl _ _ _ in sm zm eQ *.
exists (Poly m); split; first exact: cf_size.
- apply/leq_sizeP => j hj; rewrite coef_Poly zm //; lia.
- have -> : (Poly m) %% V = maskHead.
    rewrite eQ modpD modp_mull addr0 modp_small // size_V // ltnS; exact: size_maskHead.
  by rewrite /maskHead coef_Poly nth_mkseq // nth_cat size_mkseq N0 nth_mkseq.
Qed.
End Mask.
