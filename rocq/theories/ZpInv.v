(** Inverses of the limb types: whatever the binary gcd loop computes, the element returned is
    the inverse, because the code multiplies it back and falls back to an exponentiation. *)
From Coq Require Import ZArith Znumtheory Lia.
From mathcomp Require Import all_ssreflect all_algebra all_fingroup all_solvable zify ssrZ.
From Verif Require Import JindoIntModel ZpModel ZpProofs CsprngProofs ZpField ZpConv.
Set Implicit Arguments. Unset Strict Implicit. Unset Printing Implicit Defensive.
Delimit Scope Z_scope with Z.
Local Arguments Z.mul : simpl never.
Local Arguments Z.add : simpl never.
Local Arguments Z.sub : simpl never.
Local Arguments Z.div : simpl never.
Local Arguments Z.modulo : simpl never.
Local Arguments Z.pow : simpl never.
Local Arguments Z.of_nat : simpl never.
Local Arguments Z.lor : simpl never.
Local Arguments Z.lxor : simpl never.
Local Arguments Z.shiftl : simpl never.
Local Arguments Z.shiftr : simpl never.
Local Arguments Z.land : simpl never.
Local Arguments Z.testbit : simpl never.
Local Opaque Add64 Sub64 Mul64 madd0 madd1 madd2 Z.land.

Record okInv (g : gen) : Prop := OkInv {
  ok_spare : (2 * val (qs g) <= B (Limbs g))%Z;
  ok_corr : red g (corr g)
}.

Lemma word_mod a : word (a mod W). Proof. by apply/wordP; apply: Z.mod_pos_bound. Qed.

Section Inv.
Variables (g : gen) (ok : okGen g) (oki : okInv g).
Local Notation q := (qs g).
Local Notation n := (Limbs g).
Local Notation Q := (val (qs g)).
Local Notation ev := (ev g).

(** * the shapes of the signed helpers *)
Lemma negLP x hi r : limbs g x -> word hi -> negL x hi = r -> limbs g r.1 /\ word r.2.
Proof.
move=> [hx hw] /wordP hhi <-; rewrite /negL hx; case E: (subChain _ _ _) => [y b].
have [||||h1 h2 h3 h4] := subChain_val _ _ _ _ E; rewrite ?size_nseq ?all_nseq ?orbT //.
rewrite size_nseq in h1; split=> //=.
case E1: (Sub64 0 hi b) => [w b'].
by have [|||h5 h6 _] := Sub64_val _ _ _ E1 => //; apply/wordP.
Qed.
Lemma mulWP x y r : limbs g x -> mulWNonModular x y = r -> limbs g r.1 /\ word r.2.
Proof.
move=> hx; have [hs hw] := hx; rewrite /mulWNonModular; have ha : word (absInt64 y) by exact: word_mod.
case E: (Mul64 _ _) => [c z0]; have [||h1 h2 h3 h4] := Mul64_val _ _ E => //; first exact: word_hd.
case E1: (madd1Chain _ _ _) => [zs c'].
have [|||h5 h6 h7 h8] := madd1Chain_val _ _ _ E1 => //; [exact: word_behead|by apply/wordP; lia|].
have hl : limbs g (z0 :: zs).
  by split=> /=; rewrite ?h2 ?h5 ?(size_behead_limbs hx) ?(n1E ok).
by case: ifP => _ <- //; apply: (negLP hl h7).
Qed.
Lemma linCombP x a y b r : limbs g x -> limbs g y -> linearCombNonModular x a y b = r -> limbs g r.1 /\ word r.2.
Proof.
move=> hx hy; rewrite /linearCombNonModular.
case E1: (mulWNonModular y b) => [yT yH]; have [h1 h2] := mulWP hy E1.
case E2: (mulWNonModular x a) => [xT xH]; have [h3 h4] := mulWP hx E2.
case E3: (addChain _ _ _) => [z c]; have [|h5 h6 h7] := addChain_val _ E3; first by rewrite (proj1 h1) (proj1 h3).
move=> <-; split; first by split=> //=; rewrite h5 (proj1 h3).
case E4: (Add64 _ _ _) => [w c']; by have [] := Add64_val E4.
Qed.

(** * montReduceSigned *)
Lemma sosLast lo : limbs g lo -> sosRound g lo true = montRound g lo.
Proof.
by move=> hl; rewrite /sosRound /montRound take_oversize // (size_behead_limbs hl).
Qed.
Lemma sosZero lo rs : limbs g lo -> sosRound g (lo ++ 0%Z :: rs) false = montRound g lo ++ rs.
Proof.
move=> hl; have [hs hw] := hl; rewrite /sosRound /montRound.
have hp := limbs_pos ok hl.
have -> : hd0 (lo ++ 0%Z :: rs) = hd0 lo by rewrite /hd0 nth_cat hp.
have -> : take n.-1 (behead (lo ++ 0%Z :: rs)) = behead lo.
  by case: lo hs {hl hw hp} => [|d lo] /= hs; rewrite -hs /= ?take_size_cat // take0.
have -> : drop n (lo ++ 0%Z :: rs) = 0%Z :: rs by rewrite drop_size_cat.
have [hm [hC hCw]] := montM ok (word_hd hw).
move: hm hC hCw; set m := ((_ * _) mod W)%Z; set C := madd0 _ _ _ => hm hC hCw.
case E: (madd2Chain m (behead q) (behead lo) C) => [zs C1].
have [|||||h1 h2 h3 h4] := madd2Chain_val _ _ _ _ _ E => //.
- by rewrite (size_behead_limbs (limbs_q ok)) (size_behead_limbs hl).
- by apply: word_behead; apply: ok_q.
- exact: word_behead.
by rewrite /= Z.add_0_l Z.mod_small ?cat_rcons //; apply/wordP.
Qed.
Lemma sosIter k lo : limbs g lo -> iter k (fun t => sosRound g t false) (lo ++ nseq k 0%Z) = iter k (montRound g) lo.
Proof.
elim: k lo => [|k IH] lo hl; first by rewrite cats0.
rewrite !iterSr [nseq _ _]/= sosZero // IH //.
by case: (montRoundP ok hl).
Qed.
Lemma sosFirst lo r rs : limbs g lo -> (0 <= r < 2 ^ 63)%Z -> exists lo', [/\ limbs g lo',
  sosRound g (lo ++ r :: rs) false = lo' ++ rs & exists m, word m /\ (W * val lo' = val lo + B n * r + m * Q)%Z].
Proof.
move=> hl hr; have [hs hw] := hl; rewrite /sosRound.
have hp := limbs_pos ok hl.
have -> : hd0 (lo ++ r :: rs) = hd0 lo by rewrite /hd0 nth_cat hp.
have -> : take n.-1 (behead (lo ++ r :: rs)) = behead lo.
  by case: lo hs {hl hw hp} => [|d lo] /= hs; rewrite -hs /= ?take_size_cat // take0.
have -> : drop n (lo ++ r :: rs) = r :: rs by rewrite drop_size_cat.
have [hm [hC hCw]] := montM ok (word_hd hw).
move: hm hC hCw; set m := ((_ * _) mod W)%Z; set C := madd0 _ _ _ => hm hC hCw.
case E: (madd2Chain m (behead q) (behead lo) C) => [zs C1].
have [|||||h1 h2 h3 h4] := madd2Chain_val _ _ _ _ _ E => //.
- by rewrite (size_behead_limbs (limbs_q ok)) (size_behead_limbs hl).
- by apply: word_behead; apply: ok_q.
- exact: word_behead.
rewrite (size_behead_limbs (limbs_q ok)) in h1 h4.
have e : (W * (val zs + B n.-1 * C1) = val lo + m * Q)%Z.
  rewrite h4 (val_hd hp) (val_hd (limbs_pos ok (limbs_q ok))).
  by move: hC; clear; lia.
have eB : (B n = W * B n.-1)%Z by rewrite -(n1E ok) BS.
have hC1 : (C1 <= 2 ^ 63)%Z.
  have hz := val_range h2; have hlo := limbs_range hl; have hsp := ok_spare oki.
  move/wordP: hm => hm; have hq := q_gt0 ok; have hB := B_gt0 n.
  have h5 : (2 * (m * Q) <= (W - 1) * B n)%Z.
    have h6 : (m * (2 * Q) <= m * B n)%Z by apply: Z.mul_le_mono_nonneg_l; lia.
    have h7 : (m * B n <= (W - 1) * B n)%Z by apply: Z.mul_le_mono_nonneg_r; lia.
    move: h6 h7; clear; lia.
  have h8 : (2 * (B n * C1) < (W + 1) * B n)%Z.
    have h9 : (2 * (B n * C1) <= 2 * val lo + 2 * (m * Q))%Z by rewrite eB; move: e (proj1 hz); clear; wl.
    move: h9 h5 hlo; clear; lia.
  have h10 : (B n * (2 * C1) < B n * (W + 1))%Z by move: h8; clear; lia.
  by move/(proj2 (Z.mul_lt_mono_pos_l (B n) _ _ hB)): h10; wl.
exists (rcons zs (r + C1)%Z); split.
- split; first by rewrite size_rcons h1 n1E.
  by rewrite all_rcons h2 andbT; apply/wordP; move/wordP: h3; wl.
- rewrite cat_rcons -[hd0 (r :: rs)]/r -[behead (r :: rs)]/rs Z.mod_small //; move/wordP: h3; wl.
- exists m; split=> //; rewrite val_rcons h1; move: e; rewrite eB; clear; lia.
Qed.

(** the value of a word read as a signed one *)
Definition signed (w : Z) : Z := (if w <? 2 ^ 63 then w else w - W)%Z.
Lemma land_sign w : word w -> (Z.land w (2 ^ 63) =? 0)%Z = (w <? 2 ^ 63)%Z /\
  Z.land w (2 ^ 63 - 1) = (if w <? 2 ^ 63 then w else w - 2 ^ 63)%Z.
Proof.
move=> /wordP hw.
have e1 : Z.land w (2 ^ 63 - 1) = (w mod 2 ^ 63)%Z by rewrite -(Z.land_ones w 63).
have l0 a : (0 <= a < 2 ^ 63)%Z -> Z.land a (2 ^ 63) = 0%Z.
  move=> ha; apply: Z.bits_inj' => i hi; rewrite Z.land_spec Z.bits_0 Z.pow2_bits_eqb //.
  case: Z.eqb_spec => [<-|_]; last by rewrite andbF.
  have -> : a = (a mod 2 ^ 63)%Z by rewrite Z.mod_small.
  by rewrite Z.mod_pow2_bits_high.
rewrite e1; case: Z.ltb_spec => h.
- by rewrite l0 ?Z.mod_small; lia.
- split; last by symmetry; apply: (Z.mod_unique _ _ 1); wl.
  have -> : w = Z.lor (w - 2 ^ 63) (Z.shiftl 1 63) by rewrite lor_shift //; wl.
  by rewrite Z.land_lor_distr_l l0 //; wl.
Qed.

Lemma montReduceSignedP x hi : limbs g x -> word hi -> red g (montReduceSigned g x hi) /\
  eqq g (B n * val (montReduceSigned g x hi)) (val x + B n * signed hi).
Proof.
move=> hx hh; rewrite /montReduceSigned; have [-> ->] := land_sign hh.
set hi' := (if (hi <? 2 ^ 63)%Z then hi else (hi - 2 ^ 63)%Z).
have hhi : (0 <= hi' < 2 ^ 63)%Z by rewrite /hi'; move/wordP: hh; case: Z.ltb_spec; wl.
have [lo [hlo -> [m [/wordP hm hv]]]] := sosFirst (nseq (n - 2) 0%Z) hx hhi.
rewrite sosIter // sosLast; last by case: (montIterP ok (n - 2) hlo).
rewrite -iterS; have -> : (n - 2).+1 = n.-1 by have := n_gt1 ok; case: n => [|[]] // k _; rewrite subn2.
have [h1 [M [hM hM2]]] := montIterP ok n.-1 hlo.
set z := iter _ _ _ in h1 hM2 *.
have eB : (B n = W * B n.-1)%Z by rewrite -(n1E ok) BS.
have hB := B_gt0 n.-1; have hq := q_gt0 ok; have hqW := q_geW ok; have hxr := limbs_range hx.
have ez : (B n * val z = val x + B n * hi' + (m + W * M) * Q)%Z.
  by rewrite eB -Z.mul_assoc hM2 Z.mul_add_distr_l hv eB; ring.
have hbnd : (val z < 2 * Q)%Z.
  have hMm : (m + W * M <= B n - 1)%Z by rewrite eB; move: hm hM; clear; wl.
  have h2 : ((m + W * M) * Q <= (B n - 1) * Q)%Z by apply: Z.mul_le_mono_nonneg_r; lia.
  have h3 : (B n * hi' <= B n * (2 ^ 63 - 1))%Z by apply: Z.mul_le_mono_nonneg_l; lia.
  have h4 : (B n * val z < B n * (2 ^ 63 + Q))%Z by move: ez h2 h3 hxr hq; clear; lia.
  by move/(proj2 (Z.mul_lt_mono_pos_l (B n) _ _ (B_gt0 n))): h4; move: hqW; clear; wl.
have [h2 [k h3]] := reduceP ok h1 hbnd.
move: h2 h3; set w := reduce g z => -[h2 h3] h4.
have ew : eqq g (B n * val w) (val x + B n * hi').
  by exists (m + W * M + B n * k)%Z; rewrite h4; move: ez; clear; lia.
case: (Z.ltb_spec hi (2 ^ 63)) => hlt /=.
  split=> //; move: ew; rewrite /hi' /signed; by have -> : (hi <? 2 ^ 63)%Z by apply/Z.ltb_lt.
have es : signed hi = (hi' - 2 ^ 63)%Z.
  by rewrite /hi' /signed; case: Z.ltb_spec; wl.
have hsm : word (2 ^ 63) by [].
have [hc1 hc2] := limbs_small ok hsm.
case E: (subChain w _ 0) => [y b].
have hs : size w = size ((2 ^ 63)%Z :: nseq n.-1 0%Z) by rewrite (proj1 h2) (proj1 hc1).
have [e1 e2 e3 e4] := subChain_val hs (proj2 h2) (proj2 hc1) (conj (Z.le_refl 0) Z.le_0_1) E.
rewrite (proj1 h2) hc2 in e1 e3.
have hwr := limbs_range h2; have hyr := val_range e2; rewrite e1 in hyr.
have hBn := q_lt ok.
case: Z.eqb_spec => hb /=.
  rewrite hb in e3; split; first by split; [split|lia].
  by rewrite es; case: ew => k' hk'; exists k'; have -> : val y = (val w - 2 ^ 63)%Z; lia.
have {}hb : b = 1%Z by lia.
rewrite hb in e3.
have ey : rcons (but y) (W - 1)%Z = y.
  have hp : (0 < size y)%N by rewrite e1 n_gt0.
  have hb1 := val_but hp; have hb2 := val_range (word_but e2); rewrite size_but e1 in hb1 hb2.
  have /wordP hl := word_lst e2.
  have hBW : (W <= B n.-1)%Z.
    by rewrite -(n2E ok) BS; have := B_gt0 n.-2; wl.
  have h5 : (B n.-1 * (W - 2) < B n.-1 * lst y)%Z by move: hb1 hb2 e3 hwr eB hBW; clear; wl.
  have h6 : lst y = (W - 1)%Z.
    by move/(proj2 (Z.mul_lt_mono_pos_l _ _ _ hB)): h5; move: hl; clear; lia.
  by rewrite -h6; case/lastP: (y) hp => // y0 d _; rewrite /but /lst size_rcons last_rcons /= -(cats1 y0 d) take_size_cat // cats1.
rewrite ey; case E1: (addChain y q 0) => [y' c].
have [|f1 f2 f3] := addChain_val _ E1; first by rewrite e1.
rewrite e1 in f1 f3; have hyr' := val_range f2; rewrite f1 in hyr'.
have hc : c = 1%Z.
  have h5 : (B n * (c - 1) < B n * 1)%Z by move: f3 hyr hyr' hBn; clear; lia.
  have h6 : (B n * (- 1) < B n * (c - 1))%Z by move: f3 e3 hyr' hwr h3 hqW; clear; wl.
  move/(proj2 (Z.mul_lt_mono_pos_l _ _ _ (B_gt0 n))): h5; move/(proj2 (Z.mul_lt_mono_pos_l _ _ _ (B_gt0 n))): h6; clear; lia.
have ev' : val y' = (val w - 2 ^ 63 + Q)%Z by move: f3; rewrite hc; lia.
split; first by split; [split|rewrite /= ev'; lia].
by rewrite es; case: ew => k' hk'; exists (k' + B n)%Z; rewrite /= ev'; lia.
Qed.

(** * the loop keeps v reduced *)
Definition iOk (st : invState) : Prop := red g (iU st) /\ red g (iV st).
Lemma linearCombP x a y b : limbs g x -> limbs g y -> red g (linearComb g x a y b).
Proof.
move=> hx hy; rewrite /linearComb; case E: (linearCombNonModular x a y b) => [z hi].
by have [h1 h2] := linCombP hx hy E; case: (montReduceSignedP h1 h2).
Qed.
Lemma invStepP st : iOk st -> iOk (invStep g st).
Proof.
case: st => a b u v [[[pf0 pg0] pf1] pg1] i [hu hv]; have {}hu : red g u := hu; have {}hv : red g v := hv; rewrite /invStep.
case: (foldl _ _ _) => [[[_ _] c0] c1].
case: (updateFactorsDecompose c0) => f0 g0; case: (update a f0 b g0) => [[a' f0'] g0'].
case: (updateFactorsDecompose c1) => f1 g1; case: (update a f1 b g1) => [[b' f1'] g1'].
by case: ifP => _ //; split; apply: linearCombP; [case: hu|case: hv|case: hu|case: hv].
Qed.
Lemma invLoopP fuel st st' : iOk st -> invLoop g fuel st = Some st' -> iOk st'.
Proof.
elim: fuel st => [|fuel IH] st h /=; case: ifP => // _; try by case=> <-.
by apply: IH; exact: invStepP.
Qed.
Lemma padLoopP v i : red g v -> red g (padLoop g v i) /\ (ev v = 0%Z -> ev (padLoop g v i) = 0%Z).
Proof.
move=> hv; rewrite /padLoop; elim: (uphalf _) => [|k [h1 h2]] //=.
have hw : word (2 ^ 62) by [].
have [h3 h4] := limbs_small ok hw.
have hr : red g ((2 ^ 62)%Z :: nseq n.-1 0%Z) by split=> //; rewrite h4; have := q_geW ok; wl.
have [h5 h6] := MulR ok h1 hr; split=> // h0; rewrite h6 h2 // Z.mul_0_l.
Qed.

(** * exponentiation *)
Lemma bits_fold (e : Z) (k : nat) : (2 ^ Z.of_nat k <= e < 2 ^ Z.of_nat k.+1)%Z ->
  foldl (fun a i => 2 * a + Z.b2z (Z.testbit e (Z.of_nat i)))%Z 1%Z (rev (iota 0 k)) = e.
Proof.
move=> he; suff H m : (m <= k)%N -> foldl (fun a i => 2 * a + Z.b2z (Z.testbit e (Z.of_nat i)))%Z 1%Z (rev (iota (k - m) m)) = (e / 2 ^ Z.of_nat (k - m))%Z.
  by have := H k (leqnn k); rewrite subnn Z.pow_0_r Z.div_1_r.
elim: m => [_|m IH hm].
  rewrite subn0 /=; apply: (Z.div_unique _ _ _ (e - 2 ^ Z.of_nat k)); rewrite Nat2Z.inj_succ Z.pow_succ_r in he; lia.
rewrite [iota _ _.+1]/= rev_cons -cats1 foldl_cat.
have -> : (k - m.+1).+1 = (k - m)%N by lia.
rewrite IH /=; last by lia.
have -> : (k - m = (k - m.+1).+1)%N by lia.
rewrite Nat2Z.inj_succ Z.pow_succ_r; last by lia.
have hP : (0 < 2 ^ Z.of_nat (k - m.+1))%Z by apply: Z.pow_pos_nonneg; lia.
rewrite (Z.mul_comm 2 (2 ^ _)) -Z.div_div; [|lia|lia].
rewrite Z.testbit_spec'; last by lia.
by have := Z_div_mod_eq_full (e / 2 ^ Z.of_nat (k - m.+1)) 2; lia.
Qed.
Lemma powBitsP x e bits : red g x -> red g (powBits g x e bits) /\
  eqq g (ev (powBits g x e bits)) (ev x ^ foldl (fun a i => 2 * a + Z.b2z (Z.testbit e (Z.of_nat i)))%Z 1%Z bits).
Proof.
move=> hx; have hpos b a : (0 <= a)%Z -> (0 <= foldl (fun a i => 2 * a + Z.b2z (Z.testbit e (Z.of_nat i)))%Z a b)%Z.
  elim: b a => //= i b IH a ha; apply: IH; case: (Z.testbit _ _) => /=; lia.
elim/last_ind: bits => [|bits i [h1 h2]].
  by split=> //; rewrite /= Z.pow_1_r; exact: eqq_refl.
rewrite /powBits -cats1 !foldl_cat /= -/(powBits g x e bits).
set p := foldl _ _ bits in h2 *.
have hp : (0 <= p)%Z by apply: hpos.
have [h3 h4] := MulR ok h1 h1.
have h5 : eqq g (ev (Square g (powBits g x e bits))) (ev x ^ (2 * p)).
  rewrite /Square h4; apply: eqq_trans (eqq_mod _ _) _.
  by rewrite -Z.add_diag Z.pow_add_r //; apply: eqq_mul.
case: (Z.testbit _ _) => /=; last by rewrite Z.add_0_r.
have [h6 h7] := MulR ok h3 hx; split=> //; rewrite h7; apply: eqq_trans (eqq_mod _ _) _.
rewrite Z.pow_add_r; [|lia|lia]; rewrite Z.pow_1_r; apply: eqq_mul => //; exact: eqq_refl.
Qed.
Lemma inverseExpP x : red g x -> red g (inverseExp g x) /\ eqq g (ev (inverseExp g x)) (ev x ^ (Q - 2)).
Proof.
move=> hx; rewrite /inverseExp /modulusOf.
have h2 : (0 < Q - 2)%Z by have := q_geW ok; wl.
have hb : (0 < bitLen (Q - 2))%N by rewrite /bitLen; case: Z.eqb_spec => //; lia.
have := @powBitsP x (Q - 2) (rev (iota 0 (bitLen (Q - 2)).-1)) hx.
by rewrite bits_fold // prednK //; exact: bitLenP.
Qed.

(** * Fermat *)
Lemma of_nat_expn a k : Z.of_nat (a ^ k) = (Z.of_nat a ^ Z.of_nat k)%Z.
Proof.
elim: k => [|k IH]; first by rewrite expn0 Z.pow_0_r.
by rewrite expnS Nat2Z.inj_mul IH Nat2Z.inj_succ Z.pow_succ_r; lia.
Qed.
Lemma fermatZ a : prime.prime (Z.to_nat Q) -> (0 < a < Q)%Z -> eqq g (a ^ (Q - 1)) 1.
Proof.
move=> hp ha; set p := Z.to_nat Q in hp.
have eQ : Q = Z.of_nat p by rewrite /p Z2Nat.id //; lia.
set b := Z.to_nat a; have eb : a = Z.of_nat b by rewrite /b Z2Nat.id //; lia.
have hc : coprime b p.
  rewrite coprime_sym prime_coprime //; apply/negP => /dvdn_leq; lia.
have := Euler_exp_totient hc; rewrite totient_prime // => h.
have e : (Q - 1 = Z.of_nat p.-1)%Z by have := prime_gt0 hp; lia.
rewrite e eb -of_nat_expn.
have h1 := divn_eq (b ^ p.-1) p; have h2 := divn_eq 1 p; rewrite h in h1.
move: h1 h2; move: (b ^ p.-1)%N (_ %/ _)%N (_ %/ _)%N (_ %% _)%N => X d1 d2 r h1 h2.
exists (Z.of_nat d2 - Z.of_nat d1)%Z; rewrite eQ h1.
have -> : 1%Z = Z.of_nat (d1 * p + r) by rewrite -h2.
rewrite !Nat2Z.inj_add !Nat2Z.inj_mul; ring.
Qed.

Lemma invLoop_stop fuel st : odd (iI st) || ~~ IsZero (iA st) = false -> invLoop g fuel st = Some st.
Proof. by case: fuel => [|fuel] h; cbn [invLoop]; rewrite h. Qed.

Theorem InverseP fuel x z : prime.prime (Z.to_nat Q) -> red g x -> Inverse g fuel x = Some z ->
  red g z /\ if (ev x =? 0)%Z then ev z = 0%Z else ((ev x * ev z) mod Q = 1)%Z.
Proof.
move=> hp hx; rewrite /Inverse; set st0 := InvState _ _ _ _ _ _.
have h1 : word 1 by [].
have [h2 h3] := limbs_small ok h1.
have h0 : iOk st0.
  split; last exact: red_zero.
  by split=> //=; move: h3 => /= ->; have := q_geW ok; wl.
case E: (invLoop g fuel st0) => [st|] //; have [_ hv] := invLoopP h0 E.
have [h4 h5] := padLoopP (iI st) hv.
have [h6 h7] := MulR ok h4 (ok_corr oki).
set z0 := Mul g _ _ in h6 h7 *; have [h8 h9] := MulR ok hx h6.
have hiz : IsZero x = (ev x =? 0)%Z by rewrite (IsZeroP (proj1 hx)) (ev_eq0 ok hx).
rewrite hiz (IsOneE ok h8) h9 => -[<-].
have hr := ev_range ok (proj1 hx); have hq1 : (1 < Q)%Z by have := q_geW ok; wl.
case: (Z.eqb_spec (ev x) 0) => hx0.
  rewrite andbF; split=> //.
  have hst : st = st0.
    by move: E; rewrite invLoop_stop ?hiz ?hx0 // => -[].
  rewrite h7 h5 ?Z.mul_0_l ?Z.mod_0_l ?hst //=; [lia|exact: ev_zero].
rewrite andbT; case: Z.eqb_spec => hw //=.
have [h10 h11] := inverseExpP hx; split=> //.
have h12 : eqq g (ev x * ev (inverseExp g x)) 1.
  apply: eqq_trans (eqq_mul (eqq_refl _ _) h11) _.
  rewrite -{1}(Z.pow_1_r (ev x)) -Z.pow_add_r; [|lia|lia].
  have -> : (1 + (Q - 2) = Q - 1)%Z by ring.
  by apply: fermatZ => //; lia.
by rewrite (eqq_modE h12) Z.mod_small //; lia.
Qed.

(** * BatchInvert *)
Lemma euclid a b : prime.prime (Z.to_nat Q) -> ((a * b) mod Q = 0)%Z -> (a mod Q = 0 \/ b mod Q = 0)%Z.
Proof.
move=> hp; have hq := q_gt0 ok; set p := Z.to_nat Q in hp.
have eQ : Q = Z.of_nat p by rewrite /p Z2Nat.id //; lia.
have ha := Z.mod_pos_bound a Q hq; have hb := Z.mod_pos_bound b Q hq.
rewrite Z.mul_mod; last by lia.
move=> h; have hd := Z_div_mod_eq_full ((a mod Q) * (b mod Q)) Q; rewrite h Z.add_0_r in hd.
have h0 : (0 <= (a mod Q) * (b mod Q) / Q)%Z by apply: Z.div_pos => //; apply: Z.mul_nonneg_nonneg; lia.
have : (p %| Z.to_nat (a mod Q) * Z.to_nat (b mod Q))%N.
  apply/dvdnP; exists (Z.to_nat ((a mod Q) * (b mod Q) / Q)); apply: Nat2Z.inj.
  by rewrite !Nat2Z.inj_mul -eQ !Z2Nat.id; lia.
rewrite Euclid_dvdM // => /orP[] hdv; [left|right].
- by case: (Z.eq_dec (a mod Q) 0) => // hne; have := dvdn_leq _ hdv; lia.
- by case: (Z.eq_dec (b mod Q) 0) => // hne; have := dvdn_leq _ hdv; lia.
Qed.

Section Batch.
Variable (inv : seq Z -> seq Z).
Hypothesis hp : prime.prime (Z.to_nat Q).
Hypothesis invP : forall x, red g x -> ev x <> 0%Z -> red g (inv x) /\ ((ev x * ev (inv x)) mod Q = 1)%Z.

(** the two passes, from the left *)
Fixpoint fwd (a : seq (seq Z)) (c : seq Z) : seq (seq Z) * seq Z :=
  if a is x :: a' then
    if IsZero x then let: (r, c) := fwd a' c in (nseq n 0%Z :: r, c)
    else let: (r, c') := fwd a' (Mul g c x) in (c :: r, c')
  else ([::], c).
Lemma fwdE a res c : foldl (fun st x => let: (res, acc) := st in
    if IsZero x then (rcons res (nseq n 0%Z), acc) else (rcons res acc, Mul g acc x)) (res, c) a =
  (res ++ (fwd a c).1, (fwd a c).2).
Proof.
elim: a res c => [|x a IH] res c /=; first by rewrite cats0.
by case: (IsZero x); rewrite IH; case: (fwd a _) => r c' /=; rewrite cat_rcons.
Qed.
Definition bwd (a res : seq (seq Z)) (acc : seq Z) : seq (seq Z) * seq Z :=
  foldr (fun p st => let: (out, acc) := st in
    if IsZero p.1 then (p.2 :: out, acc) else (Mul g p.2 acc :: out, Mul g acc p.1)) ([::], acc) (zip a res).

Definition isInv (x y : seq Z) : Prop :=
  red g y /\ if (ev x =? 0)%Z then ev y = 0%Z else ((ev x * ev y) mod Q = 1)%Z.
Lemma one_lt : (1 < Q)%Z. Proof. by have := q_geW ok; wl. Qed.
Lemma red_fwd a c : red g c -> (forall x, x \in a -> red g x) -> red g (fwd a c).2.
Proof.
elim: a c => [|x a IH] c hc ha //=; have hx : red g x by apply: ha; rewrite mem_head.
have ha' y : y \in a -> red g y by move=> hy; apply: ha; rewrite inE hy orbT.
case: (IsZero x); first by case E: (fwd a c) => [r c']; have := IH c hc ha'; rewrite E.
by case E: (fwd a (Mul g c x)) => [r c']; have [h1 _] := MulR ok hc hx; have := IH _ h1 ha'; rewrite E.
Qed.
Lemma fwd_neq0 a c : red g c -> (forall x, x \in a -> red g x) -> ev c <> 0%Z -> ev (fwd a c).2 <> 0%Z.
Proof.
elim: a c => [|x a IH] c hc ha h0 //=; have hx : red g x by apply: ha; rewrite mem_head.
have ha' y : y \in a -> red g y by move=> hy; apply: ha; rewrite inE hy orbT.
rewrite (IsZeroP (proj1 hx)) -(ev_eq0 ok hx).
case: Z.eqb_spec => hx0; first by case E: (fwd a c) => [r c']; have := IH c hc ha' h0; rewrite E.
case E: (fwd a (Mul g c x)) => [r c']; have [h1 h2] := MulR ok hc hx.
have h3 : ev (Mul g c x) <> 0%Z.
  rewrite h2 => /(euclid hp); have := ev_range ok (proj1 hc); have := ev_range ok (proj1 hx) => r1 r2.
  by rewrite !Z.mod_small; lia.
by have := IH _ h1 ha' h3; rewrite E.
Qed.
Lemma bwdP a c d : red g c -> (forall x, x \in a -> red g x) -> red g d ->
  eqq g (ev (fwd a c).2 * ev d) 1 ->
  [/\ size (bwd a (fwd a c).1 d).1 = size a, red g (bwd a (fwd a c).1 d).2,
      eqq g (ev c * ev (bwd a (fwd a c).1 d).2) 1 &
      forall i, (i < size a)%N -> isInv (nth [::] a i) (nth [::] (bwd a (fwd a c).1 d).1 i)].
Proof.
move=> hc ha hd; elim: a c hc ha => [|x a IH] c hc ha //=; have hx : red g x by apply: ha; rewrite mem_head.
have ha' y : y \in a -> red g y by move=> hy; apply: ha; rewrite inE hy orbT.
have hz : IsZero x = (ev x =? 0)%Z by rewrite (IsZeroP (proj1 hx)) (ev_eq0 ok hx).
case E0: (IsZero x); rewrite hz in E0.
- case E: (fwd a c) => [r c'] /= h; have := IH c hc ha'; rewrite E /= => /(_ h).
  rewrite /bwd /= -/(bwd a r d); case Eb: (bwd a r d) => [out acc] /= [h1 h2 h3 h4].
  rewrite hz E0 /=; split=> //; first by rewrite h1.
  by case=> [_|i hi] /=; [rewrite /isInv E0; split; [exact: red_zero|exact: ev_zero]|exact: h4].
- have [m1 m2] := MulR ok hc hx.
  case E: (fwd a (Mul g c x)) => [r c'] /= h; have := IH _ m1 ha'; rewrite E /= => /(_ h).
  rewrite /bwd /= -/(bwd a r d); case Eb: (bwd a r d) => [out acc] /= [h1 h2 h3 h4].
  have [n1 n2] := MulR ok hc h2; have [l1 l2] := MulR ok h2 hx.
  have hprod : eqq g (ev c * ev x * ev acc) 1.
    apply: eqq_trans h3; apply: eqq_mul; last exact: eqq_refl.
    by rewrite m2; apply: eqq_sym; exact: eqq_mod.
  rewrite hz E0 /=; split=> //; first by rewrite h1.
  + rewrite l2; apply: eqq_trans (eqq_mul (eqq_refl _ _) (eqq_mod _ _)) _.
    by have -> : (ev c * (ev acc * ev x) = ev c * ev x * ev acc)%Z by ring.
  + case=> [_|i hi] /=; last exact: h4.
    rewrite /isInv E0; split=> //; rewrite n2.
    have h5 : eqq g (ev x * ((ev c * ev acc) mod Q)) 1.
      apply: eqq_trans (eqq_mul (eqq_refl _ _) (eqq_mod _ _)) _.
      by have -> : (ev x * (ev c * ev acc) = ev c * ev x * ev acc)%Z by ring.
    by rewrite (eqq_modE h5) Z.mod_small //; have := one_lt; lia.
Qed.
Theorem BatchInvertP a : (forall x, x \in a -> red g x) ->
  size (BatchInvert g inv a) = size a /\
  forall i, (i < size a)%N -> isInv (nth [::] a i) (nth [::] (BatchInvert g inv a) i).
Proof.
move=> ha; rewrite /BatchInvert /batchForward fwdE cat0s -/(bwd a _ _).
have h1 := red_one ok; have h2 : ev (oneM g) <> 0%Z by rewrite ev_one.
have [h3 h4] := invP (red_fwd h1 ha) (fwd_neq0 h1 ha h2).
have [|h5 _ _ h6] := bwdP h1 ha h3; last by [].
apply: eqq_trans (eqq_sym (eqq_mod _ _)) _; rewrite h4; exact: eqq_refl.
Qed.
End Batch.
End Inv.
