(** The loop of Inverse ends. *)
From Coq Require Import ZArith Znumtheory Lia.
From mathcomp Require Import all_ssreflect zify ssrZ.
From Verif Require Import JindoIntModel ZpModel ZpProofs CsprngProofs ZpField ZpConv ZpInv ZpGcd.
Set Implicit Arguments. Unset Strict Implicit. Unset Printing Implicit Defensive.
Delimit Scope Z_scope with Z.
Local Arguments Z.mul : simpl never.
Local Arguments Z.add : simpl never.
Local Arguments Z.sub : simpl never.
Local Arguments Z.div : simpl never.
Local Arguments Z.modulo : simpl never.
Local Arguments Z.pow : simpl never.
Local Arguments Z.of_nat : simpl never.
Local Arguments Z.lor : simpl never.
Local Arguments Z.lxor : simpl never.
Local Arguments Z.shiftl : simpl never.
Local Arguments Z.shiftr : simpl never.
Local Arguments Z.land : simpl never.
Local Arguments Z.ones : simpl never.
Local Arguments Z.testbit : simpl never.

(** * bits of the words *)
Lemma bit_split a v m : (0 <= a < 2 ^ 64)%Z -> (0 <= m)%Z ->
  Z.testbit (a + W * v) m = if (m <? 64)%Z then Z.testbit a m else Z.testbit v (m - 64).
Proof.
move=> ha hm; have -> : (a + W * v = Z.lor a (Z.shiftl v 64))%Z.
  by rewrite lor_shift // Z.mul_comm.
rewrite Z.lor_spec Z.shiftl_spec //; case: Z.ltb_spec => h.
- by rewrite (Z.testbit_neg_r v) ?orbF //; lia.
- have -> : a = (a mod 2 ^ 64)%Z by rewrite Z.mod_small.
  by rewrite Z.mod_pow2_bits_high.
Qed.
Lemma val_bit x k i : all word x -> (0 <= i < 64)%Z ->
  Z.testbit (nth 0%Z x k) i = Z.testbit (val x) (64 * Z.of_nat k + i).
Proof.
move=> hx hi; elim: x k hx => [|a x IH] k /=; first by move=> _; rewrite nth_nil !Z.bits_0.
case/andP=> /wordP ha hx; case: k => [|k] /=.
- rewrite bit_split //; last by clear -hi; lia.
  by rewrite -[(64 * Z.of_nat 0)%Z]/0%Z Z.add_0_l; have -> : (i <? 64)%Z by apply/Z.ltb_lt; clear -hi; lia.
- rewrite IH // bit_split //; last by clear -hi; lia.
  have -> : (64 * Z.of_nat k.+1 + i <? 64)%Z = false by apply/Z.ltb_ge; clear -hi; lia.
  by congr Z.testbit; clear; lia.
Qed.
Lemma ones_bit k m : (0 <= k)%Z -> (0 <= m)%Z -> Z.testbit (Z.ones k) m = (m <? k)%Z.
Proof. by move=> hk hm; rewrite Z.testbit_ones_nonneg. Qed.

Lemma approximateP x N : all word x -> (N <= 64 * size x)%N -> (val x < 2 ^ Z.of_nat N)%Z ->
  (0 < size x)%N -> approximate x N = apx (val x) N.
Proof.
move=> hx hN hv hs; have hvr := val_range hx; rewrite /approximate /apx; case: leqP => h64.
- rewrite (val_hd hs); rewrite (val_hd hs) in hv.
  have hW : (2 ^ Z.of_nat N <= W)%Z.
    by have -> : W = (2 ^ 64)%Z by []; apply: Z.pow_le_mono_r; clear -h64; lia.
  have h0 := val_range (word_behead hx); have /wordP h1 := word_hd hx.
  have : val (behead x) = 0%Z by move: hv h0 h1 hW; clear; wl.
  by move=> ->; clear; lia.
set h := ((N - 1) %/ 64)%N; set av := (N - h * 64)%N; set us := minn av 33.
have hav : (0 < av <= 64)%N /\ N = (h * 64 + av)%N.
  have := divn_eq (N - 1) 64; have := ltn_mod (N - 1) 64; rewrite -/h /av; clear -h64; lia.
have hh : (0 < h)%N by clear -hav h64; lia.
have hus : (us <= av)%N /\ (us <= 33)%N /\ (us = av \/ us = 33%N) by rewrite /us; clear; lia.
have hlow : (0 <= val x mod 2 ^ 31 < 2 ^ 31)%Z by apply: Z.mod_pos_bound.
have e2 : (2 ^ 31 * (val x / 2 ^ (Z.of_nat N - 33)) + val x mod 2 ^ 31)%Z =
  Z.lor (val x mod 2 ^ 31) (Z.shiftl (Z.shiftr (val x) (Z.of_nat N - 33)) 31).
  by rewrite lor_shift // Z.shiftr_div_pow2; [|clear -h64; lia]; ring.
rewrite e2; apply: Z.bits_inj' => m hm.
rewrite !Z.lor_spec Z.land_spec ones_bit // Z.shiftl_spec //.
have hx0 : (m < 31)%Z -> Z.testbit (hd0 x) m = Z.testbit (val x) m.
  by move=> h31; rewrite /hd0 val_bit //; clear -hm h31; lia.
have hW : W = (2 ^ 64)%Z by [].
have bound k : (Z.of_nat N <= k)%Z -> Z.testbit (val x) k = false.
  move=> hk; have -> : val x = (val x mod 2 ^ Z.of_nat N)%Z by rewrite Z.mod_small //; clear -hv hvr; lia.
  by rewrite Z.mod_pow2_bits_high //; clear -hk; lia.
set H := Z.testbit (_ mod W) m.
have eH : H = (64 - Z.of_nat us <=? m)%Z && (m <? 64)%Z && Z.testbit (val x) (m + Z.of_nat N - 64).
  rewrite /H hW; case: (Z.ltb_spec m 64) => hm64; last by rewrite andbF Z.mod_pow2_bits_high //; clear -hm64; lia.
  rewrite Z.mod_pow2_bits_low // andbT Z.shiftl_spec // Z.land_spec Z.lxor_spec.
  have -> : (Z.of_nat (64 - av) = 64 - Z.of_nat av)%Z by clear -hav; lia.
  case: (Z.leb_spec (64 - Z.of_nat us) m) => hmu.
  - rewrite val_bit //; last by clear -hmu hm64 hus; lia.
    rewrite !ones_bit; try (clear -hmu hus; lia).
    have -> : (m - (64 - Z.of_nat av) <? 64)%Z by apply/Z.ltb_lt; clear -hm64 hav; lia.
    have -> : (m - (64 - Z.of_nat av) <? Z.of_nat (av - us))%Z = false by apply/Z.ltb_ge; clear -hmu hus; lia.
    by rewrite andbT andTb; congr Z.testbit; clear -hav; lia.
  - case: (Z.ltb_spec m (64 - Z.of_nat av)) => hma; first by rewrite Z.testbit_neg_r //; clear -hma; lia.
    rewrite !ones_bit; try (clear -hma; lia).
    have -> : (m - (64 - Z.of_nat av) <? 64)%Z by apply/Z.ltb_lt; clear -hm64 hav; lia.
    have -> : (m - (64 - Z.of_nat av) <? Z.of_nat (av - us))%Z by apply/Z.ltb_lt; clear -hmu hus; lia.
    by rewrite andbF.
rewrite eH; set M := Z.testbit (Z.shiftr _ _) m.
have eM : M = (31 <=? m)%Z && (m <? 64 - Z.of_nat us)%Z && Z.testbit (val x) (m + Z.of_nat N - 64).
  rewrite /M Z.shiftr_spec // Z.land_spec Z.lxor_spec !ones_bit; try (clear -hm; lia).
  case: (Z.ltb_spec m (64 - Z.of_nat us)) => hmu.
  - have -> : (m + Z.of_nat us <? 64)%Z by apply/Z.ltb_lt; clear -hmu; lia.
    rewrite val_bit //; last by clear -hmu hm; lia.
    case: (Z.leb_spec 31 m) => h31.
    + have -> : (m + Z.of_nat us <? Z.of_nat (31 + us))%Z = false by apply/Z.ltb_ge; clear -h31; lia.
      rewrite /=; congr Z.testbit; clear -hus hmu h31 hav hh; lia.
    + have -> : (m + Z.of_nat us <? Z.of_nat (31 + us))%Z by apply/Z.ltb_lt; clear -h31; lia.
      by [].
  - have -> : (m + Z.of_nat us <? 64)%Z = false by apply/Z.ltb_ge; clear -hmu; lia.
    have -> : (m + Z.of_nat us <? Z.of_nat (31 + us))%Z = false by apply/Z.ltb_ge; clear -hmu hus; lia.
    by rewrite andbF.
rewrite eM; case: (Z.leb_spec 31 m) => h31.
- have -> : (m <? 31)%Z = false by apply/Z.ltb_ge; clear -h31; lia.
  have -> : Z.testbit (val x mod 2 ^ 31) m = false by rewrite Z.mod_pow2_bits_high.
  rewrite /= Z.shiftr_spec; last by clear -h31; lia.
  have -> : (m - 31 + (Z.of_nat N - 33) = m + Z.of_nat N - 64)%Z by clear; lia.
  case: (Z.ltb_spec m (64 - Z.of_nat us)) => h1; case: (Z.leb_spec (64 - Z.of_nat us) m) => h2 //=; try (clear -h1 h2; lia).
  case: Z.ltb_spec => h3 //=; by rewrite bound //; clear -h3; lia.
- have -> : (m <? 31)%Z by apply/Z.ltb_lt; clear -h31; lia.
  have -> : (64 - Z.of_nat us <=? m)%Z = false by apply/Z.leb_gt; clear -h31 hus; lia.
  rewrite /= !orbF hx0 // Z.mod_pow2_bits_low // (Z.testbit_neg_r (Z.shiftr _ _)) ?orbF //; clear -h31; lia.
Qed.

(** * the signed helpers as integers *)
Section Term.
Variables (g : gen) (ok : okGen g) (oki : okInv g).
Local Notation q := (qs g).
Local Notation n := (Limbs g).
Local Notation Q := (val (qs g)).

(** the integer of words and a high word, up to multiples of the range *)
Definition whole (r : seq Z * Z) : Z := (val r.1 + B n * r.2)%Z.
Lemma negL_val x hi r : limbs g x -> word hi -> negL x hi = r -> exists k, whole r = (- whole (x, hi) + k * (B n * W))%Z.
Proof.
move=> [hx hw] hhi <-; rewrite /negL hx; case E: (subChain _ _ _) => [y b].
have [||||h1 h2 h3 h4] := subChain_val _ _ _ _ E; rewrite ?size_nseq ?all_nseq ?orbT //.
rewrite size_nseq in h1 h3; case E1: (Sub64 0 hi b) => [w b'].
have [|||h5 h6 h7] := Sub64_val _ _ _ E1 => //.
exists b'; rewrite /whole /=; rewrite val_nseq0 in h3.
have -> : w = (0 - hi - b + W * b')%Z by move: h5; clear; lia.
by move: h3; clear; lia.
Qed.
Lemma mulW_val x y r : limbs g x -> (- 2 ^ 63 <= y < 2 ^ 63)%Z -> mulWNonModular x y = r ->
  exists k, whole r = (y * val x + k * (B n * W))%Z.
Proof.
move=> hx hy; have [hs hw] := hx; rewrite /mulWNonModular; have ha : word (absInt64 y) by exact: word_mod.
case E: (Mul64 _ _) => [c z0]; have [||h1 h2 h3 h4] := Mul64_val _ _ E => //; first exact: word_hd.
case E1: (madd1Chain _ _ _) => [zs c'].
have [|||h5 h6 h7 h8] := madd1Chain_val _ _ _ E1 => //; [exact: word_behead|by apply/wordP; lia|].
have hl : limbs g (z0 :: zs).
  by split=> /=; rewrite ?h2 ?h5 ?(size_behead_limbs hx) ?(n1E ok).
have e : whole (z0 :: zs, c') = (Z.abs y * val x)%Z.
  rewrite /whole /= (Bn ok) (val_hd (limbs_pos ok hx)) -(absInt64E hy).
  rewrite (size_behead_limbs hx) in h8; move: h1 h8; clear; lia.
case: Z.ltb_spec => h <-.
- have [k ->] := negL_val hl h7 erefl; exists k; rewrite e; clear -h; congr (_ + _)%Z.
  by rewrite Z.abs_neq; lia.
- by exists 0%Z; rewrite e Z.abs_eq; clear -h; lia.
Qed.
Lemma linComb_val x a y b r : limbs g x -> limbs g y -> (- 2 ^ 63 <= a < 2 ^ 63)%Z -> (- 2 ^ 63 <= b < 2 ^ 63)%Z ->
  linearCombNonModular x a y b = r -> exists k, whole r = (a * val x + b * val y + k * (B n * W))%Z.
Proof.
move=> hx hy ha hb; rewrite /linearCombNonModular.
case E1: (mulWNonModular y b) => [yT yH]; have [h1 h2] := mulWP ok hy E1; have [k1 e1] := mulW_val hy hb E1.
case E2: (mulWNonModular x a) => [xT xH]; have [h3 h4] := mulWP ok hx E2; have [k2 e2] := mulW_val hx ha E2.
case E3: (addChain _ _ _) => [z c]; have [|h5 h6 h7] := addChain_val _ E3; first by rewrite (proj1 h1) (proj1 h3).
move=> <-; case E4: (Add64 _ _ _) => [w c']; have [h8 h9] := Add64_val E4.
exists (k1 + k2 - c')%Z; rewrite /whole /= in e1 e2 *; rewrite (proj1 h3) in h7.
have -> : w = (xH + yH + c - W * c')%Z by move: h8; clear; lia.
by move: h7 e1 e2; clear; lia.
Qed.

(** * shifting by 31 bits *)
Lemma shr31_word a b : word a -> Z.lor (Z.shiftr a 31) (Z.shiftl b 33 mod W) = (a / 2 ^ 31 + (b mod 2 ^ 31) * 2 ^ 33)%Z.
Proof.
move=> /wordP ha; have -> : (Z.shiftl b 33 mod W = Z.shiftl (b mod 2 ^ 31) 33)%Z.
  rewrite !Z.shiftl_mul_pow2 //.
  have -> : W = (2 ^ 31 * 2 ^ 33)%Z by [].
  by rewrite Zmult_mod_distr_r.
rewrite Z.shiftr_div_pow2 // lor_shift //; split; first by apply: Z.div_pos; lia.
by apply: Z.div_lt_upper_bound; wl.
Qed.
Lemma shr31P z hi : all word z -> (0 < size z)%N ->
  [/\ size (shr31 z hi) = size z, all word (shr31 z hi) &
      (2 ^ 31 * val (shr31 z hi) + hd0 z mod 2 ^ 31 = val z + B (size z) * (hi mod 2 ^ 31))%Z].
Proof.
elim: z => // a z IH /= /andP[ha hz] _.
have hw b : word (Z.lor (Z.shiftr a 31) (Z.shiftl b 33 mod W)).
  rewrite shr31_word //; apply/wordP; move/wordP: ha => ha.
  have := Z.mod_pos_bound b (2 ^ 31) erefl; have : (0 <= a / 2 ^ 31 < 2 ^ 33)%Z.
    by split; [apply: Z.div_pos; clear -ha; lia|apply: Z.div_lt_upper_bound; clear -ha; wl].
  wl.
have ea := Z_div_mod_eq_full a (2 ^ 31).
case: z IH hz => [|b z] IH hz.
  split.
  - exact: erefl.
  - by rewrite all_seq1 hw.
  - rewrite !val_cons val_nil shr31_word // -[hd0 _]/a -[B _]/(W * 1)%Z; move: ea; clear; wl.
have [//|h1 h2 h3] := IH hz; split.
- by rewrite -h1.
- by apply/andP; split; [exact: hw|exact: h2].
rewrite !val_cons -[hd0 _]/a; rewrite val_cons -[hd0 _]/b in h3.
rewrite shr31_word // BS; move: ea h3; clear.
move: (val (shr31 (b :: z) hi)) (val z) (B _) (hi mod _)%Z (a / _)%Z (a mod _)%Z (b mod _)%Z => S V P u d r t.
wl.
Qed.

(** * one update *)
Lemma updateP s f b h x r : limbs g s -> limbs g b -> (- 2 ^ 31 < f <= 2 ^ 31)%Z -> (- 2 ^ 31 < h <= 2 ^ 31)%Z ->
  (2 ^ 31 * x = f * val s + h * val b)%Z -> (Z.abs x < B n)%Z -> update s f b h = r ->
  limbs g r.1.1 /\ val r.1.1 = Z.abs x.
Proof.
move=> hs hb hf hh ex hx; rewrite /update.
case E: (linearCombNonModular s f b h) => [a aHi].
have [ha hhw] := linCombP ok hs hb E; have /wordP hhi := hhw.
have [||k ek] := linComb_val hs hb _ _ E; [clear -hf; lia|clear -hh; lia|].
rewrite /whole /= -ex in ek ha hhw; rewrite /= in hhi hhw.
have har := limbs_range ha; have hB := B_gt0 n.
have fin z hi : limbs g z -> word hi -> whole (z, hi) = (2 ^ 31 * Z.abs x)%Z -> limbs g (shr31 z hi) /\ val (shr31 z hi) = Z.abs x.
  move=> hz /wordP hw e; rewrite /whole /= in e.
  have [|h1 h2 h3] := @shr31P z hi (proj2 hz); first exact: limbs_pos hz.
  rewrite (proj1 hz) in h1 h3; split; first by split.
  have hzr := limbs_range hz.
  have hhi' : (0 <= hi < 2 ^ 31)%Z.
    split; first by clear -hw; lia.
    have : (B n * hi < B n * 2 ^ 31)%Z by move: e hx hzr; clear; lia.
    by rewrite -Z.mul_lt_mono_pos_l.
  rewrite (Z.mod_small hi) // e in h3.
  have := Z.mod_pos_bound (hd0 z) (2 ^ 31) erefl; move: h3; clear; lia.
have [e1 _] := land_sign hhw; rewrite e1.
case: (Z.ltb_spec aHi (2 ^ 63)) => hsg /=.
- move=> <-; apply: fin => //.
  have hk : (0 <= 2 ^ 31 * x)%Z /\ k = 0%Z.
    have h1 : (0 <= B n * aHi)%Z by apply: Z.mul_nonneg_nonneg; clear -hhi hB; lia.
    have h2 : (B n * aHi <= B n * (2 ^ 63 - 1))%Z by apply: Z.mul_le_mono_nonneg_l; clear -hsg hB; lia.
    have h3 : (B n * (- W) < B n * (k * W))%Z by move: ek h1 har hx; clear; wl.
    have h4 : (B n * (k * W) < B n * W)%Z by move: ek h2 har hx; clear; wl.
    move/(proj2 (Z.mul_lt_mono_pos_l _ _ _ hB)): h3; move/(proj2 (Z.mul_lt_mono_pos_l _ _ _ hB)): h4 => h4 h3.
    have hk0 : k = 0%Z by move: h3 h4; clear; wl.
    by split=> //; rewrite hk0 in ek; move: ek h1 har; clear; lia.
  rewrite /whole /= ek; case: hk => hk ->; rewrite Z.abs_eq; clear -hk; lia.
- case E1: (negL a aHi) => [a2 hi2] <- /=.
  have [h1 h2] := negLP ha hhw E1; have [k2 e2] := negL_val ha hhw E1.
  apply: fin => //; rewrite e2 /whole /= ek.
  move: h1 h2 e2; rewrite /= => h1 /wordP h2; rewrite /whole /= ek => e2.
  have har2 := limbs_range h1.
  have hk : (2 ^ 31 * x < 0)%Z /\ k = 1%Z.
    have h3 : (B n * 2 ^ 63 <= B n * aHi)%Z by apply: Z.mul_le_mono_nonneg_l; clear -hsg hB; lia.
    have h4 : (B n * aHi <= B n * (W - 1))%Z by apply: Z.mul_le_mono_nonneg_l; clear -hhi hB; lia.
    have h5 : (B n * 0 < B n * (k * W))%Z by move: ek h3 har hx; clear; wl.
    have h6 : (B n * (k * W) < B n * (2 * W))%Z by move: ek h4 har hx; clear; wl.
    move/(proj2 (Z.mul_lt_mono_pos_l _ _ _ hB)): h5; move/(proj2 (Z.mul_lt_mono_pos_l _ _ _ hB)): h6 => h6 h5.
    have hk1 : k = 1%Z by move: h5 h6; clear; wl.
    split=> //; rewrite hk1 in ek.
    by move: ek h4 har; clear; wl.
  case: hk => hk ek1; rewrite ek1 in e2 *.
  have h3 : (0 <= B n * hi2)%Z by apply: Z.mul_nonneg_nonneg; clear -h2 hB; lia.
  have h4 : (B n * hi2 <= B n * (W - 1))%Z by apply: Z.mul_le_mono_nonneg_l; clear -h2 hB; lia.
  have h5 : (B n * (- W) < B n * ((k2 - 1) * W))%Z by move: e2 h3 har2 hx; clear; wl.
  have h6 : (B n * ((k2 - 1) * W) < B n * W)%Z by move: e2 h4 har2 hk; clear; wl.
  move/(proj2 (Z.mul_lt_mono_pos_l _ _ _ hB)): h5; move/(proj2 (Z.mul_lt_mono_pos_l _ _ _ hB)): h6 => h6 h5.
  have -> : k2 = 1%Z by move: h5 h6; clear; wl.
  by rewrite Z.abs_neq; clear -hk; lia.
Qed.

(** * the passes *)
Lemma bitLen_mono a b : (0 <= a)%Z -> (a <= b)%Z -> (bitLen a <= bitLen b)%N.
Proof.
move=> ha hab; rewrite /bitLen; case: Z.eqb_spec => [//|h1]; case: Z.eqb_spec => [|_]; first by clear -ha hab h1; lia.
have h := Z.log2_le_mono _ _ hab; have h0 := Z.log2_nonneg a; rewrite ltnS; clear -h h0; lia.
Qed.
Lemma bitLen_max a b : (0 <= a)%Z -> (0 <= b)%Z -> maxn (bitLen a) (bitLen b) = bitLen (Z.max a b).
Proof.
move=> ha hb; case: (Z.max_spec a b) => [] [h ->]; [apply/maxn_idPr|apply/maxn_idPl]; apply: bitLen_mono => //.
by clear -h; lia.
Qed.
Lemma bitLen_B a : (0 < a < B n)%Z -> (bitLen a <= 64 * n)%N.
Proof.
case=> ha hb; have [h1 _] := bitLenP ha.
have hB : (B n = 2 ^ Z.of_nat (64 * n))%Z.
  by rewrite /B; have -> : W = (2 ^ 64)%Z by []; rewrite -Z.pow_mul_r //; [congr (2 ^ _)%Z; clear; lia|clear; lia].
rewrite hB in hb.
have : (2 ^ Z.of_nat (bitLen a).-1 < 2 ^ Z.of_nat (64 * n))%Z by clear -h1 hb; lia.
by move/(proj2 (Z.pow_lt_mono_r_iff 2 _ _ erefl (Nat2Z.is_nonneg _))); clear; lia.
Qed.
Definition good (st : invState) : Prop := [/\ limbs g (iA st), limbs g (iB st) & Z.odd (val (iB st))].
Lemma passP st st' : good st -> invStep g st = st' -> [/\ good st', iI st' = (iI st).+1,
  val (iA st) = 0%Z -> val (iA st') = 0%Z,
  (Z.max (val (iA st')) (val (iB st')) <= Z.max (val (iA st)) (val (iB st)))%Z &
  (2 * (val (iA st') * val (iB st')) <= val (iA st) * val (iB st))%Z \/
  (2 * Z.max (val (iA st')) (val (iB st')) <= Z.max (val (iA st)) (val (iB st)))%Z].
Proof.
case: st => a b u v [[[pf0 pg0] pf1] pg1] i [ha hb ob]; rewrite /invStep.
change (limbs g a) in ha; change (limbs g b) in hb; change (is_true (Z.odd (val b))) in ob.
rewrite -[iA (InvState a _ _ _ _ _)]/a -[iB (InvState a _ _ _ _ _)]/b -[iI (InvState a _ _ _ _ _)]/i.
have hra := limbs_range ha; have hrb := limbs_range hb.
have hb0 : (0 < val b)%Z by case: (Z.eq_dec (val b) 0) ob => [->//|h _]; clear -h hrb; lia.
have hM : (0 < Z.max (val a) (val b) < B n)%Z by clear -hra hrb hb0; lia.
rewrite /BitLen -!/(val _) bitLen_max; [|clear -hra; lia|clear -hrb; lia].
set N := bitLen _; have [hN1 hN2] := bitLenP (proj1 hM); have hN3 := bitLen_B hM; rewrite -/N in hN1 hN2 hN3.
have hN0 : (0 < N)%N by rewrite /N /bitLen; case: Z.eqb_spec => // h; clear -h hM; lia.
have hN4 : (2 ^ Z.of_nat N <= 2 * Z.max (val a) (val b))%Z.
  have -> : Z.of_nat N = Z.succ (Z.of_nat N.-1) by clear -hN0; lia.
  by rewrite Z.pow_succ_r; [clear -hN1; lia|clear; lia].
rewrite (approximateP (proj2 ha)); [|by rewrite (proj1 ha)|clear -hN2; lia|exact: limbs_pos ha].
rewrite (approximateP (proj2 hb)); [|by rewrite (proj1 hb)|clear -hN2; lia|exact: limbs_pos hb].
have [f0 [g0 [f1 [g1 [x [y [[A [A' ->]] [h1 [h2 h3]] [h4 [h5 h6]] [ex ey] [oy hz [mx my] hh]]]]]]]] :=
  pass (proj1 hra) (proj1 hrb) ob hN4 hN2.
rewrite !decomposeP //.
case E1: (update a f0 b g0) => [[a' f0'] g0']; have [|l1 v1] := updateP ha hb h1 h2 ex _ E1; first by clear -mx hM; lia.
case E2: (update a f1 b g1) => [[b' f1'] g1']; have [|l2 v2] := updateP ha hb h4 h5 ey _ E2; first by clear -my hM; lia.
rewrite /= in l1 v1 l2 v2.
have hob : Z.odd (val b') by rewrite v2; case: (Z.abs_spec y) => [] [_ ->] //; rewrite Z.odd_opp.
have fin u1 v1' pp : let st' := InvState a' b' u1 v1' pp i.+1 in
  [/\ good st', iI st' = i.+1, val a = 0%Z -> val (iA st') = 0%Z,
   (Z.max (val (iA st')) (val (iB st')) <= Z.max (val a) (val b))%Z &
   (2 * (val (iA st') * val (iB st')) <= val a * val b)%Z \/
   (2 * Z.max (val (iA st')) (val (iB st')) <= Z.max (val a) (val b))%Z].
  rewrite /= v1 v2; split=> //.
  - by move=> /hz ->.
  - by clear -mx my; lia.
  - by rewrite -Z.abs_mul; case: hh => hh; [left|right]; clear -hh; lia.
by case: (odd i) => <-; apply: fin.
Qed.
Lemma loopP m k l st : good st -> (Z.max (val (iA st)) (val (iB st)) < 2 ^ Z.of_nat k)%Z ->
  (val (iA st) * val (iB st) < 2 ^ Z.of_nat l)%Z -> (l + k * k + k + 1 < m)%N ->
  exists st', invLoop g m st = Some st'.
Proof.
elim: m k l st => // m IH k l st hg hk hl hm /=.
have [ha hb ob] := hg; have hra := limbs_range ha; have hrb := limbs_range hb.
have hb0 : (0 < val (iB st))%Z by case: (Z.eq_dec (val (iB st)) 0) ob => [->//|h _]; clear -h hrb; lia.
have [hg' hi hz hmax hor] := passP hg erefl; have [ha' hb' ob'] := hg'.
have hra' := limbs_range ha'; have hrb' := limbs_range hb'.
have hb0' : (0 < val (iB (invStep g st)))%Z.
  by case: (Z.eq_dec (val (iB (invStep g st))) 0) ob' => [->//|h _]; clear -h hrb'; lia.
rewrite (IsZeroP ha); case: Z.eqb_spec => h0.
  rewrite orbF; case: ifP => hodd; last by exists st.
  exists (invStep g st); apply: invLoop_stop; rewrite hi /= hodd (IsZeroP ha') hz //.
rewrite orbT; case: hor => hor.
- have hl0 : (0 < l)%N.
    by case: l hl {hm} => // hl; have : (0 < val (iA st) * val (iB st))%Z by [apply: Z.mul_pos_pos; clear -h0 hra hb0; lia]; rewrite -[Z.of_nat 0]/0%Z in hl; clear -hl; lia.
  apply: (IH k l.-1) => //.
  - by clear -hmax hk; lia.
  - have e : Z.of_nat l = Z.succ (Z.of_nat l.-1) by clear -hl0; lia.
    by rewrite e Z.pow_succ_r in hl; [clear -hl hor; lia|clear; lia].
  - by clear -hm hl0; lia.
- have hk0 : (0 < k)%N by case: k hk {hm} => //; rewrite -[Z.of_nat 0]/0%Z => hk; clear -hk hb0; lia.
  have e : Z.of_nat k = Z.succ (Z.of_nat k.-1) by clear -hk0; lia.
  have hk' : (Z.max (val (iA (invStep g st))) (val (iB (invStep g st))) < 2 ^ Z.of_nat k.-1)%Z.
    by rewrite e Z.pow_succ_r in hk; [clear -hk hor; lia|clear; lia].
  apply: (IH k.-1 (k.-1 + k.-1)%N) => //.
  - rewrite Nat2Z.inj_add Z.pow_add_r; [|clear; lia|clear; lia].
    by apply: Z.mul_lt_mono_nonneg; clear -hra' hrb' hk'; lia.
  - by case: k hk0 hm {hk e hk'} => // k _ /=; clear; nia.
Qed.
Lemma invLoop_more m m' st st' : (m <= m')%N -> invLoop g m st = Some st' -> invLoop g m' st = Some st'.
Proof.
elim: m m' st => [|m IH] [|m'] st //= h.
- by case: ifP.
- by case: ifP => // _; exact: IH.
Qed.
Theorem Inverse_ends x : red g x -> exists z, forall fuel, ((64 * n).+2 ^ 2 <= fuel)%N -> Inverse g fuel x = Some z.
Proof.
move=> hx; rewrite /Inverse; set st0 := InvState _ _ _ _ _ _.
have hg : good st0.
  split; [exact: proj1 hx|exact: (limbs_q ok)|].
  by rewrite /= Zodd_mod q_odd.
have hra := limbs_range (proj1 hx); have hrb := q_lt ok; have hq := q_gt0 ok.
have hB : (B n = 2 ^ Z.of_nat (64 * n))%Z.
  by rewrite /B; have -> : W = (2 ^ 64)%Z by []; rewrite -Z.pow_mul_r //; [congr (2 ^ _)%Z; clear; lia|clear; lia].
have [||| st' hst'] := @loopP ((64 * n).+2 ^ 2)%N (64 * n)%N (64 * n + 64 * n)%N st0 hg.
- by rewrite -hB /=; clear -hra hrb; lia.
- rewrite Nat2Z.inj_add Z.pow_add_r; [|clear; lia|clear; lia].
  by rewrite -hB /=; apply: Z.mul_lt_mono_nonneg; clear -hra hrb hq; lia.
- by rewrite expnS expn1; move: (64 * n)%N; clear; nia.
eexists => fuel hf; rewrite (invLoop_more hf hst'); reflexivity.
Qed.
End Term.
