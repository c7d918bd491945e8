(** The value of a limb element, and what the operations do to it. *)
From Coq Require Import ZArith Znumtheory Lia.
From mathcomp Require Import all_ssreflect zify.
From Verif Require Import JindoIntModel ZpModel ZpProofs CsprngProofs.
Set Implicit Arguments. Unset Strict Implicit. Unset Printing Implicit Defensive.
Delimit Scope Z_scope with Z.
Local Arguments Z.mul : simpl never.
Local Arguments Z.add : simpl never.
Local Arguments Z.sub : simpl never.
Local Arguments Z.div : simpl never.
Local Arguments Z.modulo : simpl never.
Local Arguments Z.pow : simpl never.
Local Arguments Z.of_nat : simpl never.
Local Arguments Z.lor : simpl never.
Local Arguments Z.lxor : simpl never.
Local Arguments Z.shiftl : simpl never.
Local Arguments Z.shiftr : simpl never.
Local Arguments Z.land : simpl never.
Local Arguments Z.testbit : simpl never.
Local Opaque Add64 Sub64 Mul64 madd0 madd1 madd2.

Section Gen.
Variables (g : gen) (ok : okGen g).
Local Notation q := (qs g).
Local Notation n := (Limbs g).
Local Notation Q := (val (qs g)).

(** congruence modulo q *)
Definition eqq (a b : Z) : Prop := exists k, (a = b + k * Q)%Z.
Lemma eqq_refl a : eqq a a. Proof. by exists 0%Z; lia. Qed.
Lemma eqq_sym a b : eqq a b -> eqq b a. Proof. by case=> k ->; exists (- k)%Z; lia. Qed.
Lemma eqq_trans a b c : eqq a b -> eqq b c -> eqq a c.
Proof. by case=> k -> [l ->]; exists (k + l)%Z; lia. Qed.
Lemma eqq_add a b c d : eqq a b -> eqq c d -> eqq (a + c) (b + d).
Proof. by case=> k -> [l ->]; exists (k + l)%Z; lia. Qed.
Lemma eqq_opp a b : eqq a b -> eqq (- a) (- b).
Proof. by case=> k ->; exists (- k)%Z; lia. Qed.
Lemma eqq_mul a b c d : eqq a b -> eqq c d -> eqq (a * c) (b * d).
Proof. by case=> k -> [l ->]; exists (b * l + k * d + k * l * Q)%Z; ring. Qed.
Lemma eqq_mod a : eqq (a mod Q) a.
Proof. by exists (- (a / Q))%Z; have := Z_div_mod_eq_full a Q; lia. Qed.
Lemma eqq_modE a b : eqq a b -> (a mod Q = b mod Q)%Z.
Proof. by case=> k ->; rewrite Z_mod_plus_full. Qed.
Lemma eqq_small a b : (0 <= a < Q)%Z -> eqq a b -> (a = b mod Q)%Z.
Proof. by move=> h /eqq_modE <-; rewrite Z.mod_small. Qed.

(** the weight of a limb is invertible *)
Lemma W_unit : exists s, eqq (W * s) 1.
Proof.
have h := Z_div_mod_eq_full (hd0 q * qInvNeg g + 1) W; rewrite (ok_neg ok) in h.
exists (((hd0 q * qInvNeg g + 1) / W) + val (behead q) * qInvNeg g)%Z, (qInvNeg g).
rewrite (val_hd (limbs_pos ok (limbs_q ok))); lia.
Qed.
Lemma B_unit k : exists s, eqq (B k * s) 1.
Proof.
elim: k => [|k [s hs]]; first by exists 1%Z; rewrite B0; exists 0%Z; lia.
have [t ht] := W_unit; exists (t * s)%Z; rewrite BS.
have -> : (W * B k * (t * s) = (W * t) * (B k * s))%Z by ring.
exact: eqq_mul ht hs.
Qed.
Lemma B_cancel k a b : eqq (B k * a) (B k * b) -> eqq a b.
Proof.
move=> h; have [s hs] := B_unit k.
have h1 : eqq (s * (B k * a)) (s * (B k * b)) by apply: eqq_mul => //; apply: eqq_refl.
have e x : eqq (s * (B k * x)) x.
  have -> : (s * (B k * x) = (B k * s) * x)%Z by ring.
  rewrite -{2}(Z.mul_1_l x); apply: eqq_mul => //; exact: eqq_refl.
exact: eqq_trans (eqq_sym (e a)) (eqq_trans h1 (e b)).
Qed.

(** * fromMont *)
Lemma montRoundP z : limbs g z -> limbs g (montRound g z) /\
  exists m, word m /\ (W * val (montRound g z) = val z + m * Q)%Z.
Proof.
move=> hz; rewrite /montRound.
have [hm [hC hCw]] := montM ok (word_hd (proj2 hz)).
move: hm hC hCw; set m := ((_ * _) mod W)%Z; set C := madd0 _ _ _ => hm hC hCw.
case E: (madd2Chain m (behead q) (behead z) C) => [zs C1].
have [|||||h1 h2 h3 h4] := madd2Chain_val _ _ _ _ _ E => //.
- by rewrite (size_behead_limbs (limbs_q ok)) (size_behead_limbs hz).
- by apply: word_behead; apply: ok_q.
- by apply: word_behead; case: hz.
rewrite (size_behead_limbs (limbs_q ok)) in h1 h4.
split; first by split; [rewrite size_rcons h1 n1E|rewrite all_rcons h3].
exists m; split=> //.
rewrite val_rcons h1 (val_hd (limbs_pos ok hz)) (val_hd (limbs_pos ok (limbs_q ok))).
by move: h4 hC; clear; nia.
Qed.
Lemma montIterP k z : limbs g z -> limbs g (iter k (montRound g) z) /\
  exists M, (0 <= M < B k)%Z /\ (B k * val (iter k (montRound g) z) = val z + M * Q)%Z.
Proof.
move=> hz; elim: k => [|k [h1 [M [h2 h3]]]]; first by split=> //; exists 0%Z; rewrite B0 /=; split; [lia|ring].
have [h4 [m [/wordP hm h5]]] := montRoundP h1; split=> //.
exists (M + B k * m)%Z; rewrite /= BS; have hB := B_gt0 k; split.
  have h6 : (B k * m <= B k * (W - 1))%Z by apply: Z.mul_le_mono_nonneg_l; lia.
  have h7 : (0 <= B k * m)%Z by apply: Z.mul_nonneg_nonneg; lia.
  move: h2 h6 h7; clear; lia.
have -> : (W * B k * val (montRound g (iter k (montRound g) z)) = B k * (W * val (montRound g (iter k (montRound g) z))))%Z by ring.
rewrite h5; move: h3; clear; lia.
Qed.
Lemma fromMontP z : limbs g z -> red g (fromMont g z) /\ eqq (B n * val (fromMont g z)) (val z).
Proof.
move=> hz; rewrite /fromMont; have [h1 [M [h2 h3]]] := montIterP n hz.
have hr := limbs_range hz; have hq := q_gt0 ok; have hB := B_gt0 n.
have h4 : (val (iter n (montRound g) z) <= Q)%Z.
  have h5 : (M * Q <= (B n - 1) * Q)%Z by apply: Z.mul_le_mono_nonneg_r; lia.
  have : (B n * val (iter n (montRound g) z) < B n * (Q + 1))%Z by move: h3 h5 hr hq; clear; lia.
  by move/(proj2 (Z.mul_lt_mono_pos_l (B n) _ _ hB)); lia.
have [|h6 [k h7]] := reduceP ok h1; first by lia.
split=> //; rewrite h7; exists (M + B n * k)%Z; move: h3; clear; lia.
Qed.

(** * the integer an element stands for *)
Definition ev (x : seq Z) : Z := val (fromMont g x).
Lemma ev_range x : limbs g x -> (0 <= ev x < Q)%Z.
Proof. by move=> hx; have [[h1 h2] _] := fromMontP hx; have := limbs_range h1; rewrite /ev; lia. Qed.
Lemma ev_val x : limbs g x -> eqq (B n * ev x) (val x).
Proof. by move=> hx; case: (fromMontP hx). Qed.
Lemma evE x a : limbs g x -> eqq (val x) (B n * a) -> (ev x = a mod Q)%Z.
Proof.
move=> hx h; apply: eqq_small; first exact: ev_range.
by apply: (@B_cancel n); apply: eqq_trans h; exact: ev_val.
Qed.
Lemma ev_inj x y : red g x -> red g y -> ev x = ev y -> x = y.
Proof.
move=> [hx hxq] [hy hyq] h; apply: (limbs_inj hx hy).
have hrx := limbs_range hx; have hry := limbs_range hy.
rewrite -(Z.mod_small (val x) Q); last by lia.
rewrite -(Z.mod_small (val y) Q); last by lia.
apply: eqq_modE; apply: eqq_trans (eqq_sym (ev_val hx)) _; rewrite h; exact: ev_val.
Qed.

Lemma AddP x y : red g x -> red g y -> red g (Add g x y) /\ (ev (Add g x y) = (ev x + ev y) mod Q)%Z.
Proof.
move=> hx hy; have [h1 h2] := addWithP ok hx hy; split=> //; apply: evE; first by case: h1.
apply: eqq_trans h2 _; rewrite Z.mul_add_distr_l; apply: eqq_add; apply: eqq_sym; apply: ev_val.
- by case: hx. - by case: hy.
Qed.
Lemma DoubleP x : red g x -> red g (Double g x) /\ (ev (Double g x) = (2 * ev x) mod Q)%Z.
Proof. by move=> hx; have [h1 h2] := AddP hx hx; split=> //; rewrite -Z.add_diag -h2. Qed.
Lemma SubP' x y : red g x -> red g y -> red g (Sub g x y) /\ (ev (Sub g x y) = (ev x - ev y) mod Q)%Z.
Proof.
move=> hx hy; have [h1 h2] := SubP ok hx hy; split=> //; apply: evE; first by case: h1.
apply: eqq_trans h2 _; rewrite Z.mul_sub_distr_l; apply: eqq_add.
- by apply: eqq_sym; apply: ev_val; case: hx.
- by apply: eqq_opp; apply: eqq_sym; apply: ev_val; case: hy.
Qed.
Lemma NegP' x : red g x -> red g (Neg g x) /\ (ev (Neg g x) = (- ev x) mod Q)%Z.
Proof.
move=> hx; have [h1 h2] := NegP ok hx; split=> //; apply: evE; first by case: h1.
apply: eqq_trans h2 _; rewrite Z.mul_opp_r; apply: eqq_opp; apply: eqq_sym; apply: ev_val; by case: hx.
Qed.

(** what Mul asks of its arguments: the one that is multiplied by single words must be reduced *)
Definition mulPre (x y : seq Z) : Prop := limbs g x /\ limbs g y /\ if mulCios g then (val x < Q)%Z else (val y < Q)%Z.
Lemma mulPre_red x y : red g x -> red g y -> mulPre x y.
Proof. by move=> [h1 h2] [h3 h4]; do 2! split=> //; case: mulCios. Qed.
Lemma Mul_val x y : mulPre x y -> red g (Mul g x y) /\ eqq (B n * val (Mul g x y)) (val x * val y).
Proof.
case=> hx [hy hp]; rewrite /Mul; have := ok_mul ok; case: (mulCios g) hp => hp /=.
  by move=> _; have [h1 h2] := mulGenericP ok (conj hx hp) hy.
by move=> /Z.leb_le hs; have [h1 h2] := mulPureP ok hs hx (conj hy hp).
Qed.
Lemma mul_ev x y r : limbs g x -> limbs g y -> red g r -> eqq (B n * val r) (val x * val y) ->
  (ev r = (ev x * ev y) mod Q)%Z.
Proof.
move=> hx hy [hr _] h; apply: evE => //; apply: (@B_cancel n); apply: eqq_trans h _.
have -> : (B n * (B n * (ev x * ev y)) = (B n * ev x) * (B n * ev y))%Z by ring.
by apply: eqq_mul; apply: eqq_sym; apply: ev_val.
Qed.
Lemma MulP x y : mulPre x y -> red g (Mul g x y) /\ (ev (Mul g x y) = (ev x * ev y) mod Q)%Z.
Proof. by move=> h; have [h1 h2] := Mul_val h; case: h => hx [hy _]; split=> //; apply: mul_ev. Qed.
Lemma mulGenericP' x y : red g x -> limbs g y -> red g (mulGeneric g x y) /\ (ev (mulGeneric g x y) = (ev x * ev y) mod Q)%Z.
Proof. by move=> hx hy; have [h1 h2] := mulGenericP ok hx hy; split=> //; apply: mul_ev => //; case: hx. Qed.
Lemma MulR x y : red g x -> red g y -> red g (Mul g x y) /\ (ev (Mul g x y) = (ev x * ev y) mod Q)%Z.
Proof. by move=> hx hy; apply: MulP; apply: mulPre_red. Qed.

Lemma red_rSquare : red g (rSquare g).
Proof.
have [h1 h2 h3] := ok_r ok; split=> //; rewrite h3.
by case: (Z.mod_pos_bound (B (n + n)) Q (q_gt0 ok)).
Qed.
Lemma red_one : red g (oneM g).
Proof.
have [h1 h2 h3] := ok_one ok; split=> //; rewrite h3.
by case: (Z.mod_pos_bound (B n) Q (q_gt0 ok)).
Qed.
Lemma ev_one : ev (oneM g) = 1%Z.
Proof.
have [h1 h2 h3] := ok_one ok; rewrite (@evE _ 1); [|by case: red_one|].
  by rewrite Z.mod_small //; have := q_geW ok; wl.
by rewrite h3 Z.mul_1_r; exact: eqq_mod.
Qed.
Lemma ev_zero : ev (nseq n 0%Z) = 0%Z.
Proof.
rewrite (@evE _ 0); [by []|exact: limbs_zero|].
by rewrite val_nseq0 Z.mul_0_r; exact: eqq_refl.
Qed.
Lemma ev_eq0 x : red g x -> (ev x =? 0)%Z = (val x =? 0)%Z.
Proof.
move=> hx; apply/Z.eqb_spec/Z.eqb_spec => h.
  by rewrite (ev_inj hx (red_zero ok)) ?val_nseq0 // ev_zero.
rewrite (@evE _ 0) //; first by case: hx.
by rewrite h Z.mul_0_r; exact: eqq_refl.
Qed.
Lemma IsOneP x : limbs g x -> IsOne g x -> ev x = 1%Z.
Proof.
move=> hx; rewrite /IsOne; have [h1 h2] := red_one.
rewrite NotEqual_val; [|by rewrite (proj1 hx) (proj1 h1)|by case: hx|by case: h1].
by move/Z.eqb_spec => h; rewrite (limbs_inj hx h1 h) ev_one.
Qed.
Lemma IsOneE x : red g x -> IsOne g x = (ev x =? 1)%Z.
Proof.
move=> hx; apply/idP/Z.eqb_spec => [|h]; first by apply: IsOneP; case: hx.
have [h1 h2] := red_one.
rewrite /IsOne NotEqual_val; [|by rewrite (proj1 (proj1 hx)) (proj1 h1)|by case: hx => -[]|by case: h1].
by apply/Z.eqb_spec; rewrite (ev_inj hx red_one) // h ev_one.
Qed.

Lemma toMontP z : red g z -> red g (toMont g z) /\ ev (toMont g z) = val z.
Proof.
move=> hz; have [h1 h2] := Mul_val (mulPre_red hz red_rSquare); split=> //.
have hrz := limbs_range (proj1 hz).
rewrite (@evE _ (val z)); [|by case: h1|]; first by rewrite Z.mod_small //; case: hz => _; lia.
apply: (@B_cancel n); apply: eqq_trans h2 _.
have [_ _ ->] := ok_r ok.
have -> : (B n * (B n * val z) = val z * B (n + n))%Z by rewrite B_add; ring.
by apply: eqq_mul; [exact: eqq_refl|exact: eqq_mod].
Qed.

(** * conversions *)
Lemma SetUint64P v : word v -> red g (SetUint64 g v) /\ (ev (SetUint64 g v) = v mod Q)%Z.
Proof.
move=> hv; rewrite /SetUint64; have [h1 h2] := limbs_small ok hv.
have hv' : (0 <= v < Q)%Z by move/wordP: hv; have := q_geW ok; lia.
have hr : red g (v :: nseq n.-1 0%Z) by split=> //; rewrite h2; case: hv'.
by have [h3 h4] := toMontP hr; split=> //; rewrite h4 h2 Z.mod_small.
Qed.
Lemma shr63 v : (- 2 ^ 63 <= v < 2 ^ 63)%Z -> Z.shiftr v 63 = (if v <? 0 then -1 else 0)%Z.
Proof.
move=> h; rewrite Z.shiftr_div_pow2 //; case: Z.ltb_spec => hv.
- by symmetry; apply: (Z.div_unique _ _ _ (v + 2 ^ 63)); lia.
- by rewrite Z.div_small //; lia.
Qed.
Lemma absInt64E v : (- 2 ^ 63 <= v < 2 ^ 63)%Z -> absInt64 v = Z.abs v.
Proof.
move=> h; rewrite /absInt64 shr63 //; case: Z.ltb_spec => hv.
- rewrite Z.lxor_m1_r /Z.lnot.
  by rewrite Z.mod_small; wl.
- by rewrite Z.lxor_0_r Z.sub_0_r Z.mod_small; wl.
Qed.
Lemma SetInt64P v : (- 2 ^ 63 <= v < 2 ^ 63)%Z -> red g (SetInt64 g v) /\ (ev (SetInt64 g v) = v mod Q)%Z.
Proof.
move=> h; rewrite /SetInt64 absInt64E // shr63 //.
have ha : word (Z.abs v) by apply/wordP; wl.
have [h1 h2] := SetUint64P ha.
case: (Z.ltb_spec v 0) => hv /=; last by split=> //; rewrite h2 Z.abs_eq.
have [h3 h4] := NegP' h1; split=> //; rewrite h4 h2; apply: eqq_modE.
have {2}-> : v = (- Z.abs v)%Z by lia.
by apply: eqq_opp; exact: eqq_mod.
Qed.

Lemma size_bigWords k v : (size (bigWords k v) <= k)%N.
Proof. by elim: k v => //= k IH v; case: ifP => //= _; rewrite ltnS. Qed.
Lemma bigWordsP k v : (0 <= v < B k)%Z -> val (bigWords k v) = v /\ all word (bigWords k v).
Proof.
elim: k v => [|k IH] v; first by rewrite B0 => h; split=> //=; lia.
rewrite BS => h /=; case: Z.eqb_spec => hv; first by rewrite hv.
have hm := Z.mod_pos_bound v W W_pos; have e := Z_div_mod_eq_full v W.
have [|h1 h2] := IH (v / W)%Z.
  by split; [apply: Z.div_pos; wl|apply: Z.div_lt_upper_bound; wl].
by split=> /=; [rewrite h1; lia|rewrite h2 andbT; apply/wordP].
Qed.
Lemma copyWordsE k w : (size w <= k)%N -> copyWords k w = w ++ nseq (k - size w) 0%Z.
Proof.
move=> h; apply: (@eq_from_nth _ 0%Z); first by rewrite size_mkseq size_cat size_nseq subnKC.
move=> i; rewrite size_mkseq => hi; rewrite nth_mkseq // nth_cat; case: ltnP => // hle.
by rewrite nth_nseq nth_default //; case: ifP.
Qed.
Lemma setBigP v : (0 <= v < Q)%Z -> red g (setBig g v) /\ ev (setBig g v) = v.
Proof.
move=> hv; rewrite /setBig copyWordsE ?size_bigWords //.
have hq := q_lt ok; have [|h1 h2] := @bigWordsP n v; first by lia.
set z := _ ++ _.
have hz : limbs g z.
  split; first by rewrite size_cat size_nseq subnKC // size_bigWords.
  by rewrite all_cat h2 all_nseq orbT.
have hvz : val z = v by rewrite val_cat val_nseq0 h1; lia.
have hz' : red g z by split=> //; rewrite hvz; case: hv.
by have [h3 h4] := toMontP hz'; rewrite h4.
Qed.
Lemma SetBigIntP v : red g (SetBigInt g v) /\ (ev (SetBigInt g v) = v mod Q)%Z.
Proof.
rewrite /SetBigInt /modulusOf; case: Z.eqb_spec => h.
  by split; [exact: red_zero|rewrite ev_zero h Z_mod_same_full].
have hq := q_gt0 ok.
case: ifP => [/andP[/Z.ltb_lt h1 /Z.leb_le h2]|_].
  by have [|h3 h4] := @setBigP v; [lia|split=> //; rewrite h4 Z.mod_small; lia].
by apply: setBigP; apply: Z.mod_pos_bound.
Qed.

Lemma CmpP x y : limbs g x -> limbs g y ->
  Cmp g x y = if (ev x <? ev y)%Z then (-1)%Z else if (ev y <? ev x)%Z then 1%Z else 0%Z.
Proof.
move=> hx hy; have [[[h1 h2] _] _] := fromMontP hx; have [[[h3 h4] _] _] := fromMontP hy.
by rewrite /Cmp cmp_val // /Bits h1.
Qed.

(** * bytes *)
Definition byte (d : Z) : bool := (0 <=? d)%Z && (d <? 256)%Z.
Lemma byteP d : reflect (0 <= d < 256)%Z (byte d).
Proof. by apply: (iffP andP) => -[] /Z.leb_le h1 /Z.ltb_lt h2. Qed.
Definition beVal (e : seq Z) : Z := foldl (fun acc d => acc * 256 + d)%Z 0%Z e.
Lemma foldl_beVal a e : (foldl (fun acc d => acc * 256 + d) a e = a * 256 ^ Z.of_nat (size e) + beVal e)%Z.
Proof.
rewrite /beVal; elim/last_ind: e => [|e d IH]; first by rewrite /= Z.pow_0_r; lia.
rewrite -cats1 !foldl_cat /= IH size_cat /= addn1 Nat2Z.inj_succ Z.pow_succ_r; [ring|lia].
Qed.
Lemma beVal_cat a b : beVal (a ++ b) = (beVal a * 256 ^ Z.of_nat (size b) + beVal b)%Z.
Proof. by rewrite /beVal foldl_cat foldl_beVal. Qed.
Lemma beVal_ge0 e : all byte e -> (0 <= beVal e)%Z.
Proof.
elim/last_ind: e => // e d IH; rewrite all_rcons -cats1 beVal_cat => /andP[/byteP h /IH h1].
have -> : (256 ^ Z.of_nat (size [:: d]) = 256)%Z by [].
rewrite -[beVal [:: d]]/(0 * 256 + d)%Z; lia.
Qed.
Lemma getBEE b : all byte b -> getBE b = beVal b.
Proof.
rewrite /getBE /beVal; elim/last_ind: b => // b d IH.
rewrite all_rcons => /andP[/byteP hd /IH h]; rewrite -!cats1 !foldl_cat /= h.
rewrite Z.lor_comm lor_shift //; lia.
Qed.
Lemma putBEP w : word w -> [/\ size (putBE w) = 8%N, all byte (putBE w) & beVal (putBE w) = w].
Proof.
move=> /wordP hw; split; first by rewrite size_mkseq.
  rewrite all_map; apply/allP => i _; apply/byteP; exact: Z.mod_pos_bound.
rewrite /putBE /mkseq /= /beVal /= !Z.shiftr_div_pow2; try by [].
rewrite -[(2 ^ (8 * Z.of_nat (7 - 0)))%Z]/72057594037927936%Z -[(2 ^ (8 * Z.of_nat (7 - 1)))%Z]/281474976710656%Z
  -[(2 ^ (8 * Z.of_nat (7 - 2)))%Z]/1099511627776%Z -[(2 ^ (8 * Z.of_nat (7 - 3)))%Z]/4294967296%Z
  -[(2 ^ (8 * Z.of_nat (7 - 4)))%Z]/16777216%Z -[(2 ^ (8 * Z.of_nat (7 - 5)))%Z]/65536%Z
  -[(2 ^ (8 * Z.of_nat (7 - 6)))%Z]/256%Z -[(2 ^ (8 * Z.of_nat (7 - 7)))%Z]/1%Z.
have hstep k : (0 < k)%Z -> (w / (k * 256) * 256 + (w / k) mod 256 = w / k)%Z.
  by move=> hk; rewrite -Z.div_div //; have := Z_div_mod_eq_full (w / k) 256; lia.
have h0 : (w / 72057594037927936 < 256)%Z by apply: Z.div_lt_upper_bound => //; wl.
have h0' : (0 <= w / 72057594037927936)%Z by apply: Z.div_pos => //; wl.
rewrite (Z.mod_small (w / 72057594037927936)); last by split.
have e1 := hstep 281474976710656%Z erefl; have e2 := hstep 1099511627776%Z erefl; have e3 := hstep 4294967296%Z erefl.
have e4 := hstep 16777216%Z erefl; have e5 := hstep 65536%Z erefl; have e6 := hstep 256%Z erefl; have e7 := hstep 1%Z erefl.
rewrite Z.add_0_l ?Z.mul_0_l ?Z.add_0_l e1.
by rewrite e2 e3 e4 e5 e6 e7 Z.div_1_r.
Qed.
End Gen.
