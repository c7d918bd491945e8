(** Limb arithmetic: values of the carry chains, Montgomery rounds, conversions. *)
From Coq Require Import ZArith Znumtheory Lia.
From mathcomp Require Import all_ssreflect zify.
From Verif Require Import JindoIntModel ZpModel.
Set Implicit Arguments. Unset Strict Implicit. Unset Printing Implicit Defensive.
Delimit Scope Z_scope with Z.
Local Arguments Z.mul : simpl never.
Local Arguments Z.add : simpl never.
Local Arguments Z.sub : simpl never.
Local Arguments Z.div : simpl never.
Local Arguments Z.modulo : simpl never.
Local Arguments Z.pow : simpl never.
Local Arguments Z.of_nat : simpl never.
Local Arguments Z.lor : simpl never.
Local Arguments Z.lxor : simpl never.

Notation val := wordsVal.

(** with the word size a numeral, products with it are linear *)
Ltac wl := unfold W in *; lia.

Definition word (a : Z) : bool := (0 <=? a)%Z && (a <? W)%Z.
Lemma wordP a : reflect (0 <= a < W)%Z (word a).
Proof. by apply: (iffP andP) => -[] /Z.leb_le h1 /Z.ltb_lt h2. Qed.

Lemma W_gt : (2 < W)%Z. Proof. by []. Qed.
Lemma W_pos : (0 < W)%Z. Proof. by []. Qed.

(** weight of limb k *)
Definition B (k : nat) : Z := (W ^ Z.of_nat k)%Z.
Lemma B0 : B 0 = 1%Z. Proof. by []. Qed.
Lemma BS k : B k.+1 = (W * B k)%Z.
Proof. by rewrite /B Nat2Z.inj_succ Z.pow_succ_r //; lia. Qed.
Lemma B_gt0 k : (0 < B k)%Z.
Proof. by apply: Z.pow_pos_nonneg => //; lia. Qed.
Lemma B_add a b : B (a + b) = (B a * B b)%Z.
Proof. by rewrite /B Nat2Z.inj_add Z.pow_add_r //; lia. Qed.

Lemma val_cons a x : val (a :: x) = (a + W * val x)%Z. Proof. by []. Qed.
Lemma val_nil : val [::] = 0%Z. Proof. by []. Qed.
Lemma val_rcons x a : val (rcons x a) = (val x + B (size x) * a)%Z.
Proof. by elim: x => [|b x IH] /=; rewrite ?B0 ?IH ?BS; [rewrite /=; lia|nia]. Qed.
Lemma val_nseq0 k : val (nseq k 0%Z) = 0%Z.
Proof. by elim: k => //= k ->. Qed.
Lemma val_cat x y : val (x ++ y) = (val x + B (size x) * val y)%Z.
Proof. by elim: x => [|a x IH]; rewrite ?cat0s ?cat_cons ?val_cons ?IH /= ?BS; [rewrite B0; lia|nia]. Qed.
Lemma val_hd x : (0 < size x)%N -> val x = (hd0 x + W * val (behead x))%Z.
Proof. by case: x. Qed.
Lemma val_but x : (0 < size x)%N -> val x = (val (but x) + B (size x).-1 * lst x)%Z.
Proof.
case/lastP: x => // x a _; rewrite /but /lst size_rcons last_rcons /= -cats1 take_size_cat //.
by rewrite cats1 val_rcons.
Qed.
Lemma size_but x : size (but x) = (size x).-1.
Proof. by rewrite /but size_take; case: (size x) => //= k; rewrite ltnS leqnn. Qed.

Lemma val_range x : all word x -> (0 <= val x < B (size x))%Z.
Proof.
elim: x => [|a x IH]; first by rewrite B0.
move=> /= /andP[/wordP ha /IH h]; rewrite BS.
have h1 : (W * val x <= W * (B (size x) - 1))%Z by apply: Z.mul_le_mono_nonneg_l => //; lia.
by have h2 : (0 <= W * val x)%Z by [apply: Z.mul_nonneg_nonneg => //; lia]; lia.
Qed.
(** uniqueness of division by the word size *)
Lemma W_digit a b x y : word a -> word b -> (a + W * x = b + W * y)%Z -> a = b /\ x = y.
Proof.
move=> /wordP ha /wordP hb h; have hx : x = y; last by lia.
have [?|[?|?]] : (x < y \/ x = y \/ y < x)%Z by lia.
- have : (W * (x + 1) <= W * y)%Z by apply: Z.mul_le_mono_nonneg_l => //; lia.
  lia.
- by [].
- have : (W * (y + 1) <= W * x)%Z by apply: Z.mul_le_mono_nonneg_l => //; lia.
  lia.
Qed.
Lemma val_inj x y : all word x -> all word y -> size x = size y -> val x = val y -> x = y.
Proof.
elim: x y => [|a x IH] [|b y] //= /andP[ha hx] /andP[hb hy] [hs] /(W_digit ha hb) [h1 h2].
by rewrite h1 (IH y).
Qed.

Lemma word_hd x : all word x -> word (hd0 x).
Proof. by case: x => //= a x /andP[]. Qed.
Lemma word_behead x : all word x -> all word (behead x).
Proof. by case: x => //= a x /andP[]. Qed.
Lemma word_but x : all word x -> all word (but x).
Proof. by rewrite /but -{1}(cat_take_drop (size x).-1 x) all_cat => /andP[]. Qed.
Lemma word_lst x : all word x -> word (lst x).
Proof. by case/lastP: x => // x a; rewrite all_rcons /lst last_rcons => /andP[]. Qed.
Lemma hd_rcons0 x : (0 < size x)%N -> hd0 x :: behead x = x. Proof. by case: x. Qed.

(** * single steps *)
Lemma Add64_val x y c z c' : Add64 x y c = (z, c') -> (z + W * c' = x + y + c)%Z /\ word z.
Proof.
case=> <- <-; have h := Z_div_mod_eq_full (x + y + c) W; split; first by move: h; lia.
by apply/wordP; apply: Z.mod_pos_bound.
Qed.
Lemma Add64_carry x y c z c' : word x -> word y -> (0 <= c <= 1)%Z -> Add64 x y c = (z, c') -> (0 <= c' <= 1)%Z.
Proof.
move=> /wordP hx /wordP hy hc [_ <-]; split; first by apply: Z.div_pos => //; lia.
have : ((x + y + c) / W < 2)%Z by apply: Z.div_lt_upper_bound => //; wl.
by lia.
Qed.
Lemma Sub64_val x y b z b' : word x -> word y -> (0 <= b <= 1)%Z -> Sub64 x y b = (z, b') ->
  [/\ (z - W * b' = x - y - b)%Z, word z & (0 <= b' <= 1)%Z].
Proof.
move=> /wordP hx /wordP hy hb [<- <-]; split; last by case: ifP.
- case: Z.ltb_spec => h; last by rewrite Z.mod_small; lia.
  rewrite -(@Z_mod_plus_full _ 1) Z.mod_small; lia.
- by apply/wordP; apply: Z.mod_pos_bound.
Qed.
Lemma Mul64_val x y h l : word x -> word y -> Mul64 x y = (h, l) ->
  [/\ (l + W * h = x * y)%Z, word l, (0 <= h)%Z & (h <= W - 2)%Z].
Proof.
move=> /wordP hx /wordP hy [<- <-]; have h0 := Z_div_mod_eq_full (x * y) W; split.
- by move: h0; lia.
- by apply/wordP; apply: Z.mod_pos_bound.
- by apply: Z.div_pos => //; apply: Z.mul_nonneg_nonneg; lia.
- have h1 : (x * y <= (W - 1) * (W - 1))%Z by apply: Z.mul_le_mono_nonneg; lia.
  have : (x * y / W < W - 1)%Z by apply: Z.div_lt_upper_bound => //; wl.
  lia.
Qed.

Lemma madd0_val a b c : word a -> word b -> word c ->
  exists l, [/\ (l + W * madd0 a b c = a * b + c)%Z, word l & word (madd0 a b c)].
Proof.
move=> ha hb hc; rewrite /madd0.
case E: (Mul64 a b) => [h l]; have {E} [h1 h2 h3 h4] := Mul64_val ha hb E.
case E: (Add64 l c 0) => [l' c']; have h5 := @Add64_carry _ _ 0 _ _ h2 hc ltac:(done) E; have {E} [h6 h7] := Add64_val E.
case E: (Add64 h 0 c') => [h' c'']; cbn [fst]; have {E} [h9 h10] := Add64_val E.
have hc'' : c'' = 0%Z by move: h10 => /wordP; wl.
by exists l'; split => //; move: h1 h6 h9; rewrite hc''; wl.
Qed.
Lemma madd1_val a b c h l : word a -> word b -> word c -> madd1 a b c = (h, l) ->
  [/\ (l + W * h = a * b + c)%Z, word l & word h].
Proof.
move=> ha hb hc; rewrite /madd1.
case E: (Mul64 a b) => [h0 l0]; have {E} [h1 h2 h3 h4] := Mul64_val ha hb E.
case E: (Add64 l0 c 0) => [l' c']; have h5 := @Add64_carry _ _ 0 _ _ h2 hc ltac:(done) E; have {E} [h6 h7] := Add64_val E.
case E: (Add64 h0 0 c') => [h' c'']; cbn [fst] => -[<- <-]; have {E} [h9 h10] := Add64_val E.
have hc'' : c'' = 0%Z by move: h10 => /wordP; wl.
by split => //; move: h1 h6 h9; rewrite hc''; wl.
Qed.
Lemma madd2_val a b c d h l : word a -> word b -> word c -> word d -> madd2 a b c d = (h, l) ->
  [/\ (l + W * h = a * b + c + d)%Z, word l & word h].
Proof.
move=> ha hb hc hd; rewrite /madd2.
case E: (Mul64 a b) => [h0 l0]; have {E} [h1 h2 h3 h4] := Mul64_val ha hb E.
case E: (Add64 c d 0) => [e c1]; have h5 := @Add64_carry _ _ 0 _ _ hc hd ltac:(done) E; have {E} [h6 h7] := Add64_val E.
case E: (Add64 h0 0 c1) => [h' k1]; cbn [fst]; have {E} [h9 h10] := Add64_val E.
have hk1 : k1 = 0%Z by move: h10 => /wordP; wl.
case E: (Add64 l0 e 0) => [l' c2]; have h5' := @Add64_carry _ _ 0 _ _ h2 h7 ltac:(done) E; have {E} [h6' h7'] := Add64_val E.
case E: (Add64 h' 0 c2) => [h'' k2]; cbn [fst] => -[<- <-]; have {E} [h9' h10'] := Add64_val E.
have hab : (a * b + c + d <= W * W - 1)%Z.
  move: ha hb hc hd => /wordP ha /wordP hb /wordP hc /wordP hd.
  have h11 : (a * b <= (W - 1) * (W - 1))%Z by apply: Z.mul_le_mono_nonneg; lia.
  by wl.
have hk2 : k2 = 0%Z.
  have hh : (l' + W * (h'' + W * k2) <= W * W - 1)%Z by move: hab h1 h6 h9 h6' h9'; rewrite hk1; clear; wl.
  move: h7' h10' => /wordP ? /wordP ?.
  have : (0 <= h' + c2)%Z by move: h10 => /wordP; lia.
  by wl.
by split => //; move: h1 h6 h9 h6' h9'; rewrite hk1 hk2; clear; wl.
Qed.

(** * chains *)
Local Opaque Add64 Sub64 Mul64 madd0 madd1 madd2.
Lemma addChain_val x y c z c' : size x = size y -> addChain x y c = (z, c') ->
  [/\ size z = size x, all word z & (val z + B (size x) * c' = val x + val y + c)%Z].
Proof.
elim: x y c z c' => [|a x IH] [|b y] c z c' //=; first by move=> _ [<- <-]; rewrite B0; split=> //=; lia.
case=> hs; case E: (Add64 a b c) => [w c1]; have {E} [h1 h2] := Add64_val E.
case E: (addChain x y c1) => [zs c2] [<- <-]; have {E} [h3 h4 h5] := IH _ _ _ _ hs E; split; rewrite /= ?h3 ?h2 //.
by rewrite BS; move: h1 h5; clear; wl.
Qed.
Lemma addChain_carry x y c z c' : all word x -> all word y -> (0 <= c <= 1)%Z ->
  addChain x y c = (z, c') -> (0 <= c' <= 1)%Z.
Proof.
elim: x y c z c' => [|a x IH] [|b y] c z c' /=; try by move=> ? ? ? [_ <-].
move=> /andP[ha hx] /andP[hb hy] hc.
case E: (Add64 a b c) => [w c1]; have {E} h1 := Add64_carry ha hb hc E.
by case E: (addChain x y c1) => [zs c2] [_ <-]; exact: IH E.
Qed.
Lemma subChain_val x y b z b' : size x = size y -> all word x -> all word y -> (0 <= b <= 1)%Z ->
  subChain x y b = (z, b') ->
  [/\ size z = size x, all word z, (val z - B (size x) * b' = val x - val y - b)%Z & (0 <= b' <= 1)%Z].
Proof.
elim: x y b z b' => [|a x IH] [|d y] b z b' //=; first by move=> _ _ _ ? [<- <-]; rewrite B0; split=> //=; lia.
case=> hs /andP[ha hx] /andP[hd hy] hb; case E: (Sub64 a d b) => [w c1]; have {E} [h1 h2 h6] := Sub64_val ha hd hb E.
case E: (subChain x y c1) => [zs c2] [<- <-]; have {E} [h3 h4 h5 h7] := IH _ _ _ _ hs hx hy h6 E.
split; rewrite /= ?h3 ?h2 //.
by rewrite BS; move: h1 h5; clear; wl.
Qed.
Lemma madd2Chain_val a x t C z C' : size x = size t -> word a -> all word x -> all word t -> word C ->
  madd2Chain a x t C = (z, C') ->
  [/\ size z = size x, all word z, word C' & (val z + B (size x) * C' = a * val x + val t + C)%Z].
Proof.
move=> + ha; elim: x t C z C' => [|b x IH] [|c t] C z C' //=.
  by move=> _ _ _ ? [<- <-]; rewrite B0; split=> //=; lia.
case=> hs /andP[hb hx] /andP[hc ht] hC.
case E: (madd2 a b c C) => [C1 w]; have {E} [h1 h2 h6] := madd2_val ha hb hc hC E.
case E: (madd2Chain a x t C1) => [zs c2] [<- <-]; have {E} [h3 h4 h5 h7] := IH _ _ _ _ hs hx ht h6 E.
split; rewrite /= ?h3 ?h2 //.
by rewrite BS; move: h1 h7; clear; wl.
Qed.
Lemma madd1Chain_val a x C z C' : word a -> all word x -> word C -> madd1Chain a x C = (z, C') ->
  [/\ size z = size x, all word z, word C' & (val z + B (size x) * C' = a * val x + C)%Z].
Proof.
move=> ha; elim: x C z C' => [|b x IH] C z C' /=; first by move=> _ ? [<- <-]; rewrite B0; split=> //=; lia.
case/andP=> [hb hx] hC; case E: (madd1 a b C) => [C1 w]; have {E} [h1 h2 h6] := madd1_val ha hb hC E.
case E: (madd1Chain a x C1) => [zs c2] [<- <-]; have {E} [h3 h4 h5 h7] := IH _ _ _ hx h6 E.
split; rewrite /= ?h3 ?h2 //.
by rewrite BS; move: h1 h7; clear; wl.
Qed.
Lemma hislos_val v y : word v -> all word y ->
  [/\ size (his v y) = size y, size (los v y) = size y, all word (his v y), all word (los v y) &
      (val (los v y) + W * val (his v y) = v * val y)%Z].
Proof.
move=> hv; elim: y => [|d y IH] /=; first by split=> //; lia.
case/andP=> hd /IH [h1 h2 h3 h4 h5].
case E: (Mul64 v d) => [h l] /=; have {E} [h6 h7 h8 h9] := Mul64_val hv hd E.
rewrite !size_map in h1 h2 *; split => //.
- by rewrite h3 andbT; apply/wordP; lia.
- by rewrite h7.
- by rewrite /his /los in h5 *; move: h5 h6; clear; wl.
Qed.

Lemma less_val x y : size x = size y -> all word x -> all word y -> less x y = (val x <? val y)%Z.
Proof.
elim/last_ind: x y => [|x a IH] y; first by case: y.
case/lastP: y => [|y b]; first by rewrite size_rcons.
rewrite !size_rcons !all_rcons => -[hs] /andP[/wordP ha hx] /andP[/wordP hb hy].
rewrite /less zip_rcons // -cats1 foldl_cat /= -/(less x y) IH // !val_rcons -hs.
have := val_range hx; have := val_range hy; rewrite -hs => h1 h2.
have hB := B_gt0 (size x).
case: (Z.ltb_spec a b) => h3 /=; first by symmetry; apply/Z.ltb_lt; nia.
case: (Z.eqb_spec a b) => h4 /=; first by rewrite h4; apply/idP/idP => /Z.ltb_lt h; apply/Z.ltb_lt; lia.
by symmetry; apply/Z.ltb_ge; nia.
Qed.
Lemma cmp_val x y : size x = size y -> all word x -> all word y ->
  cmpLimbs x y = if (val x <? val y)%Z then (-1)%Z else if (val y <? val x)%Z then 1%Z else 0%Z.
Proof.
elim/last_ind: x y => [|x a IH] y; first by case: y.
case/lastP: y => [|y b]; first by rewrite size_rcons.
rewrite !size_rcons !all_rcons => -[hs] /andP[/wordP ha hx] /andP[/wordP hb hy].
rewrite /cmpLimbs zip_rcons // -cats1 foldl_cat /= -/(cmpLimbs x y) IH // !val_rcons -hs.
have := val_range hx; have := val_range hy; rewrite -hs => h1 h2.
have hB := B_gt0 (size x).
case: (Z.ltb_spec b a) => h3 /=.
  have -> : (val x + B (size x) * a <? val y + B (size x) * b)%Z = false by apply/Z.ltb_ge; nia.
  by have -> : (val y + B (size x) * b <? val x + B (size x) * a)%Z by apply/Z.ltb_lt; nia.
case: (Z.ltb_spec a b) => h4 /=.
  by have -> : (val x + B (size x) * a <? val y + B (size x) * b)%Z by apply/Z.ltb_lt; nia.
have -> : a = b by lia.
by do ! case: Z.ltb_spec => ?; lia.
Qed.

Lemma lor_words_eq0 x : all word x -> (foldr Z.lor 0 x =? 0)%Z = (val x =? 0)%Z.
Proof.
elim: x => // a x IH /= /andP[/wordP ha hx]; have hr := val_range hx.
have := IH hx; case: (Z.eqb_spec (val x) 0) => hv.
  move/Z.eqb_spec => ->; rewrite Z.lor_0_r hv; do ! case: Z.eqb_spec => //; lia.
move=> /Z.eqb_spec h; do ! case: Z.eqb_spec => //; first by move=> ? /Z.lor_eq_0_iff [].
by have := W_pos; nia.
Qed.
Lemma NotEqual_val x y : size x = size y -> all word x -> all word y -> (NotEqual x y =? 0)%Z = (val x =? val y)%Z.
Proof.
rewrite /NotEqual; elim: x y => [|a x IH] [|b y] //= [hs] /andP[/wordP ha hx] /andP[/wordP hb hy].
have hr := val_range hx; have hr' := val_range hy.
have h := IH y hs hx hy; apply/Z.eqb_spec/Z.eqb_spec.
- move=> /Z.lor_eq_0_iff [] /Z.lxor_eq -> /Z.eqb_spec; rewrite h => /Z.eqb_spec ->; lia.
- move=> hv; have [h1 h2] : a = b /\ val x = val y by have := W_pos; nia.
  rewrite h1 Z.lxor_nilpotent Z.lor_0_l; apply/Z.eqb_spec; rewrite h h2; exact/Z.eqb_spec.
Qed.

(** * one package *)
Record okGen (g : gen) : Prop := OkGen {
  ok_size : (1 < Limbs g)%N;
  ok_q : all word (qs g);
  ok_top : (B (Limbs g).-1 <= val (qs g))%Z;
  ok_inv : word (qInvNeg g);
  ok_neg : ((hd0 (qs g) * qInvNeg g + 1) mod W = 0)%Z;
  ok_r : [/\ size (rSquare g) = Limbs g, all word (rSquare g) & val (rSquare g) = (B (Limbs g + Limbs g) mod val (qs g))%Z];
  ok_one : [/\ size (oneM g) = Limbs g, all word (oneM g) & val (oneM g) = (B (Limbs g) mod val (qs g))%Z];
  ok_add : addCarry g || (2 * val (qs g) <=? B (Limbs g))%Z;
  ok_mul : mulCios g || (2 * val (qs g) <=? B (Limbs g))%Z
}.

Section Gen.
Variables (g : gen) (ok : okGen g).
Local Notation q := (qs g).
Local Notation n := (Limbs g).
Local Notation Q := (val (qs g)).

Lemma n_gt1 : (1 < n)%N. Proof. exact: ok_size. Qed.
Lemma n_gt0 : (0 < n)%N. Proof. exact: ltnW n_gt1. Qed.
Lemma n1_gt0 : (0 < n.-1)%N. Proof. by have := n_gt1; case: n => [|[]]. Qed.
Lemma n2E : n.-2.+1 = n.-1. Proof. by have := n_gt1; case: n => [|[]]. Qed.
Lemma n1E : n.-1.+1 = n. Proof. by rewrite prednK ?n_gt0. Qed.
Lemma q_gt0 : (0 < Q)%Z.
Proof. have := ok_top ok; have := B_gt0 n.-1; lia. Qed.
Lemma q_geW : (W <= Q)%Z.
Proof.
have := ok_top ok; have := n_gt1; case: (Limbs g) => [|[|k]] // _; rewrite [k.+2.-1]/= BS.
have := B_gt0 k; wl.
Qed.
Lemma q_lt : (Q < B n)%Z. Proof. by case: (val_range (ok_q ok)). Qed.

(** the element representation: n words *)
Definition limbs (x : seq Z) : Prop := size x = n /\ all word x.
(** reduced *)
Definition red (x : seq Z) : Prop := limbs x /\ (val x < Q)%Z.

Lemma limbs_q : limbs q. Proof. by split=> //; apply: ok_q. Qed.
Lemma limbs_range x : limbs x -> (0 <= val x < B n)%Z.
Proof. by case=> hs hw; have := val_range hw; rewrite hs. Qed.
Lemma limbs_zero : limbs (nseq n 0%Z).
Proof. by split; [rewrite size_nseq|rewrite all_nseq orbT]. Qed.
Lemma red_zero : red (nseq n 0%Z).
Proof. by split; [exact: limbs_zero|rewrite val_nseq0; exact: q_gt0]. Qed.
Lemma limbs_small v : word v -> limbs (v :: nseq n.-1 0%Z) /\ val (v :: nseq n.-1 0%Z) = v.
Proof.
move=> hv; split; last by rewrite /= val_nseq0; lia.
split=> /=; first by rewrite size_nseq prednK //; apply: ltnW n_gt1.
by rewrite hv all_nseq orbT.
Qed.
Lemma limbs_pos x : limbs x -> (0 < size x)%N.
Proof. by case=> -> _; exact: ltnW n_gt1. Qed.

Lemma limbs_inj x y : limbs x -> limbs y -> val x = val y -> x = y.
Proof. by case=> h1 h2 [h3 h4]; apply: val_inj => //; rewrite h1. Qed.

(** the subtraction modulo the weight of the list *)
Lemma sub_q z : limbs z -> limbs (subChain z q 0).1 /\
  exists b, (0 <= b <= 1)%Z /\ (val (subChain z q 0).1 = val z - Q + B n * b)%Z.
Proof.
case=> hs hz; case E: (subChain z q 0) => [w b] /=.
have [||h1 h2 h3 h4] := subChain_val _ hz (ok_q ok) _ E; [by rewrite hs|lia|].
by split; [split; rewrite ?h1|exists b; split=> //; rewrite hs in h3; lia].
Qed.
Lemma reduceP z : limbs z -> (val z < 2 * Q)%Z ->
  red (reduce g z) /\ exists k, (val (reduce g z) = val z + k * Q)%Z.
Proof.
move=> hz hlt; rewrite /reduce /smallerThanModulus; case: (hz) => hs hw.
rewrite less_val ?hs //; last exact: ok_q.
case: Z.ltb_spec => h; first by split; [split|exists 0%Z; lia].
have [h1 [b [h2 h3]]] := sub_q hz; have h4 := limbs_range h1; have h5 := limbs_range hz.
have hB := B_gt0 n; have hq := q_lt.
have hb : b = 0%Z by have [?|?] : b = 0%Z \/ b = 1%Z by [lia]; subst b => //; lia.
by rewrite hb in h3; split; [split=> //; lia|exists (-1)%Z; lia].
Qed.

(** * Add, Double, Sub, Neg *)
Lemma addWithP x y : red x -> red y -> red (addWith g x y) /\
  exists k, (val (addWith g x y) = val x + val y + k * Q)%Z.
Proof.
move=> [hx hxq] [hy hyq]; rewrite /addWith; case E: (addChain x y 0) => [z c].
have [|h1 h2 h3] := addChain_val _ E; first by case: hx hy => -> _ [->].
have h4 := @addChain_carry _ _ 0 _ _ (proj2 hx) (proj2 hy) ltac:(lia) E.
have hz : limbs z by split=> //; rewrite h1; case: hx.
rewrite (proj1 hx) in h3.
have hrx := limbs_range hx; have hry := limbs_range hy; have hrz := limbs_range hz.
have hB := B_gt0 n; have hq := q_lt.
case: ifP => hc.
  move: hc => /andP[_ /Z.eqb_spec hc].
  have hc1 : c = 1%Z by lia.
  have [h5 [b [h6 h7]]] := sub_q hz; have h8 := limbs_range h5.
  have hb : b = 1%Z by have [?|?] : b = 0%Z \/ b = 1%Z by [lia]; subst b c => //; lia.
  by subst b c; split; [split=> //; lia|exists (-1)%Z; lia].
have hc0 : c = 0%Z.
  move: hc; have := ok_add ok; case: (addCarry g) => /=; first by case: Z.eqb_spec.
  by move=> /Z.leb_le h _; have [?|?] : c = 0%Z \/ c = 1%Z by [lia]; subst c => //; lia.
rewrite hc0 in h3; have [|h5 [k h6]] := @reduceP z hz; first by lia.
by split=> //; exists k; lia.
Qed.
Lemma SubP x y : red x -> red y -> red (Sub g x y) /\ exists k, (val (Sub g x y) = val x - val y + k * Q)%Z.
Proof.
move=> [hx hxq] [hy hyq]; rewrite /Sub; case E: (subChain x y 0) => [z b].
have [||h1 h2 h3 h4] := subChain_val _ (proj2 hx) (proj2 hy) _ E; [by case: hx hy => -> _ [->]|lia|].
have hz : limbs z by split=> //; rewrite h1; case: hx.
rewrite (proj1 hx) in h3.
have hrx := limbs_range hx; have hry := limbs_range hy; have hrz := limbs_range hz.
have hB := B_gt0 n; have hq := q_lt.
case: Z.eqb_spec => hb /=; first by rewrite hb in h3; split; [split=> //; lia|exists 0%Z; lia].
have hb1 : b = 1%Z by lia.
case E1: (addChain z q 0) => [w c] /=.
have [|h5 h6 h7] := addChain_val _ E1; first by rewrite (proj1 hz).
have h8 := @addChain_carry _ _ 0 _ _ (proj2 hz) (ok_q ok) ltac:(lia) E1.
have hw : limbs w by split=> //; rewrite h5; case: hz.
rewrite (proj1 hz) in h7; have hrw := limbs_range hw.
have hc : c = 1%Z by have [?|?] : c = 0%Z \/ c = 1%Z by [lia]; subst b c => //; lia.
by subst b c; split; [split=> //; lia|exists 1%Z; lia].
Qed.
Lemma IsZeroP x : limbs x -> IsZero x = (val x =? 0)%Z.
Proof. by case=> _ hx; rewrite /IsZero lor_words_eq0. Qed.
Lemma NegP x : red x -> red (Neg g x) /\ exists k, (val (Neg g x) = - val x + k * Q)%Z.
Proof.
move=> [hx hxq]; rewrite /Neg IsZeroP //; case: Z.eqb_spec => h0.
  by split; [exact: red_zero|exists 0%Z; rewrite val_nseq0; lia].
case E: (subChain q x 0) => [z b] /=.
have [||h1 h2 h3 h4] := subChain_val _ (ok_q ok) (proj2 hx) _ E; [by case: hx => ->|lia|].
have hz : limbs z by [].
rewrite -/(Limbs g) in h3; have hrx := limbs_range hx; have hrz := limbs_range hz.
have hB := B_gt0 n; have hq := q_lt.
have hb : b = 0%Z by have [?|?] : b = 0%Z \/ b = 1%Z by [lia]; subst b => //; lia.
by subst b; split; [split=> //; lia|exists 1%Z; lia].
Qed.

(** * the Montgomery factor *)
Lemma montM t0 : word t0 -> let m := ((t0 * qInvNeg g) mod W)%Z in
  word m /\ (t0 + m * hd0 q = W * madd0 m (hd0 q) t0)%Z /\ word (madd0 m (hd0 q) t0).
Proof.
move=> ht m; have hm : word m by apply/wordP; apply: Z.mod_pos_bound.
have hq0 := word_hd (ok_q ok).
have [l [h1 /wordP h2 h3]] := madd0_val hm hq0 ht; split=> //; split=> //.
suff : l = 0%Z by lia.
have h4 : ((m * hd0 q + t0) mod W = 0)%Z.
  rewrite /m -Zplus_mod_idemp_l Zmult_mod_idemp_l Zplus_mod_idemp_l.
  have -> : (t0 * qInvNeg g * hd0 q + t0 = t0 * (hd0 q * qInvNeg g + 1))%Z by ring.
  by rewrite -Zmult_mod_idemp_r ok_neg // Z.mul_0_r.
by rewrite -h1 Z.mul_comm Z_mod_plus_full Z.mod_small in h4.
Qed.

Lemma size_behead_limbs x : limbs x -> size (behead x) = n.-1.
Proof. by case=> h _; rewrite size_behead h. Qed.

Lemma ciosReduceP ts tn D ts' tn' : limbs ts -> word tn -> (0 <= D <= 1)%Z -> ciosReduce g ts tn D = (ts', tn') ->
  [/\ limbs ts', (0 <= tn' <= 2)%Z & exists m, word m /\
   (W * (val ts' + B n * tn') = val ts + B n * tn + B n.+1 * D + m * Q)%Z].
Proof.
move=> hts htn hD; rewrite /ciosReduce.
have [hm [hC hCw]] := montM (word_hd (proj2 hts)).
move: hm hC hCw; set m := ((_ * _) mod W)%Z; set C := madd0 _ _ _ => hm hC hCw.
case E: (madd2Chain m (behead q) (behead ts) C) => [zs C1].
have [|||||h1 h2 h3 h4] := madd2Chain_val _ _ _ _ _ E => //.
- by rewrite (size_behead_limbs limbs_q) (size_behead_limbs hts).
- by apply: word_behead; apply: ok_q.
- by apply: word_behead; case: hts.
case E1: (Add64 tn C1 0) => [tl C2]; have hc2 := @Add64_carry _ _ 0 _ _ htn h3 ltac:(lia) E1.
have {E1} [h5 h6] := Add64_val E1.
case E2: (Add64 0 D C2) => [w k]; have {E2} [h7 /wordP h8] := Add64_val E2; cbn [fst] => -[<- <-].
rewrite (size_behead_limbs limbs_q) in h1 h4.
have hk : k = 0%Z by wl.
split.
- by split; [rewrite size_rcons h1 prednK //; apply: ltnW n_gt1|rewrite all_rcons h6].
- by lia.
exists m; split=> //.
rewrite val_rcons h1 (val_hd (limbs_pos hts)) (val_hd (limbs_pos limbs_q)) BS.
have hBn : B n = (W * B n.-1)%Z by rewrite -BS prednK //; apply: ltnW n_gt1.
by rewrite hBn; nia.
Qed.

(** value of an n+1 word accumulator *)
Definition acc (st : seq Z * Z) : Z := (val st.1 + B n * st.2)%Z.

Lemma Bn : B n = (W * B n.-1)%Z.
Proof. by rewrite -BS prednK //; apply: ltnW n_gt1. Qed.

Lemma ciosFirstP x v : limbs x -> word v -> [/\ limbs (ciosFirst g x v).1, word (ciosFirst g x v).2 &
  exists m, word m /\ (W * acc (ciosFirst g x v) = v * val x + m * Q)%Z].
Proof.
move=> hx hv; rewrite /ciosFirst.
case E: (Mul64 v (hd0 x)) => [C t0]; have {E} [h1 h2 h3 h4] := Mul64_val hv (word_hd (proj2 hx)) E.
case E: (madd1Chain v (behead x) C) => [ts C1].
have [|||h5 h6 h7 h8] := madd1Chain_val _ _ _ E => //; [by apply: word_behead; case: hx|by apply/wordP; lia|].
case E1: (Add64 0 C1 0) => [tn D]; have hD := @Add64_carry _ _ 0 _ _ (isT : word 0) h7 ltac:(lia) E1.
have {E1} [h9 h10] := Add64_val E1.
rewrite (size_behead_limbs hx) in h5 h8.
have hts : limbs (t0 :: ts) by split; [rewrite /= h5 prednK //; apply: ltnW n_gt1|rewrite /= h2].
case E2: (ciosReduce g (t0 :: ts) tn D) => [ts' tn'] /=.
have [h11 h12 [m [hm h13]]] := ciosReduceP hts h10 hD E2.
split=> //; first by apply/wordP; wl.
exists m; split=> //; rewrite /acc /= h13 val_cons (val_hd (limbs_pos hx)) BS Bn.
by have -> : (tn = C1 - W * D)%Z by [lia]; nia.
Qed.

Lemma ciosRoundP x st v : limbs x -> limbs st.1 -> word st.2 -> word v ->
  [/\ limbs (ciosRound g x st v).1, word (ciosRound g x st v).2 &
  exists m, word m /\ (W * acc (ciosRound g x st v) = acc st + v * val x + m * Q)%Z].
Proof.
case: st => ts tn /= hx hts htn hv; rewrite /ciosRound.
case E: (madd1 v (hd0 x) (hd0 ts)) => [C t0].
have {E} [h1 h2 h3] := madd1_val hv (word_hd (proj2 hx)) (word_hd (proj2 hts)) E.
case E: (madd2Chain v (behead x) (behead ts) C) => [zs C1].
have [|||||h5 h6 h7 h8] := madd2Chain_val _ _ _ _ _ E => //.
- by rewrite (size_behead_limbs hx) (size_behead_limbs hts).
- by apply: word_behead; case: hx.
- by apply: word_behead; case: hts.
case E1: (Add64 tn C1 0) => [tn1 D]; have hD := @Add64_carry _ _ 0 _ _ htn h7 ltac:(lia) E1.
have {E1} [h9 h10] := Add64_val E1.
rewrite (size_behead_limbs hx) in h5 h8.
have ht : limbs (t0 :: zs) by split; [rewrite /= h5 prednK //; apply: ltnW n_gt1|rewrite /= h2].
case E2: (ciosReduce g (t0 :: zs) tn1 D) => [ts' tn'] /=.
have [h11 h12 [m [hm h13]]] := ciosReduceP ht h10 hD E2.
split=> //; first by apply/wordP; wl.
exists m; split=> //; rewrite /acc /= h13 val_cons (val_hd (limbs_pos hx)) (val_hd (limbs_pos hts)) BS Bn.
by have -> : (tn1 = tn + C1 - W * D)%Z by [lia]; nia.
Qed.

(** the accumulator stays below x + q *)
Lemma step_bound (X T T' v m : Z) : (0 <= X)%Z -> (T < X + Q)%Z -> word v -> word m ->
  (W * T' = T + v * X + m * Q)%Z -> (T' < X + Q)%Z.
Proof.
move=> hX hT /wordP hv /wordP hm h; have hq := q_gt0.
have h1 : (v * X <= (W - 1) * X)%Z by apply: Z.mul_le_mono_nonneg_r; lia.
have h2 : (m * Q <= (W - 1) * Q)%Z by apply: Z.mul_le_mono_nonneg_r; lia.
wl.
Qed.

Lemma ciosLoopP x vs st : limbs x -> limbs st.1 -> word st.2 -> (acc st < val x + Q)%Z -> all word vs ->
  let r := foldl (ciosRound g x) st vs in
  [/\ limbs r.1, word r.2, (acc r < val x + Q)%Z &
      exists M, (B (size vs) * acc r = acc st + val vs * val x + M * Q)%Z].
Proof.
move=> hx; elim: vs st => [|v vs IH] st h1 h2 h3 /=.
  by move=> _; split=> //; exists 0%Z; rewrite B0; lia.
case/andP=> hv hvs; have [h4 h5 [m [hm h6]]] := ciosRoundP hx h1 h2 hv.
have h7 : (acc (ciosRound g x st v) < val x + Q)%Z.
  by apply: step_bound h6 => //; case: (limbs_range hx).
have [h8 h9 h10 [M h11]] := IH _ h4 h5 h7 hvs; split=> //.
by exists (m + W * M)%Z; rewrite BS; nia.
Qed.

Lemma mulGenericP x y : red x -> limbs y -> red (mulGeneric g x y) /\
  exists k, (B n * val (mulGeneric g x y) = val x * val y + k * Q)%Z.
Proof.
move=> [hx hxq] hy; rewrite /mulGeneric.
have [h1 h2 [m [hm h3]]] := ciosFirstP hx (word_hd (proj2 hy)).
have h4 : (acc (ciosFirst g x (hd0 y)) < val x + Q)%Z.
  apply: (@step_bound _ 0 _ (hd0 y) m) => //; [by case: (limbs_range hx)| |by apply: word_hd; case: hy].
  by have := q_gt0; have := limbs_range hx; lia.
have [] := @ciosLoopP x (behead y) _ hx h1 h2 h4 (word_behead (proj2 hy)).
case: (foldl _ _ _) => ts tn /= h5 /wordP h6 h7 [M h8].
rewrite (size_behead_limbs hy) in h8.
have h9 : (B n * acc (ts, tn) = val x * val y + (m + W * M) * Q)%Z.
  by rewrite Bn (val_hd (limbs_pos hy)); nia.
rewrite /acc /= in h7 h9.
have hr := limbs_range h5; have hB := B_gt0 n; have hq := q_lt.
case: Z.eqb_spec => ht /=.
  rewrite ht in h9; have [|h10 [k h11]] := @reduceP ts h5; first by rewrite ht in h7; lia.
  by split=> //; exists (m + W * M + B n * k)%Z; rewrite h11; nia.
have ht1 : tn = 1%Z by nia.
have [h10 [b [h11 h12]]] := sub_q h5; have h13 := limbs_range h10.
have hb : b = 1%Z by have [?|?] : b = 0%Z \/ b = 1%Z by [lia]; subst b tn => //; lia.
subst b tn; split; first by split=> //; lia.
by exists (m + W * M - B n)%Z; rewrite h12; nia.
Qed.

(** * Mul with a spare bit *)
Lemma purReduceP t c2 : limbs t -> exists m k, [/\ word m, limbs (purReduce g t c2) &
  (W * val (purReduce g t c2) + B n.+1 * k = val t + B n * c2 + m * Q)%Z].
Proof.
move=> ht; rewrite /purReduce Z.mul_comm.
have hq := limbs_q; have [hm [hC hCw]] := montM (word_hd (proj2 ht)).
move: hm hC hCw; set m := ((_ * _) mod W)%Z => hm hC hCw.
have [hu hl hwu hwl huv] := hislos_val hm (ok_q ok).
have hposq := limbs_pos hq.
have hlpos : (0 < size (los m q))%N by rewrite hl.
have hupos : (0 < size (his m q))%N by rewrite hu.
case E: (Add64 (hd0 t) (hd0 (los m q)) 0) => [lo c0].
have [h1 /wordP h2] := Add64_val E; have hc0 := @Add64_carry _ _ 0 _ _ (word_hd (proj2 ht)) (word_hd hwl) ltac:(lia) E.
have hl0 : (hd0 t + hd0 (los m q) = W * c0)%Z.
  have h3 : hd0 (los m q) = (m * hd0 q mod W)%Z by rewrite /los; case: (q) hposq.
  have h4 := Z_div_mod_eq_full (m * hd0 q) W.
  have h5 : (lo + W * (c0 + m * hd0 q / W) = 0 + W * madd0 m (hd0 q) (hd0 t))%Z by rewrite h3 in h1; lia.
  have hlo : word lo by apply/wordP.
  by have [h6 _] := W_digit hlo (isT : word 0) h5; lia.
move=> {E}; case E: (addChain _ (behead (los m q)) c0) => [t1 c1].
have hsz : size (rcons (but (behead t)) 0%Z) = n.-1.
  by rewrite size_rcons size_but (size_behead_limbs ht) n2E.
have [|h5 h6 h7] := addChain_val _ E; first by rewrite hsz size_behead hl.
rewrite {}hsz in h5 h7; move=> {E}.
case E: (Add64 (lst (his m q)) 0 c1) => [ul k1]; have {E} [h8 h9] := Add64_val E; cbn [fst].
case E: (addChain (but (his m q)) t1 0) => [t2 c3].
have [|h10 h11 h12] := addChain_val _ E; first by rewrite size_but hu h5.
rewrite size_but hu -/(Limbs g) in h10 h12; move=> {E}.
case E: (Add64 c2 0 c3) => [c4 k2]; have {E} [h13 h14] := Add64_val E; cbn [fst].
case E: (Add64 (lst t) (lst t2) 0) => [tm c5]; have {E} [h15 h16] := Add64_val E.
case E: (Add64 ul c4 c5) => [tl k3]; have {E} [h17 h18] := Add64_val E; cbn [fst].
have ht2 : (0 < size t2)%N by rewrite h10 n1_gt0.
exists m, (k1 + k2 + k3)%Z; split=> //.
  split; last by rewrite !all_rcons h18 h16 word_but.
  by rewrite !size_rcons size_but h10 n2E n1E.
rewrite !val_rcons size_rcons size_but h10.
have htb : (0 < size (behead t))%N by rewrite (size_behead_limbs ht) n1_gt0.
have e1 := val_but ht2; have e2 := val_but htb; have e3 := val_but hupos; have e4 := val_hd hlpos.
have e5 := val_hd (limbs_pos ht).
have e6 : lst (behead t) = lst t by move: htb; rewrite /lst; case: (t) => // a [].
rewrite h10 in e1; rewrite (size_behead_limbs ht) e6 in e2; rewrite hu -/(Limbs g) in e3.
rewrite val_rcons size_but (size_behead_limbs ht) Z.mul_0_r Z.add_0_r in h7.
have eB : B n.-1 = (W * B n.-2)%Z by rewrite -BS n2E.
rewrite (BS n) Bn n2E.
(* everything is now linear in the products with the weights *)
have f1 : (val t2 = val (but t2) + B n.-2 * lst t2)%Z by [].
have f2 : (tm = lst t + lst t2 - W * c5)%Z by move: h15; clear; lia.
have f3 : (tl = ul + c4 + c5 - W * k3)%Z by move: h17; clear; lia.
have f4 : (c4 = c2 + c3 - W * k2)%Z by move: h13; clear; lia.
have f5 : (ul = lst (his m q) + c1 - W * k1)%Z by move: h8; clear; lia.
have f6 : (val (but t2) = val (but (his m q)) + val t1 - B n.-1 * c3 - B n.-2 * lst t2)%Z by move: h12 e1; clear; lia.
have f7 : (val t1 = val (but (behead t)) + val (behead (los m q)) + c0 - B n.-1 * c1)%Z by move: h7; clear; lia.
rewrite e5 -huv e4 e3 e2 f2 f3 f4 f5 f6 f7 eB.
have -> : (hd0 t + W * (val (but (behead t)) + B n.-2 * lst t) + W * (W * B n.-2) * c2 +
  (hd0 (los m q) + W * val (behead (los m q)) + W * (val (but (his m q)) + W * B n.-2 * lst (his m q))) =
  W * c0 + W * (val (but (behead t)) + B n.-2 * lst t) + W * (W * B n.-2) * c2 +
  (W * val (behead (los m q)) + W * (val (but (his m q)) + W * B n.-2 * lst (his m q))))%Z by move: hl0; clear; lia.
ring.
Qed.

Lemma purFirstP y v : limbs y -> word v -> exists m k, [/\ word m, limbs (purFirst g y v) &
  (W * val (purFirst g y v) + B n.+1 * k = v * val y + m * Q)%Z].
Proof.
move=> hy hv; rewrite /purFirst.
have [hu hl hwu hwl huv] := hislos_val hv (proj2 hy); rewrite (proj1 hy) in hu hl.
have hlpos : (0 < size (los v y))%N by rewrite hl n_gt0.
have hupos : (0 < size (his v y))%N by rewrite hu n_gt0.
case E: (addChain (but (his v y)) (behead (los v y)) 0) => [t1 c0].
have [|h5 h6 h7] := addChain_val _ E; first by rewrite size_but size_behead hu hl.
rewrite size_but hu in h5 h7; move=> {E}.
case E: (Add64 (lst (his v y)) 0 c0) => [c2 k1]; have {E} [h8 h9] := Add64_val E; cbn [fst].
have ht : limbs (hd0 (los v y) :: t1).
  by split; [rewrite /= h5 prednK //; apply: ltnW n_gt1|rewrite /= word_hd].
have [m [k [h1 h2 h3]]] := purReduceP c2 ht; exists m, (k + k1)%Z; split=> //.
have e3 := val_but hupos; have e4 := val_hd hlpos; rewrite hu in e3.
rewrite val_cons in h3; rewrite -huv e3 e4; rewrite BS Bn in h3 *.
have f1 : (c2 = lst (his v y) + c0 - W * k1)%Z by move: h8; clear; lia.
have f2 : (val t1 = val (but (his v y)) + val (behead (los v y)) - B n.-1 * c0)%Z by move: h7; clear; lia.
have -> : (W * val (purReduce g (hd0 (los v y) :: t1) c2) + W * (W * B n.-1) * (k + k1) =
  (W * val (purReduce g (hd0 (los v y) :: t1) c2) + W * (W * B n.-1) * k) + W * (W * B n.-1) * k1)%Z by ring.
by rewrite h3 f1 f2; ring.
Qed.

Lemma purRoundP y t v : limbs y -> limbs t -> word v -> exists m k, [/\ word m, limbs (purRound g y t v) &
  (W * val (purRound g y t v) + B n.+1 * k = val t + v * val y + m * Q)%Z].
Proof.
move=> hy ht hv; rewrite /purRound.
have [hu hl hwu hwl huv] := hislos_val hv (proj2 hy); rewrite (proj1 hy) in hu hl.
have hlpos : (0 < size (los v y))%N by rewrite hl n_gt0.
have hupos : (0 < size (his v y))%N by rewrite hu n_gt0.
case E: (addChain (los v y) t 0) => [t0 c0].
have [|h5 h6 h7] := addChain_val _ E; first by rewrite hl (proj1 ht).
rewrite hl in h5 h7; move=> {E}.
case E: (Add64 0 0 c0) => [c2 k0]; have {E} [h8 h9] := Add64_val E; cbn [fst].
case E: (addChain (but (his v y)) (behead t0) 0) => [t1 c1].
have [|h10 h11 h12] := addChain_val _ E; first by rewrite size_but size_behead hu h5.
rewrite size_but hu in h10 h12; move=> {E}.
case E: (Add64 (lst (his v y)) c2 c1) => [c3 k1]; have {E} [h13 h14] := Add64_val E; cbn [fst].
have ht1 : limbs (hd0 t0 :: t1).
  by split; [rewrite /= h10 prednK //; apply: ltnW n_gt1|rewrite /= word_hd].
have [m [k [h1 h2 h3]]] := purReduceP c3 ht1; exists m, (k + k1 + k0)%Z; split=> //.
have ht0 : (0 < size t0)%N by rewrite h5 n_gt0.
have e3 := val_but hupos; have e4 := val_hd ht0; rewrite hu in e3.
rewrite val_cons in h3; rewrite BS Bn in h3 *; rewrite Bn in h7.
have f1 : (c3 = lst (his v y) + c2 + c1 - W * k1)%Z by move: h13; clear; lia.
have f2 : (c2 = c0 - W * k0)%Z by move: h8; clear; lia.
have f3 : (val t1 = val (but (his v y)) + val (behead t0) - B n.-1 * c1)%Z by move: h12; clear; lia.
have f4 : (val t = val t0 + W * B n.-1 * c0 - val (los v y))%Z by move: h7; clear; lia.
have -> : (W * val (purReduce g (hd0 t0 :: t1) c3) + W * (W * B n.-1) * (k + k1 + k0) =
  (W * val (purReduce g (hd0 t0 :: t1) c3) + W * (W * B n.-1) * k) + W * (W * B n.-1) * (k1 + k0))%Z by ring.
by rewrite h3 f4 -huv e4 e3 f1 f2 f3; ring.
Qed.

(** no carry is lost as long as the accumulator is below 2q and q has a spare bit *)
Hypothesis spare : (2 * Q <= B n)%Z.
Lemma pur_exact Y T v m r k : (0 <= Y < Q)%Z -> (0 <= T < 2 * Q)%Z -> word v -> word m -> limbs r ->
  (W * val r + B n.+1 * k = T + v * Y + m * Q)%Z -> (W * val r = T + v * Y + m * Q /\ val r < 2 * Q)%Z.
Proof.
move=> hY hT /wordP hv /wordP hm hr h; have hrr := limbs_range hr; have hq := q_gt0.
have h1 : (v * Y <= (W - 1) * Y)%Z by apply: Z.mul_le_mono_nonneg_r; lia.
have h2 : (m * Q <= (W - 1) * Q)%Z by apply: Z.mul_le_mono_nonneg_r; lia.
have h3 : (0 <= v * Y)%Z by apply: Z.mul_nonneg_nonneg; lia.
have h4 : (0 <= m * Q)%Z by apply: Z.mul_nonneg_nonneg; lia.
have h5 : (T + v * Y + m * Q < W * (2 * Q))%Z by wl.
have hk : k = 0%Z.
  rewrite BS in h; have hB := B_gt0 n.
  have [?|[?|?]] : (k <= -1 \/ k = 0 \/ 1 <= k)%Z by lia.
  - have : (B n * k <= B n * -1)%Z by apply: Z.mul_le_mono_nonneg_l; lia.
    wl.
  - by [].
  - have : (B n * 1 <= B n * k)%Z by apply: Z.mul_le_mono_nonneg_l; lia.
    wl.
by subst k; split; wl.
Qed.

Lemma purLoopP y vs t : red y -> limbs t -> (val t < 2 * Q)%Z -> all word vs ->
  let r := foldl (purRound g y) t vs in
  [/\ limbs r, (val r < 2 * Q)%Z & exists M, (B (size vs) * val r = val t + val vs * val y + M * Q)%Z].
Proof.
move=> [hy hyq]; elim: vs t => [|v vs IH] t h1 h2 /=.
  by move=> _; split=> //; exists 0%Z; rewrite B0; lia.
case/andP=> hv hvs; have [m [k [hm h4 h5]]] := purRoundP hy h1 hv.
have hry := limbs_range hy; have hrt := limbs_range h1.
have [h6 h7] := @pur_exact (val y) (val t) v m _ k ltac:(lia) ltac:(lia) hv hm h4 h5.
have [h8 h10 [M h11]] := IH _ h4 h7 hvs; split=> //.
by exists (m + W * M)%Z; rewrite BS; nia.
Qed.

Lemma mulPureP x y : limbs x -> red y -> red (mulPure g x y) /\
  exists k, (B n * val (mulPure g x y) = val x * val y + k * Q)%Z.
Proof.
move=> hx [hy hyq]; rewrite /mulPure.
have hx0 := word_hd (proj2 hx); have hry := limbs_range hy; have hq := q_gt0.
have [m [k [hm h1 h2]]] := purFirstP hy hx0.
have [h3 h4] := @pur_exact (val y) 0 (hd0 x) m _ k ltac:(lia) ltac:(lia) hx0 hm h1 h2.
have [h5 h6 [M h7]] := @purLoopP y (behead x) _ (conj hy hyq) h1 h4 (word_behead (proj2 hx)).
have [h8 [k' h9]] := reduceP h5 h6; split=> //.
exists (m + W * M + B n * k')%Z; rewrite h9 (val_hd (limbs_pos hx)).
rewrite (size_behead_limbs hx) in h7; rewrite Bn; nia.
Qed.
End Gen.
