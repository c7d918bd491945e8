(** The inner loop of Inverse: what 31 steps on the approximations do to the numbers they
    stand for. *)
From Coq Require Import ZArith Znumtheory Lia Psatz.
From mathcomp Require Import all_ssreflect zify ssrZ.
From Verif Require Import JindoIntModel ZpModel ZpProofs.
Set Implicit Arguments. Unset Strict Implicit. Unset Printing Implicit Defensive.
Delimit Scope Z_scope with Z.
Local Arguments Z.mul : simpl never.
Local Arguments Z.add : simpl never.
Local Arguments Z.sub : simpl never.
Local Arguments Z.div : simpl never.
Local Arguments Z.modulo : simpl never.
Local Arguments Z.pow : simpl never.
Local Arguments Z.of_nat : simpl never.
Local Arguments Z.lor : simpl never.
Local Arguments Z.shiftl : simpl never.
Local Arguments Z.shiftr : simpl never.
Local Arguments Z.land : simpl never.

(** * int64 *)
Lemma toInt64_eq x y : (exists k, x = y + k * W)%Z -> toInt64 x = toInt64 y.
Proof.
case=> k ->; rewrite /toInt64; congr (_ - _)%Z.
have -> : (y + k * W + 2 ^ 63 = y + 2 ^ 63 + k * W)%Z by lia.
by rewrite Z.mod_add.
Qed.
Lemma toInt64_cong x : exists k, (toInt64 x = x + k * W)%Z.
Proof.
exists (- ((x + 2 ^ 63) / W))%Z; rewrite /toInt64.
have := Z_div_mod_eq_full (x + 2 ^ 63) W; lia.
Qed.
Lemma toInt64_sub x y : toInt64 (toInt64 x - toInt64 y) = toInt64 (x - y).
Proof.
apply: toInt64_eq; have [k ->] := toInt64_cong x; have [l ->] := toInt64_cong y.
by exists (k - l)%Z; ring.
Qed.
Lemma toInt64_dbl x : toInt64 (toInt64 x * 2) = toInt64 (x * 2).
Proof.
by apply: toInt64_eq; have [k ->] := toInt64_cong x; exists (k * 2)%Z; ring.
Qed.
(** the two factors packed into one word *)
Definition pack (f g : Z) : Z := toInt64 (f + 2 ^ 32 * g).
Lemma pack_sub f g f' g' : toInt64 (pack f g - pack f' g') = pack (f - f') (g - g').
Proof. by rewrite /pack toInt64_sub; congr toInt64; ring. Qed.
Lemma pack_dbl f g : toInt64 (pack f g * 2) = pack (2 * f) (2 * g).
Proof. by rewrite /pack toInt64_dbl; congr toInt64; ring. Qed.
Lemma decomposeP f g : (- 2 ^ 31 < f <= 2 ^ 31)%Z -> (- 2 ^ 31 < g <= 2 ^ 31)%Z ->
  updateFactorsDecompose (pack f g) = (f, g).
Proof.
move=> hf hg; rewrite /updateFactorsDecompose /pack.
have -> : toInt64 (toInt64 (f + 2 ^ 32 * g) + 9223372034707292159) = toInt64 ((f + (2 ^ 31 - 1)) + 2 ^ 32 * (g + (2 ^ 31 - 1))).
  by apply: toInt64_eq; have [k ->] := toInt64_cong (f + 2 ^ 32 * g); exists k; rewrite /W; lia.
set F := (f + _)%Z; set G := (g + _)%Z.
have [k ->] := toInt64_cong (F + 2 ^ 32 * G).
have hF : (0 <= F < 2 ^ 32)%Z by rewrite /F; lia.
have hG : (0 <= G < 2 ^ 32)%Z by rewrite /G; lia.
have -> : (F + 2 ^ 32 * G + k * W = F + (G + k * 2 ^ 32) * 2 ^ 32)%Z by rewrite /W; lia.
rewrite Z.shiftr_div_pow2 // !Z.land_ones //.
rewrite Z.div_add // (Z.div_small F) // Z.add_0_l !Z.mod_add // !Z.mod_small //.
by congr (_, _); rewrite /F /G; lia.
Qed.

(** * One step on unpacked factors *)
Definition absState : Type := (Z * Z * (Z * Z) * (Z * Z))%type.
Definition absStep (st : absState) : absState :=
  let: (A, B, (f0, g0), (f1, g1)) := st in
  if Z.even A then ((A / 2)%Z, B, (f0, g0), (2 * f1, 2 * g1)%Z)
  else if (A <? B)%Z then (((B - A) / 2)%Z, A, (f1 - f0, g1 - g0)%Z, (2 * f0, 2 * g0)%Z)
  else (((A - B) / 2)%Z, B, (f0 - f1, g0 - g1)%Z, (2 * f1, 2 * g1)%Z).
Definition conc (st : absState) : Z * Z * Z * Z :=
  let: (A, B, (f0, g0), (f1, g1)) := st in (A, B, pack f0 g0, pack f1 g1).

Lemma land1 a : (Z.land a 1 =? 0)%Z = Z.even a.
Proof.
have -> : Z.land a 1 = (a mod 2)%Z by rewrite -(Z.land_ones a 1).
by rewrite Zmod_even; case: (Z.even a).
Qed.
Lemma absStepP st i : (0 <= st.1.1.1 < W)%Z -> (0 <= st.1.1.2 < W)%Z ->
  innerStep (conc st) i = conc (absStep st).
Proof.
case: st => [[[A B] [f0 g0]] [f1 g1]] /= hA hB; rewrite land1 /absStep.
case: ifP => _ /=; first by rewrite pack_dbl.
rewrite /Sub64; case: (Z.ltb_spec A B) => h.
- have -> : (A - B - 0 <? 0)%Z by apply/Z.ltb_lt; lia.
  by rewrite /= pack_sub pack_dbl Z.mod_small //; lia.
- have -> : (A - B - 0 <? 0)%Z = false by apply/Z.ltb_ge; lia.
  by rewrite /= pack_sub pack_dbl Z.sub_0_r Z.mod_small //; lia.
Qed.

(** * The invariant *)
Section Inner.
Variables (a b A0 B0 c E : Z).
Hypothesis hc : (0 <= c)%Z.
Hypothesis hE : (0 <= E)%Z.
Hypothesis ha : (0 <= a)%Z.
Hypothesis hb : (0 <= b)%Z.
Hypothesis hA0 : (0 <= A0 < W)%Z.
Hypothesis hB0 : (0 <= B0 < W)%Z.
Hypothesis oB0 : Z.odd B0.
Hypothesis eA : (Z.abs (a - c * A0) <= E)%Z.
Hypothesis eB : (Z.abs (b - c * B0) <= E)%Z.
Hypothesis mA : exists k, (a = A0 + k * 2 ^ 31)%Z.
Hypothesis mB : exists k, (b = B0 + k * 2 ^ 31)%Z.

(** what the numbers cannot exceed once an approximate comparison has been wrong *)
Definition small : Z := (c * Z.min A0 B0 + E)%Z.

Record inner (j : nat) (st : absState) (x y : Z) : Prop := Inner {
  in_A : (0 <= st.1.1.1 < W)%Z;
  in_B : (0 <= st.1.1.2 < W)%Z;
  in_odd : Z.odd st.1.1.2;
  in_eA : (2 ^ Z.of_nat j * st.1.1.1 = st.1.2.1 * A0 + st.1.2.2 * B0)%Z;
  in_eB : (2 ^ Z.of_nat j * st.1.1.2 = st.2.1 * A0 + st.2.2 * B0)%Z;
  in_ex : (2 ^ Z.of_nat j * x = st.1.2.1 * a + st.1.2.2 * b)%Z;
  in_ey : (2 ^ Z.of_nat j * y = st.2.1 * a + st.2.2 * b)%Z;
  in_mx : exists k, (x = st.1.1.1 + k * 2 ^ (31 - Z.of_nat j))%Z;
  in_my : exists k, (y = st.1.1.2 + k * 2 ^ (31 - Z.of_nat j))%Z;
  in_r0 : (Z.abs st.1.2.1 + Z.abs st.1.2.2 <= 2 ^ Z.of_nat j)%Z;
  in_r1 : (Z.abs st.2.1 + Z.abs st.2.2 <= 2 ^ Z.of_nat j)%Z;
  in_l0 : (- 2 ^ Z.of_nat j < st.1.2.1)%Z /\ (- 2 ^ Z.of_nat j < st.1.2.2)%Z;
  in_l1 : (- 2 ^ Z.of_nat j < st.2.1)%Z /\ (- 2 ^ Z.of_nat j < st.2.2)%Z;
  in_p : (st.1.1.1 * st.1.1.2 * 2 ^ Z.of_nat j <= A0 * B0)%Z;
  in_min : (Z.min st.1.1.1 st.1.1.2 <= Z.min A0 B0)%Z;
  in_max : (Z.max st.1.1.1 st.1.1.2 <= Z.max A0 B0)%Z;
  in_reg : (0 <= x /\ 0 <= y /\ x * y * 2 ^ Z.of_nat j <= a * b)%Z \/ (Z.abs x <= small /\ Z.abs y <= small)%Z;
  in_oy : Z.odd y;
  in_z : a = 0%Z -> A0 = 0%Z -> st.1.1.1 = 0%Z /\ x = 0%Z
}.

Lemma inner0 : inner 0 (A0, B0, (1, 0)%Z, (0, 1)%Z) a b.
Proof.
constructor; rewrite -?[(2 ^ Z.of_nat 0)%Z]/1%Z /= ?Z.mul_1_l; try lia; try done.
case: mB => k ->; rewrite Z.odd_add Z.odd_mul oB0.
by rewrite (_ : Z.odd (2 ^ 31) = false) ?andbF.
Qed.

(** the numbers stay near the scaled approximations *)
Lemma near J f g x A : (0 < J)%Z -> (J * A = f * A0 + g * B0)%Z -> (J * x = f * a + g * b)%Z ->
  (Z.abs f + Z.abs g <= J)%Z -> (Z.abs (x - c * A) <= E)%Z.
Proof.
move=> hJ h1 h2 h3.
have h4 : (J * (x - c * A) = f * (a - c * A0) + g * (b - c * B0))%Z by nia.
have h5 : (J * Z.abs (x - c * A) <= Z.abs f * E + Z.abs g * E)%Z.
  have -> : (J * Z.abs (x - c * A) = Z.abs (J * (x - c * A)))%Z by rewrite Z.abs_mul; lia.
  rewrite h4; apply: Z.le_trans (Z.abs_triangle _ _) _; rewrite !Z.abs_mul.
  by apply: Z.add_le_mono; apply: Z.mul_le_mono_nonneg_l; lia.
have h6 : (J * Z.abs (x - c * A) <= J * E)%Z by nia.
by move: h6; rewrite -Z.mul_le_mono_pos_l.
Qed.
Lemma inner_near j st x y : inner j st x y ->
  (Z.abs (x - c * st.1.1.1) <= E)%Z /\ (Z.abs (y - c * st.1.1.2) <= E)%Z.
Proof.
move=> h; have hJ : (0 < 2 ^ Z.of_nat j)%Z by apply: Z.pow_pos_nonneg; lia.
by split; [apply: near hJ (in_eA h) (in_ex h) (in_r0 h)|apply: near hJ (in_eB h) (in_ey h) (in_r1 h)].
Qed.

Lemma odd_low j v V : (j < 31)%N -> (exists k, v = V + k * 2 ^ (31 - Z.of_nat j))%Z -> Z.odd v = Z.odd V.
Proof.
move=> hj [k ->]; rewrite Z.odd_add Z.odd_mul Z.odd_pow; first by rewrite andbF; case: (Z.odd V).
by lia.
Qed.
Lemma inner_swap j A B r0 r1 x y : (j < 31)%N -> Z.odd A -> inner j (A, B, r0, r1) x y -> inner j (B, A, r1, r0) y x.
Proof.
move=> hj oA [h1 h2 h3 h4 h5 h6 h7 h8 h9 h10 h11 h12 h13 h14 h15 h16 h17 h18 h19]; constructor=> //=.
- by move: h14 => /=; rewrite (Z.mul_comm B).
- by rewrite Z.min_comm.
- by rewrite Z.max_comm.
- by case: h17 => [[u [v w]]|[u v]]; [left; rewrite (Z.mul_comm y)|right].
- by rewrite (odd_low hj h8).
- by move=> e1 e2; case: (h19 e1 e2) => /= e3; rewrite e3 in oA.
Qed.
Lemma inner_even j A B r0 r1 x y : (j < 31)%N -> Z.even A -> inner j (A, B, r0, r1) x y ->
  exists x', inner j.+1 ((A / 2)%Z, B, r0, (2 * r1.1, 2 * r1.2)%Z) x' y.
Proof.
case: r0 r1 => [f0 g0] [f1 g1] hj oA [/= h1 h2 h3 h4 h5 h6 h7 [k h8] [l h9] h10 h11 h12 h13 h14 h15 h16 h17 h18 h19].
have eJ : (2 ^ Z.of_nat j.+1 = 2 * 2 ^ Z.of_nat j)%Z by rewrite Nat2Z.inj_succ Z.pow_succ_r; clear; lia.
have eR : (2 ^ (31 - Z.of_nat j) = 2 * 2 ^ (31 - Z.of_nat j.+1))%Z.
  by rewrite -Z.pow_succ_r; [congr Z.pow|]; clear -hj; lia.
have hJ : (0 < 2 ^ Z.of_nat j)%Z by apply: Z.pow_pos_nonneg; clear; lia.
case/Zeven_bool_iff/Zeven_ex: oA => A' eA'; rewrite eR in h8 h9.
have -> : (A / 2 = A')%Z by rewrite eA' Z.mul_comm Z.div_mul.
have [R eR0] : exists R, (2 ^ (31 - Z.of_nat j.+1) = R)%Z by eexists.
have [J eJ0] : exists J, (2 ^ Z.of_nat j = J)%Z by eexists.
rewrite eR0 in eR h8 h9; rewrite eJ0 in eJ hJ h4 h5 h6 h7 h10 h11 h12 h13 h14 h17.
have ex : (x = 2 * (A' + k * R))%Z by clear -h8 eA'; lia.
exists (A' + k * R)%Z; constructor; rewrite /= ?eJ ?eR0.
- clear -h1 eA'; lia.
- exact: h2.
- exact: h3.
- clear -h4 eA'; lia.
- clear -h5; lia.
- clear -h6 ex; rewrite -h6 ex; ring.
- clear -h7; lia.
- by exists k.
- by exists (2 * l)%Z; rewrite h9; ring.
- clear -h10 hJ; lia.
- clear -h11; lia.
- clear -h12 hJ; lia.
- clear -h13; lia.
- clear -h14 eA'; rewrite eA' in h14; lia.
- clear -h15 eA' h1; lia.
- clear -h16 eA' h1; lia.
- case: h17 => [[u [v w]]|[u v]]; [left|right; clear -u v ex; lia].
  split; [clear -u ex; lia|split; [exact: v|]].
  by rewrite ex in w; move: (A' + k * R)%Z w => z; clear; lia.
- exact: h18.
- move=> e1 e2; case: (h19 e1 e2) => e3 e4; clear -e3 e4 ex eA'; lia.
Qed.
Lemma inner_sub j A B r0 r1 x y : (j < 31)%N -> Z.odd A -> (B <= A)%Z -> inner j (A, B, r0, r1) x y ->
  exists x', inner j.+1 (((A - B) / 2)%Z, B, (r0.1 - r1.1, r0.2 - r1.2)%Z, (2 * r1.1, 2 * r1.2)%Z) x' y.
Proof.
case: r0 r1 => [f0 g0] [f1 g1] hj oA hBA hin; have [/= n1 n2] := inner_near hin.
move: hin => [/= h1 h2 h3 h4 h5 h6 h7 [k h8] [l h9] h10 h11 h12 h13 h14 h15 h16 h17 h18 h19].
have eJ : (2 ^ Z.of_nat j.+1 = 2 * 2 ^ Z.of_nat j)%Z by rewrite Nat2Z.inj_succ Z.pow_succ_r; clear; lia.
have eR : (2 ^ (31 - Z.of_nat j) = 2 * 2 ^ (31 - Z.of_nat j.+1))%Z.
  by rewrite -Z.pow_succ_r; [congr Z.pow|]; clear -hj; lia.
have hJ : (0 < 2 ^ Z.of_nat j)%Z by apply: Z.pow_pos_nonneg; clear; lia.
have [D eD] : exists D, (A - B = 2 * D)%Z.
  by case/Zodd_bool_iff/Zodd_ex: oA => u ->; case/Zodd_bool_iff/Zodd_ex: h3 => v ->; exists (u - v)%Z; clear; lia.
have -> : ((A - B) / 2 = D)%Z by rewrite eD Z.mul_comm Z.div_mul.
rewrite eR in h8 h9.
have [R eR0] : exists R, (2 ^ (31 - Z.of_nat j.+1) = R)%Z by eexists.
have [J eJ0] : exists J, (2 ^ Z.of_nat j = J)%Z by eexists.
rewrite eR0 in eR h8 h9; rewrite eJ0 in eJ hJ h4 h5 h6 h7 h10 h11 h12 h13 h14 h17.
have ex : (x - y = 2 * (D + (k - l) * R))%Z by clear -h8 h9 eD; lia.
exists (D + (k - l) * R)%Z; constructor; rewrite /= ?eJ ?eR0.
- clear -h1 h2 eD hBA; lia.
- exact: h2.
- exact: h3.
- have -> : (2 * J * D = J * A - J * B)%Z by rewrite -Z.mul_sub_distr_l eD; ring.
  by rewrite h4 h5; ring.
- clear -h5; lia.
- have -> : (2 * J * (D + (k - l) * R) = J * (x - y))%Z by rewrite ex; ring.
  by rewrite Z.mul_sub_distr_l h6 h7; ring.
- clear -h7; lia.
- by exists (k - l)%Z.
- by exists (2 * l)%Z; rewrite h9; ring.
- clear -h10 h11; lia.
- clear -h11; lia.
- clear -h12 h11; lia.
- clear -h13; lia.
- have h : ((A - B) * B * J <= A * B * J)%Z.
    by apply: Z.mul_le_mono_nonneg_r; [clear -hJ; lia|]; apply: Z.mul_le_mono_nonneg_r; clear -h2; lia.
  by apply: Z.le_trans h14; apply: Z.le_trans h; rewrite eD; clear; lia.
- clear -h15 h2 h1 hBA; lia.
- clear -h16 h2 h1 hBA eD; lia.
- have hs : small = (c * Z.min A0 B0 + E)%Z by [].
  have hcB : (c * B <= c * Z.min A0 B0)%Z by apply: Z.mul_le_mono_nonneg_l; clear -hc h15 hBA; lia.
  case: h17 => [[u [v w]]|[u v]]; last by right; clear -u v ex; lia.
  case: (Z.le_gt_cases y x) => hxy.
  - left; split; [clear -hxy ex; lia|split; [exact: v|]].
    have h : ((x - y) * y * J <= x * y * J)%Z.
      by apply: Z.mul_le_mono_nonneg_r; [clear -hJ; lia|]; apply: Z.mul_le_mono_nonneg_r; clear -v; lia.
    by apply: Z.le_trans w; apply: Z.le_trans h; rewrite ex; move: (D + (k - l) * R)%Z; clear; lia.
  - right; clear -hs hcB hxy n2 u v ex; lia.
- exact: h18.
- by move=> e1 e2; case: (h19 e1 e2) => e3; rewrite e3 in oA.
Qed.
Lemma inner_step j st x y : (j < 31)%N -> inner j st x y -> exists x' y', inner j.+1 (absStep st) x' y'.
Proof.
case: st => [[[A B] [f0 g0]] [f1 g1]] hj h; rewrite /absStep; case: ifP => hA.
  by have [x' h'] := inner_even hj hA h; exists x', y.
have oA : Z.odd A by rewrite -Z.negb_even hA.
case: (Z.ltb_spec A B) => hAB; last by have [x' h'] := inner_sub hj oA hAB h; exists x', y.
have oB : Z.odd B by case: h.
by have [|x' h'] := inner_sub hj oB _ (inner_swap hj oA h); [lia|exists x', x].
Qed.
Lemma inner_fold l j st x y : (j + size l <= 31)%N -> inner j st x y ->
  exists st' x' y', inner (j + size l) st' x' y' /\ foldl innerStep (conc st) l = conc st'.
Proof.
elim: l j st x y => [|i l IH] j st x y /= hj h; first by exists st, x, y; rewrite addn0.
have [|x' [y' h']] := inner_step _ h; first by lia.
rewrite absStepP; [|exact: in_A h|exact: in_B h].
by have [|st' [x2 [y2]]] := IH _ _ _ _ _ h'; [lia|rewrite addSnnS; exists st', x2, y2].
Qed.

(** * After 31 steps *)
Theorem inner31 : exists A B f0 g0 f1 g1 x y,
  foldl innerStep (A0, B0, 1%Z, (2 ^ 32)%Z) (iota 0 31) = (A, B, pack f0 g0, pack f1 g1) /\
  inner 31 (A, B, (f0, g0), (f1, g1)) x y.
Proof.
have [|st [x [y [h1 h2]]]] := @inner_fold (iota 0 31) 0 _ _ _ _ inner0; first by rewrite size_iota.
case: st h1 h2 => [[[A B] [f0 g0]] [f1 g1]] h1 h2.
by exists A, B, f0, g0, f1, g1, x, y; split; [exact: h2|rewrite size_iota in h1; exact: h1].
Qed.
End Inner.

(** * One pass of the outer loop, on numbers *)

(** approximate: the 31 lowest and the 33 highest of n bits *)
Definition apx (v : Z) (n : nat) : Z :=
  if (n <= 64)%N then v else (2 ^ 31 * (v / 2 ^ (Z.of_nat n - 33)) + v mod 2 ^ 31)%Z.

Lemma apx_odd v n : Z.odd (apx v n) = Z.odd v.
Proof.
rewrite /apx; case: ifP => // _; rewrite Z.odd_add Z.odd_mul (_ : Z.odd (2 ^ 31) = false) //=.
rewrite {2}(Z_div_mod_eq_full v (2 ^ 31)) Z.odd_add Z.odd_mul (_ : Z.odd (2 ^ 31) = false) //.
Qed.
Lemma apx_cong v n : exists k, (v = apx v n + k * 2 ^ 31)%Z.
Proof.
rewrite /apx; case: ifP => _; first by exists 0%Z; lia.
exists (v / 2 ^ 31 - v / 2 ^ (Z.of_nat n - 33))%Z; have := Z_div_mod_eq_full v (2 ^ 31); lia.
Qed.
Lemma apx_near v n c : (64 < n)%N -> (0 <= v < 2 ^ Z.of_nat n)%Z -> (c = 2 ^ (Z.of_nat n - 64))%Z ->
  (0 <= apx v n < W)%Z /\ (Z.abs (v - c * apx v n) <= c * 2 ^ 31)%Z.
Proof.
move=> hn hv hc; rewrite /apx leqNgt hn /=.
have hc0 : (0 < c)%Z by rewrite hc; apply: Z.pow_pos_nonneg; lia.
have eE : (2 ^ (Z.of_nat n - 33) = c * 2 ^ 31)%Z by rewrite hc -Z.pow_add_r; [congr Z.pow|..]; lia.
have eN : (2 ^ Z.of_nat n = c * 2 ^ 31 * 2 ^ 33)%Z by rewrite -eE -Z.pow_add_r; [congr Z.pow|..]; lia.
rewrite eE; rewrite eN in hv; have hE : (0 < c * 2 ^ 31)%Z by lia.
have h1 := Z_div_mod_eq_full v (c * 2 ^ 31); have h2 := Z.mod_pos_bound v (c * 2 ^ 31) hE.
have h3 := Z.mod_pos_bound v (2 ^ 31) (erefl : (0 < 2 ^ 31)%Z).
have h4 : (0 <= v / (c * 2 ^ 31) < 2 ^ 33)%Z.
  by split; [apply: Z.div_pos; lia|apply: Z.div_lt_upper_bound; lia].
move: (v / (c * 2 ^ 31))%Z (v mod (c * 2 ^ 31))%Z (v mod 2 ^ 31)%Z h1 h2 h3 h4 => d r lo h1 h2 h3 h4.
split; first by rewrite /W; lia.
have h5 : (0 <= c * lo <= c * 2 ^ 31)%Z by split; [apply: Z.mul_nonneg_nonneg|apply: Z.mul_le_mono_nonneg_l]; lia.
have -> : (v - c * (2 ^ 31 * d + lo) = r - c * lo)%Z by rewrite h1; ring.
move: h5 h2; clear; lia.
Qed.

Lemma progress_far (N E a b x y c A B A0 B0 : Z) : (0 < E)%Z -> (N = 2 ^ 33 * E)%Z -> (0 <= c)%Z ->
  (0 <= a < N)%Z -> (0 <= b < N)%Z -> (N <= 2 * Z.max a b)%Z -> (16 * E <= Z.min a b)%Z ->
  (0 <= A)%Z -> (0 <= B)%Z -> (c * A <= N)%Z -> (c * B <= N)%Z -> (0 <= A0)%Z -> (0 <= B0)%Z ->
  (c * A0 <= a + E)%Z -> (c * B0 <= b + E)%Z -> (A * B * 2 ^ 31 <= A0 * B0)%Z ->
  (Z.abs x <= c * A + E)%Z -> (Z.abs y <= c * B + E)%Z -> (2 * Z.abs (x * y) <= a * b)%Z.
Proof.
move=> hE hN hc ha hb hM hm hA hB hcA hcB hA0 hB0 h1 h2 h3 h4 h5.
have hcA0 : (0 <= c * A)%Z by apply: Z.mul_nonneg_nonneg.
have hcB0 : (0 <= c * B)%Z by apply: Z.mul_nonneg_nonneg.
have g1 : (8 * (N * E) <= a * b)%Z.
  have e : (a * b = Z.max a b * Z.min a b)%Z by clear; case: (Z.max_spec a b) (Z.min_spec a b); nia.
  have : (N * (16 * E) <= 2 * Z.max a b * Z.min a b)%Z by apply: Z.mul_le_mono_nonneg; lia.
  by rewrite e; clear; lia.
have g2 : (c * A * (c * B) * 2 ^ 31 <= (a + E) * (b + E))%Z.
  have : (c * A0 * (c * B0) <= (a + E) * (b + E))%Z by apply: Z.mul_le_mono_nonneg => //; apply: Z.mul_nonneg_nonneg.
  have : (c * c * (A * B * 2 ^ 31) <= c * c * (A0 * B0))%Z by apply: Z.mul_le_mono_nonneg_l => //; apply: Z.mul_nonneg_nonneg.
  clear; lia.
have g3 : (Z.abs (x * y) <= (c * A + E) * (c * B + E))%Z.
  by rewrite Z.abs_mul; apply: Z.mul_le_mono_nonneg; lia.
have g4 : (a * E <= N * E)%Z by apply: Z.mul_le_mono_nonneg_r; lia.
have g5 : (b * E <= N * E)%Z by apply: Z.mul_le_mono_nonneg_r; lia.
have g6 : (c * A * E <= N * E)%Z by apply: Z.mul_le_mono_nonneg_r; lia.
have g7 : (c * B * E <= N * E)%Z by apply: Z.mul_le_mono_nonneg_r; lia.
have g8 : (E * E <= N * E)%Z by apply: Z.mul_le_mono_nonneg_r; lia.
have g0 : (0 <= N * E)%Z by apply: Z.mul_nonneg_nonneg; lia.
have g9 : ((c * A + E) * (c * B + E) = c * A * (c * B) + c * A * E + c * B * E + E * E)%Z by ring.
have g10 : ((a + E) * (b + E) = a * b + a * E + b * E + E * E)%Z by ring.
rewrite g9 in g3; rewrite g10 in g2.
move: (a * b)%Z (a * E)%Z (b * E)%Z (c * A * E)%Z (c * B * E)%Z (E * E)%Z (N * E)%Z (c * A * (c * B))%Z (Z.abs (x * y)) g0 g1 g2 g3 g4 g5 g6 g7 g8.
clear; lia.
Qed.

Definition passed (a b : Z) (n : nat) : Prop :=
  exists f0 g0 f1 g1 x y, [/\
    exists A B, foldl innerStep (apx a n, apx b n, 1%Z, (2 ^ 32)%Z) (iota 0 31) = (A, B, pack f0 g0, pack f1 g1),
    (- 2 ^ 31 < f0 <= 2 ^ 31 /\ - 2 ^ 31 < g0 <= 2 ^ 31 /\ Z.abs f0 + Z.abs g0 <= 2 ^ 31)%Z,
    (- 2 ^ 31 < f1 <= 2 ^ 31 /\ - 2 ^ 31 < g1 <= 2 ^ 31 /\ Z.abs f1 + Z.abs g1 <= 2 ^ 31)%Z,
    (2 ^ 31 * x = f0 * a + g0 * b)%Z /\ (2 ^ 31 * y = f1 * a + g1 * b)%Z &
    [/\ Z.odd y, a = 0%Z -> x = 0%Z, (Z.abs x <= Z.max a b)%Z /\ (Z.abs y <= Z.max a b)%Z &
      (2 * Z.abs (x * y) <= a * b)%Z \/ (2 * Z.abs x <= Z.max a b /\ 2 * Z.abs y <= Z.max a b)%Z]].
Theorem pass (a b : Z) (n : nat) : (0 <= a)%Z -> (0 <= b)%Z -> Z.odd b ->
  (2 ^ Z.of_nat n <= 2 * Z.max a b)%Z -> (Z.max a b < 2 ^ Z.of_nat n)%Z ->
  passed a b n.
Proof.
move=> ha hb ob hM1 hM2.
have hmax f g z : (2 ^ 31 * z = f * a + g * b)%Z -> (Z.abs f + Z.abs g <= 2 ^ 31)%Z -> (Z.abs z <= Z.max a b)%Z.
  move=> e h; have h1 : (2 ^ 31 * Z.abs z <= Z.abs f * Z.max a b + Z.abs g * Z.max a b)%Z.
    have -> : (2 ^ 31 * Z.abs z = Z.abs (2 ^ 31 * z))%Z by rewrite Z.abs_mul.
    rewrite e; apply: Z.le_trans (Z.abs_triangle _ _) _; rewrite !Z.abs_mul.
    by apply: Z.add_le_mono; apply: Z.mul_le_mono_nonneg_l; clear -ha hb; lia.
  have h2 : ((Z.abs f + Z.abs g) * Z.max a b <= 2 ^ 31 * Z.max a b)%Z by apply: Z.mul_le_mono_nonneg_r; clear -ha hb h; lia.
  clear -h1 h2; lia.
have oB : Z.odd (apx b n) by rewrite apx_odd.
have zA : a = 0%Z -> apx a n = 0%Z.
  by move=> ->; rewrite /apx; case: ifP => // _; rewrite Z.div_0_l ?Z.pow_nonzero //; lia.
have fin c E : (0 <= c)%Z -> (0 <= E)%Z -> (0 <= apx a n < W)%Z -> (0 <= apx b n < W)%Z ->
    (Z.abs (a - c * apx a n) <= E)%Z -> (Z.abs (b - c * apx b n) <= E)%Z ->
    (forall A B x y, (0 <= A < W)%Z -> (0 <= B < W)%Z -> (A * B * 2 ^ 31 <= apx a n * apx b n)%Z ->
      (Z.abs (x - c * A) <= E)%Z -> (Z.abs (y - c * B) <= E)%Z ->
      (0 <= x /\ 0 <= y /\ x * y * 2 ^ 31 <= a * b)%Z \/ (Z.abs x <= small (apx a n) (apx b n) c E /\ Z.abs y <= small (apx a n) (apx b n) c E)%Z ->
      (2 * Z.abs (x * y) <= a * b)%Z \/ (2 * Z.abs x <= Z.max a b /\ 2 * Z.abs y <= Z.max a b)%Z) -> passed a b n.
  move=> hc hE hA hB eA eB hfin.
  have [A [B [f0 [g0 [f1 [g1 [x [y [h1 h2]]]]]]]]] :=
    inner31 hc hE ha hb hA hB oB eA eB (apx_cong a n) (apx_cong b n).
  have [n1 n2] := inner_near hc hE ha hb hA hB oB eA eB h2.
  case: h2; rewrite -[(2 ^ Z.of_nat 31)%Z]/(2 ^ 31)%Z /= => k1 k2 k3 k4 k5 k6 k7 k8 k9 k10 k11 k12 k13 k14 k15 k16 k17 k18 k19.
  exists f0, g0, f1, g1, x, y; split.
  - by exists A, B.
  - clear -k10 k12; lia.
  - clear -k11 k13; lia.
  - by [].
  - split=> //; [by move=> e; case: (k19 e (zA e))|by split; [apply: hmax k6 k10|apply: hmax k7 k11]|].
    exact: (hfin A B).
case: (leqP n 64) => hn.
- have hW : (2 ^ Z.of_nat n <= W)%Z by have -> : W = (2 ^ 64)%Z by []; apply: Z.pow_le_mono_r; clear -hn; lia.
  have eA : apx a n = a by rewrite /apx hn.
  have eB : apx b n = b by rewrite /apx hn.
  refine (fin 1%Z 0%Z _ _ _ _ _ _ _); rewrite ?eA ?eB; clear -ha hb hM2 hW; lia.
- set c := (2 ^ (Z.of_nat n - 64))%Z; have hc0 : (0 < c)%Z by apply: Z.pow_pos_nonneg; lia.
  have [hA eA] := @apx_near a n c hn (conj ha (ltac:(lia) : (a < 2 ^ Z.of_nat n)%Z)) erefl.
  have [hB eB] := @apx_near b n c hn (conj hb (ltac:(lia) : (b < 2 ^ Z.of_nat n)%Z)) erefl.
  have eN : (2 ^ Z.of_nat n = 2 ^ 33 * (c * 2 ^ 31))%Z.
    by rewrite /c Z.mul_comm -Z.mul_assoc -!Z.pow_add_r; [congr Z.pow|..]; lia.
  have eN2 : (2 ^ Z.of_nat n = c * W)%Z by rewrite eN /W; ring.
  move: (2 ^ Z.of_nat n)%Z hM1 hM2 eN eN2 => N hM1 hM2 eN eN2.
  refine (fin c (c * 2 ^ 31)%Z _ _ hA hB eA eB _); [clear -hc0; lia|clear -hc0; lia|].
  set E := (c * 2 ^ 31)%Z in eA eB eN *; have hE : (0 < E)%Z by rewrite /E; lia.
  move=> A B x y hA' hB' hp h1 h2 hreg.
  case: (Z.le_gt_cases (16 * E) (Z.min a b)) => hm.
  + left.
    have hcA : (c * A <= c * W)%Z by apply: Z.mul_le_mono_nonneg_l; lia.
    have hcB : (c * B <= c * W)%Z by apply: Z.mul_le_mono_nonneg_l; lia.
    have hcA0 : (0 <= c * A)%Z by apply: Z.mul_nonneg_nonneg; lia.
    have hcB0 : (0 <= c * B)%Z by apply: Z.mul_nonneg_nonneg; lia.
    apply: (@progress_far N E a b x y c A B (apx a n) (apx b n)) => //.
    * clear -hc0; lia.
    * clear -ha hM2; lia.
    * clear -hb hM2; lia.
    * clear -hA'; lia.
    * clear -hB'; lia.
    * clear -hcA eN2; lia.
    * clear -hcB eN2; lia.
    * clear -hA; lia.
    * clear -hB; lia.
    * clear -eA; lia.
    * clear -eB; lia.
    * clear -h1 hcA0; lia.
    * clear -h2 hcB0; lia.
  + case: hreg => [[hx [hy hxy]]|[hx hy]]; [left|right].
    * by rewrite Z.abs_eq; [have := Z.mul_nonneg_nonneg _ _ hx hy; clear -hxy; lia|apply: Z.mul_nonneg_nonneg].
    * have hs : (small (apx a n) (apx b n) c E <= 18 * E)%Z.
        rewrite /small; have : (c * Z.min (apx a n) (apx b n) <= Z.min a b + E)%Z; last by clear -hm; lia.
        case: (Z.min_spec a b) => -[_ ->].
        - have : (c * Z.min (apx a n) (apx b n) <= c * apx a n)%Z by apply: Z.mul_le_mono_nonneg_l; clear -hc0; lia.
          clear -eA; lia.
        - have : (c * Z.min (apx a n) (apx b n) <= c * apx b n)%Z by apply: Z.mul_le_mono_nonneg_l; clear -hc0; lia.
          clear -eB; lia.
      clear -hx hy hs hM1 eN hE; lia.
Qed.
