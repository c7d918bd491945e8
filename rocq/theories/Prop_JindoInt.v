(** C49, C53, C54, C55: the integer parts of the polynomial commitment. *)
From Coq Require Import ZArith Znumtheory.
From mathcomp Require Import all_ssreflect zify.
From Verif Require Import JindoIntModel JindoIntProofs.
Set Implicit Arguments. Unset Strict Implicit. Unset Printing Implicit Defensive.
Delimit Scope Z_scope with Z.
Local Arguments Z.mul : simpl never.
Local Arguments Z.add : simpl never.
Local Arguments Z.sub : simpl never.
Local Arguments Z.div : simpl never.
Local Arguments Z.modulo : simpl never.
Local Arguments Z.pow : simpl never.
Local Arguments Z.sqrt : simpl never.

(** * C49 *)
(** the number a little-endian word list stands for *)
Fixpoint le64 (x : seq Z) : Z := if x is a :: x' then (a + 2 ^ 64 * le64 x')%Z else 0%Z.
Definition isWord (a : Z) : Prop := (0 <= a < 2 ^ 64)%Z.

Lemma le64E x : le64 x = wval x.
Proof. by elim: x => //= a x ->. Qed.
Lemma isWords x : (forall a, List.In a x -> isWord a) -> words x.
Proof. by []. Qed.

(** divMod64 never panics for y <> 0, keeps the length, leaves words, and divides *)
Theorem C49_divMod64 (x : seq Z) (y : Z) : (forall a, List.In a x -> isWord a) -> (0 < y)%Z -> isWord y ->
  exists x' r, [/\ divMod64 x y = Some (x', r), size x' = size x, forall a, List.In a x' -> isWord a,
    le64 x' = (le64 x / y)%Z & r = (le64 x mod y)%Z].
Proof.
move=> hx hy hw; exists (dm y x).1, (dm y x).2; have [h1 h2] := dm_val x hy; split.
- by rewrite divMod64E //; case: (dm y x).
- exact: dm_size.
- exact: (dm_words hy hx).
- by rewrite !le64E.
- by rewrite le64E.
Qed.

(** it panics exactly for y = 0 *)
Theorem C49_panics (x : seq Z) : x <> [::] -> (forall a, List.In a x -> isWord a) -> divMod64 x 0 = None.
Proof. by move=> h hw; apply: divMod64_zero => // w /hw []. Qed.

Example ex_C49 : divMod64 [:: 5; 7; 1]%Z 10%Z = Some ([:: 5534023222112865485; 1844674407370955162; 0], 3)%Z /\
  le64 [:: 5; 7; 1]%Z = 340282366920938463592501815947735072773%Z.
Proof. by []. Qed.


(** * C55 *)
(** [2^fuel] iterations are enough for a modulus below 2^fuel; an absent result is the panic *)
Theorem C55_encode_parameters (p : Z) (fuel : nat) : (2 < p)%Z -> (p <= 2 ^ Z.of_nat fuel)%Z ->
  match newEncodeParameters fuel p with
  | Some (base, exp) => [/\ (base ^ Z.of_nat exp + 1 = p)%Z, exists j, exp = (2 ^ j)%N,
                           forall s, (s * s <> base)%Z & (2 <= base < 2 ^ 64)%Z]
  | None => exists base j, [/\ (base ^ (2 ^ Z.of_nat j) + 1 = p)%Z, forall s, (s * s <> base)%Z & (2 ^ 64 <= base)%Z]
  end.
Proof.
move=> hp hf; rewrite /newEncodeParameters.
have [||b [j [-> h2 h3 h4]]] := @sqrt_loopP fuel (p - 1) 0; [lia|lia|].
rewrite add0n; case: Z.ltb_spec => h.
  split; [|by exists j|done|by move: h; rewrite /W; lia].
  have -> : Z.of_nat (2 ^ j) = (2 ^ Z.of_nat j)%Z by lia.
  by rewrite h2; lia.
by exists b, j; split=> //; rewrite h2; lia.
Qed.

(** the parameters are determined by the modulus *)
Theorem C55_unique (b c : Z) (i j : nat) : (2 <= b)%Z -> (2 <= c)%Z ->
  (forall s, (s * s <> b)%Z) -> (forall s, (s * s <> c)%Z) ->
  (b ^ (2 ^ Z.of_nat i) = c ^ (2 ^ Z.of_nat j))%Z -> b = c /\ i = j.
Proof.
elim: i j => [|i IH] [|j] hb hc nb nc.
- by rewrite !Z.pow_1_r => ->.
- rewrite Z.pow_1_r Nat2Z.inj_succ Z.pow_succ_r; last exact: Nat2Z.is_nonneg.
  rewrite Z.mul_comm Z.pow_mul_r ?Z.pow_2_r //; last exact: Z.pow_nonneg.
  by move=> e; case: (nb _ (esym e)).
- rewrite Z.pow_1_r Nat2Z.inj_succ Z.pow_succ_r; last exact: Nat2Z.is_nonneg.
  rewrite Z.mul_comm Z.pow_mul_r ?Z.pow_2_r //; last exact: Z.pow_nonneg.
  by move=> e; case: (nc _ e).
rewrite !Nat2Z.inj_succ !Z.pow_succ_r; try exact: Nat2Z.is_nonneg.
rewrite !(Z.mul_comm 2) !Z.pow_mul_r ?Z.pow_2_r //; try exact: Z.pow_nonneg.
set u := (b ^ _)%Z; set v := (c ^ _)%Z => e.
have hu : (0 < u)%Z by apply: Z.pow_pos_nonneg; [lia|exact: Z.pow_nonneg].
have hv : (0 < v)%Z by apply: Z.pow_pos_nonneg; [lia|exact: Z.pow_nonneg].
by have [|-> ->] := IH j hb hc nb nc; [rewrite -/u -/v; nia|].
Qed.

(** for p = 2 the loop does not end: the square root of 1 is 1 *)
Theorem C55_two_diverges_refuted : exists p, forall fuel, newEncodeParameters fuel p = None.
Proof.
exists 2%Z => fuel; rewrite /newEncodeParameters; have -> : (2 - 1 = 1)%Z by [].
have h k : sqrt_loop fuel 1 k = None by elim: fuel k => //= n IH k.
by rewrite h.
Qed.

Example ex_C55 : newEncodeParameters 20 (12 ^ 8 + 1)%Z = Some (12%Z, 8%N) /\ newEncodeParameters 20 65537%Z = Some (2%Z, 16%N).
Proof. by []. Qed.
Example ex_C55_panic : newEncodeParameters 140 (2 ^ 129 + 2)%Z = None.
Proof. by []. Qed.

(** * C53 *)
Lemma cbE base exp : (2 <= exp)%N -> ChallengeBound base exp = (Z.min base (2 ^ (120 / Z.of_nat exp)) / 2)%Z.
Proof.
move=> h; rewrite /ChallengeBound Z.shiftl_1_l.
have h0 : (0 <= 120 / Z.of_nat exp)%Z by apply: Z.div_pos; lia.
have h1 : (120 / Z.of_nat exp <= 60)%Z by apply: Z.div_le_upper_bound; lia.
rewrite Z.mod_small //; split; first by apply: Z.pow_nonneg.
by apply: (Z.le_lt_trans _ (2 ^ 60)); [apply: Z.pow_le_mono_r|].
Qed.
Lemma cb_pos base exp : (2 <= base)%Z -> (2 <= exp <= 120)%N -> (0 < ChallengeBound base exp)%Z.
Proof.
move=> hb /andP[h1 h2]; rewrite cbE //.
have h0 : (1 <= 120 / Z.of_nat exp)%Z by apply: Z.div_le_lower_bound; lia.
have : (2 ^ 1 <= 2 ^ (120 / Z.of_nat exp))%Z by apply: Z.pow_le_mono_r.
rewrite Z.pow_1_r; move: (2 ^ _)%Z => P hP.
by apply: (Z.lt_le_trans _ 1) => //; apply: Z.div_le_lower_bound; lia.
Qed.
Lemma cb_total base exp : (2 <= exp <= 120)%N -> (2 <= base)%Z -> (ChallengeBound base exp ^ Z.of_nat exp <= 2 ^ 120)%Z.
Proof.
move=> /andP[h1 h2] hb; have hcb : (0 < ChallengeBound base exp)%Z by apply: cb_pos => //; rewrite h1.
have h0 : (0 <= 120 / Z.of_nat exp)%Z by apply: Z.div_pos; lia.
have le : (ChallengeBound base exp <= 2 ^ (120 / Z.of_nat exp))%Z.
  rewrite cbE //; have : (0 < 2 ^ (120 / Z.of_nat exp))%Z by apply: Z.pow_pos_nonneg.
  move: (2 ^ _)%Z => P hP; apply: Z.div_le_upper_bound; lia.
apply: Z.le_trans (_ : ((2 ^ (120 / Z.of_nat exp)) ^ Z.of_nat exp <= _)%Z); first by apply: Z.pow_le_mono_l; lia.
rewrite -Z.pow_mul_r //; last by lia.
apply: Z.pow_le_mono_r => //; have := Z.mul_div_le 120 (Z.of_nat exp); lia.
Qed.

Lemma encodeChallengeE base exp c : (0 < ChallengeBound base exp)%Z ->
  encodeChallenge base exp c = Some [seq chalDigit (ChallengeBound base exp)
     ((le64 c / ChallengeBound base exp ^ Z.of_nat i) mod ChallengeBound base exp)%Z | i <- iota 0 exp].
Proof. by move=> h; rewrite /encodeChallenge; have [c' [-> _]] := chal_steps h exp 0 c [::]; rewrite /= le64E. Qed.

(** what the challenge polynomial contains: [exp] integers, each at most half the bound, and
    every limb holds the residue of that same integer *)
Theorem C53_challenge (base : Z) (exp : nat) (c0 c1 : Z) : (2 <= base)%Z -> (2 <= exp <= 120)%N -> isWord c0 -> isWord c1 ->
  exists ds, [/\ encodeChallenge base exp [:: c0; c1] = Some ds, size ds = exp,
    forall d, List.In d ds -> (Z.abs d <= ChallengeBound base exp / 2)%Z &
    forall q d, (ChallengeBound base exp < q)%Z -> List.In d ds -> limbOf q d = (d mod q)%Z].
Proof.
move=> hb he h0 h1; have hcb := cb_pos hb he; set cb := ChallengeBound base exp in hcb *.
have bd d : List.In d [seq chalDigit cb ((le64 [:: c0; c1] / cb ^ Z.of_nat i) mod cb)%Z | i <- iota 0 exp] ->
    (Z.abs d <= cb / 2)%Z.
  elim: (iota 0 exp) => //= a s IH [<-|/IH //]; apply: chalDigit_bound; exact: Z.mod_pos_bound.
eexists; split; first exact: encodeChallengeE; rewrite -/cb ?size_map ?size_iota //.
move=> q d hq /bd hd; rewrite /limbOf; have hq2 : (cb / 2 <= cb)%Z by apply: Z.div_le_upper_bound; lia.
case: Z.leb_spec => h; first by rewrite Z.mod_small //; lia.
have -> : Z.rem d q = d.
  have -> : d = (- (- d))%Z by lia.
  by rewrite Z.rem_opp_l; [rewrite Z.rem_small //; lia|lia].
by rewrite -(Z.mod_add d 1); [rewrite Z.mod_small; lia|lia].
Qed.

(** every string of digits in the balanced range comes from the same number of challenges up
    to one: from the integers t, t + M, ..., where M is the number of strings *)
Theorem C53_distribution (base : Z) (exp : nat) (ds : seq Z) : (2 <= base)%Z -> (2 <= exp <= 120)%N ->
  let cb := ChallengeBound base exp in let M := (cb ^ Z.of_nat exp)%Z in
  size ds = exp -> (forall d, List.In d ds -> (cb / 2 - cb < d <= cb / 2)%Z) ->
  (M <= 2 ^ 120)%Z /\
  exists t K, [/\ (0 <= t < M)%Z, K = (2 ^ 128 / M)%Z \/ K = (2 ^ 128 / M + 1)%Z &
    forall c0 c1, isWord c0 -> isWord c1 ->
      (encodeChallenge base exp [:: c0; c1] = Some ds <-> exists k, (0 <= k < K)%Z /\ (c0 + 2 ^ 64 * c1 = t + M * k)%Z)].
Proof.
move=> hb he cb M hs hds; split; first exact: cb_total.
have hcb : (0 < cb)%Z by exact: cb_pos.
pose rs := [seq (d mod cb)%Z | d <- ds].
have hr : forall r, List.In r rs -> (0 <= r < cb)%Z.
  rewrite /rs; elim: (ds) => //= a s IH r [<-|/IH //]; exact: Z.mod_pos_bound.
have hsr : size rs = exp by rewrite size_map.
have hd2 := Z.div_mod cb 2; have hm2 := Z.mod_pos_bound cb 2.
have eds : ds = map (chalDigit cb) rs.
  rewrite /rs -map_comp; elim: (ds) hds => //= d s IH hds; rewrite -IH; last by move=> x hx; apply: hds; right.
  congr (_ :: _); have := hds d (or_introl erefl) => hd; rewrite /chalDigit.
  have [h|h] := Z.le_gt_cases 0 d.
    by rewrite Z.mod_small; [case: Z.ltb_spec; lia|lia].
  by rewrite -(Z.mod_add d 1) ?Z.mod_small; try lia; case: Z.ltb_spec; lia.
have hM : (0 < M)%Z by apply: Z.pow_pos_nonneg => //; lia.
pose t := dval cb rs; have ht : (0 <= t < M)%Z by rewrite /M -hsr; exact: dval_range.
have enc c0 c1 : isWord c0 -> isWord c1 ->
    encodeChallenge base exp [:: c0; c1] = Some ds <-> ((c0 + 2 ^ 64 * c1) mod M = t)%Z.
  rewrite /isWord => h0 h1; rewrite encodeChallengeE // -/cb.
  have -> : le64 [:: c0; c1] = (c0 + 2 ^ 64 * c1)%Z by rewrite /=; ring.
  have hX : (0 <= c0 + 2 ^ 64 * c1)%Z by lia.
  rewrite /M -hsr -(digits_dval hcb hr hX) eds (map_comp (chalDigit cb)); split=> [[e]|-> //].
  have ci : forall (a b : seq Z), (forall r, List.In r a -> (0 <= r < cb)%Z) -> (forall r, List.In r b -> (0 <= r < cb)%Z) ->
     map (chalDigit cb) a = map (chalDigit cb) b -> a = b.
    elim=> [|x a IH] [|y b] //= ha hb' [e1 e2]; congr (_ :: _).
      by apply: (chalDigit_inj _ _ e1); [apply: ha; left|apply: hb'; left].
    by apply: IH => // r h; [apply: ha; right|apply: hb'; right].
  apply: ci e => //; elim: (iota _ _) => //= a s IH r [<-|/IH //]; exact: Z.mod_pos_bound.
have hd3 := Z.div_mod (2 ^ 128) M; have hm3 := Z.mod_pos_bound (2 ^ 128) M hM.
have hN : (0 <= 2 ^ 128 / M)%Z by apply: Z.div_pos.
pose K := if (t <? (2 ^ 128) mod M)%Z then (2 ^ 128 / M + 1)%Z else (2 ^ 128 / M)%Z.
exists t, K; split=> //; first by rewrite /K; case: Z.ltb_spec; [right|left].
move=> c0 c1 h0 h1; rewrite (enc _ _ h0 h1); move: h0 h1; rewrite /isWord => h0 h1.
set X := (c0 + 2 ^ 64 * c1)%Z; have hX : (0 <= X < 2 ^ 128)%Z by rewrite /X; lia.
have h4 := Z.div_mod X M; have h5 : (0 <= X / M)%Z by apply: Z.div_pos; lia.
split=> [e|[k [hk ->]]].
  exists (X / M)%Z; split; last by lia.
  move: (2 ^ 128 / M)%Z ((2 ^ 128) mod M)%Z (2 ^ 128)%Z hd3 hm3 hN @K hX => A B T hd3 hm3 hN K hX.
  move: (X / M)%Z h4 h5 => Y h4 h5; rewrite e in h4.
  by split=> //; rewrite /K; case: Z.ltb_spec => h; nia.
by rewrite Z.add_comm Z.mul_comm Z.add_comm Z.mod_add; [rewrite Z.mod_small|lia].
Qed.

(** with exp = 1 (p - 1 is not a square) the bound is computed as 1 << 120 in 64 bits: zero, and
    the division panics; for exp in 61 .. 120 the bound is 1, so that every challenge encodes
    to 0; from 121 on the bound is 0 and the encoding panics *)
Theorem C53_bound_zero (base : Z) (exp : nat) (c0 c1 : Z) : (2 <= base)%Z -> exp = 1%N \/ (121 <= exp)%N ->
  encodeChallenge base exp [:: c0; c1] = None.
Proof.
move=> hb he; have hcb : ChallengeBound base exp = 0%Z.
  rewrite /ChallengeBound; case: he => [->|h]; first by rewrite (_ : (Z.shiftl 1 _) mod W = 0)%Z // Z.min_r //; lia.
  rewrite (Z.div_small 120); last by lia.
  by rewrite Z.min_r //= (_ : 1 mod W = 1)%Z //; lia.
have {he} : (0 < exp)%N by case: he => [->|] //; case: (exp).
rewrite /encodeChallenge hcb; case: exp {hcb} => // n _.
by rewrite /= /chal_step /divMod64 /= /Div64 /=; elim: n 1%N => //=.
Qed.
Theorem C53_bound_one (base : Z) (exp : nat) (c0 c1 : Z) : (2 <= base)%Z -> (61 <= exp <= 120)%N ->
  encodeChallenge base exp [:: c0; c1] = Some (nseq exp 0%Z).
Proof.
move=> hb /andP[h1 h2]; have hcb : ChallengeBound base exp = 1%Z.
  rewrite cbE; last by apply: leq_trans h1.
  have -> : (120 / Z.of_nat exp = 1)%Z by symmetry; apply: (Z.div_unique _ _ _ (120 - Z.of_nat exp)%Z); lia.
  by rewrite Z.min_r //; lia.
rewrite encodeChallengeE hcb //; congr Some; apply: (@eq_from_nth _ 0%Z).
  by rewrite size_map size_iota size_nseq.
move=> i; rewrite size_map size_iota => hi.
by rewrite (nth_map 0%N) ?size_iota // nth_nseq hi Z.mod_1_r.
Qed.
(** both are reached by moduli which newEncodeParameters accepts *)
Theorem C53_exp_one_refuted : exists p base exp, newEncodeParameters 65 p = Some (base, exp) /\
  forall c0 c1, encodeChallenge base exp [:: c0; c1] = None.
Proof. by exists 7%Z, 6%Z, 1%N. Qed.
Theorem C53_exp_64_refuted : exists p base exp, newEncodeParameters 65 p = Some (base, exp) /\
  forall c0 c1, encodeChallenge base exp [:: c0; c1] = Some (nseq exp 0%Z).
Proof. by exists (2 ^ 64 + 1)%Z, 2%Z, 64%N; split=> // c0 c1; apply: C53_bound_one. Qed.

Example ex_C53 : ChallengeBound 1000 8 = 500%Z /\
  encodeChallenge 1000 8 [:: 123456789; 987654321]%Z = Some [:: 25; -221; 53; 221; 98; -28; 37; -169]%Z.
Proof. by []. Qed.

(** * C54 *)
(** w is an integer with these residues *)
Definition residues (qs rs : seq Z) (w : Z) : Prop := forall j, (j < size qs)%N -> (w mod nth 0 qs j = nth 0 rs j)%Z.
Definition residueVector (qs rs : seq Z) : Prop :=
  size rs = size qs /\ forall j, (j < size qs)%N -> (0 <= nth 0 rs j < nth 0 qs j)%Z.
(** [inv] computes inverses, as big.Int.ModInverse is documented to *)
Definition modInverse (inv : Z -> Z -> Z) : Prop :=
  forall a m, (1 < m)%Z -> Z.gcd a m = 1%Z -> ((a * inv a m) mod m = 1)%Z.

Lemma res_prod qs rs w z : coprimes qs -> residues qs rs w -> residues qs rs z -> (prodz qs | w - z)%Z.
Proof.
move=> hc hw hz; apply: prodz_all => // i hi; have h := (proj1 hc) _ (nth_In 0%Z hi).
by apply/div_of_mod; [lia|rewrite hw // hz].
Qed.
Lemma least_of Q v w : (0 < Q)%Z -> (- Q <= 2 * v <= Q)%Z -> (Q | w - v)%Z -> (Z.abs v <= Z.abs w)%Z.
Proof.
move=> hQ hv [k e]; have [h|[h|h]] : (k = 0 \/ 1 <= k \/ k <= -1)%Z by lia.
- by rewrite h in e; lia.
- have : (Q <= k * Q)%Z by nia.
  by lia.
have : (k * Q <= - Q)%Z by nia.
by lia.
Qed.

(** the result has the given residues, and is of least absolute value, except when there are
    several limbs and the result is (Q-1)/2 - Q or -Q/2.
    Missing from the full statement: that one value, see the refutation below. *)
Theorem C54_reconstruct_partial inv qs rs : modInverse inv -> coprimes qs -> (0 < size qs)%N -> residueVector qs rs ->
  let v := reconstruct inv qs rs in
  residues qs rs v /\
  ((size qs = 1%N \/ v <> (prodz qs / 2 - prodz qs)%Z) -> forall w, residues qs rs w -> (Z.abs v <= Z.abs w)%Z).
Proof.
move=> hinv hc h0 [hs hr] v; have [z ez] := crt hinv hc hs hr.
have hQ := prodz_pos hc.
have hz : residues qs rs z by move=> j hj; rewrite ez nth_setBig.
have hres : (prodz qs | v - z)%Z -> residues qs rs v.
  move=> hd j hj; have h := (proj1 hc) _ (nth_In 0%Z hj); rewrite -(hz j hj).
  by apply/div_of_mod; [lia|apply: Z.divide_trans hd; exact: prodz_divide].
have := reconstructP hinv hc z h0; rewrite -ez -/v => -[[hd hb]|[e [hd h1]]].
  split; first exact: hres.
  by move=> _ w hw; apply: least_of hQ hb _; apply: res_prod hc hw (hres hd).
split; first exact: hres.
case=> [e1|ne]; first by rewrite e1 in h1.
by case: ne; rewrite e Z.shiftr_div_pow2 // Z.pow_1_r.
Qed.

(** coefficients of absolute value below (Q-1)/2 survive the round trip *)
Theorem C54_round_trip inv qs z : modInverse inv -> coprimes qs -> (0 < size qs)%N ->
  (2 * Z.abs z < prodz qs - 1)%Z -> reconstruct inv qs (setBigCoeff qs z) = z.
Proof.
move=> hinv hc h0 hz; have hQ := prodz_pos hc; have h2 := Z.div_mod (prodz qs) 2; have h3 := Z.mod_pos_bound (prodz qs) 2.
have := reconstructP hinv hc z h0; move: (reconstruct _ _ _) => v.
case=> [[[k e] hb]|[e [[k e'] h1]]].
  have : k = 0%Z by nia.
  by move=> k0; rewrite k0 in e; lia.
move: e; rewrite Z.shiftr_div_pow2 // Z.pow_1_r => e.
have : k = 0%Z by nia.
by move=> k0; rewrite k0 in e'; lia.
Qed.

(** an inverse by search, to show that [modInverse] can be met *)
Definition invSearch (a m : Z) : Z := Z.of_nat (find (fun k => ((a * Z.of_nat k) mod m =? 1)%Z) (iota 0 (Z.to_nat m))).
Lemma invSearchP : modInverse invSearch.
Proof.
move=> a m hm hg; rewrite /invSearch; set P := fun k => _.
have [u [v e]] := Z.gcd_bezout _ _ _ hg.
have hu := Z.mod_pos_bound u m; have hin : has P (iota 0 (Z.to_nat m)).
  apply/hasP; exists (Z.to_nat (u mod m)); first by rewrite mem_iota; lia.
  apply/Z.eqb_eq; rewrite Z2Nat.id; last by lia.
  rewrite Zmult_mod_idemp_r; have -> : (a * u = 1 + (- v) * m)%Z by lia.
  by rewrite Z.mod_add ?Z.mod_small; lia.
have := nth_find 0%N hin; rewrite has_find size_iota in hin; rewrite nth_iota // add0n /P => /Z.eqb_eq.
by [].
Qed.

(** with two limbs the residues of (Q-1)/2 reconstruct to (Q-1)/2 - Q, which is larger in absolute value *)
Lemma coprimes_7_5 : coprimes [:: 7; 5]%Z.
Proof. by split=> [q [<-|[<-|[]]]|[|[|i]] [|[|j]] // /andP[]]. Qed.
Theorem C54_off_by_one_refuted : exists inv qs rs w, [/\ modInverse inv, coprimes qs, residueVector qs rs,
  residues qs rs w & (Z.abs w < Z.abs (reconstruct inv qs rs))%Z].
Proof.
exists invSearch, [:: 7; 5]%Z, [:: 3; 2]%Z, 17%Z; split=> //; first exact: invSearchP.
- exact: coprimes_7_5.
- by split=> // -[|[|j]].
by move=> [|[|j]].
Qed.

Example ex_C54 : [/\ reconstruct invSearch [:: 7; 5]%Z [:: 1; 3]%Z = 8%Z,
  reconstruct invSearch [:: 7; 5]%Z [:: 6; 2]%Z = (-8)%Z & reconstruct invSearch [:: 7; 5]%Z [:: 5; 3]%Z = (-2)%Z].
Proof. by []. Qed.

Print Assumptions C49_divMod64.
Print Assumptions C49_panics.
Print Assumptions C53_challenge.
Print Assumptions C53_distribution.
Print Assumptions C53_bound_zero.
Print Assumptions C53_bound_one.
Print Assumptions C53_exp_one_refuted.
Print Assumptions C53_exp_64_refuted.
Print Assumptions C54_reconstruct_partial.
Print Assumptions C54_round_trip.
Print Assumptions C54_off_by_one_refuted.
Print Assumptions C55_encode_parameters.
Print Assumptions C55_unique.
Print Assumptions C55_two_diverges_refuted.
