(** C95-C97: the COSAC sampler and the Ziggurat of the rounded sampler, over the reals. *)
From Coq Require Import Reals ZArith List Lra Lia Psatz.
From Verif Require Import GaussModel.
Import ListNotations.
Set Implicit Arguments. Unset Strict Implicit.
Local Open Scope R_scope.

(** * Rounding *)
Lemma Int_partP x : IZR (Int_part x) <= x < IZR (Int_part x) + 1.
Proof. destruct (base_Int_part x) as [h1 h2]; lra. Qed.
Lemma Int_part_eq x z : IZR z <= x < IZR z + 1 -> Int_part x = z.
Proof.
  intros [h1 h2]; destruct (Int_partP x) as [h3 h4].
  assert (IZR (Int_part x) < IZR z + 1) by lra. assert (IZR z < IZR (Int_part x) + 1) by lra.
  assert (e : forall k, IZR k + 1 = IZR (k + 1)) by (intro k; rewrite plus_IZR; reflexivity).
  rewrite e in H, H0; apply lt_IZR in H; apply lt_IZR in H0; lia.
Qed.
(** what rounding to nearest means, halves away from zero *)
Definition cell (k : Z) (y : R) : Prop :=
  (0 <= y /\ IZR k - / 2 <= y < IZR k + / 2) \/ (y < 0 /\ IZR k - / 2 < y <= IZR k + / 2).
Lemma roundP k y : roundZ y = k <-> cell k y.
Proof.
  unfold roundZ, cell; destruct (Rle_dec 0 y) as [h|h].
  - split.
    + intros <-; destruct (Int_partP (y + / 2)); left; lra.
    + intros [[_ h1]|[h1 _]]; [apply Int_part_eq; lra|lra].
  - split.
    + intros <-; right; rewrite opp_IZR; destruct (Int_partP (- y + / 2)); lra.
    + intros [[h1 _]|[_ h1]]; [lra|]. rewrite (@Int_part_eq (- y + / 2) (- k)%Z); [lia|].
      rewrite opp_IZR; lra.
Qed.
Lemma round_near y : Rabs (IZR (roundZ y) - y) <= / 2.
Proof.
  destruct (proj1 (roundP (roundZ y) y) eq_refl) as [[h1 h2]|[h1 h2]]; apply Rabs_le; lra.
Qed.
Lemma IZR_le1 (a b : Z) : (a <= b)%Z -> IZR a <= IZR b. Proof. apply IZR_le. Qed.

(** * COSAC *)

(** the normal density with deviation s and the target weight of z; the output of Sample is
    z + round(center), so the distance from the centre is z + cFrac *)
Definition density (s y : R) : R := exp (- (y * y) / (2 * s * s)) / (sqrt (2 * PI) * s).
Definition threshold (cFrac s y : R) (z : Z) : R := exp (- ((IZR z + cFrac) * (IZR z + cFrac) - y * y) / (2 * s * s)).

Lemma exp_le a b : a <= b -> exp a <= exp b.
Proof. intros [h|h]; [left; apply exp_increasing; exact h|right; rewrite h; reflexivity]. Qed.
Lemma threshold_le cFrac s y z : 0 < s -> y * y <= (IZR z + cFrac) * (IZR z + cFrac) -> 0 < threshold cFrac s y z <= 1.
Proof.
  intros hs h; split; [apply exp_pos|]. rewrite <- exp_0; apply exp_le.
  assert (hp : 0 < 2 * s * s) by nra.
  unfold Rdiv; rewrite Ropp_mult_distr_l_reverse.
  assert (0 < / (2 * s * s)) by (apply Rinv_0_lt_compat; exact hp). nra.
Qed.
Lemma density_threshold cFrac s y z : 0 < s -> density s y * threshold cFrac s y z = density s (IZR z + cFrac).
Proof.
  intros hs; unfold density, threshold.
  assert (hp : 2 * s * s <> 0) by nra.
  set (K := sqrt (2 * PI) * s); set (w := IZR z + cFrac).
  replace (- (w * w) / (2 * s * s)) with (- (y * y) / (2 * s * s) + - (w * w - y * y) / (2 * s * s)) by (field; lra).
  rewrite exp_plus; generalize (exp (- (y * y) / (2 * s * s))), (exp (- (w * w - y * y) / (2 * s * s))); intros A B; unfold Rdiv; ring.
Qed.

Lemma step_cases cFrac s y b r z : cosacStep cFrac s y b r = Some z <->
  ((b = false /\ (z <= 0)%Z /\ cell (z + 1) y) \/ (b = true /\ (0 <= z)%Z /\ cell (z - 1) y)) /\ r < threshold cFrac s y z.
Proof.
  unfold cosacStep, threshold, Rleb; rewrite <- !roundP.
  destruct b.
  - destruct (Rle_dec (- (1 / 2)) (IZR (roundZ y + 1))) as [h|h].
    + assert (h' : (0 <= roundZ y + 1)%Z).
      { apply Z.lt_pred_le, lt_IZR. change (Z.pred 0) with (-1)%Z; lra. }
      destruct (Rlt_dec r _) as [h1|h1].
      * split; [intros [= <-]; split; [right; repeat split; lia|exact h1]|].
        intros [[[hb _]|[_ [_ e]]] _]; [discriminate|f_equal; lia].
      * split; [discriminate|]. intros [[[hb _]|[_ [_ e]]] h2]; [discriminate|].
        exfalso; apply h1; replace (roundZ y + 1)%Z with z by lia; exact h2.
    + split; [discriminate|]. intros [[[hb _]|[_ [h0 e]]] _]; [discriminate|].
      exfalso; apply h; replace (roundZ y + 1)%Z with z by lia. apply IZR_le in h0; lra.
  - destruct (Rle_dec (IZR (roundZ y - 1)) (1 / 2)) as [h|h].
    + assert (h' : (roundZ y - 1 <= 0)%Z).
      { apply Z.lt_succ_r, lt_IZR. change (Z.succ 0) with 1%Z; lra. }
      destruct (Rlt_dec r _) as [h1|h1].
      * split; [intros [= <-]; split; [left; repeat split; lia|exact h1]|].
        intros [[[_ [_ e]]|[hb _]] _]; [f_equal; lia|discriminate].
      * split; [discriminate|]. intros [[[_ [_ e]]|[hb _]] h2]; [|discriminate].
        exfalso; apply h1; replace (roundZ y - 1)%Z with z by lia; exact h2.
    + split; [discriminate|]. intros [[[_ [h0 e]]|[hb _]] _]; [|discriminate].
      exfalso; apply h; replace (roundZ y - 1)%Z with z by lia. apply IZR_le in h0; lra.
Qed.

(** For outputs other than 0 one pass is exact: z comes from one value of the bit and one cell of
    length 1, the threshold is a probability, and the accepted density does not depend on y. *)
Theorem C95_nonzero_partial cFrac s y b r z : 0 < s -> Rabs cFrac <= / 2 -> z <> 0%Z ->
  (cosacStep cFrac s y b r = Some z <->
     (if (z <? 0)%Z then b = false /\ cell (z + 1) y else b = true /\ cell (z - 1) y) /\ r < threshold cFrac s y z) /\
  ((if (z <? 0)%Z then cell (z + 1) y else cell (z - 1) y) ->
     0 < threshold cFrac s y z <= 1 /\ density s y * threshold cFrac s y z = density s (IZR z + cFrac)).
Proof.
  intros hs hc hz; split.
  - rewrite step_cases; destruct (Z.ltb_spec z 0); split; intros [h1 h2]; (split; [|exact h2]).
    + destruct h1 as [h1|h1]; [tauto|lia].
    + left; repeat split; [tauto|lia|tauto].
    + destruct h1 as [h1|h1]; [lia|tauto].
    + right; repeat split; [tauto|lia|tauto].
  - intros hcell; split; [|apply density_threshold; exact hs].
    apply threshold_le; [exact hs|].
    assert (hc' : - / 2 <= cFrac <= / 2) by (unfold Rabs in hc; destruct (Rcase_abs cFrac); lra).
    destruct (Z.ltb_spec z 0) as [h|h].
    + assert (hk : IZR z <= -1) by (apply IZR_le; lia).
      unfold cell in hcell; rewrite plus_IZR in hcell.
      assert (IZR z + cFrac <= - Rabs y); [|unfold Rabs in *; destruct (Rcase_abs y); nra].
      unfold Rabs; destruct (Rcase_abs y); lra.
    + assert (hk : 1 <= IZR z) by (apply IZR_le; lia).
      unfold cell in hcell; rewrite minus_IZR in hcell.
      assert (Rabs y <= IZR z + cFrac); [|unfold Rabs in *; destruct (Rcase_abs y); nra].
      unfold Rabs; destruct (Rcase_abs y); lra.
Qed.

(** 0 is returned as well, although Sample has already decided about it; the comparison is made
    with yRound instead of y.  On this branch the threshold is at least 1, so every y with
    1/2 < |y| < 3/2 and the bit 0 (1 for negative y) gives 0. *)
Theorem C95_zero_refuted cFrac s y r : 0 < s -> Rabs cFrac <= / 2 -> / 2 < Rabs y < 3 / 2 -> r < 1 ->
  cosacStep cFrac s y (if Rle_dec 0 y then false else true) r = Some 0%Z /\ 1 <= threshold cFrac s y 0 /\
  (Rabs cFrac < Rabs y -> 1 < threshold cFrac s y 0).
Proof.
  intros hs hc hy hr.
  assert (hsq : cFrac * cFrac < y * y).
  { replace (cFrac * cFrac) with (Rabs cFrac * Rabs cFrac) by (rewrite <- Rabs_mult; apply Rabs_pos_eq; nra).
    replace (y * y) with (Rabs y * Rabs y) by (rewrite <- Rabs_mult; apply Rabs_pos_eq; nra).
    pose proof (Rabs_pos cFrac); nra. }
  assert (ht : 1 < threshold cFrac s y 0).
  { unfold threshold; rewrite <- exp_0 at 1; apply exp_increasing.
    assert (hp : 0 < / (2 * s * s)) by (apply Rinv_0_lt_compat; nra).
    unfold Rdiv; nra. }
  split; [|split; [lra|intros _; exact ht]].
  apply step_cases; split; [|lra].
  unfold Rabs in hy; destruct (Rle_dec 0 y) as [h|h]; destruct (Rcase_abs y) as [h'|h']; try lra.
  - left; repeat split; [lia|]. left; rewrite plus_IZR; split; lra.
  - right; repeat split; [lia|]. right; rewrite minus_IZR; split; lra.
Qed.

(** * C96: the parts of a random word *)

(** the sign bit, the layer and the position are disjoint bits: each triple comes from 16 of the
    2^64 words *)
Theorem C96_parts r b i j : (0 <= r < 2 ^ 64)%Z -> (0 <= i < 128)%Z -> (0 <= j < 2 ^ 52)%Z ->
  (partB r = b /\ partI r = i /\ partJ r = j) <->
  exists e, (0 <= e < 16)%Z /\ r = (b * 2 ^ 63 + e * 2 ^ 59 + j * 2 ^ 7 + i)%Z.
Proof.
  intros hr hi hj; unfold partB, partI, partJ, scale; rewrite !Z.shiftr_div_pow2 by lia; split.
  - intros [h1 [h2 h3]]; exists ((r / 2 ^ 59) mod 16)%Z; split; [apply Z.mod_pos_bound; lia|].
    assert (e1 := Z.div_mod r (2 ^ 7) ltac:(lia)).
    assert (e2 := Z.div_mod (r / 2 ^ 7) (2 ^ 52) ltac:(lia)).
    rewrite Z.div_div in e2 by lia. change (2 ^ 7 * 2 ^ 52)%Z with (2 ^ 59)%Z in e2.
    assert (e3 := Z.div_mod (r / 2 ^ 59) 16 ltac:(lia)).
    rewrite Z.div_div in e3 by lia. change (2 ^ 59 * 16)%Z with (2 ^ 63)%Z in e3.
    rewrite h1 in e3; rewrite h2 in e1; rewrite h3 in e2. lia.
  - intros [e [he ->]]; repeat split.
    + symmetry; apply Z.div_unique with (e * 2 ^ 59 + j * 2 ^ 7 + i)%Z; lia.
    + symmetry; apply Z.mod_unique with (b * 2 ^ 56 + e * 2 ^ 52 + j)%Z; lia.
    + assert (q : ((b * 2 ^ 63 + e * 2 ^ 59 + j * 2 ^ 7 + i) / 2 ^ 7 = b * 2 ^ 56 + e * 2 ^ 52 + j)%Z).
      { symmetry; apply Z.div_unique with i; lia. }
      rewrite q; symmetry; apply Z.mod_unique with (b * 2 ^ 4 + e)%Z; lia.
Qed.
Lemma partB01 r : (0 <= r < 2 ^ 64)%Z -> partB r = 0%Z \/ partB r = 1%Z.
Proof.
  intros h; unfold partB; rewrite Z.shiftr_div_pow2 by lia.
  assert (0 <= r / 2 ^ 63)%Z by (apply Z.div_pos; lia).
  assert (r / 2 ^ 63 < 2)%Z by (apply Z.div_lt_upper_bound; lia). lia.
Qed.
Lemma partJ_range r : (0 <= partJ r < 2 ^ 52)%Z.
Proof. unfold partJ, scale; apply Z.mod_pos_bound; lia. Qed.

Lemma highbit z n : (0 <= z < 2 ^ 52)%Z -> (64 <= n)%Z -> Z.testbit z n = false.
Proof.
  intros hz hn; destruct (Z.eq_dec z 0) as [->|h]; [apply Z.bits_0|].
  apply Z.bits_above_log2; [lia|]. apply Z.lt_le_trans with 52%Z; [|lia].
  apply Z.log2_lt_pow2; lia.
Qed.

(** (j ^ -b) + b on uint64, read as int64, is j or -j *)
Theorem C96_sign r : (0 <= r < 2 ^ 64)%Z -> signedJ r = if (partB r =? 1)%Z then (- partJ r)%Z else partJ r.
Proof.
  intros h; pose proof (partJ_range r) as hj; unfold signedJ, toInt64, w64.
  destruct (partB01 h) as [->| ->]; simpl Z.eqb; cbv iota.
  - rewrite Z.add_0_r; simpl (- 0)%Z; rewrite Z.mod_0_l by lia; rewrite Z.lxor_0_r, Z.mod_small by lia.
    destruct (Z.ltb_spec (partJ r) (2 ^ 63)); lia.
  - change ((- (1)) mod 2 ^ 64)%Z with (Z.ones 64).
    assert (e : Z.lxor (partJ r) (Z.ones 64) = (2 ^ 64 - 1 - partJ r)%Z).
    {
      assert (h1 : Z.lxor (partJ r) (Z.ones 64) = Z.ldiff (Z.ones 64) (partJ r)).
      { apply Z.bits_inj'; intros n hn; rewrite Z.lxor_spec, Z.ldiff_spec.
        destruct (Z_lt_le_dec n 64) as [h1|h1].
        - rewrite Z.ones_spec_low by lia; destruct (Z.testbit (partJ r) n); reflexivity.
        - rewrite Z.ones_spec_high by lia.
          rewrite (highbit hj h1); reflexivity. }
      rewrite h1, <- Z.sub_nocarry_ldiff.
      - rewrite Z.ones_equiv; lia.
      - apply Z.bits_inj'; intros n hn; rewrite Z.ldiff_spec, Z.bits_0.
        destruct (Z_lt_le_dec n 64) as [h2|h2].
        + rewrite Z.ones_spec_low by lia; destruct (Z.testbit (partJ r) n); reflexivity.
        + rewrite (highbit hj h2); reflexivity. }
    rewrite e. destruct (Z.eq_dec (partJ r) 0) as [->|h0].
    + reflexivity.
    + rewrite Z.mod_small by lia. destruct (Z.ltb_spec (2 ^ 64 - 1 - partJ r + 1) (2 ^ 63)); lia.
Qed.

(** flipping the top bit of every word *)
Definition flip (r : Z) : Z := ((r + 2 ^ 63) mod 2 ^ 64)%Z.
Lemma flipP r : (0 <= r < 2 ^ 64)%Z ->
  (0 <= flip r < 2 ^ 64)%Z /\ partB (flip r) = (1 - partB r)%Z /\ partI (flip r) = partI r /\ partJ (flip r) = partJ r.
Proof.
  intros h; assert (hf : (0 <= flip r < 2 ^ 64)%Z) by (unfold flip; apply Z.mod_pos_bound; lia).
  split; [exact hf|]. pose proof (partJ_range r) as hj.
  assert (hi : (0 <= partI r < 128)%Z) by (unfold partI; apply Z.mod_pos_bound; lia).
  apply (@C96_parts (flip r) (1 - partB r) (partI r) (partJ r) hf hi hj).
  destruct (proj1 (@C96_parts r (partB r) (partI r) (partJ r) h hi hj)) as [e [he er]]; [tauto|].
  exists e; split; [exact he|].
  unfold flip; symmetry; destruct (partB01 h) as [hb|hb]; rewrite hb in er |- *.
  - apply Z.mod_unique with 0%Z; lia.
  - apply Z.mod_unique with 1%Z; lia.
Qed.

(** normFloat is symmetric: the flipped words give the negated value *)
Definition neg1 (o : option (R * list Z * list R)) : option (R * list Z * list R) :=
  match o with Some (x, ws, us) => Some (- x, map flip ws, us) | None => None end.
Theorem C96_symmetric kn wn fn ws us : Forall (fun r => 0 <= r < 2 ^ 64)%Z ws ->
  normFloat kn wn fn (map flip ws) us = neg1 (normFloat kn wn fn ws us).
Proof.
  intros hws; revert us; induction hws as [|r ws h _ IH]; intros us; [reflexivity|].
  cbn [map normFloat].
  destruct (flipP h) as [hf [hb [hi hj]]].
  pose proof (C96_sign h) as s1; pose proof (C96_sign hf) as s2; rewrite hb, hj in s2.
  assert (hx : signedJ (flip r) = (- signedJ r)%Z).
  { rewrite s1, s2; destruct (partB01 h) as [->| ->]; simpl; lia. }
  rewrite hx, hi, hj, hb, opp_IZR.
  set (x := IZR (signedJ r)); set (w := wn (Z.to_nat (partI r))).
  replace (- x * w) with (- (x * w)) by ring.
  destruct (partJ r <? kn (Z.to_nat (partI r)))%Z; [reflexivity|].
  destruct (Nat.eqb (Z.to_nat (partI r)) 0).
  - destruct (tail us) as [[u us']|]; [|reflexivity].
    destruct (partB01 h) as [->| ->]; simpl; [reflexivity|rewrite Ropp_involutive; reflexivity].
  - destruct us as [|u us]; [reflexivity|].
    replace (- (1 / 2) * - (x * w) * - (x * w)) with (- (1 / 2) * (x * w) * (x * w)) by ring.
    destruct (Rlt_dec _ _); [reflexivity|apply IH].
Qed.

(** Sample rounds center + x*stdDev to nearest *)
Theorem C96_rounded kn wn fn c s ws us z : roundedSample kn wn fn c s ws us = Some z ->
  0 < s /\ exists x ws' us', normFloat kn wn fn ws us = Some (x, ws', us') /\ Rabs (IZR z - (c + x * s)) <= / 2.
Proof.
  unfold roundedSample; destruct (Rle_dec s 0) as [h|h]; [discriminate|].
  destruct (normFloat kn wn fn ws us) as [[[x ws'] us']|]; [|discriminate].
  intros [= <-]; split; [lra|]. exists x, ws', us'; split; [reflexivity|apply round_near].
Qed.

(** * C97: the layers of the Ziggurat *)

Lemma normal_sym x : normal (- x) = normal x.
Proof. unfold normal; f_equal; ring. Qed.
Lemma normal_lt x y : 0 <= x < y -> normal y < normal x.
Proof. intros h; unfold normal; apply exp_increasing; nra. Qed.
Lemma normal_abs_lt x y : Rabs x < y -> normal y < normal x.
Proof.
  intros h; pose proof (Rabs_pos x) as hp.
  replace (normal x) with (normal (Rabs x)).
  - apply normal_lt; lra.
  - unfold Rabs; destruct (Rcase_abs x); [apply normal_sym|reflexivity].
Qed.
Lemma normal0 : normal 0 = 1.
Proof. unfold normal; replace (- (1 / 2) * 0 * 0) with 0 by ring; apply exp_0. Qed.
Lemma normal_pos x : 0 < normal x.
Proof. apply exp_pos. Qed.
Lemma normal_inv_lt x y : 0 <= x -> 0 <= y -> normal y < normal x -> x < y.
Proof.
  intros hx hy h; apply Rnot_le_lt; intros [h1|h1].
  - pose proof (@normal_lt y x); lra.
  - subst; lra.
Qed.
Lemma normalInvP a : 0 < a < 1 -> 0 < normalInv a /\ normal (normalInv a) = a.
Proof.
  intros h; unfold normalInv.
  assert (hl : ln a < 0) by (rewrite <- ln_1; apply ln_increasing; lra).
  split; [apply sqrt_lt_R0; lra|].
  unfold normal. replace (- (1 / 2) * sqrt (-2 * ln a) * sqrt (-2 * ln a)) with (ln a).
  - apply exp_ln; lra.
  - replace (- (1 / 2) * sqrt (-2 * ln a) * sqrt (-2 * ln a))
      with (- (1 / 2) * (sqrt (-2 * ln a) * sqrt (-2 * ln a))) by ring.
    rewrite sqrt_sqrt by lra. lra.
Qed.

(** each step of init gives a layer of area v, and a narrower one, as long as the argument of
    normalInv is below 1 *)
Theorem C97_areas v i : (1 <= i < 127)%nat -> 0 < v -> 0 < xn v (i + 1) ->
  v / xn v (i + 1) + normal (xn v (i + 1)) < 1 ->
  0 < xn v i < xn v (i + 1) /\ xn v (i + 1) * (normal (xn v i) - normal (xn v (i + 1))) = v.
Proof.
  intros hi hv hx h.
  assert (e : xn v i = normalInv (v / xn v (i + 1) + normal (xn v (i + 1)))).
  { unfold xn. replace (Nat.eqb i 0) with false by (symmetry; apply Nat.eqb_neq; lia).
    replace (Nat.eqb (i + 1) 0) with false by (symmetry; apply Nat.eqb_neq; lia).
    replace (127 - i)%nat with (S (127 - (i + 1)))%nat by lia. reflexivity. }
  set (y := xn v (i + 1)) in *.
  assert (hvy : 0 < v / y) by (apply Rdiv_lt_0_compat; lra).
  pose proof (normal_pos y) as hp.
  destruct (@normalInvP (v / y + normal y)) as [h1 h2]; [lra|].
  rewrite <- e in h1, h2. split.
  - split; [exact h1|]. apply normal_inv_lt; lra.
  - rewrite h2; field; lra.
Qed.

(** the top of layer i: the density at the edge of the next narrower layer, 1 for the first *)
Definition edge (v : R) (i : nat) : R := if Nat.eqb i 0 then 0 else xn v i.
(** height of the point with uniform value u in layer i *)
Definition height (v : R) (i : nat) (u : R) : R :=
  normal (edge v i) + u * (normal (edge v (i - 1)) - normal (edge v i)).
(** position of word r in layer i *)
Definition pos (v : R) (i : nat) (r : Z) : R := xn v i * IZR (signedJ r) / IZR scale.
(** the word is turned into its position at once, with one uniform value available *)
Definition taken (v : R) (r : Z) (u : R) : Prop :=
  exists us, normFloat (kn v) (wn v) (fn v) [r] [u] = Some (pos v (Z.to_nat (partI r)) r, [], us).

Lemma wn_pos v i r : i <> O -> IZR (signedJ r) * wn v i = pos v i r.
Proof.
  intros h; unfold wn, pos; replace (Nat.eqb i 0) with false by (symmetry; apply Nat.eqb_neq; lia).
  unfold Rdiv; ring.
Qed.
Lemma scale_pos : 0 < IZR scale.
Proof. apply IZR_lt; unfold scale; lia. Qed.
Lemma pos_abs v i r : (0 <= r < 2 ^ 64)%Z -> 0 <= xn v i -> Rabs (pos v i r) = xn v i * IZR (partJ r) / IZR scale.
Proof.
  intros hr hx; pose proof scale_pos as hs; pose proof (partJ_range r) as hj.
  assert (hJ : 0 <= IZR (partJ r)) by (apply IZR_le; lia).
  assert (hp : 0 <= xn v i * IZR (partJ r) / IZR scale).
  { apply Rmult_le_pos; [apply Rmult_le_pos; lra|left; apply Rinv_0_lt_compat; lra]. }
  unfold pos; rewrite C96_sign by exact hr.
  destruct (partB r =? 1)%Z.
  - rewrite opp_IZR. replace (xn v i * - IZR (partJ r) / IZR scale) with (- (xn v i * IZR (partJ r) / IZR scale))
      by (unfold Rdiv; ring). rewrite Rabs_Ropp; apply Rabs_pos_eq; exact hp.
  - apply Rabs_pos_eq; exact hp.
Qed.
Lemma kn_inside v i r : (0 <= r < 2 ^ 64)%Z -> i <> O -> 0 < xn v i -> (partJ r < kn v i)%Z ->
  Rabs (pos v i r) < xn v (i - 1).
Proof.
  intros hr hi hx hk; rewrite pos_abs by (assumption || lra). pose proof scale_pos as hs.
  unfold kn in hk; replace (Nat.eqb i 0) with false in hk by (symmetry; apply Nat.eqb_neq; lia).
  set (q := xn v (i - 1) / xn v i * IZR scale) in *.
  destruct (base_Int_part q) as [h1 _].
  assert (h2 : IZR (partJ r) + 1 <= IZR (Int_part q)).
  { rewrite <- plus_IZR; apply IZR_le; lia. }
  assert (h3 : IZR (partJ r) < q) by lra.
  assert (e : xn v (i - 1) = xn v i * q / IZR scale) by (unfold q; field; lra).
  rewrite e; unfold Rdiv; apply Rmult_lt_compat_r; [apply Rinv_0_lt_compat; lra|].
  apply Rmult_lt_compat_l; lra.
Qed.
Lemma taken_iff v r u : let i := Z.to_nat (partI r) in i <> O ->
  taken v r u <-> (partJ r < kn v i)%Z \/ u * (fn v (i - 1) - fn v i) < normal (pos v i r) - fn v i.
Proof.
  intros i hi; unfold taken; cbn [normFloat]; fold i; rewrite wn_pos by exact hi.
  replace (Nat.eqb i 0) with false by (symmetry; apply Nat.eqb_neq; lia).
  fold (normal (pos v i r)). destruct (Z.ltb_spec (partJ r) (kn v i)) as [h|h].
  - split; [intros _; left; exact h|intros _; exists [u]; reflexivity].
  - destruct (Rlt_dec _ _) as [h1|h1].
    + split; [intros _; right; exact h1|intros _; exists []; reflexivity].
    + split; [intros [us hu]; discriminate|intros [h2|h2]; [lia|contradiction]].
Qed.

(** from the second layer on a word is used exactly when its point lies under the density *)
Theorem C97_layers_partial v r u : let i := Z.to_nat (partI r) in (0 <= r < 2 ^ 64)%Z -> (2 <= i)%nat ->
  0 < xn v (i - 1) < xn v i -> 0 <= u < 1 ->
  taken v r u <-> height v i u < normal (pos v i r).
Proof.
  intros i hr hi hx hu; rewrite taken_iff by (fold i; lia); fold i.
  unfold height, edge, fn.
  replace (Nat.eqb i 0) with false by (symmetry; apply Nat.eqb_neq; lia).
  replace (Nat.eqb (i - 1) 0) with false by (symmetry; apply Nat.eqb_neq; lia).
  split.
  - intros [h|h]; [|lra].
    assert (h1 : Rabs (pos v i r) < xn v (i - 1)) by (apply kn_inside; [exact hr|lia|lra|exact h]).
    apply normal_abs_lt in h1. assert (h2 : normal (xn v i) < normal (xn v (i - 1))) by (apply normal_lt; lra).
    nra.
  - intros h; right; lra.
Qed.

(** in the first layer fn[0] is still 0, so every word is used, also those whose point lies
    above the density *)
Theorem C97_first_layer_refuted v r : (0 <= r < 2 ^ 64)%Z -> partI r = 1%Z -> partJ r <> 0%Z -> 0 < xn v 1 ->
  (forall u, 0 <= u < 1 -> taken v r u) /\
  exists u0, 0 < u0 < 1 /\ forall u, u0 <= u < 1 -> normal (pos v 1 r) <= height v 1 u.
Proof.
  intros hr hi hj hx. pose proof scale_pos as hs. pose proof (partJ_range r) as hjr.
  assert (hJ : 0 < IZR (partJ r)) by (apply IZR_lt; lia).
  assert (hJ2 : IZR (partJ r) < IZR scale) by (apply IZR_lt; unfold scale; lia).
  assert (ha := @pos_abs v 1 r hr (Rlt_le _ _ hx)).
  assert (h1 : Rabs (pos v 1 r) < xn v 1).
  { rewrite ha; apply Rmult_lt_reg_r with (IZR scale); [exact hs|]. unfold Rdiv.
    rewrite Rmult_assoc, Rinv_l, Rmult_1_r by lra. nra. }
  assert (h2 : 0 < Rabs (pos v 1 r)) by (rewrite ha; apply Rdiv_lt_0_compat; [apply Rmult_lt_0_compat; assumption|exact hs]).
  assert (h3 := normal_abs_lt h1).
  assert (h4 : normal (pos v 1 r) < 1).
  { rewrite <- normal0. replace (normal (pos v 1 r)) with (normal (Rabs (pos v 1 r))).
    - apply normal_lt; lra.
    - unfold Rabs; destruct (Rcase_abs _); [apply normal_sym|reflexivity]. }
  pose proof (normal_pos (xn v 1)) as h5. split.
  - intros u hu; rewrite taken_iff; rewrite hi; simpl Z.to_nat; [|discriminate].
    right; change (u * (0 - normal (xn v 1)) < normal (pos v 1 r) - normal (xn v 1)).
    assert (0 <= u * normal (xn v 1)) by (apply Rmult_le_pos; lra). lra.
  - set (a := normal (xn v 1)) in *; set (p := normal (pos v 1 r)) in *.
    exists ((p - a) / (1 - a)); split.
    + split; [apply Rdiv_lt_0_compat; lra|].
      apply Rmult_lt_reg_r with (1 - a); [lra|]. unfold Rdiv; rewrite Rmult_assoc, Rinv_l by lra; lra.
    + intros u hu; unfold height, edge; simpl Nat.eqb; cbv iota; simpl (1 - 1)%nat; simpl Nat.eqb; cbv iota.
      rewrite normal0; fold a.
      assert (h6 : (p - a) / (1 - a) * (1 - a) = p - a) by (field; lra).
      assert ((p - a) / (1 - a) * (1 - a) <= u * (1 - a)) by (apply Rmult_le_compat_r; lra). lra.
Qed.

(** * Concrete cases *)

Lemma exp_ge_1 x : 1 + x <= exp x.
Proof.
  destruct (Req_dec x 0) as [->|h]; [rewrite exp_0; lra|left; apply exp_ineq1; exact h].
Qed.
(** the value 1/4 with the bit 1 gives 1; the value 1 with the bit 0 gives 0 for every r *)
Example ex_C95 : cosacStep (/ 4) 2 (/ 4) true (/ 2) = Some 1%Z /\
  (forall r, r < 1 -> cosacStep (/ 4) 2 1 false r = Some 0%Z).
Proof.
  split.
  - apply step_cases; split.
    + right; split; [reflexivity|split; [lia|left; simpl; lra]].
    + unfold threshold.
      replace (- ((1 + / 4) * (1 + / 4) - / 4 * / 4) / (2 * 2 * 2)) with (- (3 / 16)) by field.
      pose proof (exp_ge_1 (- (3 / 16))); lra.
  - intros r hr.
    destruct (@C95_zero_refuted (/ 4) 2 1 r) as [h _].
    + lra.
    + rewrite Rabs_pos_eq; lra.
    + rewrite Rabs_R1; lra.
    + exact hr.
    + destruct (Rle_dec 0 1) as [_|h1] in h; [exact h|lra].
Qed.
Example ex_C96 :
  (partB (2 ^ 63 + 7 * 2 ^ 59 + 5 * 2 ^ 7 + 3), partI (2 ^ 63 + 7 * 2 ^ 59 + 5 * 2 ^ 7 + 3),
   partJ (2 ^ 63 + 7 * 2 ^ 59 + 5 * 2 ^ 7 + 3), signedJ (2 ^ 63 + 7 * 2 ^ 59 + 5 * 2 ^ 7 + 3)) = (1, 3, 5, -5)%Z /\
  flip (2 ^ 63 + 5 * 2 ^ 7 + 3) = (5 * 2 ^ 7 + 3)%Z /\
  (forall wn fn us, normFloat (fun _ => 9%Z) wn fn [5 * 2 ^ 7 + 3]%Z us = Some (5 * wn 3%nat, [], us)) /\
  (forall wn fn us, normFloat (fun _ => 9%Z) wn fn [2 ^ 63 + 5 * 2 ^ 7 + 3]%Z us = Some (-5 * wn 3%nat, [], us)).
Proof. split; [reflexivity|split; [reflexivity|split; intros wn fn us; reflexivity]]. Qed.

(** a thin choice of the area for which the recurrence stays below 1 *)
Definition vThin : R := / 1000000.
Lemma INR126 : INR 126 = 126.
Proof. rewrite INR_IZR_INZ; reflexivity. Qed.
Lemma thin_layers k : (k <= 126)%nat -> 1 <= xnDown vThin k /\ normal (xnDown vThin k) <= normal 3 + INR k * vThin.
Proof.
  assert (hv : vThin = / 1000000) by reflexivity.
  assert (h3 : normal 3 + / 1000 < normal 1).
  { unfold normal. replace (- (1 / 2) * 3 * 3) with (- (1 / 2) * 1 * 1 + -4) by field.
    rewrite exp_plus. set (a := exp (- (1 / 2) * 1 * 1)).
    assert (ha : / 2 <= a) by (unfold a; pose proof (exp_ge_1 (- (1 / 2) * 1 * 1)); lra).
    assert (hb : exp (-4) <= / 5).
    { replace (-4) with (- (4)) by ring. rewrite exp_Ropp. apply Rinv_le_contravar; [lra|].
      pose proof (exp_ge_1 4); lra. }
    nra. }
  assert (h1 : normal 1 < 1) by (pose proof normal0; pose proof (@normal_lt 0 1); lra).
  induction k as [|k IH]; intros hk.
  - simpl; split; [unfold rn; lra|]. rewrite Rmult_0_l, Rplus_0_r; left; apply normal_lt; unfold rn; lra.
  - destruct (IH ltac:(lia)) as [h4 h5]. simpl xnDown. set (x := xnDown vThin k) in *.
    assert (hi : 0 < / x <= 1).
    { split; [apply Rinv_0_lt_compat; lra|rewrite <- Rinv_1; apply Rinv_le_contravar; lra]. }
    assert (hq : 0 < vThin / x <= vThin) by (unfold Rdiv; rewrite hv; nra).
    assert (hk' : INR k <= 126) by (rewrite <- INR126; apply le_INR; lia).
    assert (hk0 := pos_INR k).
    assert (hn : INR k * vThin <= 126 * / 1000000) by (rewrite hv; apply Rmult_le_compat_r; lra).
    pose proof (normal_pos x) as hp.
    destruct (@normalInvP (vThin / x + normal x)) as [h6 h7]; [lra|].
    rewrite S_INR, h7; split; [|lra].
    left; apply normal_inv_lt; lra.
Qed.
Lemma thin_xn i : (1 <= i <= 127)%nat -> 1 <= xn vThin i /\ normal (xn vThin i) <= normal 3 + 126 * vThin.
Proof.
  intros hi; unfold xn; replace (Nat.eqb i 0) with false by (symmetry; apply Nat.eqb_neq; lia).
  destruct (@thin_layers (127 - i)) as [h1 h2]; [lia|]. split; [exact h1|].
  apply Rle_trans with (1 := h2); apply Rplus_le_compat_l, Rmult_le_compat_r; [unfold vThin; lra|].
  rewrite <- INR126; apply le_INR; lia.
Qed.
(** with it every word of layers 2 to 126 is decided correctly and layer 1 is not *)
Example ex_C97 : 0 < vThin /\
  (forall i, (1 <= i < 127)%nat ->
     0 < xn vThin i < xn vThin (i + 1) /\
  xn vThin (i + 1) * (normal (xn vThin i) - normal (xn vThin (i + 1))) = vThin) /\
  (forall u, 0 <= u < 1 -> taken vThin (5 * 2 ^ 7 + 64) u <-> height vThin 64 u < normal (pos vThin 64 (5 * 2 ^ 7 + 64))) /\
  taken vThin (2 ^ 58 + 1) (1 - / 1000000000000) /\
  (exists u, 0 <= u < 1 /\ taken vThin (2 ^ 58 + 1) u /\ normal (pos vThin 1 (2 ^ 58 + 1)) <= height vThin 1 u).
Proof.
  assert (hA : forall i, (1 <= i < 127)%nat ->
     0 < xn vThin i < xn vThin (i + 1) /\
  xn vThin (i + 1) * (normal (xn vThin i) - normal (xn vThin (i + 1))) = vThin).
  { intros i hi; destruct (@thin_xn (i + 1)) as [h1 h2]; [lia|].
    apply C97_areas; [exact hi|unfold vThin; lra|lra|].
    assert (h3 : normal 3 < / 2).
    { unfold normal; replace (- (1 / 2) * 3 * 3) with (- (9 / 2)) by field. rewrite exp_Ropp.
      apply Rinv_lt_contravar; pose proof (exp_ge_1 (9 / 2)); lra. }
    assert (h4 : vThin / xn vThin (i + 1) <= vThin).
    { unfold Rdiv; rewrite <- Rmult_1_r; apply Rmult_le_compat_l; [unfold vThin; lra|].
      rewrite <- Rinv_1; apply Rinv_le_contravar; lra. }
    unfold vThin in *; lra. }
  destruct (@thin_xn 1) as [hx _]; [lia|].
  destruct (@C97_first_layer_refuted vThin (2 ^ 58 + 1)) as [h1 [u0 [h2 h3]]]; [lia|reflexivity|discriminate|lra|].
  split; [unfold vThin; lra|]. split; [exact hA|]. split.
  - intros u hu. apply (@C97_layers_partial vThin (5 * 2 ^ 7 + 64) u).
    + lia.
    + vm_compute; lia.
    + exact (proj1 (hA 63%nat ltac:(lia))).
    + exact hu.
  - split; [apply h1; lra|]. exists u0; split; [lra|split; [apply h1; lra|apply h3; lra]].
Qed.

Print Assumptions C95_nonzero_partial.
Print Assumptions C95_zero_refuted.
Print Assumptions C96_parts.
Print Assumptions C96_sign.
Print Assumptions C96_symmetric.
Print Assumptions C96_rounded.
Print Assumptions C97_areas.
Print Assumptions C97_layers_partial.
Print Assumptions C97_first_layer_refuted.
