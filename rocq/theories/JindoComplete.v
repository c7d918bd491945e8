(** Honest openings and proofs of the commitment scheme. *)
From Coq Require Import ZArith.
From mathcomp Require Import all_ssreflect all_algebra zify ssrZ.
From Verif Require Import UintModel JindoIntModel JindoIntProofs Prop_JindoInt CycModel JindoModel JindoProofs LayoutProofs Prop_JindoEnc.
Set Implicit Arguments. Unset Strict Implicit. Unset Printing Implicit Defensive.
Import GRing.Theory Pdiv.Ring Pdiv.CommonRing Pdiv.RingMonic.
Delimit Scope Z_scope with Z.
Local Open Scope ring_scope.
Local Arguments Z.mul : simpl never.
Local Arguments Z.add : simpl never.
Local Arguments Z.pow : simpl never.
Local Arguments Z.of_nat : simpl never.
Local Arguments phi : simpl never.

Lemma allSomeP (T : Type) (l : seq (option T)) r : allSome l = Some r ->
  size r = size l /\ forall x0 i, (i < size l)%N -> nth None l i = Some (nth x0 r i).
Proof.
elim: l r => [|a l IH] r /=; first by case=> <-.
case: a => [x|//]; case E: (allSome l) => [r'|//] [<-]; have [h1 h2] := IH _ E.
by split=> [|x0 [|i] hi] //=; [rewrite h1|exact: h2].
Qed.
Lemma allSome_ex (T : Type) (l : seq (option T)) : (forall i, (i < size l)%N -> exists x, nth None l i = Some x) ->
  exists r, allSome l = Some r.
Proof.
elim: l => [|a l IH] h; first by exists [::].
have [x /= hx] := h 0%N isT; have [|r hr] := IH; first by move=> i hi; exact: (h i.+1).
by exists (x :: r); rewrite hx hr.
Qed.
Lemma nth_grid (T : Type) (x0 : T) (f : nat -> nat -> T) n m i j : (i < n)%N -> (j < m)%N ->
  nth x0 (flatten [seq [seq f i j | j <- iota 0 m] | i <- iota 0 n]) (i * m + j) = f i j.
Proof.
move=> hi hj; suff h a k : (k < n)%N -> nth x0 (flatten [seq [seq f i j | j <- iota 0 m] | i <- iota a n]) (k * m + j) = f (a + k)%N j.
  by rewrite h.
move=> {i hi}; elim: n a k => [//|n IH] a k hk /=.
rewrite nth_cat size_map size_iota; case: k hk => [|k] hk.
  by rewrite mul0n add0n hj (nth_map 0%N) ?size_iota // nth_iota // addn0.
by rewrite mulSn -addnA ltnNge leq_addr /= addKn IH // addSnnS.
Qed.
Lemma size_grid (T : Type) (f : nat -> nat -> T) n m : size (flatten [seq [seq f i j | j <- iota 0 m] | i <- iota 0 n]) = (n * m)%N.
Proof.
suff h a : size (flatten [seq [seq f i j | j <- iota 0 m] | i <- iota a n]) = (n * m)%N by exact: h.
elim: n a => [//|n IH] a /=; by rewrite size_cat IH size_map size_iota mulSn.
Qed.

Lemma sumZ_le n (f : nat -> Z) B : (forall i, (i < n)%N -> (f i <= B)%Z) -> ((\sum_(i < n) f i)%R <= Z.of_nat n * B)%Z.
Proof.
elim: n => [|n IH] h; first by rewrite big_ord0.
rewrite big_ord_recr; have := IH (fun i hi => h i (ltnW hi)); have := h n (ltnSn n).
by set X := (\sum_(i < n) f i)%R => h1 h2; rewrite -[X in (X <= _)%Z]/(X + f n)%Z; lia.
Qed.

(** ** Elements with a small integer representative *)
Section Rep.
Variables (F : fieldType) (U : uint F) (P : jparams).
Local Notation s := (slots P).
Local Notation d := (slots P * exp P)%N.
Hypothesis hs : (0 < slots P)%N.
Hypothesis he : (0 < exp P)%N.
Hypothesis hp : (base P ^ Z.of_nat (exp P) + 1 = modulus U)%Z.
Let hd : (0 < d)%N. Proof. by rewrite muln_gt0 hs. Qed.
Variables (Q : Z) (R : cyc d Q).
Definition drep (r : R) (B : Z) (f : {poly F}) : Prop :=
  exists p : {poly Z}, [/\ (size p <= d)%N, infLe p B, pr R p = r & Dp U P p = f].
Definition srep (c : R) (N : Z) (k : F) : Prop :=
  exists p : {poly Z}, [/\ (size p <= d)%N, ((\sum_(i < d) Z.abs p`_i)%R <= N)%Z, pr R p = c & Dp U P p = k%:P].

Lemma drep_ge0 r B f : drep r B f -> (0 <= B)%Z.
Proof. by move=> [p [_ h _ _]]; exact: infLe_ge0 h. Qed.
Lemma sum_abs_ge0 n (p : {poly Z}) : (0 <= (\sum_(i < n) Z.abs p`_i)%R)%Z.
Proof. by elim/big_rec: _ => [//|i x _ h]; rewrite -[_ + _]/(Z.add _ _); lia. Qed.
Lemma srep_ge0 c N k : srep c N k -> (0 <= N)%Z.
Proof. by case=> p [_ h _ _]; have := @sum_abs_ge0 d p; lia. Qed.
Lemma drep0 : drep 0 0 0.
Proof. by exists 0; split; rewrite ?size_poly0 ?rmorph0 ?Dp0 // => i; rewrite coef0. Qed.
Lemma drepD r r' B B' f f' : drep r B f -> drep r' B' f' -> drep (r + r') (B + B') (f + f').
Proof.
move=> [p [a1 a2 a3 a4]] [p' [b1 b2 b3 b4]]; exists (p + p'); split.
- by rewrite (leq_trans (size_add _ _)) // geq_max a1 b1.
- exact: infLeD.
- by rewrite rmorphD a3 b3.
by rewrite DpD // a4 b4.
Qed.
Lemma drepW r B B' f : drep r B f -> (B <= B')%Z -> drep r B' f.
Proof. by move=> [p [a1 a2 a3 a4]] h; exists p; split=> // i; have := a2 i; lia. Qed.
Lemma srepW r B B' f : srep r B f -> (B <= B')%Z -> srep r B' f.
Proof. by move=> [p [a1 a2 a3 a4]] h; exists p; split=> //; lia. Qed.
Lemma drep_sum n (r : nat -> R) B (f : nat -> {poly F}) : (forall i, (i < n)%N -> drep (r i) B (f i)) ->
  drep (\sum_(i < n) r i) (Z.of_nat n * B) (\sum_(i < n) f i).
Proof.
elim: n => [|n IH] h; first by rewrite !big_ord0; exact: drep0.
rewrite !big_ord_recr /=; have := drepD (IH (fun i hi => h i (ltnW hi))) (h n (ltnSn n)).
by move=> h'; apply: drepW h' _; lia.
Qed.
Lemma drepM r c B N f k : drep r B f -> srep c N k -> drep (r * c) (N * B) (k *: f).
Proof.
move=> hr; have hB := drep_ge0 hr; move: hr => [p [a1 a2 a3 a4]] [q [b1 b2 b3 b4]].
exists (nc d (p * q)); split.
- exact: nc_size.
- move=> i; have h1 := @nc_mul_bound _ hd _ _ _ a1 b1 a2 i; apply: (Z.le_trans _ _ _ h1).
  have -> : (\sum_(k0 < d) (Z.abs q`_k0 * B)%Z)%R = ((\sum_(k0 < d) Z.abs q`_k0)%R * B)%Z.
    by rewrite -[RHS]/((\sum_(k0 < d) Z.abs q`_k0)%R * B)%R mulr_suml.
  by apply: Z.mul_le_mono_nonneg_r.
- by rewrite pr_nc // rmorphM a3 b3.
by rewrite (@Dp_nc F U P) // (@DpMc _ _ _ hs _ _ k) // a4.
Qed.
Lemma srep1 : srep 1 1 1.
Proof.
exists 1; split.
- by rewrite size_poly1.
- rewrite (bigD1 (Ordinal hd)) //= coef1 big1 // => i ne; rewrite coef1.
  by have -> : ((i : nat) == 0%N) = false by apply: contraNF ne => /eqP h; apply/eqP/val_inj.
- by rewrite rmorph1.
by rewrite /Dp rmorph1 rmodp_small // ?slotP_size ?size_poly1 ?ltnS.
Qed.
(** a polynomial supported on multiples of slots *)
Lemma l1_scalar (c : seq Z) B : (size c <= d)%N -> (forall k, ~~ (s %| k)%N -> nth 0%Z c k = 0%Z) ->
  (forall k, (Z.abs (nth 0%Z c k) <= B)%Z) -> ((\sum_(i < d) Z.abs (Poly c : {poly Z})`_i)%R <= Z.of_nat (exp P) * B)%Z.
Proof.
move=> hsz hsup hB.
rewrite (sum_grid (exp P) s (fun k => Z.abs (Poly c : {poly Z})`_k)) (bigD1 (Ordinal hs)) //.
rewrite -[GRing.add_monoid _ _ _]/(_ + _)%R [X in (_ + X)%R]big1 => [|i ne].
  rewrite addr0; apply: (@sumZ_le (exp P) (fun j => Z.abs (Poly c)`_(j * s + 0))) => j _.
  by rewrite coef_Poly; exact: hB.
have i0 : (0 < i)%N by rewrite lt0n; apply: contraNN ne => /eqP h; apply/eqP/val_inj.
rewrite big1 // => j _; rewrite coef_Poly; rewrite hsup //.
by rewrite dvdn_addr ?dvdn_mull // /dvdn modn_small -?lt0n.
Qed.
Lemma srep_scalar (c : seq Z) B : (size c <= d)%N -> (forall k, ~~ (s %| k)%N -> nth 0%Z c k = 0%Z) ->
  (forall k, (Z.abs (nth 0%Z c k) <= B)%Z) -> srep (pr R (Poly c)) (Z.of_nat (exp P) * B) (Dp U P (Poly c))`_0.
Proof.
move=> hsz hsup hB; exists (Poly c); split=> //; [by apply: leq_trans (size_Poly _) _|exact: l1_scalar|].
by apply: Dp_scalar => // [|k hk]; [apply: leq_trans (size_Poly _) _|rewrite coef_Poly; exact: hsup].
Qed.
Lemma drep_bound (r : R) B f : drep r B f -> exists p : {poly Z}, [/\ (size p <= d)%N, infLe p B & pr R p = r].
Proof. by case=> p [h1 h2 h3 _]; exists p. Qed.
End Rep.

(** ** Challenges *)
Section Chal.
Variables (F : fieldType) (U : uint F) (P : jparams).
Local Notation s := (slots P).
Local Notation d := (slots P * exp P)%N.
Hypothesis hs : (0 < slots P)%N.
Hypothesis he : (0 < exp P)%N.
Hypothesis hb : (2 <= base P < W)%Z.
Hypothesis hp : (base P ^ Z.of_nat (exp P) + 1 = modulus U)%Z.
Hypothesis hl : (modulus U <= W ^ Z.of_nat (limbs P))%Z.
Hypothesis hl0 : (0 < limbs P)%N.
Hypothesis hq0 : (0 < size (qs P))%N.
Let hd : (0 < d)%N. Proof. by rewrite muln_gt0 hs. Qed.

Lemma chalCoeffsE ds m : (m <= exp P)%N ->
  let c := foldl (fun p i => set_nth 0%Z p (i * s) (nth 0%Z ds i)) (nseq d 0%Z) (iota 0 m) in
  size c = d /\ forall k, nth 0%Z c k = if (s %| k)%N && (k %/ s < m)%N then nth 0%Z ds (k %/ s) else 0%Z.
Proof.
elim: m => [|m IH] hm; first by rewrite /= size_nseq; split=> // k; rewrite ltn0 andbF nth_nseq if_same.
have [h1 h2] := IH (ltnW hm); rewrite -[X in iota 0 X](addn1 m) iotaD foldl_cat /= add0n; split.
  by rewrite size_set_nth h1 (maxn_idPr _) // mulnC ltn_pmul2l.
move=> k; rewrite nth_set_nth /= h2; case: eqP => [->|ne].
  by rewrite dvdn_mull // mulnK // ltnSn.
case: ifP => [/andP[h3 h4]|]; first by rewrite h3 ltnS (ltnW h4).
move=> /negbT; rewrite negb_and; case: ifP => // /andP[h3]; rewrite h3 ltnS leq_eqVlt => /orP[/eqP h4|->//].
by case: ne; rewrite -h4 divnK.
Qed.
Lemma chal_step_zero l : foldl (chal_step 0) None l = None. Proof. by elim: l. Qed.
Lemma encodeChallenge_pos c0 c1 ds : encodeChallenge (base P) (exp P) [:: c0; c1] = Some ds -> (0 < ChallengeBound (base P) (exp P))%Z.
Proof.
have h0 : (0 <= ChallengeBound (base P) (exp P))%Z.
  rewrite /ChallengeBound; apply: Z.div_pos => //; apply: Z.min_glb; first by lia.
  by have := Z.mod_pos_bound (Z.shiftl 1 (120 / Z.of_nat (exp P))) W erefl; lia.
rewrite /encodeChallenge; case: (Z.eq_dec (ChallengeBound (base P) (exp P)) 0) => [->|ne _]; last by lia.
by rewrite -(prednK he) /= chal_step_zero.
Qed.
Lemma cb_le : (ChallengeBound (base P) (exp P) <= base P)%Z.
Proof. by rewrite /ChallengeBound; apply: Z.div_le_upper_bound => //; lia. Qed.
(** the l1 norm of a challenge *)
Definition chalN : Z := (Z.of_nat (exp P) * (ChallengeBound (base P) (exp P) / 2))%Z.
Lemma chalPolyP b c : chalPoly P b = Some c ->
  [/\ size c = d, forall k, ~~ (s %| k)%N -> nth 0%Z c k = 0%Z &
      forall k, (Z.abs (nth 0%Z c k) <= ChallengeBound (base P) (exp P) / 2)%Z].
Proof.
rewrite /chalPoly; case E: (encodeChallenge _ _ _) => [ds|//] [<-]; have hcb := encodeChallenge_pos E.
have [h1 h2] := chalCoeffsE ds (leqnn (exp P)); split; first exact: h1.
  by move=> k hk; rewrite [LHS]h2 (negbTE hk).
move: E; rewrite encodeChallengeE // => -[ed] k; rewrite [X in Z.abs X]h2; case: ifP => [/andP[_ hk]|_].
  rewrite -ed (nth_map 0%N) ?size_iota //; apply: chalDigit_bound; exact: Z.mod_pos_bound.
by apply: Z.div_pos; lia.
Qed.
Lemma chal_srep (Q : Z) (R : cyc d Q) b c : chalPoly P b = Some c -> srep U (pr R (Poly c)) chalN (Dp U P (Poly c))`_0.
Proof. by move=> /chalPolyP[h1 h2 h3]; apply: srep_scalar => //; rewrite h1. Qed.

Lemma encode1_srep (RQ : cyc d (prodz (qs P))) (l : F) r : encode U RQ [:: l] = Some r ->
  srep U r (Z.of_nat (exp P) * base P) l.
Proof.
rewrite /encode; have [m [e1 e2 e3 e4]] := baseEncodeD hs he hb hp hl hl0 hq0 (hs : (size [:: l] <= s)%N).
rewrite e1 => -[<-]; have [m' [f1 _ f3]] := baseEncodeP hs he hb hp hl hl0 (size_nseq d 0%Z) (hs : (size [:: l] <= s)%N).
move: f1 f3; rewrite e1 => -[<-] f3.
have -> : l = (Dp U P (Poly m))`_0 by rewrite e4 coef_Poly.
apply: srep_scalar => //; first by rewrite e2.
  move=> k hk; have [hkd|hkd] := ltnP k d; last by rewrite nth_default // e2.
  rewrite (divn_eq k s) f3 ?ltn_mod //; last by rewrite ltn_divLR // mulnC.
  have h0 : (0 < k %% s)%N by rewrite lt0n.
  by rewrite ltnNge h0.
by move=> k; have := e3 k; lia.
Qed.
End Chal.
