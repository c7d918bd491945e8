(** Lemmas about the jindo encoder and its ring. *)
From Coq Require Import ZArith.
From mathcomp Require Import all_ssreflect all_algebra zify ssrZ.
From Verif Require Import UintModel JindoIntModel JindoIntProofs Prop_JindoInt CycModel JindoModel.
Set Implicit Arguments. Unset Strict Implicit. Unset Printing Implicit Defensive.
Import GRing.Theory Pdiv.Ring Pdiv.RingMonic.
Delimit Scope Z_scope with Z.
Local Open Scope ring_scope.
Local Arguments Z.mul : simpl never.
Local Arguments Z.add : simpl never.
Local Arguments Z.sub : simpl never.
Local Arguments Z.div : simpl never.
Local Arguments Z.modulo : simpl never.
Local Arguments Z.pow : simpl never.
Local Arguments Z.of_nat : simpl never.

(** ** Words *)
Lemma wval_mkseq X n : (0 <= X)%Z ->
  wval (mkseq (fun i => (X / W ^ Z.of_nat i) mod W)%Z n) = (X mod W ^ Z.of_nat n)%Z.
Proof.
elim: n X => [|n IH] X hX; first by rewrite Z.mod_1_r.
have -> : mkseq (fun i => (X / W ^ Z.of_nat i) mod W)%Z n.+1
   = (X mod W)%Z :: mkseq (fun i => ((X / W) / W ^ Z.of_nat i) mod W)%Z n.
  rewrite /mkseq /= Z.div_1_r; congr (_ :: _); rewrite -[1%N]addn0 iotaDl -map_comp; apply/eq_in_map => i _.
  rewrite /comp add1n Zdiv_Zdiv; [|by []|by apply: Z.pow_nonneg].
  by rewrite Nat2Z.inj_succ Z.pow_succ_r //; exact: Nat2Z.is_nonneg.
rewrite [wval _]/= IH; last by apply: Z.div_pos.
rewrite Nat2Z.inj_succ Z.pow_succ_r; last exact: Nat2Z.is_nonneg.
have hp : (0 < W ^ Z.of_nat n)%Z by apply: Z.pow_pos_nonneg => //; exact: Nat2Z.is_nonneg.
by rewrite Z.rem_mul_r //; lia.
Qed.
Lemma words_mkseq X n : words (mkseq (fun i => (X / W ^ Z.of_nat i) mod W)%Z n).
Proof. by move=> w; rewrite /mkseq; elim: (iota 0 n) => //= a s IH [<-|/IH //]; apply: Z.mod_pos_bound. Qed.

Lemma wval_low c : words c -> (wval c < W)%Z -> (0 < size c)%N -> nth 0%Z c 0 = wval c.
Proof.
case: c => // a c /words_cons[ha hc] /= h _; have := wval_ge0 hc; move: (wval c) h => x h hx.
by have -> : x = 0%Z; [move: h ha; rewrite /W; lia|lia].
Qed.

Section Enc.
Variables (F : fieldType) (U : uint F) (P : jparams).
Local Notation s := (slots P).
Local Notation e := (exp P).
Local Notation b := (base P).
Local Notation d := (slots P * exp P)%N.
Hypothesis hs : (0 < s)%N.
Hypothesis he : (0 < e)%N.
Hypothesis hb : (2 <= b < W)%Z.
Hypothesis hp : (b ^ Z.of_nat e + 1 = modulus U)%Z.
Hypothesis hl : (modulus U <= W ^ Z.of_nat (limbs P))%Z.
Hypothesis hl0 : (0 < limbs P)%N.

Lemma idx_lt i j : (i < s)%N -> (j < e)%N -> (j * s + i < d)%N.
Proof. by move=> hi hj; apply: (@leq_trans (j.+1 * s)%N); [rewrite mulSn addnC ltn_add2r|rewrite mulnC leq_mul2l hj orbT]. Qed.
Lemma idx_inj i j i' j' : (i < s)%N -> (i' < s)%N -> (j * s + i = j' * s + i')%N -> i = i' /\ j = j'.
Proof.
move=> hi hi' h; have := congr1 (fun n => n %% s)%N h; have := congr1 (fun n => n %/ s)%N h.
by rewrite !modnMDl !divnMDl // !modn_small // !divn_small // !addn0.
Qed.

(** the digits of an element *)
Definition digs (X : Z) (j : nat) : Z := if (j < e.-1)%N then ((X / b ^ Z.of_nat j) mod b)%Z else (X / b ^ Z.of_nat j)%Z.

Lemma ecd_digitsP i c p n : (i < s)%N -> (n <= e)%N -> size p = d -> words c ->
  exists c' p', [/\ foldl (ecd_digit P i) (Some (c, p)) (iota 0 n) = Some (c', p'),
    size p' = d, words c' /\ size c' = size c, wval c' = (wval c / b ^ Z.of_nat n)%Z &
    (forall j, (j < n)%N -> nth 0%Z p' (j * s + i) = ((wval c / b ^ Z.of_nat j) mod b)%Z) /\
    (forall k, (forall j, (j < n)%N -> k <> (j * s + i)%N) -> nth 0%Z p' k = nth 0%Z p k)].
Proof.
move=> hi; elim: n => [|n IH] hn hsz hw; first by exists c, p; split=> //=; rewrite Z.div_1_r.
have [c1 [p1 [e1 e2 [e3 e3'] e4 [e5 e6]]]] := IH (ltnW hn) hsz hw.
rewrite -addn1 iotaD foldl_cat e1 /= add0n /ecd_digit divMod64E; last by lia.
have hb0 : (0 < b)%Z by lia.
have [h1 h2] := dm_val c1 hb0; have h3 := dm_words hb0 e3; have h4 := dm_size b c1.
case E: (dm b c1) h1 h2 h3 h4 => [c2 r] /= h1 h2 h3 h4.
exists c2, (set_nth 0%Z p1 (n * s + i) r); split=> //.
- by rewrite size_set_nth e2 (maxn_idPr _) //; exact: idx_lt.
- by rewrite h4.
- rewrite h1 e4 Zdiv_Zdiv; [|by apply: Z.pow_nonneg; lia|lia].
  by rewrite addn1 Nat2Z.inj_succ Z.pow_succ_r ?(Z.mul_comm b) //; exact: Nat2Z.is_nonneg.
split=> [j|k hk].
  rewrite addn1 ltnS leq_eqVlt nth_set_nth /= => /orP[/eqP ->|hj]; first by rewrite eqxx h2 e4.
  case: eqP => [h|_]; last exact: e5.
  by have [_ h'] := idx_inj hi hi h; move: hj; rewrite h' ltnn.
rewrite nth_set_nth /=; case: eqP => [h|_]; first by case: (hk n) => //; rewrite addn1.
by apply: e6 => j hj; apply: hk; rewrite addn1 ltnS ltnW.
Qed.

Lemma digs_val x : (0 <= bigInt U x <= b ^ Z.of_nat e)%Z.
Proof. by have := bigInt_range U x; rewrite -hp; lia. Qed.
Lemma digs_range x j : (j < e)%N -> (0 <= digs (bigInt U x) j <= b)%Z.
Proof.
move=> hj; rewrite /digs; case: ifP => h.
  by have := Z.mod_pos_bound (bigInt U x / b ^ Z.of_nat j) b; lia.
have -> : j = e.-1 by lia.
have := digs_val x; move: (bigInt U x) => X hX.
have hP : (0 < b ^ Z.of_nat e.-1)%Z by apply: Z.pow_pos_nonneg; lia.
split; first by apply: Z.div_pos; lia.
apply: Z.div_le_upper_bound => //; have : (b ^ Z.of_nat e = b ^ Z.of_nat e.-1 * b)%Z.
  by rewrite -{1}(prednK he) Nat2Z.inj_succ Z.pow_succ_r; [ring|exact: Nat2Z.is_nonneg].
by lia.
Qed.

Lemma SliceP x : words (Slice U P x) /\ wval (Slice U P x) = bigInt U x.
Proof.
split; first exact: words_mkseq.
have h := bigInt_range U x; rewrite wval_mkseq; last by lia.
by rewrite Z.mod_small //; lia.
Qed.

Lemma ecd_elemP (v : seq F) p i : (i < s)%N -> size p = d ->
  exists p', [/\ ecd_elem U P v (Some p) i = Some p', size p' = d,
    forall j, (j < e)%N -> nth 0%Z p' (j * s + i) = digs (bigInt U (nth 0 v i)) j &
    forall i' j, (i' < s)%N -> i' <> i -> nth 0%Z p' (j * s + i') = nth 0%Z p (j * s + i')].
Proof.
move=> hi hsz; have [hw hv] := SliceP (nth 0 v i).
have [c [p1 [e1 e2 [e3 e3'] e4 [e5 e6]]]] := ecd_digitsP hi (leq_pred e) hsz hw.
rewrite /ecd_elem e1; eexists; split; first by [].
- by rewrite size_set_nth e2 (maxn_idPr _) //; apply: idx_lt => //; rewrite prednK.
- move=> j hj; rewrite nth_set_nth /=; case: eqP => [h|ne].
    have [_ ->] := idx_inj hi hi h; rewrite /digs ltnn -hv -e4; apply: wval_low => //.
      have := digs_range (nth 0 v i) (_ : e.-1 < e)%N; rewrite prednK // => /(_ (leqnn _)).
      by rewrite /digs ltnn -hv -e4; lia.
    by rewrite e3' size_mkseq.
  have hj' : (j < e.-1)%N.
    by rewrite ltn_neqAle; apply/andP; split; [apply/eqP => h; apply: ne; rewrite h|rewrite -ltnS prednK].
  by rewrite e5 // /digs hj' hv.
- move=> i' j hi' ne; rewrite nth_set_nth /=; case: eqP => [h|_]; first by have [h' _] := idx_inj hi' hi h.
  by apply: e6 => j' _ h; have [h' _] := idx_inj hi' hi h.
Qed.

Lemma ecd_elemsP (v : seq F) p n : (n <= s)%N -> size p = d ->
  exists p', [/\ foldl (ecd_elem U P v) (Some p) (iota 0 n) = Some p', size p' = d &
    forall i j, (i < n)%N -> (j < e)%N -> nth 0%Z p' (j * s + i) = digs (bigInt U (nth 0 v i)) j].
Proof.
elim: n => [|n IH] hn hsz; first by exists p; split.
have [p1 [e1 e2 e3]] := IH (ltnW hn) hsz.
have [p2 [h1 h2 h3 h4]] := ecd_elemP v hn e2.
exists p2; split=> //; first by rewrite -addn1 iotaD foldl_cat e1; exact: h1.
move=> i j; rewrite ltnS leq_eqVlt => /orP[/eqP -> hj|hi hj]; first exact: h3.
rewrite h4 ?e3 //; first exact: ltn_trans hn.
by move=> h; move: hi; rewrite h ltnn.
Qed.

Lemma ecd_zerosP p a n : (a + n <= s)%N -> size p = d ->
  let p' := foldl (ecd_zero P) p (iota a n) in size p' = d /\
    (forall i j, (a <= i < a + n)%N -> (j < e)%N -> nth 0%Z p' (j * s + i) = 0%Z) /\
    (forall i j, (i < a)%N -> nth 0%Z p' (j * s + i) = nth 0%Z p (j * s + i)).
Proof.
have one i q m : (i < s)%N -> (m <= e)%N -> size q = d ->
    let q' := foldl (fun p j => set_nth 0%Z p (j * s + i) 0%Z) q (iota 0 m) in
    [/\ size q' = d, forall j, (j < m)%N -> nth 0%Z q' (j * s + i) = 0%Z &
      forall i' j, (i' < s)%N -> i' <> i -> nth 0%Z q' (j * s + i') = nth 0%Z q (j * s + i')].
  move=> hi; elim: m => [|m IH] hm hq; first by split.
  have [a1 a2 a3] := IH (ltnW hm) hq; rewrite -addn1 iotaD foldl_cat /= add0n addn1; split.
  - by rewrite size_set_nth a1 (maxn_idPr _) //; exact: idx_lt.
  - move=> j; rewrite ltnS leq_eqVlt nth_set_nth /= => /orP[/eqP ->|hj]; first by rewrite eqxx.
    by case: eqP => // _; exact: a2.
  - move=> i' j hi' ne; rewrite nth_set_nth /=; case: eqP => [h|_]; last exact: a3.
    by have [h' _] := idx_inj hi' hi h.
elim: n => [|n IH] han hq; first by split=> //; split=> // i j /andP[h1 h2]; move: h2; rewrite addn0 ltnNge h1.
have [|b1 [b2 b3]] := IH _ hq; first by apply: leq_trans han; rewrite leq_add2l.
have han' : (a + n < s)%N by rewrite -addnS.
have [c1 c2 c3] := one (a + n)%N _ e han' (leqnn e) b1.
rewrite -addn1 iotaD foldl_cat [foldl _ _ (iota _ 1)]/= -/(ecd_zero P _ _); split; [exact: c1|split].
  move=> i j /andP[h1]; rewrite addnA addn1 ltnS leq_eqVlt => /orP[/eqP -> hj|h2 hj]; first exact: c2.
  rewrite c3 ?b2 ?h1 //; first by apply: ltn_trans han'.
  by move=> h; move: h2; rewrite h ltnn.
move=> i j hi; have hia : (i < a + n)%N by apply: leq_trans hi (leq_addr _ _).
rewrite c3 ?b3 //; first exact: ltn_trans han'.
by move=> h; move: hia; rewrite h ltnn.
Qed.

(** what baseEncodeTo writes *)
Lemma baseEncodeP p0 (v : seq F) : size p0 = d -> (size v <= s)%N ->
  exists p, [/\ baseEncode U P p0 v = Some p, size p = d &
    forall i j, (i < s)%N -> (j < e)%N ->
      nth 0%Z p (j * s + i) = if (i < size v)%N then digs (bigInt U (nth 0 v i)) j else 0%Z].
Proof.
move=> hp0 hv; have [p1 [e1 e2 e3]] := ecd_elemsP v hv hp0.
rewrite /baseEncode ltnNge hv /= e1; eexists; split; first by [].
  by have [|//] := @ecd_zerosP p1 (size v) (s - size v) _ e2; rewrite subnKC.
have [|_ [h2 h3]] := @ecd_zerosP p1 (size v) (s - size v) _ e2; first by rewrite subnKC.
move=> i j hi hj; case: ltnP => h; first by rewrite h3 // e3.
by apply: h2 => //; rewrite h subnKC.
Qed.

Lemma baseEncode_long p0 (v : seq F) : (s < size v)%N -> baseEncode U P p0 v = None.
Proof. by move=> h; rewrite /baseEncode h. Qed.

(** the digits add up to the element *)
Lemma digs_sum X n : (0 <= X)%Z -> (n < e)%N -> 
  X = \sum_(j < n) (b ^ Z.of_nat j * ((X / b ^ Z.of_nat j) mod b))%Z + (b ^ Z.of_nat n * (X / b ^ Z.of_nat n))%Z.
Proof.
move=> hX; elim: n => [|n IH] hn; first by rewrite big_ord0 Z.div_1_r; lia.
rewrite big_ord_recr /=; rewrite {1}(IH (ltnW hn)) -addrA; congr (_ + _).
rewrite -[RHS]/(Z.add _ _).
rewrite Nat2Z.inj_succ Z.pow_succ_r; last exact: Nat2Z.is_nonneg.
have hP : (0 < b ^ Z.of_nat n)%Z by apply: Z.pow_pos_nonneg; [lia|exact: Nat2Z.is_nonneg].
rewrite [(b * b ^ _)%Z]Z.mul_comm -Zdiv_Zdiv; [|lia|lia].
have := Z.div_mod (X / b ^ Z.of_nat n) b; move: (X / _)%Z => Y hY.
rewrite {1}hY; last by lia.
by rewrite Z.mul_add_distr_l Z.mul_assoc Z.add_comm.
Qed.
Lemma digs_total x : \sum_(j < e) (b ^ Z.of_nat j * digs (bigInt U x) j)%Z = bigInt U x.
Proof.
have hX := digs_val x; rewrite [RHS](@digs_sum _ e.-1); [|lia|by rewrite prednK].
rewrite -(big_mkord xpredT (fun j => (b ^ Z.of_nat j * digs (bigInt U x) j)%Z)).
rewrite -{1}(prednK he) big_nat_recr //= big_mkord {2}/digs ltnn; congr (_ + _).
by apply: eq_bigr => j _; rewrite /digs ltn_ord.
Qed.
End Enc.

(** ** Integers to the field *)
Section Phi.
Variables (F : fieldType) (U : uint F).
Lemma phi_is_rmorphism : rmorphism (setBigInt U : Z -> F).
Proof.
have f0 : setBigInt U 0 = 0.
  by have := setBigInt_add U 0 0; rewrite Z.add_0_r => h; apply: (@addrI _ (setBigInt U 0)); rewrite addr0.
split=> [x y|]; last by split=> [x y|]; [exact: setBigInt_mul|exact: setBigInt_one].
apply: (@addIr _ (setBigInt U y)); rewrite subrK -[X in X + _]/(setBigInt U (x - y)%Z) -setBigInt_add.
by congr (setBigInt U _); lia.
Qed.
Definition phi : {rmorphism Z -> F} := RMorphism phi_is_rmorphism.
Arguments phi : simpl never.
Lemma phiE z : setBigInt U z = phi z. Proof. by []. Qed.
Lemma phi_mod : phi (modulus U) = 0.
Proof.
rewrite -[LHS](setBigInt_bigInt U) bigInt_setBigInt Z.mod_same; last by have := modulus_gt1 U; lia.
exact: (rmorph0 phi).
Qed.
Lemma map_phiXn n : map_poly phi 'X^n = 'X^n. Proof. exact: map_polyXn. Qed.
Lemma map_phiC z : map_poly phi z%:P = (phi z)%:P. Proof. exact: map_polyC. Qed.
Lemma phi_pow z n : phi (z ^ Z.of_nat n)%Z = phi z ^+ n.
Proof.
elim: n => [|n IH]; first by rewrite expr0 Z.pow_0_r rmorph1.
by rewrite Nat2Z.inj_succ Z.pow_succ_r; [rewrite [LHS](rmorphM phi) IH exprS|exact: Nat2Z.is_nonneg].
Qed.
End Phi.

(** ** The ring *)
Section Ring.
Variables (d : nat) (Q : Z) (R : cyc d Q).
Hypothesis hd : (0 < d)%N.
Definition nc (p : {poly Z}) : {poly Z} := rmodp p (cycP d).
Lemma nc_size p : (size (nc p) <= d)%N. Proof. exact: rmod_size. Qed.
Lemma nc_small (p : {poly Z}) : (size p <= d)%N -> nc p = p.
Proof. by move=> h; rewrite /nc rmodp_small // cycP_size. Qed.
Lemma ncD p q : nc (p + q) = nc p + nc q. Proof. by rewrite /nc rmodpD // cycP_monic. Qed.
Lemma pr_nc p : pr R (nc p) = pr R p.
Proof.
rewrite [in RHS](rdivp_eq (cycP_monic hd) p) rmorphD rmorphM /=.
by rewrite [X in _ * X](pr_X R) mulr0 add0r.
Qed.
Lemma nth_co p i : (i < d)%N -> nth 0%Z (co (pr R p)) i = ((nc p)`_i mod Q)%Z.
Proof. by move=> hi; rewrite -pr_nc co_pr // nc_size. Qed.
Lemma car_poly (r : R) : exists p : {poly Z}, (size p <= d)%N /\ pr R p = r.
Proof.
exists (Poly (co r)); split; last exact: pr_co.
by apply: leq_trans (size_Poly _) _; rewrite co_size.
Qed.
Lemma eq_co (r r' : R) : co r = co r' -> r = r'.
Proof. by move=> h; rewrite -(pr_co r) h pr_co. Qed.
End Ring.

Lemma setBig_mod qs z : coprimes qs -> setBigCoeff qs (z mod prodz qs) = setBigCoeff qs z.
Proof.
move=> hc; apply: (@eq_from_nth _ 0%Z); rewrite !size_map // => i hi.
rewrite !nth_setBig //; have h := (proj1 hc) _ (nth_In 0%Z hi).
have hd := prodz_divide hi; symmetry.
have hQ := prodz_pos hc; apply/div_of_mod; first by lia.
have -> : (z - z mod prodz qs = prodz qs * (z / prodz qs))%Z by have := Z.div_mod z (prodz qs); lia.
exact: Z.divide_mul_l.
Qed.

(** no coefficient of the integer polynomial wraps modulo Q *)
Definition noWrap (Q : Z) (p : {poly Z}) : Prop := forall i, (2 * Z.abs p`_i < Q - 1)%Z.

Lemma sum_grid (V : zmodType) (e s : nat) (f : nat -> V) :
  \sum_(k < s * e) f k = \sum_(i < s) \sum_(j < e) f (j * s + i)%N.
Proof.
have h : \sum_(0 <= k < e * s) f k = \sum_(0 <= j < e) \sum_(0 <= i < s) f (j * s + i)%N.
  elim: e => [|e IH]; first by rewrite mul0n !big_geq.
  rewrite big_nat_recr //= -IH mulSn addnC (big_cat_nat _ _ _ (leq0n (e * s)) (leq_addr _ _)) /=; congr (_ + _).
  rewrite -{1}[(e * s)%N]add0n big_addn addKn; apply: eq_bigr => i _; by rewrite addnC.
rewrite -(big_mkord xpredT f) mulnC h exchange_big /= big_mkord.
by apply: eq_bigr => i _; rewrite big_mkord.
Qed.

Arguments phi : simpl never.
Section Monic.
Variables (K : comRingType) (m : {poly K}).
Hypothesis hm : m \is monic.
Lemma rmodpZ c p : rmodp (c *: p) m = c *: rmodp p m.
Proof.
rewrite {1}(rdivp_eq hm p) scalerDr scalerAl rmodp_addl_mul_small //.
by apply: leq_ltn_trans (size_scale_leq _ _) _; rewrite ltn_rmodp monic_neq0.
Qed.
Lemma rmodp_sum I (r : seq I) (f : I -> {poly K}) : rmodp (\sum_(i <- r) f i) m = \sum_(i <- r) rmodp (f i) m.
Proof. by elim/big_rec2: _ => [|i y1 y2 _ h]; rewrite ?rmod0p // rmodpD // h. Qed.
Lemma rmodpM p q : rmodp (p * q) m = rmodp (rmodp p m * rmodp q m) m.
Proof. by rewrite rmodp_mulmr // [in RHS]mulrC rmodp_mulmr // mulrC. Qed.
Lemma rmodp_id p : rmodp (rmodp p m) m = rmodp p m.
Proof. by rewrite rmodp_small // ltn_rmodp monic_neq0. Qed.
Lemma rmodp_dvd m' p : m' \is monic -> rmodp m' m = 0 -> rmodp (rmodp p m') m = rmodp p m.
Proof.
move=> hm' h; rewrite [in RHS](rdivp_eq hm' p) rmodpD // rmodpM h mulr0 rmod0p add0r //.
Qed.
End Monic.

(** ** Decoding *)
Section Dec.
Variables (F : fieldType) (U : uint F) (P : jparams).
Local Notation s := (slots P).
Local Notation e := (exp P).
Local Notation b := (base P).
Local Notation d := (slots P * exp P)%N.
Local Notation Q := (prodz (qs P)).
Variable inv : Z -> Z -> Z.
Variable RQ : cyc d Q.
Hypothesis hs : (0 < s)%N.
Hypothesis he : (0 < e)%N.
Hypothesis hb : (2 <= b < W)%Z.
Hypothesis hp : (b ^ Z.of_nat e + 1 = modulus U)%Z.
Hypothesis hl : (modulus U <= W ^ Z.of_nat (limbs P))%Z.
Hypothesis hl0 : (0 < limbs P)%N.
Hypothesis hinv : modInverse inv.
Hypothesis hc : coprimes (qs P).
Hypothesis hq0 : (0 < size (qs P))%N.
Let hd : (0 < d)%N. Proof. by rewrite muln_gt0 hs. Qed.
Local Notation phi := (phi U).
Local Notation beta := (phi b).

Lemma bigQ_size (r : RQ) : size (bigQ inv r) = d.
Proof. by rewrite size_map co_size. Qed.
Lemma bigQE p i : (i < d)%N -> noWrap Q (nc d p) -> nth 0%Z (bigQ inv (pr RQ p)) i = (nc d p)`_i.
Proof.
move=> hi hw; rewrite (nth_map 0%Z) ?co_size // nth_co // setBig_mod //.
exact: C54_round_trip.
Qed.

Definition slotP : {poly F} := 'X^s - beta%:P.
Lemma slotP_size : size slotP = s.+1.
Proof. by rewrite /slotP size_addl ?size_polyXn // size_opp ltnS (leq_trans (size_polyC_leq1 _)). Qed.
Lemma slotP_monic : slotP \is monic.
Proof. by rewrite monicE lead_coefE slotP_size coefB coefXn eqxx coefC eqn0Ngt hs subr0. Qed.
Hint Resolve slotP_monic : core.

(** what an integer polynomial decodes to *)
Definition Dp (p : {poly Z}) : {poly F} := rmodp (map_poly phi p) slotP.
Lemma Dp_size p : (size (Dp p) <= s)%N.
Proof. by rewrite -ltnS -slotP_size ltn_rmodp monic_neq0. Qed.
Lemma DpD p q : Dp (p + q) = Dp p + Dp q. Proof. by rewrite /Dp rmorphD /= rmodpD. Qed.
Lemma Dp0 : Dp 0 = 0. Proof. by rewrite /Dp rmorph0 rmod0p. Qed.
Lemma Dp_sum I (r : seq I) (f : I -> {poly Z}) : Dp (\sum_(i <- r) f i) = \sum_(i <- r) Dp (f i).
Proof. by elim/big_rec2: _ => [|i y1 y2 _ h]; rewrite ?Dp0 // DpD h. Qed.
Lemma DpM p q : Dp (p * q) = rmodp (Dp p * Dp q) slotP.
Proof. by rewrite /Dp rmorphM /= rmodpM. Qed.
Lemma DpMc p q c : Dp q = c%:P -> Dp (p * q) = c *: Dp p.
Proof. by move=> h; rewrite DpM h mulrC mul_polyC rmodpZ // rmodp_id. Qed.
Lemma DpcM p q c : Dp p = c%:P -> Dp (p * q) = c *: Dp q.
Proof. by move=> h; rewrite mulrC; exact: DpMc. Qed.

Lemma DpXn j : rmodp 'X^(j * s) slotP = (beta ^+ j)%:P.
Proof.
have h1 : rmodp 'X^s slotP = beta%:P.
  have {1}-> : 'X^s = 1 * slotP + beta%:P by rewrite mul1r /slotP subrK.
  by rewrite rmodp_addl_mul_small // slotP_size ltnS (leq_trans (size_polyC_leq1 _)).
elim: j => [|j IH].
  by rewrite mul0n expr0 rmodp_small // slotP_size size_poly1 ltnS.
rewrite mulSn exprD rmodpM // IH h1 -polyCM -exprS rmodp_small // slotP_size ltnS.
exact: leq_trans (size_polyC_leq1 _) hs.
Qed.

Lemma beta_pow : beta ^+ e = -1.
Proof.
have := phi_mod U; rewrite -hp [LHS](rmorphD phi) (rmorph1 phi) phi_pow => /eqP.
by rewrite addr_eq0 => /eqP.
Qed.

(** reducing modulo X^d+1 does not change what is decoded *)
Lemma Dp_nc p : Dp (nc d p) = Dp p.
Proof.
rewrite [in RHS](rdivp_eq (cycP_monic hd) p) DpD DpM.
have -> : Dp (cycP d) = 0.
  rewrite /Dp /cycP rmorphD rmorph1 /= map_phiXn mulnC rmodpD // DpXn beta_pow.
  by rewrite rmodp_small ?slotP_size ?size_poly1 // polyCN addNr.
by rewrite mulr0 rmod0p add0r.
Qed.

Lemma Dp_coef (p : {poly Z}) i : (size p <= d)%N -> (i < s)%N ->
  (Dp p)`_i = \sum_(j < e) phi p`_(j * s + i) * beta ^+ j.
Proof.
move=> hsz hi; have -> : Dp p = \sum_(i < s) (\sum_(j < e) phi p`_(j * s + i) * beta ^+ j) *: 'X^i.
  have {1}-> : p = \sum_(k < d) p`_k *: 'X^k.
    rewrite -poly_def; apply/polyP => k; rewrite coef_poly; case: ltnP => // h.
    by rewrite nth_default //; exact: leq_trans hsz h.
  rewrite (sum_grid _ _ (fun k => p`_k *: 'X^k)) Dp_sum; apply: eq_bigr => i' _; rewrite Dp_sum scaler_suml.
  apply: eq_bigr => j _; rewrite /Dp map_polyZ /= map_phiXn rmodpZ // exprD rmodpM // DpXn.
  rewrite -[RHS]scalerA; congr (_ *: _); rewrite mul_polyC rmodpZ // rmodp_id //.
  by rewrite rmodp_small // slotP_size size_polyXn ltnS.
rewrite -(poly_def s (fun i => \sum_(j < e) phi p`_(j * s + i) * beta ^+ j)) coef_poly hi //.
Qed.

Lemma decodeSlotE z i : decodeSlot U P z i = \sum_(j < e) phi (nth 0%Z z (j * s + i)) * beta ^+ j.
Proof.
rewrite /decodeSlot.
have key n a : foldl (fun acc j => acc * beta + phi (nth 0%Z z (j * s + i))) a (rev (iota 0 n))
   = a * beta ^+ n + \sum_(j < n) phi (nth 0%Z z (j * s + i)) * beta ^+ j.
  elim: n a => [|n IH] a; first by rewrite big_ord0 expr0 mulr1 addr0.
  rewrite -addn1 iotaD rev_cat foldl_cat /= add0n IH addn1 big_ord_recr /= exprS mulrDl -mulrA -addrA.
  by congr (_ + _); rewrite addrC.
by rewrite key mul0r add0r.
Qed.

Lemma decodeE p i : (i < s)%N -> noWrap Q (nc d p) -> nth 0 (decode U inv (pr RQ p)) i = (Dp p)`_i.
Proof.
move=> hi hw; rewrite nth_mkseq // decodeSlotE -Dp_nc Dp_coef ?nc_size //.
by apply: eq_bigr => j _; rewrite bigQE //; exact: idx_lt.
Qed.
Lemma size_decode (r : RQ) : size (decode U inv r) = s. Proof. by rewrite size_mkseq. Qed.

(** the digits written by baseEncodeTo decode to the vector *)
Lemma baseEncodeD (v : seq F) : (size v <= s)%N ->
  exists m, [/\ baseEncode U P (nseq d 0%Z) v = Some m, size m = d,
    forall k, (0 <= nth 0%Z m k <= b)%Z & Dp (Poly m) = Poly v].
Proof.
move=> hv; have [|m [e1 e2 e3]] := @baseEncodeP F U P hs he hb hp hl hl0 (nseq d 0%Z) v _ hv; first by rewrite size_nseq.
exists m; split=> // [k|].
  have [hk|hk] := ltnP k d; last by rewrite nth_default ?e2 //; lia.
  rewrite (divn_eq k s) e3 ?ltn_pmod // ?ltn_divLR // 1?mulnC //.
  by case: ifP => _; [apply: digs_range; rewrite ?ltn_divLR // mulnC|lia].
apply/polyP => i; have [hi|hi] := ltnP i s; last first.
  rewrite nth_default; last exact: leq_trans (Dp_size _) hi.
  by rewrite coef_Poly nth_default //; exact: leq_trans hv hi.
rewrite Dp_coef //; last by apply: leq_trans (size_Poly _) _; rewrite e2.
rewrite coef_Poly; transitivity (\sum_(j < e) phi (b ^ Z.of_nat j * (if (i < size v)%N then digs P (bigInt U (nth (0%R : F) v i)) j else 0))%Z).
  by apply: eq_bigr => j _; rewrite coef_Poly e3 // [RHS](rmorphM phi) mulrC phi_pow.
rewrite -rmorph_sum; case: ltnP => h; first by rewrite (digs_total hs he hb hp) //; exact: setBigInt_bigInt.
by rewrite big1 ?rmorph0 ?nth_default // => j _; rewrite Z.mul_0_r.
Qed.

Lemma toQ_inZ z p : pr RQ (z%:P * p) = pr RQ z%:P * pr RQ p. Proof. exact: rmorphM. Qed.

(** X^slots * sample, as the code copies it *)
Lemma shiftSampleE (S : seq Z) : (size S <= d)%N ->
  Poly (shiftSample P S) = 'X^s * Poly S - cycP d * Poly (drop (d - s) S).
Proof.
move=> hS; have hsd : (s <= d)%N by rewrite -{1}[s]muln1 leq_mul2l he orbT.
apply/eqP; rewrite eq_sym subr_eq; apply/eqP/polyP => k.
rewrite coefXnM coefD /cycP mulrDl mul1r coefD coefXnM !coef_Poly !nth_drop.
have sh : nth 0 (shiftSample P S) k = if (k < d)%N then (if (k < s)%N then - nth 0 S (d - s + k) else nth 0 S (k - s)) else 0.
  by case: ltnP => h; [rewrite nth_mkseq|rewrite nth_default // size_mkseq].
rewrite sh; have [h1|h1] := ltnP k s.
  by rewrite (leq_trans h1 hsd) add0r addNr.
have e0 : nth 0 S (d - s + k) = 0 by rewrite nth_default //; apply: leq_trans hS _; rewrite -leq_subLR subKn.
rewrite e0; have [h2|h2] := ltnP k d; first by rewrite !addr0.
rewrite add0r addr0; congr (nth _ _ _); move: hsd h2; clear; move: d s => a c; lia.
Qed.

Definition randPoly (m S : seq Z) : {poly Z} := Poly m + ('X^s - b%:P) * Poly S.
Lemma randEncodeE (v : seq F) (S : seq Z) : (size v <= s)%N -> (size S <= d)%N ->
  exists m, [/\ baseEncode U P (nseq d 0%Z) v = Some m, randEncode U RQ v S = Some (pr RQ (randPoly m S)),
    size m = d, forall k, (0 <= nth 0%Z m k <= b)%Z & Dp (randPoly m S) = Poly v].
Proof.
move=> hv hS; have [m [e1 e2 e3 e4]] := baseEncodeD hv; exists m; split=> //.
  rewrite /randEncode e1 /toQ shiftSampleE // rmorphB rmorphM /=.
  rewrite [X in _ - X](_ : _ = 0); last by rewrite rmorphM [X in X * _](pr_X RQ) mul0r.
  by rewrite subr0 /randPoly mulrBl rmorphD rmorphB !rmorphM /= [X in _ - X]mulrC.
rewrite DpD e4; have -> : Dp (('X^s - b%:P) * Poly S) = 0.
  have h : Dp ('X^s - b%:P) = 0.
    by rewrite /Dp rmorphB /= map_phiXn map_phiC -/slotP rmodpp.
  by rewrite DpM h mul0r rmod0p.
by rewrite addr0.
Qed.
Lemma randPoly_nc (m S : seq Z) : (size m <= d)%N -> (size S <= d)%N ->
  nc d (randPoly m S) = Poly m + Poly (shiftSample P S) - b *: Poly S.
Proof.
move=> hm hS; have -> : randPoly m S = (Poly m + Poly (shiftSample P S) - b *: Poly S) + cycP d * Poly (drop (d - s) S).
  rewrite shiftSampleE // /randPoly mulrBl mul_polyC; set A := 'X^s * _; set B := cycP d * _.
  by rewrite -!addrA; congr (_ + _); congr (_ + _); rewrite addrCA addNr addr0.
rewrite ncD // [X in _ + X]/nc mulrC rmodp_mull ?cycP_monic // addr0 nc_small //.
have h x : (size x <= d)%N -> (size (Poly x : {poly Z}) <= d)%N by move=> h; exact: leq_trans (size_Poly _) h.
rewrite (leq_trans (size_add _ _)) // geq_max size_opp (leq_trans (size_scale_leq _ _)) ?h // andbT.
by rewrite (leq_trans (size_add _ _)) // geq_max !h // size_mkseq.
Qed.

(** the integers handed to decoding represent the element *)
Lemma pr_congr (p q : {poly Z}) : (size p <= d)%N -> (size q <= d)%N ->
  (forall i, (Q | p`_i - q`_i)%Z) -> pr RQ p = pr RQ q.
Proof.
move=> sp sq h; apply: eq_co; apply: (@eq_from_nth _ 0%Z); rewrite !co_size // => i hi.
by rewrite !co_pr //; apply/div_of_mod; [exact: prodz_pos|exact: h].
Qed.
Lemma pr_bigQ (r : RQ) : pr RQ (Poly (bigQ inv r)) = r.
Proof.
rewrite -[RHS]pr_co; apply: pr_congr.
- by apply: leq_trans (size_Poly _) _; rewrite bigQ_size.
- by apply: leq_trans (size_Poly _) _; rewrite co_size.
move=> i; rewrite !coef_Poly; have [hi|hi] := ltnP i d; last first.
  by rewrite !nth_default ?bigQ_size ?co_size //; exact: Z.divide_0_r.
rewrite (nth_map 0%Z) ?co_size //; set z := nth _ _ _.
by case: (reconstructP hinv hc z hq0) => [[] //|[_ [] //]].
Qed.
Lemma decode_big (r : RQ) i : (i < s)%N -> nth 0 (decode U inv r) i = (Dp (Poly (bigQ inv r)))`_i.
Proof.
move=> hi; rewrite nth_mkseq // decodeSlotE Dp_coef ?(leq_trans (size_Poly _)) ?bigQ_size //.
by apply: eq_bigr => j _; rewrite coef_Poly.
Qed.

(** polynomials in X^slots decode to a scalar in slot 0 *)
Definition scalarPoly (p : {poly Z}) : Prop := forall k, ~~ (s %| k)%N -> p`_k = 0.
Lemma Dp_scalar (p : {poly Z}) : (size p <= d)%N -> scalarPoly p -> Dp p = ((Dp p)`_0)%:P.
Proof.
move=> hsz hsc; apply/polyP => i; rewrite coefC; case: eqP => [-> //|/eqP hi].
have [h|h] := ltnP i s; last by rewrite nth_default //; exact: leq_trans (Dp_size _) h.
rewrite Dp_coef // big1 // => j _; rewrite hsc ?rmorph0 ?mul0r //.
rewrite /dvdn modnMDl modn_small //.
Qed.
End Dec.

(** ** Sizes of coefficients *)
Section Bound.
Variable d : nat.
Hypothesis hd : (0 < d)%N.
Definition infLe (p : {poly Z}) (B : Z) : Prop := forall i, (Z.abs p`_i <= B)%Z.
Lemma infLe_ge0 p B : infLe p B -> (0 <= B)%Z.
Proof. by move=> /(_ 0%N); clear; lia. Qed.
Lemma nc_X (p : {poly Z}) B : (size p <= d)%N -> infLe p B -> infLe (nc d ('X * p)) B.
Proof.
move=> hp h i; have hB := infLe_ge0 h.
have hn : nc d ('X * p) = 'X * p - p`_d.-1 *: cycP d.
  rewrite -[in LHS](subrK (p`_d.-1 *: cycP d) ('X * p)) ncD // [X in _ + X]/nc -mul_polyC.
  rewrite rmodp_mull ?cycP_monic // addr0 nc_small ?mul_polyC //.
  apply/leq_sizeP => j hj; rewrite coefB coefXM coefZ /cycP coefD coefXn coef1.
  have -> : (j == 0)%N = false by apply/negbTE; rewrite -lt0n; exact: leq_trans hd hj.
  rewrite addr0; have [->|ne] := eqVneq j d; first by rewrite mulr1 subrr.
  rewrite mulr0 subr0 nth_default //; apply: leq_trans hp _.
  by move: hj ne; clear; case: j => [|j]; [rewrite leqn0 eq_sym => ->|rewrite leq_eqVlt eq_sym => /orP[->|]].
have [hi|hi] := ltnP i d; last by rewrite nth_default; [lia|exact: leq_trans (nc_size hd _) hi].
rewrite hn coefB coefXM coefZ /cycP coefD coefXn coef1 (ltn_eqF hi) add0r.
case: eqP => [_|_]; last by rewrite mulr0 subr0; exact: h.
by rewrite mulr1 sub0r; have := h d.-1; rewrite -[- _]/(Z.opp _); lia.
Qed.
Lemma ncMr p q : nc d (p * nc d q) = nc d (p * q).
Proof. by rewrite /nc rmodp_mulmr // cycP_monic. Qed.
Lemma nc_Xn (p : {poly Z}) B n : (size p <= d)%N -> infLe p B -> infLe (nc d ('X^n * p)) B.
Proof.
move=> hp h; elim: n => [|n IH]; first by rewrite expr0 mul1r nc_small.
by rewrite exprS -mulrA -ncMr; apply: nc_X => //; exact: nc_size.
Qed.
Lemma infLeD p q A B : infLe p A -> infLe q B -> infLe (p + q) (A + B)%Z.
Proof. by move=> h1 h2 i; rewrite coefD -[_ + _]/(Z.add _ _); have := h1 i; have := h2 i; clear; lia. Qed.
Lemma ncZ c p : nc d (c *: p) = c *: nc d p.
Proof. by rewrite /nc rmodpZ // cycP_monic. Qed.
Lemma nc_sum I (r : seq I) (f : I -> {poly Z}) : nc d (\sum_(i <- r) f i) = \sum_(i <- r) nc d (f i).
Proof. by rewrite /nc rmodp_sum // cycP_monic. Qed.
Lemma infLe_sum n (f : nat -> {poly Z}) (B : nat -> Z) : (forall i, (i < n)%N -> infLe (f i) (B i)) ->
  infLe (\sum_(i < n) f i) (\sum_(i < n) B i).
Proof.
elim: n => [|n IH] h; first by rewrite !big_ord0 => i; rewrite coef0.
by rewrite !big_ord_recr /=; apply: infLeD; [apply: IH => i hi; apply: h; exact: ltnW|exact: h].
Qed.
(** the product grows by at most the sum of the absolute values *)
Lemma nc_mul_bound (p c : {poly Z}) B : (size p <= d)%N -> (size c <= d)%N -> infLe p B ->
  infLe (nc d (p * c)) (\sum_(k < d) (Z.abs c`_k * B)%Z).
Proof.
move=> hp hc h.
have {1}-> : c = \sum_(k < d) c`_k *: 'X^k.
  rewrite -poly_def; apply/polyP => k; rewrite coef_poly; case: ltnP => // hk.
  by rewrite nth_default //; exact: leq_trans hc hk.
rewrite mulr_sumr nc_sum.
apply: (@infLe_sum d (fun k => nc d (p * (c`_k *: 'X^k))) (fun k => (Z.abs c`_k * B)%Z)) => k _.
rewrite -scalerAr ncZ mulrC => i; rewrite coefZ -[_ * _]/(Z.mul _ _) Z.abs_mul.
by apply: Z.mul_le_mono_nonneg_l; [exact: Z.abs_nonneg|exact: nc_Xn].
Qed.
End Bound.
