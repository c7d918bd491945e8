(** Lemmas on the integer parts of jindo. *)
From Coq Require Import ZArith Lia Znumtheory.
From mathcomp Require Import all_ssreflect zify.
From Verif Require Import JindoIntModel.
Set Implicit Arguments. Unset Strict Implicit. Unset Printing Implicit Defensive.
Delimit Scope Z_scope with Z.
Local Arguments Z.mul : simpl never.
Local Arguments Z.add : simpl never.
Local Arguments Z.sub : simpl never.
Local Arguments Z.div : simpl never.
Local Arguments Z.modulo : simpl never.
Local Arguments Z.pow : simpl never.
Local Arguments Z.sqrt : simpl never.

(** the integer of a little-endian word list, and lists of words *)
Definition wval (x : seq Z) : Z := foldr (fun w a => (w + W * a)%Z) 0%Z x.
Definition words (x : seq Z) : Prop := forall w, List.In w x -> (0 <= w < W)%Z.

Lemma W_gt0 : (0 < W)%Z. Proof. by []. Qed.

Lemma words_cons w x : words (w :: x) -> (0 <= w < W)%Z /\ words x.
Proof. by move=> h; split; [apply: h; left|move=> v hv; apply: h; right]. Qed.

Lemma wval_ge0 x : words x -> (0 <= wval x)%Z.
Proof.
elim: x => [|w x IH] //= /words_cons[[h _] /IH h2]; apply: Z.add_nonneg_nonneg => //.
by apply: Z.mul_nonneg_nonneg.
Qed.

Lemma wval_lt x : words x -> (wval x < W ^ Z.of_nat (size x))%Z.
Proof.
elim: x => [|w x IH] // /words_cons[h hx].
have {}IH := IH hx; have h1 := wval_ge0 hx.
rewrite [size _]/= Nat2Z.inj_succ Z.pow_succ_r; last exact: Nat2Z.is_nonneg.
rewrite [wval _]/=; move: (W ^ _)%Z IH => P IH; have := W_gt0; nia.
Qed.

Fixpoint dm (y : Z) (x : seq Z) : seq Z * Z :=
  if x is w :: x' then
    let: (q, r) := dm y x' in (((r * W + w) / y)%Z :: q, ((r * W + w) mod y)%Z)
  else ([::], 0%Z).

Lemma dm_size y x : size (dm y x).1 = size x.
Proof. by elim: x => [|w x] //=; case: (dm y x) => q r /= ->. Qed.

Lemma dm_range y x : (0 < y)%Z -> (0 <= (dm y x).2 < y)%Z.
Proof.
move=> hy; case: x => [|w x] /=; first by lia.
by case: (dm y x) => q r /=; apply: Z.mod_pos_bound.
Qed.

Lemma dm_loop y x pre : (0 < y)%Z ->
  foldl (divMod64_step y) (Some (pre ++ x, 0%Z)) (rev (iota (size pre) (size x)))
  = Some (pre ++ (dm y x).1, (dm y x).2).
Proof.
move=> hy; elim: x pre => [|w x IH] pre //=.
rewrite rev_cons -cats1 foldl_cat.
have := IH (rcons pre w); rewrite cat_rcons size_rcons => -> /=.
have := dm_range x hy; case: (dm y x) => q r /= hr.
rewrite /divMod64_step /Div64 cat_rcons nth_cat ltnn subnn /=.
case: Z.leb_spec => [|_]; first by lia.
congr (Some (_, _)); elim: pre {IH} => [|a pre IH] //=; by rewrite IH.
Qed.

Lemma divMod64E x y : (0 < y)%Z -> divMod64 x y = Some (dm y x).
Proof. by move=> hy; rewrite /divMod64 (@dm_loop y x [::]) //=; case: (dm y x). Qed.

Lemma dm_val y x : (0 < y)%Z -> wval (dm y x).1 = (wval x / y)%Z /\ (dm y x).2 = (wval x mod y)%Z.
Proof.
move=> hy; elim: x => [|w x [IH1 IH2]] /=; first by rewrite Z.div_0_l ?Z.mod_0_l //; lia.
have hr := dm_range x hy; case: (dm y x) IH1 IH2 hr => q r /= -> -> hr.
set m := (wval x mod y)%Z; set d := (wval x / y)%Z.
have e : wval x = (y * d + m)%Z by apply: Z.div_mod; lia.
have e2 : (w + W * wval x = (m * W + w) + (W * d) * y)%Z by rewrite e; ring.
rewrite e2; rewrite Z.div_add ?Z.mod_add; try lia.
Qed.

Lemma dm_words y x : (0 < y)%Z -> words x -> words (dm y x).1.
Proof.
move=> hy; elim: x => [|w x IH] //= /words_cons[hw /IH h].
have := dm_range x hy; case: (dm y x) h => q r /= h hr v [<-|]; last exact: h.
split; first by apply: Z.div_pos; have := W_gt0; nia.
by apply: Z.div_lt_upper_bound; have := W_gt0; nia.
Qed.

Lemma divMod64_zero x : x <> [::] -> (forall w, List.In w x -> (0 <= w)%Z) -> divMod64 x 0 = None.
Proof.
case: x => // w x _ h; rewrite /divMod64 -[size _]/(size x).+1.
have -> : iota 0 (size x).+1 = rcons (iota 0 (size x)) (size x) by rewrite -addn1 iotaD cats1.
rewrite rev_rcons /=.
have z l : foldl (divMod64_step 0) None l = None by elim: l.
by rewrite z.
Qed.

(** ** Encoding parameters *)
Lemma sqrt_loopP fuel b k : (2 <= b)%Z -> (b < 2 ^ Z.of_nat fuel)%Z ->
  exists b' j, [/\ sqrt_loop fuel b k = Some (b', (k + j)%N), (b' ^ (2 ^ Z.of_nat j) = b)%Z, (2 <= b')%Z &
    forall s, (s * s <> b')%Z].
Proof.
elim: fuel b k => [|fuel IH] b k hb hf; first by move: hf => /=; lia.
rewrite /=; case: Z.eqb_spec => e.
  have hs2 : (2 <= Z.sqrt b)%Z.
    have := Z.sqrt_nonneg b; case: (Z.le_gt_cases 2 (Z.sqrt b)) => // h1 h2.
    have [e0|e1] : (Z.sqrt b = 0 \/ Z.sqrt b = 1)%Z by lia.
      by rewrite e0 in e; lia.
    by rewrite e1 in e; lia.
  have hsf : (Z.sqrt b < 2 ^ Z.of_nat fuel)%Z.
    move: hf; rewrite Nat2Z.inj_succ Z.pow_succ_r; last exact: Nat2Z.is_nonneg.
    by move: (2 ^ _)%Z => P; nia.
  have [b' [j [h1 h2 h3 h4]]] := IH (Z.sqrt b) k.+1 hs2 hsf.
  exists b', j.+1; rewrite h1 addSnnS; split=> //.
  have -> : (2 ^ Z.of_nat j.+1 = 2 ^ Z.of_nat j * 2)%Z.
    by rewrite Nat2Z.inj_succ Z.pow_succ_r; [ring|exact: Nat2Z.is_nonneg].
  rewrite Z.pow_mul_r //; last exact: Z.pow_nonneg.
  by rewrite h2 Z.pow_2_r.
exists b, 0%N; rewrite addn0; split=> //; first by rewrite Z.pow_1_r.
move=> s es; apply: e.
have -> : b = (Z.abs s * Z.abs s)%Z by rewrite -Z.abs_mul Z.abs_eq; [|lia]; rewrite es.
by rewrite Z.sqrt_square //; exact: Z.abs_nonneg.
Qed.

(** ** Challenge digits *)
Lemma chal_steps cb (hcb : (0 < cb)%Z) n s c out :
  exists c', foldl (chal_step cb) (Some (c, out)) (iota s n)
    = Some (c', out ++ [seq chalDigit cb ((wval c / cb ^ Z.of_nat i) mod cb)%Z | i <- iota 0 n]) /\
    wval c' = (wval c / cb ^ Z.of_nat n)%Z.
Proof.
elim: n s c out => [|n IH] s c out /=; first by exists c; rewrite cats0 Z.div_1_r.
rewrite divMod64E //; have [h1 h2] := dm_val c hcb.
case E: (dm cb c) h1 h2 => [c1 r] /= h1 h2.
have [c' [-> h3]] := IH s.+1 c1 (rcons out (chalDigit cb r)); exists c'.
have pw m : (wval c1 / cb ^ Z.of_nat m = wval c / cb ^ Z.of_nat m.+1)%Z.
  rewrite h1 Zdiv_Zdiv; [|lia|apply: Z.pow_nonneg; lia].
  by rewrite Nat2Z.inj_succ Z.pow_succ_r //; exact: Nat2Z.is_nonneg.
split; last by rewrite h3 pw.
rewrite cat_rcons Z.div_1_r h2; congr (Some (_, _ ++ _ :: _)).
rewrite -[1%N]addn0 iotaDl -map_comp; apply/eq_in_map => i _ /=.
by rewrite pw.
Qed.

Lemma chalDigit_bound cb r : (0 <= r < cb)%Z -> (Z.abs (chalDigit cb r) <= cb / 2)%Z.
Proof.
move=> h; rewrite /chalDigit; have := Z.div_mod cb 2; have := Z.mod_pos_bound cb 2.
by case: Z.ltb_spec; lia.
Qed.
Lemma chalDigit_inj cb r s : (0 <= r < cb)%Z -> (0 <= s < cb)%Z -> chalDigit cb r = chalDigit cb s -> r = s.
Proof. by rewrite /chalDigit => h1 h2; case: Z.ltb_spec; case: Z.ltb_spec; lia. Qed.

(** base-[cb] digits, low first *)
Fixpoint dval (cb : Z) (rs : seq Z) : Z := if rs is r :: rs' then (r + cb * dval cb rs')%Z else 0%Z.
Lemma dval_range cb rs : (0 < cb)%Z -> (forall r, List.In r rs -> (0 <= r < cb)%Z) ->
  (0 <= dval cb rs < cb ^ Z.of_nat (size rs))%Z.
Proof.
move=> hcb; elim: rs => [|r rs IH] h; first by [].
rewrite [size _]/= Nat2Z.inj_succ Z.pow_succ_r; last exact: Nat2Z.is_nonneg.
have hr := h r (or_introl erefl); have {}IH := IH (fun r h' => h r (or_intror h')).
by move: (cb ^ _)%Z IH => P IH /=; nia.
Qed.
Lemma digit_uniq c a b A B : (0 <= a < c)%Z -> (0 <= b < c)%Z -> (a + c * A = b + c * B)%Z -> a = b /\ A = B.
Proof.
move=> ha hb e; have h : A = B by case: (Ztrichotomy A B) => [h|[//|h]]; nia.
by rewrite h in e *; split=> //; lia.
Qed.
Lemma digits_dval cb rs X : (0 < cb)%Z -> (forall r, List.In r rs -> (0 <= r < cb)%Z) -> (0 <= X)%Z ->
  ([seq ((X / cb ^ Z.of_nat i) mod cb)%Z | i <- iota 0 (size rs)] = rs) <->
  (X mod cb ^ Z.of_nat (size rs) = dval cb rs)%Z.
Proof.
move=> hcb; elim: rs X => [|r rs IH] X h hX; first by rewrite Z.mod_1_r.
have hr := h r (or_introl erefl); have h' : forall r0, List.In r0 rs -> (0 <= r0 < cb)%Z by move=> r0 h0; apply: h; right.
have hv := dval_range hcb h'.
have -> : [seq ((X / cb ^ Z.of_nat i) mod cb)%Z | i <- iota 0 (size (r :: rs))]
  = (X mod cb)%Z :: [seq (((X / cb) / cb ^ Z.of_nat i) mod cb)%Z | i <- iota 0 (size rs)].
  rewrite /= Z.div_1_r; congr (_ :: _); rewrite -[1%N]addn0 iotaDl -map_comp; apply/eq_in_map => i _; rewrite /comp add1n.
  rewrite Zdiv_Zdiv; [|lia|apply: Z.pow_nonneg; lia].
  by rewrite Nat2Z.inj_succ Z.pow_succ_r //; exact: Nat2Z.is_nonneg.
rewrite [size _]/= Nat2Z.inj_succ Z.pow_succ_r; last exact: Nat2Z.is_nonneg.
have hX' : (0 <= X / cb)%Z by apply: Z.div_pos; lia.
have {}IH := IH (X / cb)%Z h' hX'.
have hP : (0 < cb ^ Z.of_nat (size rs))%Z by apply: Z.pow_pos_nonneg => //; exact: Nat2Z.is_nonneg.
rewrite Z.rem_mul_r; [|lia|lia].
have hm := Z.mod_pos_bound X cb hcb.
have hm2 := Z.mod_pos_bound (X / cb) _ hP.
split=> [[e1 /IH e2]|/= e]; first by rewrite /= e1 e2.
move: e hm2 hv IH; move: (_ mod (cb ^ _))%Z (dval cb rs) => A B e hm2 hv IH.
have [e1 e2] := digit_uniq hm hr e.
by rewrite e1; congr (_ :: _); apply/IH.
Qed.

(** ** RNS *)
Definition coprimes (qs : seq Z) : Prop :=
  (forall q, List.In q qs -> (1 < q)%Z) /\
  forall i j, (i < j < size qs)%N -> Z.gcd (nth 0%Z qs i) (nth 0%Z qs j) = 1%Z.

Lemma coprimes_cons q qs : coprimes (q :: qs) -> (1 < q)%Z /\ coprimes qs.
Proof.
move=> [h1 h2]; split; first by apply: h1; left.
split=> [r hr|i j hij]; first by apply: h1; right.
exact: (h2 i.+1 j.+1).
Qed.
Lemma nth_In (T : Type) (d : T) s i : (i < size s)%N -> List.In (nth d s i) s.
Proof. by elim: s i => [|a s IH] [|i] //= h; [left|right; apply: IH]. Qed.
Lemma prodz_pos qs : coprimes qs -> (0 < prodz qs)%Z.
Proof. by elim: qs => [|q qs IH] // /coprimes_cons[hq /IH h] /=; apply: Z.mul_pos_pos => //; lia. Qed.
Lemma prodz_gcd q qs : (forall j, (j < size qs)%N -> Z.gcd q (nth 0%Z qs j) = 1%Z) -> Z.gcd q (prodz qs) = 1%Z.
Proof.
elim: qs => [|r qs IH] h; first by rewrite Z.gcd_1_r.
rewrite /=; apply/Zgcd_1_rel_prime; apply: rel_prime_mult.
  by apply/Zgcd_1_rel_prime; exact: (h 0%N).
by apply/Zgcd_1_rel_prime; apply: IH => j hj; exact: (h j.+1).
Qed.
Lemma prodz_divide qs i : (i < size qs)%N -> (nth 0%Z qs i | prodz qs)%Z.
Proof.
elim: qs i => [|q qs IH] [|i] //= h; first by exists (prodz qs); ring.
by apply: Z.divide_mul_r; apply: IH.
Qed.

(** a number divisible by every modulus is divisible by the product *)
Lemma prodz_all qs a : coprimes qs -> (forall i, (i < size qs)%N -> (nth 0%Z qs i | a)%Z) -> (prodz qs | a)%Z.
Proof.
elim: qs a => [|q qs IH] a hc h; first exact: Z.divide_1_l.
have [hq hc'] := coprimes_cons hc; have [b hb] := h 0%N isT.
rewrite /= in hb; subst a; rewrite /= Z.mul_comm; apply: Z.mul_divide_mono_r.
apply: IH => // i hi; have := h i.+1 hi; rewrite /= => hd.
apply: (Z.gauss _ q); first by rewrite Z.mul_comm.
by rewrite Z.gcd_comm; have [_ h2] := hc; exact: (h2 0%N i.+1).
Qed.

(** Q / q_j is divisible by the other moduli and prime to q_j *)
Lemma cofactor qs j : coprimes qs -> (j < size qs)%N ->
  exists c, [/\ prodz qs = (nth 0%Z qs j * c)%Z, Z.gcd (nth 0%Z qs j) c = 1%Z &
    forall i, (i < size qs)%N -> i != j -> (nth 0%Z qs i | c)%Z].
Proof.
elim: qs j => [|q qs IH] j // hc; have [hq hc'] := coprimes_cons hc; have [_ h2] := hc.
case: j => [_|j hj].
  exists (prodz qs); split=> //=; first by apply: prodz_gcd => j hj; exact: (h2 0%N j.+1).
  by move=> [|i] // hi _; exact: prodz_divide.
have [c [e1 e2 e3]] := IH j hc' hj; exists (q * c)%Z; split.
- by rewrite /= e1; ring.
- rewrite /=; apply/Zgcd_1_rel_prime; apply: rel_prime_mult; apply/Zgcd_1_rel_prime => //.
  by rewrite Z.gcd_comm; exact: (h2 0%N j.+1).
- move=> [|i] /= hi hn; first by exists c; ring.
  by apply: Z.divide_mul_r; apply: e3.
Qed.

Definition invSpec (inv : Z -> Z -> Z) : Prop := forall a m, (1 < m)%Z -> Z.gcd a m = 1%Z -> ((a * inv a m) mod m = 1)%Z.

Lemma div_of_mod a b m : (0 < m)%Z -> (m | a - b)%Z <-> (a mod m = b mod m)%Z.
Proof.
move=> hm; split=> [[c e]|e]; first by rewrite -(Z.mod_add b c); [congr (_ mod _)%Z; lia|lia].
exists (a / m - b / m)%Z; have := Z.div_mod a m; have := Z.div_mod b m; rewrite e; move: (a / m)%Z (b / m)%Z => u v; lia.
Qed.

Section Gad.
Variables (inv : Z -> Z -> Z) (qs : seq Z).
Hypothesis hinv : invSpec inv.
Hypothesis hc : coprimes qs.
Local Notation Q := (prodz qs).
Local Notation q j := (nth 0%Z qs j).

Lemma q_gt1 j : (j < size qs)%N -> (1 < q j)%Z.
Proof. by move=> hj; apply: (proj1 hc); exact: nth_In. Qed.

Lemma gadget_mod j i : (j < size qs)%N -> (i < size qs)%N ->
  (q i | gadget inv Q (q j) - (if i == j then 1 else 0))%Z.
Proof.
move=> hj hi; have [c [e1 e2 e3]] := cofactor hc hj.
have hq := q_gt1 hj; have hq' := q_gt1 hi; have hQ := prodz_pos hc.
have eQ : (Q / q j = c)%Z by rewrite e1 Z.mul_comm Z.div_mul //; lia.
rewrite /gadget eQ.
have d1 : (q i | (c * inv c (q j)) mod Q - c * inv c (q j))%Z.
  have := Z.div_mod (c * inv c (q j)) Q; set m := (_ mod _)%Z; set d := (_ / _)%Z => h.
  have -> : (m - c * inv c (q j) = Q * (- d))%Z by lia.
  by apply: Z.divide_mul_l; exact: prodz_divide.
have -> : forall b, ((c * inv c (q j)) mod Q - b = ((c * inv c (q j)) mod Q - c * inv c (q j)) + (c * inv c (q j) - b))%Z.
  by move=> b; ring.
apply: Z.divide_add_r => //; case: eqP => [->|/eqP ne].
  apply/div_of_mod; first by lia.
  by rewrite (Z.mod_small 1); [apply: hinv => //; rewrite Z.gcd_comm|lia].
by rewrite Z.sub_0_r; apply: Z.divide_mul_l; apply: e3.
Qed.

Lemma acc_mod (z : Z) (rs : seq Z) n i : (n <= size qs)%N -> (i < n)%N ->
  (q i | nth 0%Z rs i - z)%Z ->
  (q i | foldl (fun acc j => (acc + nth 0%Z rs j * gadget inv Q (q j))%Z) 0%Z (iota 0 n) - z)%Z.
Proof.
move=> hn hi hrs.
have key m : (m <= n)%N -> (q i | foldl (fun acc j => (acc + nth 0%Z rs j * gadget inv Q (q j))%Z) 0%Z (iota 0 m)
   - (if (i < m)%N then z else 0))%Z.
  elim: m => [|m IH] hm; first exact: Z.divide_0_r.
  rewrite -addn1 iotaD foldl_cat /= add0n addn1 ltnS; have {}IH := IH (ltnW hm).
  have hmq : (m < size qs)%N by exact: leq_trans hm hn.
  have hg := gadget_mod hmq (leq_trans hi hn).
  set A := foldl _ _ _ in IH *; set G := gadget _ _ _ in hg *.
  case: (ltngtP i m) IH hg => [lt|gt|e] IH hg.
  - have -> : (A + nth 0 rs m * G - z = (A - z) + nth 0 rs m * (G - 0))%Z by ring.
    by apply: Z.divide_add_r => //; apply: Z.divide_mul_r.
  - have -> : (A + nth 0 rs m * G - 0 = (A - 0) + nth 0 rs m * (G - 0))%Z by ring.
    by apply: Z.divide_add_r => //; apply: Z.divide_mul_r.
  have -> : (A + nth 0 rs m * G - z = (A - 0) + (nth 0 rs m * (G - 1) + (nth 0 rs i - z)))%Z by rewrite e; ring.
  by apply: Z.divide_add_r => //; apply: Z.divide_add_r => //; apply: Z.divide_mul_r.
by have := key n (leqnn n); rewrite hi.
Qed.

Lemma toBalancedP x m : (1 < m)%Z -> (0 <= x < m)%Z ->
  [/\ (m | toBalanced x m - x)%Z, (- m < 2 * toBalanced x m)%Z & (2 * toBalanced x m <= m)%Z].
Proof.
move=> hm hx; rewrite /toBalanced Z.shiftr_div_pow2 // Z.pow_1_r.
have := Z.div_mod m 2; have := Z.mod_pos_bound m 2.
case: Z.ltb_spec => h h1 h2; split; try lia; first by exists (-1)%Z; lia.
by exists 0%Z; lia.
Qed.

Lemma nth_setBig z j : (j < size qs)%N -> nth 0%Z (setBigCoeff qs z) j = (z mod q j)%Z.
Proof. by move=> hj; rewrite (nth_map 0%Z). Qed.

(** the value returned: congruent to z, and centred except at Q>>1 with several limbs *)
Lemma reconstructP z : (0 < size qs)%N ->
  let v := reconstruct inv qs (setBigCoeff qs z) in
  (Q | v - z)%Z /\ (- Q <= 2 * v <= Q)%Z \/ (v = Z.shiftr Q 1 - Q)%Z /\ (Q | v - z)%Z /\ (1 < size qs)%N.
Proof.
move=> h0; rewrite /reconstruct; set c := toBalanced _ _.
have hQ := prodz_pos hc.
have bal j : (j < size qs)%N ->
  let t := toBalanced (nth 0%Z (setBigCoeff qs z) j) (q j) in [/\ (q j | t - z)%Z, (- q j < 2 * t)%Z & (2 * t <= q j)%Z].
  move=> hj; rewrite nth_setBig //; have hq := q_gt1 hj.
  have [|a b d] := @toBalancedP (z mod q j)%Z _ hq; first by apply: Z.mod_pos_bound; lia.
  split=> //; have -> : (toBalanced (z mod q j) (q j) - z = (toBalanced (z mod q j) (q j) - z mod q j) + (z mod q j - z))%Z by ring.
  apply: Z.divide_add_r => //; exists (- (z / q j))%Z; have := Z.div_mod z (q j); lia.
have hq0Q : (q 0 <= Q)%Z by apply: Z.divide_pos_le => //; exact: prodz_divide.
case: ifP => [/allP hs|hs].
  left; have [_ b0 d0] := bal 0%N h0; split; last by rewrite -/c in b0 d0 *; lia.
  apply: prodz_all => // i hi; case: (posnP i) => [->|ip]; first by have [] := bal 0%N h0.
  have := hs i; rewrite mem_iota => /(_ _)/Z.eqb_eq -> //; first by have [] := bal i hi.
  by rewrite ip subnKC.
have hn1 : (1 < size qs)%N.
  by rewrite ltnNge; apply/negP => h; move: hs; rewrite (eqP (h : size qs - 1 == 0)%N).
set acc := foldl _ _ _.
have hd : (Q | acc - z)%Z.
  apply: prodz_all => // i hi; apply: acc_mod => //; rewrite nth_setBig //.
  have hq := q_gt1 hi; exists (- (z / q i))%Z; have := Z.div_mod z (q i); lia.
have hd' : (Q | acc mod Q - z)%Z.
  have := Z.div_mod acc Q; case: hd => k e h; exists (k - acc / Q)%Z; lia.
have hm := Z.mod_pos_bound acc Q hQ; move: (acc mod Q)%Z hd' hm => a hd' hm.
have := Z.div_mod Q 2; have := Z.mod_pos_bound Q 2.
rewrite Z.shiftr_div_pow2 // Z.pow_1_r => h2 h3.
case: Z.leb_spec => h.
  have dd : (Q | a - Q - z)%Z.
    have -> : (a - Q - z = (a - z) + Q * (-1))%Z by ring.
    by apply: Z.divide_add_r => //; apply: Z.divide_mul_l; exact: Z.divide_refl.
  case: (Z.eq_dec a (Q / 2)%Z) => e; first by right; rewrite e; split=> //; split=> //; rewrite -e.
  by left; split=> //; lia.
by left; split=> //; lia.
Qed.

(** every residue vector comes from an integer *)
Lemma crt rs : size rs = size qs -> (forall j, (j < size qs)%N -> (0 <= nth 0 rs j < q j)%Z) ->
  exists z, rs = setBigCoeff qs z.
Proof.
move=> hs hr; exists (foldl (fun acc j => (acc + nth 0%Z rs j * gadget inv Q (q j))%Z) 0%Z (iota 0 (size qs))).
apply: (@eq_from_nth _ 0%Z); rewrite ?size_map // hs => i hi; rewrite nth_setBig //.
have hq := q_gt1 hi; rewrite -[LHS](Z.mod_small _ (q i)); last exact: hr.
symmetry; apply/div_of_mod; first by lia.
by apply: acc_mod => //; rewrite Z.sub_diag; exact: Z.divide_0_r.
Qed.
End Gad.
