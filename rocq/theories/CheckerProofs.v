(** Transposes of the linear checkers, modInverse. *)
From Coq Require Import ZArith Lia Znumtheory Zpow_facts.
From mathcomp Require Import all_ssreflect all_algebra zify.
From Verif Require Import RingTac Spec UintModel BigpolyModel BitrevProofs UintProofs PolyProofs NttTables RingProofs
  NormModel BucklerModel CheckerModel BucklerSpec FillProofs Prop_Bigpoly.
Set Implicit Arguments. Unset Strict Implicit. Unset Printing Implicit Defensive.
Import GRing.Theory.
Local Open Scope ring_scope.
Delimit Scope Z_scope with Z.

Lemma modInverse_loopP x m fuel a b u v : (1 < m)%Z -> (m | w64)%Z ->
  (0 <= a < w64)%Z -> (0 <= b < w64)%Z ->
  (exists k, u * x = a + k * m)%Z -> (exists k, v * x = b + k * m)%Z ->
  (Z.to_nat b < fuel)%N ->
  exists u', modInverse_loop fuel a b u v = (Z.gcd a b, u') /\ (exists k, u' * x = Z.gcd a b + k * m)%Z.
Proof.
move=> hm [w hw]; elim: fuel a b u v => [|f IH] a b u v ha hb [k1 hu] [k2 hv] hf //=.
case: Z.eqb_spec => [e|ne].
  exists u; rewrite e Z.gcd_0_r Z.abs_eq; [|lia]; by split=> //; exists k1.
have hd := Z.div_mod a b ne; have hmb := Z.mod_pos_bound a b.
set q := (a / b)%Z in hd *.
have -> : ((a - q * b) mod w64 = a mod b)%Z by rewrite Z.mod_small; nia.
have -> : Z.gcd a b = Z.gcd b (a mod b) by rewrite [RHS]Z.gcd_comm Z.gcd_mod // Z.gcd_comm.
have w0 : w64 <> 0%Z by [].
apply: IH; [lia|lia|by exists k2| |lia].
have e1 := Z.div_mod (q * v) w64 w0.
have e2 := Z.div_mod (u - (q * v) mod w64) w64 w0.
set q1 := (q * v / w64)%Z in e1; set q2 := (_ / w64)%Z in e2.
exists (k1 - q * k2 + (q1 - q2) * w * x)%Z.
have -> : ((u - (q * v) mod w64) mod w64 = u - q * v + (q1 - q2) * w64)%Z by lia.
rewrite {1}hw.
have -> : (a mod b = a - q * b)%Z by lia.
have -> : ((u - q * v + (q1 - q2) * (w * m)) * x = u * x - q * (v * x) + (q1 - q2) * w * x * m)%Z by lia.
rewrite hu hv; lia.
Qed.

Lemma pow2_dvd_w64 k : (0 <= k <= 64)%Z -> (2 ^ k | w64)%Z.
Proof. by move=> h; exists (2 ^ (64 - k))%Z; rewrite -Z.pow_add_r; [congr (2 ^ _)%Z; lia|lia|lia]. Qed.

Lemma modInverseP x k : (0 < k < 64)%Z -> Z.odd x -> (0 <= x)%Z ->
  exists y, [/\ modInverse x (2 ^ k) = Some y, (0 <= y < 2 ^ k)%Z & (x * y mod 2 ^ k = 1)%Z].
Proof.
move=> hk ox x0.
have p2 : (1 < 2 ^ k)%Z by have [h _] := Z.pow_gt_1 2 k ltac:(lia); apply: h; lia.
have mw : (2 ^ k < w64)%Z by apply: Z.pow_lt_mono_r; lia.
have hx := Z.mod_pos_bound x (2 ^ k).
have g1 : Z.gcd x (2 ^ k) = 1%Z.
  apply/Zgcd_1_rel_prime; apply: Zpow_facts.rel_prime_Zpower_r; first lia.
  apply/Zgcd_1_rel_prime; rewrite Z.gcd_comm -Z.gcd_mod //.
  have := Z.bit0_mod x; rewrite Z.bit0_odd ox => <-; by [].
have g2 : Z.gcd (x mod 2 ^ k) (2 ^ k) = 1%Z by rewrite Z.gcd_mod; [rewrite Z.gcd_comm|lia].
rewrite /modInverse; set X := (x mod 2 ^ k)%Z in hx g2 *.
have [|||||||u' [-> [j hj]]] := @modInverse_loopP X (2 ^ k) (Z.to_nat (2 ^ k)).+2 X (2 ^ k) 1 0.
- lia.
- by apply: pow2_dvd_w64; lia.
- lia.
- lia.
- by exists 0%Z; lia.
- by exists (-1)%Z; lia.
- lia.
rewrite g2 Z.eqb_refl; exists (u' mod 2 ^ k)%Z; split=> //; first by apply: Z.mod_pos_bound; lia.
rewrite Z.mul_mod_idemp_r; last lia.
rewrite -Z.mul_mod_idemp_l; last lia.
rewrite -/X Z.mul_comm hj g2 Z.mod_add; last lia.
by apply: Z.mod_small; lia.
Qed.

Lemma brv_compl n i : (i < 2 ^ n)%N -> (brv n (2 ^ n - 1 - i) = 2 ^ n - 1 - brv n i)%N.
Proof.
elim: n i => [|n IH] i hi; first by rewrite /brv !big_ord0; case: i hi.
rewrite !brvS; have hb := brv_lt n i./2.
have h2 : (i./2 < 2 ^ n)%N by move: hi; rewrite expnS; lia.
have -> : ((2 ^ n.+1 - 1 - i)./2 = 2 ^ n - 1 - i./2)%N by rewrite expnS in hi *; lia.
rewrite IH // expnS in hi *; have p := expn_gt0 2 n.
have -> : odd (2 * 2 ^ n - 1 - i) = ~~ odd i by rewrite -subnDA oddB ?oddM ?oddD //=; lia.
case: (odd i); rewrite /= ?mul1n ?mul0n; lia.
Qed.

Section Dot.
Variable F : fieldType.
Add Ring FRing : (rt [comRingType of F]).
Ltac fring := norm_ring [comRingType of F]; ring.
Implicit Types (u v : seq F).

(** the inner product of two vectors of length N *)
Definition dot (N : nat) (a b : seq F) : F := \sum_(i < N) a`_i * b`_i.

Section NTT.
Variables (T : transformer F) (n : nat) (g : F).
Hypothesis G : good_cyclotomic T n g.
Hypothesis n0 : (0 < n)%N.
Local Notation N := (2 ^ n)%N.
Let om (i : nat) : F := g ^+ (brv n i).*2.+1.

Lemma geom_sum (r : F) : r ^+ N = 1 -> r != 1 -> \sum_(j < N) r ^+ j = 0.
Proof.
move=> h1 h2; apply/eqP; have := subrX1 r N; rewrite h1 subrr => /esym/eqP.
by rewrite mulf_eq0 subr_eq0 (negbTE h2).
Qed.

Lemma om_root i : om i ^+ N = -1.
Proof.
rewrite /om -exprM mulnC exprM (gc_root G) -signr_odd /= odd_double /=.
by rewrite expr1.
Qed.

Lemma om_mul i k : (i < N)%N -> (k < N)%N -> (om i * om k == 1) = (i == N - 1 - k)%N.
Proof.
move=> hi hk.
have ho : has_order g (2 * N).
  have := @order_of_neg1 F g n; rewrite expnS => h; apply: h; last exact: gc_root G.
  exact: (two_nz_rank n0 (gc_rank_nz G)).
have g0 : g != 0.
  apply/eqP => e; have := gc_root G; rewrite e expr0n -[(N == 0)%N]negbK -lt0n expn_gt0 /= => /esym/eqP.
  by rewrite oppr_eq0 oner_eq0.
have hb := brv_lt n i; have hc := brv_lt n k.
have hcomp : (N - 1 - k < N)%N by lia.
rewrite /om -exprD.
have gN : g ^+ (2 * N) = 1 by have [_ []] := ho.
have -> : (i == N - 1 - k)%N = (brv n i == N - 1 - brv n k)%N.
  rewrite -brv_compl //; apply/eqP/eqP => [->//|e]; exact: (brv_inj hi hcomp e).
apply/eqP/eqP => [e|->]; last first.
  have -> : ((N - 1 - brv n k).*2.+1 + (brv n k).*2.+1 = 2 * N)%N by lia.
  exact: gN.
have [_ [_ hmin]] := ho.
case: (ltngtP ((brv n i).*2.+1 + (brv n k).*2.+1)%N (2 * N)%N) => h.
- by case: (hmin _ _ e); rewrite h addSn.
- case: (hmin ((brv n i).*2.+1 + (brv n k).*2.+1 - 2 * N)%N); first by lia.
  by apply: (mulIf (expf_neq0 (2 * N) g0)); rewrite -exprD subnK ?e ?gN ?mulr1 // ltnW.
- lia.
Qed.

Lemma ntt_transpose v u s : size v = N -> size u = N -> s = N%:R ->
  let o := mkseq (fun i => u`_(N - 1 - i) * s) N in
  dot N (fwdNTT T v) u = dot N v (invNTT T o).
Proof.
move=> sv su hs o.
pose c := mkseq (fun j => \sum_(i < N) u`_i * om i ^+ j) N.
have sc : size c = N by rewrite size_mkseq.
have -> : invNTT T o = c.
  rewrite -(inv_fwd_cyclo G sc); congr invNTT.
  apply: (@eq_from_nth _ 0); rewrite ?(size_fwdNTT T sc) size_mkseq // => k hk.
  rewrite nth_mkseq // (fwd_cyclo_nth G) // /peval sc.
  under eq_bigr => j _ do rewrite nth_mkseq // mulr_suml.
  have hk' : (N - 1 - k < N)%N by lia.
  rewrite exchange_big /= (bigD1 (Ordinal hk')) //=; rewrite [X in _ + X]big1 ?addr0.
    under eq_bigr => j _ do rewrite -mulrA -exprMn.
    have /eqP -> : om (N - 1 - k) * g ^+ (brv n k).*2.+1 == 1 by rewrite om_mul.
    under eq_bigr => j _ do rewrite expr1n mulr1.
    by rewrite sumr_const card_ord hs mulr_natr.
  move=> i ne; under eq_bigr => j _ do rewrite -mulrA -exprMn.
  rewrite -mulr_sumr geom_sum ?mulr0 //; first by rewrite exprMn om_root -/(om k) om_root mulrNN mulr1.
  rewrite -/(om k) om_mul //; apply: contra ne => /eqP e; apply/eqP; exact: val_inj.
rewrite /dot; under eq_bigr => i _ do rewrite (fwd_cyclo_nth G) // /peval sv mulr_suml.
rewrite exchange_big /=; apply: eq_bigr => j _.
rewrite nth_mkseq // mulr_sumr; apply: eq_bigr => i _; by rewrite /om -mulrA [_ * u`_i]mulrC.
Qed.
End NTT.

(** automorphism: a signed permutation, hence orthogonal *)
Section AutD.
Variables (rank n : nat).
Hypothesis hr : rank = (2 ^ n)%N.
Hypothesis h8 : (8 <= rank)%N.

Lemma aut_dot_coef b1 b2 (p p' : seq F) k : odd k -> size b1 = rank -> size b2 = rank ->
  dot rank (autTo rank b1 p k) (autTo rank b2 p' k) = dot rank p p'.
Proof.
move=> ok s1 s2; rewrite /dot (reindex_atgt hr ok (fun i => (autTo rank b1 p k)`_i * (autTo rank b2 p' k)`_i)).
apply: eq_bigr => i _; rewrite !(autTo_nth hr ok) // /asgn; case: ifP => _ //; fring.
Qed.

Lemma aut_dot_ntt o1 o2 (p p' : seq F) k k' : odd k -> odd k' -> (k' * k = 1 %[mod 2 * rank])%N ->
  size o1 = rank -> size o2 = rank -> size p = rank -> size p' = rank ->
  dot rank (autNTTTo rank o1 p k) (autNTTTo rank o2 p' k) = dot rank p p'.
Proof.
move=> ok ok' hk s1 s2 sp sp'; rewrite /dot.
have [_ e1] := autNTTTo_nth hr k s1 sp; have [_ e2] := autNTTTo_nth hr k s2 sp'.
have id1 x : (x < rank)%N -> nttSrc rank n 1 x = x.
  move=> hx; rewrite /nttSrc muln1 modn_small; last by have := brv_lt n x; rewrite -hr; lia.
  have -> : ((2 * brv n x + 1).-1./2 = brv n x)%N by lia.
  by rewrite brvK // -hr.
have comp x : (x < rank)%N -> nttSrc rank n k' (nttSrc rank n k x) = x.
  by move=> hx; rewrite (nttSrc_comp hr h8 ok' ok (esym hk) hx) id1.
pose h (i : 'I_rank) : 'I_rank := Ordinal (nttSrc_lt hr k i).
rewrite [RHS](reindex_inj (h := h)) /=.
  by apply: eq_bigr => i _; rewrite e1 // e2.
move=> i j /(congr1 val) /= e; apply: val_inj.
by rewrite /= -[LHS](comp i (ltn_ord i)) e comp.
Qed.
End AutD.

(** projection *)
Lemma proj_rowE row v : proj_row row v = \sum_(j < size row) (if nth false row j then v`_j else 0).
Proof.
rewrite -(big_mkord xpredT (fun j => if nth false row j then v`_j else 0)) /index_iota subn0 /proj_row.
have gen : forall l (a : F), foldl (fun acc j => if nth false row j then acc + v`_j else acc) a l
   = a + \sum_(j <- l) (if nth false row j then v`_j else 0).
  elim=> [|j l IH] a /=; first by rewrite big_nil addr0.
  by rewrite IH big_cons; case: ifP => _; rewrite ?add0r // addrA.
by rewrite gen add0r.
Qed.

Lemma proj_inner (row : seq bool) (o : seq F) (c : F) m : (m <= size row)%N -> (size row <= size o)%N ->
  let o' := foldl (fun o j => if nth false row j then set_nth 0 o j (o`_j + c) else o) o (iota 0 m) in
  size o' = size o /\ forall k, o'`_k = o`_k + (if (k < m)%N && nth false row k then c else 0).
Proof.
move=> hm hs; elim: m hm => [|m IH] hm; first by split=> // k; rewrite addr0.
have [|s1 e1] := IH; first lia.
rewrite -addn1 iotaD foldl_cat add0n [foldl _ _ [:: m]]/=.
set o1 := foldl _ _ _ in s1 e1 *.
case E: (nth false row m); split=> //; try (by rewrite size_set_nth s1; lia).
  move=> k; rewrite nth_set_nth /= !e1 ltnn /= addr0 addn1 ltnS (leq_eqVlt k m).
  by case: (altP (k =P m)) => [->|_] //=; rewrite E.
move=> k; rewrite e1 addn1 ltnS (leq_eqVlt k m); case: (altP (k =P m)) => [->|_] //=.
by rewrite ltnn E.
Qed.

Lemma proj_transposeP proj N (vOut v : seq F) : (0 < size proj)%N -> all (fun r => size r == N) proj ->
  size vOut = N ->
  size (proj_transpose proj vOut v) = N /\
  forall k, (k < N)%N -> (proj_transpose proj vOut v)`_k =
     \sum_(i < size proj) (if nth false (nth [::] proj i) k then v`_i else 0).
Proof.
move=> h0 /all_nthP hN so; rewrite /proj_transpose.
have rs i : (i < size proj)%N -> size (nth [::] proj i) = N by move=> hi; apply/eqP; apply: hN.
have [s1 e1] := @foldl_set_const F (fun _ => 0) vOut N (eq_leq (esym so)).
rewrite (rs 0%N h0); set o := foldl _ vOut _ in s1 e1 *.
rewrite so in s1.
have gen m : (m <= size proj)%N ->
  let o' := foldl (fun o i =>
    foldl (fun o j => if nth false (nth [::] proj i) j then set_nth 0 o j (o`_j + v`_i) else o)
      o (iota 0 (size (nth [::] proj i)))) o (iota 0 m) in
  size o' = N /\ forall k, (k < N)%N -> o'`_k = \sum_(i < m) (if nth false (nth [::] proj i) k then v`_i else 0).
  elim: m => [|m IH] hm; first by split=> // k hk; rewrite big_ord0 e1 hk.
  have [|s2 e2] := IH; first lia.
  rewrite -addn1 iotaD foldl_cat add0n [foldl _ _ [:: m]]/=.
  set o2 := foldl _ o _ in s2 e2 *.
  have [s3 e3] := @proj_inner (nth [::] proj m) o2 v`_m _ (leqnn _) (eq_leq (etrans (rs m hm) (esym s2))).
  split; first by rewrite s3.
  move=> k hk; rewrite e3 e2 // rs // hk /= addn1 big_ord_recr /=; by [].
exact: (gen _ (leqnn _)).
Qed.

Lemma proj_dot proj N v u o1 o2 : (0 < size proj <= N)%N -> all (fun r => size r == N) proj ->
  size o1 = N -> size o2 = N ->
  dot N (proj_transform proj o1 v) u = dot N v (proj_transpose proj o2 u).
Proof.
move=> /andP[p0 pN] hN s1 s2.
have [|_ e1] := @proj_transformP F proj o1 v; first by rewrite s1.
have [_ e2] := proj_transposeP u p0 hN s2.
rewrite /dot; under eq_bigr => i _ do rewrite e1 ?s1 //.
under [RHS]eq_bigr => i _ do rewrite e2 //.
rewrite (eq_bigr (fun i : 'I_N => if (i < size proj)%N then proj_row (nth [::] proj i) v * u`_i else 0)); last first.
  by move=> i _; case: ifP => // _; rewrite mul0r.
rewrite -big_mkcond -(big_ord_widen N (fun i => proj_row (nth [::] proj i) v * u`_i) pN).
transitivity (\sum_(i < size proj) \sum_(j < N) (if nth false (nth [::] proj i) j then v`_j * u`_i else 0)).
  apply: eq_bigr => i _; rewrite proj_rowE mulr_suml.
  have -> : size (nth [::] proj i) = N by apply/eqP; move/all_nthP: hN; apply.
  by apply: eq_bigr => j _; case: ifP => _; rewrite ?mul0r.
rewrite exchange_big /=; apply: eq_bigr => j _; rewrite mulr_sumr; apply: eq_bigr => i _.
by case: ifP => _; rewrite ?mulr0.
Qed.

(** recomposition *)
Lemma foldl_set_from (f : nat -> F) v a m : (a + m <= size v)%N ->
  let v' := foldl (fun o i => set_nth 0 o i (f i)) v (iota a m) in
  size v' = size v /\ forall k, v'`_k = if (a <= k < a + m)%N then f k else v`_k.
Proof.
elim: m => [|m IH] hn; first by split=> // k; case: ifP => //; lia.
have [|s1 e1] := IH; first lia.
rewrite -addn1 iotaD foldl_cat [foldl _ _ (iota _ 1)]/=; split; first by rewrite size_set_nth s1; lia.
move=> k; rewrite nth_set_nth /= e1; case: eqP => [->|ne]; first by have -> : (a <= a + m < a + (m + 1))%N by lia.
by have -> : (a <= k < a + (m + 1))%N = (a <= k < a + m)%N by lia.
Qed.

Lemma foldl_sum (f : nat -> F) m : foldl (fun acc j => acc + f j) 0 (iota 0 m) = \sum_(j < m) f j.
Proof.
rewrite -(big_mkord xpredT f) /index_iota subn0.
have gen : forall l (a : F), foldl (fun acc j => acc + f j) a l = a + \sum_(j <- l) f j.
  elim=> [|j l IH] a /=; first by rewrite big_nil addr0.
  by rewrite IH big_cons addrA.
by rewrite gen add0r.
Qed.

Lemma recomp_transformP base (vOut v : seq F) : (0 < size base)%N ->
  size (recomp_transform base vOut v) = size vOut /\
  forall k, (k < size vOut)%N -> (recomp_transform base vOut v)`_k =
    if (k < size vOut %/ size base)%N then \sum_(j < size base) base`_j * v`_(k * size base + j) else 0.
Proof.
move=> hb; rewrite /recomp_transform; set n := (_ %/ _)%N.
have hn : (n <= size vOut)%N by apply: leq_div.
pose f i := foldl (fun acc j => acc + base`_j * v`_(i * size base + j)) 0 (iota 0 (size base)).
have [s1 e1] := @foldl_set_const F f vOut n hn; rewrite -/f.
set o := foldl _ vOut _ in s1 e1 *.
have [|s2 e2] := @foldl_set_from (fun _ => 0) o n (size vOut - n); first by rewrite s1 subnKC.
split; first by rewrite s2 s1.
move=> k hk; rewrite e2 e1; case: (ltnP k n) => h /=; first by rewrite /f foldl_sum.
by have -> : (k < n + (size vOut - n))%N by lia.
Qed.

Lemma recomp_transposeP base (vOut v : seq F) : (0 < size base)%N ->
  size (recomp_transpose base vOut v) = size vOut /\
  forall k, (k < size vOut)%N -> (recomp_transpose base vOut v)`_k =
    if (k < size vOut %/ size base * size base)%N then base`_(k %% size base) * v`_(k %/ size base) else 0.
Proof.
move=> hb; rewrite /recomp_transpose; set n := (_ %/ _)%N; set L := size base in hb n *.
have hn : (n * L <= size vOut)%N by apply: leq_trunc_div.
have gen m : (m <= n)%N ->
  let o := foldl (fun o i => foldl (fun o j =>
      set_nth 0 o (i * L + j)%N (base`_j * v`_i)) o (iota 0 L)) vOut (iota 0 m) in
  size o = size vOut /\ forall k, o`_k = if (k < m * L)%N then base`_(k %% L) * v`_(k %/ L) else vOut`_k.
  elim: m => [|m IH] hm; first by split.
  have [|s1 e1] := IH; first lia.
  rewrite -addn1 iotaD foldl_cat add0n [foldl _ _ [:: m]]/=.
  set o := foldl _ vOut _ in s1 e1 *.
  have hmL : (m * L + L <= n * L)%N by rewrite -mulSnr leq_mul2r hm orbT.
  have inner l : (l <= L)%N ->
    let o' := foldl (fun o j => set_nth 0 o (m * L + j)%N (base`_j * v`_m)) o (iota 0 l) in
    size o' = size vOut /\ forall k, o'`_k = if (m * L <= k < m * L + l)%N then base`_(k - m * L) * v`_m else o`_k.
    elim: l => [|l IHl] hl; first by split=> // k; case: ifP => //; lia.
    have [|s2 e2] := IHl; first lia.
    rewrite -addn1 iotaD foldl_cat add0n [foldl _ _ [:: l]]/=; split; first by rewrite size_set_nth s2; lia.
    move=> k; rewrite nth_set_nth /= e2; case: eqP => [->|ne].
      have -> : (m * L <= m * L + l < m * L + (l + 1))%N by lia.
      by congr (base`_ _ * _); lia.
    by have -> : (m * L <= k < m * L + (l + 1))%N = (m * L <= k < m * L + l)%N by lia.
  have [s2 e2] := inner L (leqnn _); split=> // k; rewrite e2 e1 addn1 mulSnr.
  case: (ltnP k (m * L)) => h /=; first by have -> : (k < m * L + L)%N by lia.
  case: ifP => // h2; have e : k = (m * L + (k - m * L))%N by lia.
  have hlt : (k - m * L < L)%N by lia.
  by rewrite {2 3}e modnMDl divnMDl // divn_small // addn0 modn_small.
have [s1 e1] := gen n (leqnn _); set o := foldl _ vOut _ in s1 e1 *.
have [|s2 e2] := @foldl_set_from (fun _ => 0) o (n * L) (size vOut - n * L); first by rewrite s1; lia.
split; first by rewrite s2 s1.
move=> k hk; rewrite e2 e1; case: (ltnP k (n * L)) => h //=.
by have -> : (k < n * L + (size vOut - n * L))%N by lia.
Qed.

Lemma recomp_dot base N (v u o1 o2 : seq F) : (0 < size base)%N -> size o1 = N -> size o2 = N ->
  dot N (recomp_transform base o1 v) u = dot N v (recomp_transpose base o2 u).
Proof.
move=> hb s1 s2; have [_ e1] := recomp_transformP o1 v hb; have [_ e2] := recomp_transposeP o2 u hb.
rewrite s1 in e1; rewrite s2 in e2; set L := size base in hb e1 e2 *; set n := (N %/ L)%N in e1 e2.
have hn : (n * L <= N)%N by apply: leq_trunc_div.
have hn' : (n <= N)%N by apply: leq_div.
rewrite /dot; under eq_bigr => i _ do rewrite e1 //.
under [RHS]eq_bigr => i _ do rewrite e2 //.
rewrite (eq_bigr (fun i : 'I_N => if (i < n)%N then (\sum_(j < L) base`_j * v`_(i * L + j)) * u`_i else 0)); last first.
  by move=> i _; case: ifP => // _; rewrite mul0r.
rewrite -big_mkcond -(big_ord_widen N (fun i => (\sum_(j < L) base`_j * v`_(i * L + j)) * u`_i) hn').
rewrite [RHS](eq_bigr (fun i : 'I_N => if (i < n * L)%N then v`_i * (base`_(i %% L) * u`_(i %/ L)) else 0)); last first.
  by move=> i _; case: ifP => // _; rewrite mulr0.
rewrite -[RHS]big_mkcond -(big_ord_widen N (fun i => v`_i * (base`_(i %% L) * u`_(i %/ L))) hn).
move: {e1 e2 hn hn'} n; elim=> [|n IH]; first by rewrite mul0n !big_ord0.
rewrite big_ord_recr /= IH mulSnr.
rewrite -!(big_mkord xpredT (fun i => v`_i * (base`_(i %% L) * u`_(i %/ L)))) [RHS](big_cat_nat _ _ _ (leq0n _) (leq_addr L (n * L))) /=.
congr (_ + _); rewrite -{2}[(n * L)%N]add0n big_addn addKn big_mkord mulr_suml.
apply: eq_bigr => j _; rewrite [(j + n * L)%N]addnC modnMDl divnMDl // divn_small // addn0 modn_small //; fring.
Qed.
End Dot.
