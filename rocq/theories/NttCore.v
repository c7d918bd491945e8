(** Pointwise effect of the stages, evaluation invariant, inverse transform. *)
From mathcomp Require Import all_ssreflect all_algebra zify.
From Verif Require Import Spec UintModel BigpolyModel BitrevProofs RingTac NttProofs.
Set Implicit Arguments. Unset Strict Implicit. Unset Printing Implicit Defensive.
Import GRing.Theory.
Local Open Scope ring_scope.

Section Stage.
Variable F : fieldType.
Add Ring FRing : (rt [comRingType of F]).
Ltac fring := norm_ring [comRingType of F]; ring.
Implicit Types (p tw : seq F).
Local Notation bfty := (seq F -> nat -> nat -> F -> seq F).

(** [bf] replaces entries [j] and [k] by [fu p_j p_k w] and [fv p_j p_k w]. *)
Definition bf_spec (bf : bfty) (fu fv : F -> F -> F -> F) :=
  forall p j k w, (j < k < size p)%N ->
  size (bf p j k w) = size p /\
  forall x, (bf p j k w)`_x =
    if x == j then fu p`_j p`_k w else if x == k then fv p`_j p`_k w else p`_x.

Lemma butterfly_spec :
  bf_spec (@butterfly F) (fun a b w => a + b * w) (fun a b w => a - b * w).
Proof.
move=> p j k w /andP[hj hk]; rewrite /butterfly; split.
  by rewrite !size_set_nth; lia.
have njk : (j == k) = false by lia.
have nkj : (k == j) = false by lia.
move=> x; do 5 rewrite ?nth_set_nth /= ?eqxx ?njk ?nkj.
case: (eqVneq x j) => [->|nj].
  by rewrite njk.
case: (eqVneq x k) => [e|nk] //.
fring.
Qed.

Lemma invButterfly_spec :
  bf_spec (@invButterfly F) (fun a b w => a + b) (fun a b w => (a - b) * w).
Proof.
move=> p j k w /andP[hj hk]; rewrite /invButterfly; split.
  by rewrite !size_set_nth; lia.
have njk : (j == k) = false by lia.
have nkj : (k == j) = false by lia.
move=> x; do 5 rewrite ?nth_set_nth /= ?eqxx ?njk ?nkj.
case: (eqVneq x j) => [->|nj].
  by rewrite njk.
case: (eqVneq x k) => [e|nk] //.
fring.
Qed.

Section Gen.
Variables (bf : bfty) (fu fv : F -> F -> F -> F).
Hypothesis bfP : bf_spec bf fu fv.

Lemma inner_loop j1 t w p c : (c <= t)%N -> (j1 + t + t <= size p)%N ->
  let q := foldl (fun p j => bf p j (j + t)%N w) p (iota j1 c) in
  size q = size p /\
  forall x, q`_x =
    if (j1 <= x < j1 + c)%N then fu p`_x p`_(x + t) w
    else if (j1 + t <= x < j1 + t + c)%N then fv p`_(x - t) p`_x w else p`_x.
Proof.
move=> hc hs; elim: c hc => [|c IH] hc.
  by split=> //= x; rewrite !addn0; case: ifP; [lia|move=> _; case: ifP => //; lia].
rewrite iotaSr foldl_rcons.
have [] := IH (ltnW hc).
set q := foldl _ _ _ => sq nq.
have hjk : (j1 + c < j1 + c + t < size q)%N by rewrite sq; lia.
have [sb nb] := bfP w hjk.
split; first by rewrite sb.
move=> x; rewrite nb !nq.
have -> : (j1 <= j1 + c < j1 + c)%N = false by lia.
have -> : (j1 + t <= j1 + c < j1 + t + c)%N = false by lia.
have -> : (j1 <= j1 + c + t < j1 + c)%N = false by lia.
have -> : (j1 + t <= j1 + c + t < j1 + t + c)%N = false by lia.
case: (eqVneq x (j1 + c)%N) => [->|n1].
  by have -> : (j1 <= j1 + c < j1 + c.+1)%N by lia.
case: (eqVneq x (j1 + c + t)%N) => [->|n2].
  have -> : (j1 <= j1 + c + t < j1 + c.+1)%N = false by lia.
  have -> : (j1 + t <= j1 + c + t < j1 + t + c.+1)%N by lia.
  by rewrite addnK.
have -> : (j1 <= x < j1 + c.+1)%N = (j1 <= x < j1 + c)%N by lia.
by have -> : (j1 + t <= x < j1 + t + c.+1)%N = (j1 + t <= x < j1 + t + c)%N by lia.
Qed.

Lemma outer_loop tw m t p b : (0 < t)%N -> (b <= m)%N -> size p = (m * t.*2)%N ->
  let q := foldl (fun p i =>
     foldl (fun p j => bf p j (j + t)%N tw`_(m + i)) p (iota (i * t).*2 t)) p (iota 0 b) in
  size q = size p /\
  forall x, q`_x =
    if (x < b * t.*2)%N then
      if (x %% t.*2 < t)%N then fu p`_x p`_(x + t) tw`_(m + x %/ t.*2)
      else fv p`_(x - t) p`_x tw`_(m + x %/ t.*2)
    else p`_x.
Proof.
move=> ht hb sp; elim: b hb => [|b IH] hb; first by split.
rewrite iotaSr foldl_rcons add0n.
have [] := IH (ltnW hb).
set q := foldl _ _ (iota 0 b) => sq nq.
have hs : ((b * t).*2 + t + t <= size q)%N by rewrite sq sp; nia.
have [s2 n2] := inner_loop tw`_(m + b) (leqnn t) hs.
split; first by rewrite s2.
move=> x; rewrite n2 !nq.
have e0 : ((b * t).*2 = b * t.*2)%N by lia.
case: (ltnP x (b * t.*2)) => hx.
  have -> : ((b * t).*2 <= x < (b * t).*2 + t)%N = false by lia.
  have -> : ((b * t).*2 + t <= x < (b * t).*2 + t + t)%N = false by lia.
  by have -> : (x < b.+1 * t.*2)%N by nia.
have -> : (x + t < b * t.*2)%N = false by lia.
case: (ltnP x (b.+1 * t.*2)) => hx2; last first.
  have -> : ((b * t).*2 <= x < (b * t).*2 + t)%N = false by nia.
  by have -> : ((b * t).*2 + t <= x < (b * t).*2 + t + t)%N = false by nia.
have [r [er hr]] : exists r, x = (b * t.*2 + r)%N /\ (r < t.*2)%N.
  by exists (x - b * t.*2)%N; split; nia.
have dx : (x %/ t.*2 = b)%N by rewrite er divnMDl ?divn_small ?addn0 //; lia.
have mx : (x %% t.*2 = r)%N by rewrite er modnMDl modn_small.
rewrite dx mx e0.
case: (ltnP r t) => hrt.
  by have -> : (b * t.*2 <= x < b * t.*2 + t)%N by lia.
have -> : (b * t.*2 <= x < b * t.*2 + t)%N = false by lia.
have -> : (b * t.*2 + t <= x < b * t.*2 + t + t)%N by lia.
by have -> : (x - t < b * t.*2)%N = false by lia.
Qed.

Lemma ref_stageP tw m t p : (0 < t)%N -> size p = (m * t.*2)%N ->
  size (ref_stage bf tw m t p) = size p /\
  forall x, (x < size p)%N -> (ref_stage bf tw m t p)`_x =
      if (x %% t.*2 < t)%N then fu p`_x p`_(x + t) tw`_(m + x %/ t.*2)
      else fv p`_(x - t) p`_x tw`_(m + x %/ t.*2).
Proof.
move=> ht sp; have [s1 n1] := outer_loop tw ht (leqnn m) sp.
by split=> // x hx; rewrite n1 -sp hx.
Qed.

Lemma stg_size tw n p s : size p = (2 ^ n)%N -> (s < n)%N -> size (stg bf tw n p s) = (2 ^ n)%N.
Proof.
move=> sp hs; rewrite -[RHS]sp; apply: (proj1 (ref_stageP _ _ _)).
  by rewrite expn_gt0.
by rewrite sp -mul2n -expnS -expnD; congr expn; lia.
Qed.

Lemma stg_nth tw n p s x : size p = (2 ^ n)%N -> (s < n)%N -> (x < 2 ^ n)%N ->
  let t := (2 ^ (n.-1 - s))%N in
  (stg bf tw n p s)`_x =
      if (x %% t.*2 < t)%N then fu p`_x p`_(x + t) tw`_(2 ^ s + x %/ t.*2)
      else fv p`_(x - t) p`_x tw`_(2 ^ s + x %/ t.*2).
Proof.
move=> sp hs hx t; apply: (proj2 (ref_stageP _ _ _)); last by rewrite sp.
  by rewrite expn_gt0.
by rewrite sp -mul2n -expnS -expnD; congr expn; lia.
Qed.

Lemma stgs_size tw n p ss : size p = (2 ^ n)%N -> all (fun s => s < n)%N ss ->
  size (foldl (stg bf tw n) p ss) = (2 ^ n)%N.
Proof.
elim: ss p => //= s ss IH p sp /andP[hs hss]; apply: IH => //; exact: stg_size.
Qed.
End Gen.

Definition scale (c : F) p := [seq c * x | x <- p].

Lemma scale_nth c p x : (scale c p)`_x = c * p`_x.
Proof.
case: (ltnP x (size p)) => h; first by rewrite (nth_map 0).
by rewrite !nth_default ?size_map // mulr0.
Qed.

Lemma scale_scale a b p : scale a (scale b p) = scale (a * b) p.
Proof. by rewrite /scale -map_comp; apply: eq_map => x /=; rewrite mulrA. Qed.

Lemma scale1 p : scale 1 p = p.
Proof. by rewrite -[RHS]map_id; apply: eq_map => x; rewrite mul1r. Qed.

Lemma iota_all n : all (fun s => s < n)%N (iota 0 n).
Proof. by apply/allP => s; rewrite mem_iota. Qed.
Lemma riota_all n : all (fun s => s < n)%N (rev (iota 0 n)).
Proof. by apply/allP => s; rewrite mem_rev mem_iota. Qed.

(** Both kinds of stage commute with scaling. *)
Lemma stg_scale_f c tw n p s : size p = (2 ^ n)%N -> (s < n)%N ->
  stg (@butterfly F) tw n (scale c p) s = scale c (stg (@butterfly F) tw n p s).
Proof.
move=> sp hs; have sc : size (scale c p) = (2 ^ n)%N by rewrite size_map.
have B := butterfly_spec.
apply: (@eq_from_nth _ 0).
  by rewrite size_map !(stg_size B).
move=> x; rewrite (stg_size B) // => hx.
rewrite scale_nth !(stg_nth B) // !scale_nth.
by case: ifP => _; fring.
Qed.

Lemma stg_scale_i c tw n p s : size p = (2 ^ n)%N -> (s < n)%N ->
  stg (@invButterfly F) tw n (scale c p) s = scale c (stg (@invButterfly F) tw n p s).
Proof.
move=> sp hs; have sc : size (scale c p) = (2 ^ n)%N by rewrite size_map.
have B := invButterfly_spec.
apply: (@eq_from_nth _ 0).
  by rewrite size_map !(stg_size B).
move=> x; rewrite (stg_size B) // => hx.
rewrite scale_nth !(stg_nth B) // !scale_nth.
by case: ifP => _; fring.
Qed.

(** Partner of a position inside a block. *)
Lemma partner_lo n s x : (s < n)%N -> (x < 2 ^ n)%N ->
  let t := (2 ^ (n.-1 - s))%N in
  (x %% t.*2 < t)%N ->
  [/\ (x + t < 2 ^ n)%N, ((x + t) %% t.*2 < t)%N = false & ((x + t) %/ t.*2 = x %/ t.*2)%N].
Proof.
move=> hs hx t h.
have ht : (0 < t)%N by rewrite expn_gt0.
have sN : (2 ^ n = 2 ^ s * t.*2)%N by rewrite -mul2n -expnS -expnD; congr expn; lia.
have dx := divn_eq x t.*2.
set q := (x %/ t.*2)%N in dx *; set r := (x %% t.*2)%N in dx h *.
have e : (x + t = q * t.*2 + (r + t))%N by lia.
have hq : (q < 2 ^ s)%N by rewrite ltn_divLR -?sN //; lia.
have hrt : (r + t < t.*2)%N by lia.
split.
- by rewrite sN e; nia.
- by rewrite e modnMDl modn_small //; lia.
- by rewrite e divnMDl ?divn_small ?addn0 //; lia.
Qed.

Lemma partner_hi n s x : (s < n)%N -> (x < 2 ^ n)%N ->
  let t := (2 ^ (n.-1 - s))%N in
  (t <= x %% t.*2)%N ->
  [/\ (x - t < 2 ^ n)%N, (x - t + t = x)%N, ((x - t) %% t.*2 < t)%N & ((x - t) %/ t.*2 = x %/ t.*2)%N].
Proof.
move=> hs hx t h.
have ht : (0 < t)%N by rewrite expn_gt0.
have dx := divn_eq x t.*2.
have hr := ltn_pmod x (isT : 0 < 1)%N.
have hr2 : (x %% t.*2 < t.*2)%N by rewrite ltn_mod; lia.
set q := (x %/ t.*2)%N in dx *; set r := (x %% t.*2)%N in dx h hr2 *.
have e : (x - t = q * t.*2 + (r - t))%N by lia.
split; try lia.
- by rewrite e modnMDl modn_small //; lia.
- by rewrite e divnMDl ?divn_small ?addn0 //; lia.
Qed.

Definition tw_inverse n (tw twInv : seq F) :=
  forall x, (0 < x < 2 ^ n)%N -> tw`_x * twInv`_x = 1.

Lemma tw_index n s x : (s < n)%N -> (x < 2 ^ n)%N ->
  (0 < 2 ^ s + x %/ (2 ^ (n.-1 - s)).*2 < 2 ^ n)%N.
Proof.
move=> hs hx.
have h0 : (0 < 2 ^ s)%N by rewrite expn_gt0.
have sN : (2 ^ n = 2 ^ s * (2 ^ (n.-1 - s)).*2)%N by rewrite -mul2n -expnS -expnD; congr expn; lia.
have hq : (x %/ (2 ^ (n.-1 - s)).*2 < 2 ^ s)%N.
  by rewrite ltn_divLR -?sN // -mul2n muln_gt0 expn_gt0.
have : (2 ^ s.+1 <= 2 ^ n)%N by rewrite leq_exp2l.
rewrite expnS; move: hq; move: (x %/ _)%N => q hq {sN}; lia.
Qed.

Lemma stg_inv_fwd tw twInv n p s : tw_inverse n tw twInv ->
  size p = (2 ^ n)%N -> (s < n)%N ->
  stg (@invButterfly F) twInv n (stg (@butterfly F) tw n p s) s = scale 2%:R p.
Proof.
move=> hw sp hs.
have A := butterfly_spec; have B := invButterfly_spec.
have s1 : size (stg (@butterfly F) tw n p s) = (2 ^ n)%N by rewrite (stg_size A).
apply: (@eq_from_nth _ 0); first by rewrite size_map (stg_size B).
move=> x; rewrite (stg_size B) // => hx.
have hi := hw _ (tw_index hs hx).
rewrite (stg_nth B) // scale_nth.
case: ltnP => h.
  have [h1 h2 h3] := partner_lo hs hx h.
  rewrite !(stg_nth A) // h h2 h3 addnK; fring.
have [h1 h2 h3 h4] := partner_hi hs hx h.
rewrite !(stg_nth A) // h2 h3 h4 ltnNge h /=.
have -> : forall a b c d : F, (a + b * c - (a - b * c)) * d = 2%:R * b * (c * d).
  by move=> a b c d; fring.
by rewrite hi mulr1.
Qed.

Lemma stg_fwd_inv tw twInv n p s : tw_inverse n tw twInv ->
  size p = (2 ^ n)%N -> (s < n)%N ->
  stg (@butterfly F) tw n (stg (@invButterfly F) twInv n p s) s = scale 2%:R p.
Proof.
move=> hw sp hs.
have A := butterfly_spec; have B := invButterfly_spec.
have s1 : size (stg (@invButterfly F) twInv n p s) = (2 ^ n)%N by rewrite (stg_size B).
apply: (@eq_from_nth _ 0); first by rewrite size_map (stg_size A).
move=> x; rewrite (stg_size A) // => hx.
have hi := hw _ (tw_index hs hx).
rewrite (stg_nth A) // scale_nth.
case: ltnP => h.
  have [h1 h2 h3] := partner_lo hs hx h.
  rewrite !(stg_nth B) // h h2 h3 addnK.
  have -> : forall a b c d : F, a + b + (a - b) * d * c = a + b + (a - b) * (c * d).
    by move=> a b c d; fring.
  rewrite hi; fring.
have [h1 h2 h3 h4] := partner_hi hs hx h.
rewrite !(stg_nth B) // h2 h3 ?h4 ltnNge h /=.
have -> : forall a b c d : F, a + b - (a - b) * d * c = a + b - (a - b) * (c * d).
  by move=> a b c d; fring.
rewrite hi; fring.
Qed.

Lemma stgs_scale_i c tw n p ss : size p = (2 ^ n)%N -> all (fun s => s < n)%N ss ->
  foldl (stg (@invButterfly F) tw n) (scale c p) ss
  = scale c (foldl (stg (@invButterfly F) tw n) p ss).
Proof.
elim: ss p => //= s ss IH p sp /andP[hs hss].
by rewrite stg_scale_i // IH // (stg_size invButterfly_spec).
Qed.

Lemma stgs_scale_f c tw n p ss : size p = (2 ^ n)%N -> all (fun s => s < n)%N ss ->
  foldl (stg (@butterfly F) tw n) (scale c p) ss
  = scale c (foldl (stg (@butterfly F) tw n) p ss).
Proof.
elim: ss p => //= s ss IH p sp /andP[hs hss].
by rewrite stg_scale_f // IH // (stg_size butterfly_spec).
Qed.

Lemma inv_fwd_stages tw twInv n p ss : tw_inverse n tw twInv ->
  size p = (2 ^ n)%N -> all (fun s => s < n)%N ss ->
  foldl (stg (@invButterfly F) twInv n) (foldl (stg (@butterfly F) tw n) p ss) (rev ss)
  = scale (2%:R ^+ size ss) p.
Proof.
move=> hw; elim: ss p => [|s ss IH] p sp /=; first by rewrite expr0 scale1.
move=> /andP[hs hss]; rewrite rev_cons foldl_rcons IH ?(stg_size butterfly_spec) //.
rewrite stg_scale_i ?(stg_size butterfly_spec) // stg_inv_fwd //.
by rewrite scale_scale -exprSr.
Qed.

Lemma fwd_inv_stages tw twInv n p ss : tw_inverse n tw twInv ->
  size p = (2 ^ n)%N -> all (fun s => s < n)%N ss ->
  foldl (stg (@butterfly F) tw n) (foldl (stg (@invButterfly F) twInv n) p (rev ss)) ss
  = scale (2%:R ^+ size ss) p.
Proof.
move=> hw; elim: ss p => [|s ss IH] p sp /=; first by rewrite expr0 scale1.
move=> /andP[hs hss]; rewrite rev_cons foldl_rcons.
have sq : size (foldl (stg (@invButterfly F) twInv n) p (rev ss)) = (2 ^ n)%N.
  by apply: (stgs_size invButterfly_spec) => //; rewrite all_rev.
rewrite stg_fwd_inv // stgs_scale_f // IH // scale_scale exprS //.
Qed.

Lemma size_nttInPlace n tw p : size p = (2 ^ n)%N -> size (nttInPlace p tw) = (2 ^ n)%N.
Proof.
by move=> sp; rewrite (nttInPlaceE _ sp) (stgs_size butterfly_spec) // iota_all.
Qed.
Lemma size_inttInPlace n tw p : size p = (2 ^ n)%N -> size (inttInPlace p tw) = (2 ^ n)%N.
Proof.
by move=> sp; rewrite (inttInPlaceE _ sp) (stgs_size invButterfly_spec) // riota_all.
Qed.

Lemma intt_ntt tw twInv n p : tw_inverse n tw twInv -> size p = (2 ^ n)%N ->
  inttInPlace (nttInPlace p tw) twInv = scale (2 ^ n)%:R p.
Proof.
move=> hw sp; rewrite (inttInPlaceE (n := n)) ?(size_nttInPlace (n := n)) //.
by rewrite (nttInPlaceE (n := n)) // inv_fwd_stages ?iota_all // size_iota natrX.
Qed.

Lemma ntt_intt tw twInv n p : tw_inverse n tw twInv -> size p = (2 ^ n)%N ->
  nttInPlace (inttInPlace p twInv) tw = scale (2 ^ n)%:R p.
Proof.
move=> hw sp; rewrite (nttInPlaceE (n := n)) ?(size_inttInPlace (n := n)) //.
by rewrite (inttInPlaceE (n := n)) // fwd_inv_stages ?iota_all // size_iota natrX.
Qed.

(** ** Evaluation *)
Section Eval.
Variables (n : nat) (tw : seq F) (c : nat -> nat -> F) (P : seq F).
Hypothesis sP : size P = (2 ^ n)%N.
Hypothesis twc2 : forall s i, (s < n)%N -> (i < 2 ^ s)%N -> tw`_(2 ^ s + i) ^+ 2 = c s i.
Hypothesis c_even : forall s i, (s < n)%N -> (i < 2 ^ s)%N -> c s.+1 i.*2 = tw`_(2 ^ s + i).
Hypothesis c_odd : forall s i, (s < n)%N -> (i < 2 ^ s)%N -> c s.+1 i.*2.+1 = - tw`_(2 ^ s + i).

Definition blk p (t i : nat) (y : F) := \sum_(r < t) p`_(i * t + r) * y ^+ r.

Definition inv_at s p := size p = (2 ^ n)%N /\
  forall i y, (i < 2 ^ s)%N -> y ^+ (2 ^ (n - s)) = c s i -> blk p (2 ^ (n - s)) i y = peval P y.

Lemma inv_step s p : (s < n)%N -> inv_at s p -> inv_at s.+1 (stg (@butterfly F) tw n p s).
Proof.
move=> hs [sp H]; have A := butterfly_spec; split; first by rewrite (stg_size A).
have es : (n - s.+1 = n.-1 - s)%N by lia.
have es2 : (n - s = (n.-1 - s).+1)%N by lia.
rewrite es; set t := (2 ^ (n.-1 - s))%N.
have et : (2 ^ (n - s) = t + t)%N by rewrite es2 expnS; lia.
rewrite et in H.
have ht : (0 < t)%N by rewrite expn_gt0.
have sN : (2 ^ n = 2 ^ s * t.*2)%N by rewrite -mul2n -expnS -expnD; congr expn; lia.
move=> i' y hi' hy; have [i ei'] : exists i, i' = (odd i' + i.*2)%N.
  by exists i'./2; rewrite odd_double_half.
have hi : (i < 2 ^ s)%N by move: hi'; rewrite expnS; lia.
set w := tw`_(2 ^ s + i).
have ey : y ^+ t = if odd i' then - w else w.
  rewrite hy /w; case: ifP => o; first by rewrite -c_odd //; congr c; rewrite ei' o.
  by rewrite -c_even //; congr c; rewrite ei' o.
have ey2 : y ^+ (t + t) = c s i.
  by rewrite exprD ey -twc2 // expr2; case: ifP => _ //; rewrite mulrNN.
rewrite -(H i y hi ey2) /blk big_split_ord /=.
have -> : \sum_(r < t) p`_(i * (t + t) + (t + r)) * y ^+ (t + r)
        = y ^+ t * \sum_(r < t) p`_(i * (t + t) + (t + r)) * y ^+ r.
  by rewrite mulr_sumr; apply: eq_bigr => r _; rewrite exprD; fring.
rewrite mulr_sumr -big_split /=; apply: eq_bigr => r _.
have hr := ltn_ord r.
have hx : (i' * t + r < 2 ^ n)%N by rewrite sN; move: hi'; rewrite expnS; nia.
rewrite (stg_nth A) // -/t ey.
have d0 : (0 < t.*2)%N by rewrite double_gt0.
have d1 : (t + r < t.*2)%N by rewrite -addnn ltn_add2l.
have d2 : (r < t.*2)%N by apply: leq_ltn_trans d1; rewrite leq_addl.
have d3 : ((t + r) < t)%N = false by apply/negbTE; rewrite -leqNgt leq_addr.
clear es es2 et sN hi' hx hi ey2 hy ey H.
case o : (odd i').
  have ei : (i' * t + r = i * t.*2 + (t + r))%N by rewrite ei' o; lia.
  have -> : ((i' * t + r) %% t.*2 < t)%N = false.
    by rewrite ei modnMDl modn_small.
  have -> : ((i' * t + r) %/ t.*2 = i)%N by rewrite ei divnMDl // divn_small ?addn0.
  have -> : (i' * t + r - t = i * (t + t) + r)%N by rewrite ei addnn addnCA addKn.
  have -> : (i' * t + r = i * (t + t) + (t + r))%N by rewrite ei addnn.
  rewrite -/w /=; fring.
have ei : (i' * t + r = i * t.*2 + r)%N by rewrite ei' o; lia.
have -> : ((i' * t + r) %% t.*2 < t)%N by rewrite ei modnMDl modn_small.
have -> : ((i' * t + r) %/ t.*2 = i)%N by rewrite ei divnMDl // divn_small ?addn0.
have -> : (i' * t + r + t = i * (t + t) + (t + r))%N by rewrite ei addnn -addnA (addnC r).
have -> : (i' * t + r = i * (t + t) + r)%N by rewrite ei addnn.
rewrite -/w /=; fring.
Qed.

Lemma inv_stages s : (s <= n)%N -> inv_at s (foldl (stg (@butterfly F) tw n) P (iota 0 s)).
Proof.
elim: s => [|s IH] hs.
  split=> // i y hi _; have -> : i = 0%N by lia.
  by rewrite subn0 /blk /peval sP; apply: eq_bigr => r _; rewrite mul0n add0n.
by rewrite iotaSr foldl_rcons add0n; apply: inv_step => //; apply: IH; exact: ltnW.
Qed.

Lemma ntt_evals i : (i < 2 ^ n)%N -> (nttInPlace P tw)`_i = peval P (c n i).
Proof.
move=> hi; rewrite (nttInPlaceE _ sP).
have [_ H] := inv_stages (leqnn n).
rewrite -(H i (c n i) hi); last by rewrite subnn expn0 expr1.
by rewrite subnn expn0 /blk big_ord1 /= muln1 addn0 expr0 mulr1.
Qed.
End Eval.
End Stage.
