(** Bit reversal (vec.go 123-136) computes the bit-reversal permutation. *)
From mathcomp Require Import all_ssreflect all_algebra zify.
From Verif Require Import Spec UintModel BigpolyModel.
Set Implicit Arguments. Unset Strict Implicit. Unset Printing Implicit Defensive.

Lemma brv0 i : brv 0 i = 0. Proof. by rewrite /brv big_ord0. Qed.

Lemma brvS n i : brv n.+1 i = odd i * 2 ^ n + brv n i./2.
Proof.
rewrite /brv big_ord_recl /= expn0 divn1 subn0; congr (_ + _).
case: n => [|n]; first by rewrite !big_ord0.
apply: eq_bigr => k _ /=; rewrite /bump /= add1n expnS -divn2 divnMA.
congr (_ * 2 ^ _); lia.
Qed.

Lemma brv_lt n i : brv n i < 2 ^ n.
Proof.
elim: n i => [|n IH] i; first by rewrite brv0.
rewrite brvS expnS; have := IH i./2; case: (odd i) => /=; lia.
Qed.

Lemma brv_zero n : brv n 0 = 0.
Proof. by elim: n => [|n IH]; rewrite ?brv0 // brvS IH. Qed.

(** Reading the low bit of the result instead of the high one. *)
Lemma brvSr n i : brv n.+1 i = (brv n (i %% 2 ^ n)).*2 + odd (i %/ 2 ^ n).
Proof.
elim: n i => [|n IH] i; first by rewrite brvS !brv0 expn0 divn1; lia.
rewrite brvS IH brvS.
have -> : odd (i %% 2 ^ n.+1) = odd i by rewrite odd_mod // expnS oddM.
have -> : (i %% 2 ^ n.+1)./2 = i./2 %% 2 ^ n.
  by rewrite -!divn2 modn_divl expnS mulnC.
rewrite expnS -divn2 divnMA; lia.
Qed.

Lemma brvK n i : i < 2 ^ n -> brv n (brv n i) = i.
Proof.
elim: n i => [|n IH] i h; first by rewrite brv0; case: i h.
rewrite brvS [brv n.+1 i]brvSr.
have -> : odd ((brv n (i %% 2 ^ n)).*2 + odd (i %/ 2 ^ n)) = odd (i %/ 2 ^ n) by lia.
have -> : ((brv n (i %% 2 ^ n)).*2 + odd (i %/ 2 ^ n))./2 = brv n (i %% 2 ^ n) by lia.
rewrite IH ?ltn_mod ?expn_gt0 // {3}(divn_eq i (2 ^ n)); congr (_ * _ + _).
have : i %/ 2 ^ n < 2 by rewrite ltn_divLR ?expn_gt0 // -expnS.
by case: (i %/ 2 ^ n) => [|[|]].
Qed.

Lemma brv_inj n i j : i < 2 ^ n -> j < 2 ^ n -> brv n i = brv n j -> i = j.
Proof. by move=> hi hj e; rewrite -(brvK hi) e brvK. Qed.

(** The inner loop advances the bit-reversed counter. *)
Lemma br_innerP n fuel i : n <= fuel -> i.+1 < 2 ^ n ->
  let r := br_inner fuel (brv n i) (2 ^ n)./2 in r.1 + r.2 = brv n i.+1.
Proof.
elim: n fuel i => [|n IH] [|fuel] i hf hi //.
have -> : (2 ^ n.+1)./2 = 2 ^ n by rewrite expnS; lia.
rewrite !brvS /=.
case: ifP => h.
  have oi : odd i by move: h (brv_lt n i./2); case: (odd i) => //=; lia.
  have hn : 0 < n by case: n hi {IH h hf} => //; case: i oi => [|[|]].
  have e : uphalf i = i./2.+1 by rewrite uphalf_half oi.
  rewrite /= oi mul0n mul1n add0n /= e addKn.
  by apply: IH => //; move: hi; rewrite expnS; lia.
have oi : odd i = false by apply/negP => o; move: h; rewrite o mul1n leq_addr.
rewrite /= oi /= uphalf_half oi mul0n mul1n add0n addnC add0n //.
Qed.

Section Rev.
Variables (T : Type) (x0 : T).

Lemma br_loop (v : seq T) n k : size v = 2 ^ n -> k < 2 ^ n ->
  let st := foldl (br_step x0) (v, 0) (iota 1 k) in
  [/\ size st.1 = 2 ^ n, st.2 = brv n k
    & forall x, x < 2 ^ n ->
      nth x0 st.1 x = nth x0 v (if minn x (brv n x) <= k then brv n x else x)].
Proof.
move=> sv; elim: k => [|k IH] hk.
  split=> //=; first by rewrite brv_zero.
  move=> x hx; case: ifP => // h; congr nth.
  have [->|e] : x = 0 \/ brv n x = 0 by lia.
    by rewrite brv_zero.
  by have := brvK hx; rewrite e brv_zero.
have -> : iota 1 k.+1 = rcons (iota 1 k) k.+1 by rewrite -cats1 -[k.+1]addn1 iotaD add1n addn1.
rewrite foldl_rcons.
have {IH} /= := IH (ltnW hk).
case: (foldl _ _ _) => w j /= [sw -> nw].
have := br_innerP (n := n) (fuel := 2 ^ n) (ltnW (ltn_expl n (isT : 1 < 2))) hk.
rewrite sw; case: (br_inner _ _ _) => j' bit /= ->.
have hb := brv_lt n k.+1.
case: ifP => h; split=> //=; last first.
- move=> x hx; rewrite nw //.
  have [e|ne] := eqVneq x k.+1.
    subst x; case: ifP; case: ifP => //; first by lia.
    move=> h1 h2; congr nth; lia.
  have [e|ne'] := eqVneq (brv n x) k.+1.
    have ex : x = brv n k.+1 by rewrite -e brvK.
    case: ifP; case: ifP => // h1 h2; first by lia.
    by congr nth; lia.
  by congr nth; case: ifP; case: ifP => //; lia.
- move=> x hx; rewrite !nth_set_nth /= !nw //.
  have [e|ne] := eqVneq x (brv n k.+1).
    subst x; rewrite brvK //.
    have -> : minn k.+1 (brv n k.+1) <= k = false by lia.
    by have -> : minn (brv n k.+1) k.+1 <= k.+1 by lia.
  have [e|ne'] := eqVneq x k.+1.
    subst x; rewrite brvK //.
    have -> : minn (brv n k.+1) k.+1 <= k = false by lia.
    by rewrite nth_set_nth /= eqxx; have -> : minn k.+1 (brv n k.+1) <= k.+1 by lia.
  have h3 : brv n x != k.+1.
    by apply/eqP => e; move: ne; rewrite -e brvK // eqxx.
  rewrite nth_set_nth /= (negbTE ne') nw //.
  by congr nth; case: ifP; case: ifP => //; lia.
- rewrite !size_set_nth sw; lia.
Qed.

Lemma bitReverse_size (v : seq T) n : size v = 2 ^ n ->
  size (bitReverseInPlace x0 v) = 2 ^ n.
Proof.
move=> sv; rewrite /bitReverseInPlace sv.
have h : (2 ^ n).-1 < 2 ^ n by have := expn_gt0 2 n; lia.
by have [] := br_loop sv h.
Qed.

Lemma bitReverse_nth (v : seq T) n x : size v = 2 ^ n -> x < 2 ^ n ->
  nth x0 (bitReverseInPlace x0 v) x = nth x0 v (brv n x).
Proof.
move=> sv hx; rewrite /bitReverseInPlace sv.
have h : (2 ^ n).-1 < 2 ^ n by have := expn_gt0 2 n; lia.
have [_ _ ->] := br_loop sv h => //.
by have -> : minn x (brv n x) <= (2 ^ n).-1 by lia.
Qed.

Lemma bitReverseK (v : seq T) n : size v = 2 ^ n ->
  bitReverseInPlace x0 (bitReverseInPlace x0 v) = v.
Proof.
move=> sv; have sb := bitReverse_size sv; have sbb := bitReverse_size sb.
apply: (@eq_from_nth _ x0) => [|x]; first by rewrite sbb sv.
rewrite sbb => hx.
by rewrite (bitReverse_nth sb) // (bitReverse_nth sv) ?brv_lt // brvK.
Qed.
End Rev.
