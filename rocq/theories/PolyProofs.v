(** Lemmas for the wrappers of ntt.go, and for poly.go, cyclic.go, cyclotomic.go. *)
From Coq Require Import ZArith Lia Zpow_facts.
From mathcomp Require Import all_ssreflect all_algebra zify.
From Verif Require Import Spec UintModel BigpolyModel BitrevProofs RingTac NttProofs NttCore UintProofs NttTables.
Set Implicit Arguments. Unset Strict Implicit. Unset Printing Implicit Defensive.
Import GRing.Theory.
Local Open Scope ring_scope.
Delimit Scope Z_scope with Z.

Lemma size_set_in (T : Type) (x0 : T) v i y : (i < size v)%N -> size (set_nth x0 v i y) = size v.
Proof. by move=> h; rewrite size_set_nth; apply/maxn_idPr. Qed.

Lemma size_writes (T : Type) (x0 : T) (f : nat -> nat) (g : nat -> T) s v :
  all (fun i => f i < size v)%N s ->
  size (foldl (fun x k => set_nth x0 x (f k) (g k)) v s) = size v.
Proof.
elim: s v => //= i s IH v /andP[hi hs]; rewrite IH ?size_set_in //.
Qed.

Section P.
Variable F : fieldType.
Add Ring FRing : (rt [comRingType of F]).
Ltac fring := norm_ring [comRingType of F]; ring.
Implicit Types (p v : seq F).

(** A loop writing [f i] at every [i] of a list of in-range indices. *)
Lemma foldl_write (f : nat -> F) (s : seq nat) v :
  all (fun i => i < size v)%N s ->
  let w := foldl (fun x i => set_nth 0 x i (f i)) v s in
  size w = size v /\ forall x, w`_x = if x \in s then f x else v`_x.
Proof.
elim: s v => [|i s IH] v //= /andP[hi hs].
have e : size (set_nth 0 v i (f i)) = size v by apply: size_set_in.
have [] := IH (set_nth 0 v i (f i)); first by rewrite e.
rewrite e => a b; split=> // x; rewrite b inE nth_set_nth /=.
by case: (x \in s); rewrite ?orbT ?orbF //; case: eqP => [->|].
Qed.

Lemma copy8_loop_None ixs vOut v i : i \in ixs -> (size vOut < i + 8)%N ->
  copy8_loop ixs vOut v = None.
Proof.
elim: ixs vOut => //= j ixs IH vOut; rewrite inE => hi h.
case: ifP => // /andP[h1 h2].
case/orP: hi => [/eqP e|hi]; first by move: h1; rewrite -e; lia.
apply: IH => //.
have := @size_writes F 0 (addn j) (fun k => v`_(j + k)) (iota 0 8) vOut.
rewrite /= => -> //; lia.
Qed.

Lemma copy8_loop_Some ixs vOut v : size vOut = size v ->
  all (fun i => i + 8 <= size v)%N ixs ->
  exists w, [/\ copy8_loop ixs vOut v = Some w, size w = size v
    & forall x, w`_x = if has (fun i => i <= x < i + 8)%N ixs then v`_x else vOut`_x].
Proof.
elim: ixs vOut => [|i ixs IH] vOut sv /=; first by exists vOut.
move=> /andP[hi hs]; rewrite sv hi /=.
set w := set_nth _ _ _ _.
have sw : size w = size v.
  by rewrite -sv; apply: (@size_writes F 0 (addn i) (fun k => v`_(i + k)) (iota 0 8)) => /=; lia.
have nw x : w`_x = if (i <= x < i + 8)%N then v`_x else vOut`_x.
  have ec : w = foldl (fun (x : seq F) k => set_nth 0 x k v`_k) vOut (iota i 8).
    by rewrite /w /= addn0 !addnS addn0.
  have ha : all (fun k => k < size vOut)%N (iota i 8).
    by apply/allP => k; rewrite mem_iota sv; lia.
  by rewrite ec; have [_ ->] := foldl_write (fun k => v`_k) ha; rewrite mem_iota.
have [u [h1 h2 h3]] := IH w sw hs; exists u; split=> // x.
by rewrite h3 nw; case: (has _ _); rewrite ?orbT ?orbF.
Qed.

Lemma copy8_ok vOut v : size vOut = size v -> (8 %| size v)%N -> copy8 vOut v = Some v.
Proof.
move=> sv /dvdnP[q hq]; rewrite /copy8 sv -{1}[size v]add0n hq range_step_mul //.
have ha : all (fun i => i + 8 <= size v)%N [seq (0 + 8 * i)%N | i <- iota 0 q].
  by apply/allP => i /mapP[k]; rewrite mem_iota hq => hk ->; lia.
have [w [-> h2 h3]] := copy8_loop_Some sv ha.
congr Some; apply: (@eq_from_nth _ 0) => // x; rewrite h2 => hx; rewrite h3.
case: hasP => // h; case: h; exists (8 * (x %/ 8))%N; last by lia.
by apply/mapP; exists (x %/ 8)%N => //; rewrite mem_iota; lia.
Qed.

Lemma copy8_fault vOut v : ~~ (8 %| size vOut)%N -> copy8 vOut v = None.
Proof.
move=> h; rewrite /copy8; apply: (@copy8_loop_None _ _ _ (8 * (size vOut %/ 8))%N); last by lia.
apply/mapP; exists (size vOut %/ 8)%N => //; rewrite mem_iota subn0; lia.
Qed.

Lemma scalarMulVecE (x0 : seq F) c xOut : size xOut = size x0 -> scalarMulVec xOut x0 c = [seq x * c | x <- x0].
Proof.
move=> sx; rewrite /scalarMulVec.
set M := (8 * (size xOut %/ 8))%N; set q := (size xOut %/ 8)%N.
have -> : foldl (fun x i => foldl (fun x k => set_nth 0 x (i + k)%N (x0`_(i + k) * c)) x (iota 0 8))
    xOut (range_step 0 M 8) = foldl (fun x i => set_nth 0 x i (x0`_i * c)) xOut (iota 0 M).
  have -> : M = (0 + q * 8)%N by rewrite /M /q; lia.
  rewrite range_step_mul // add0n.
  elim: q => [|k IH]; first by [].
  rewrite (iotaSr 0 k) map_rcons foldl_rcons IH.
  have -> : (k.+1 * 8 = k * 8 + 8)%N by lia.
  rewrite iotaD foldl_cat !add0n /=.
  have -> : (8 * k = k * 8)%N by lia.
  by rewrite !addnS addn0.
rewrite -foldl_cat -iotaD subnKC; last by rewrite /M; lia.
have ha : all (fun i => i < size xOut)%N (iota 0 (size xOut)) by apply/allP => i; rewrite mem_iota.
have [a b] := foldl_write (fun i => x0`_i * c) ha.
apply: (@eq_from_nth _ 0); first by rewrite a size_map.
move=> i; rewrite a => hi; rewrite b mem_iota /= add0n hi (nth_map 0) -?sx //.
Qed.

(** ** Round trips *)
Lemma scale_mulr v c d : c * d = 1 -> [seq x * d | x <- scale c v] = v.
Proof.
move=> h; rewrite /scale -map_comp -[RHS]map_id; apply: eq_map => x /=.
by rewrite mulrAC h mul1r.
Qed.

Section RT.
Variables (T : transformer F) (n : nat) (g : F).
Hypothesis hw : tw_inverse n (ttw T) (ttwInv T).
Hypothesis hi : trankInv T = (2 ^ n)%:R^-1.
Hypothesis hz : (2 ^ n)%:R != 0 :> F.

Lemma inv_fwdNTT v : size v = (2 ^ n)%N -> invNTT T (fwdNTT T v) = v.
Proof.
move=> sv; rewrite /invNTT /fwdNTT (intt_ntt hw) // scalarMulVecE ?size_map // hi.
by rewrite scale_mulr // divff.
Qed.

Lemma scale_nttInPlace c v : size v = (2 ^ n)%N ->
  nttInPlace (scale c v) (ttw T) = scale c (nttInPlace v (ttw T)).
Proof.
move=> sv; rewrite !(nttInPlaceE (n := n)) ?size_map //.
by rewrite stgs_scale_f // iota_all.
Qed.

Lemma fwd_invNTT v : size v = (2 ^ n)%N -> fwdNTT T (invNTT T v) = v.
Proof.
move=> sv; rewrite /invNTT /fwdNTT scalarMulVecE // hi.
have -> : [seq x / (2 ^ n)%:R | x <- inttInPlace v (ttwInv T)] = scale (2 ^ n)%:R^-1 (inttInPlace v (ttwInv T)).
  by apply: eq_map => x; rewrite mulrC.
rewrite scale_nttInPlace ?(size_inttInPlace (n := n)) // (ntt_intt hw) // scale_scale.
by rewrite mulVf // scale1.
Qed.

Lemma size_fwdNTT v : size v = (2 ^ n)%N -> size (fwdNTT T v) = (2 ^ n)%N.
Proof. exact: size_nttInPlace. Qed.
Lemma size_invNTT v : size v = (2 ^ n)%N -> size (invNTT T v) = (2 ^ n)%N.
Proof. by move=> sv; rewrite /invNTT scalarMulVecE // size_map (size_inttInPlace (n := n)). Qed.
End RT.

Lemma root_neq0 (g : F) k : (0 < k)%N -> g ^+ k = -1 -> g != 0.
Proof.
move=> hk h; apply/eqP => e; move: h; rewrite e expr0n; case: k hk => //= k _ /esym/eqP.
by rewrite oppr_eq0 oner_eq0.
Qed.

Lemma good_cyclotomic_inverse (T : transformer F) n g : good_cyclotomic T n g -> tw_inverse n (ttw T) (ttwInv T).
Proof.
case=> _ gN ht hti _ _ x /andP[_ hx]; rewrite ht // hti // -exprMn divff ?expr1n //.
by apply: root_neq0 gN; rewrite expn_gt0.
Qed.

Lemma good_cyclic_inverse (T : transformer F) n g : good_cyclic T n g -> tw_inverse n (ttw T) (ttwInv T).
Proof.
case=> _ hn gN ht hti _ _ x /index_split[s [i [hs hi ->]]].
rewrite ht // hti // -exprMn divff ?expr1n //.
by apply: root_neq0 gN; rewrite expn_gt0.
Qed.

(** ** Root orders *)
Lemma order_of_neg1 (g : F) n : 2%:R != 0 :> F -> g ^+ (2 ^ n) = -1 -> has_order g (2 ^ n.+1).
Proof.
move=> h2 gN; split; first by rewrite expn_gt0.
split; first by rewrite expnSr exprM gN sqrrN expr1n.
move=> k /andP[k0 kN] gk.
have hd : forall m, g ^+ m = 1 -> g ^+ gcdn m (2 ^ n.+1) = 1.
  move=> m hm; case: (posnP m) => [->|m0].
    by rewrite gcd0n expnSr exprM gN sqrrN expr1n.
  have [a b e _] := egcdnP (2 ^ n.+1) m0.
  have : g ^+ (a * m) = 1 by rewrite mulnC exprM hm expr1n.
  rewrite e exprD mulnC exprM.
  have -> : g ^+ (2 ^ n.+1) = 1 by rewrite expnSr exprM gN sqrrN expr1n.
  by rewrite expr1n mul1r.
have := hd k gk.
have /dvdn_pfactor [] : (gcdn k (2 ^ n.+1) %| 2 ^ n.+1)%N by apply: dvdn_gcdr.
  by [].
move=> d hdn ed; rewrite ed => hg.
have hdn' : (d <= n)%N.
  rewrite leqNgt; apply/negP => hlt; have ed' : d = n.+1 by lia.
  have : (2 ^ n.+1 %| k)%N by rewrite -ed' -ed dvdn_gcdl.
  by move/dvdn_leq => /(_ k0); rewrite leqNgt kN.
have : g ^+ (2 ^ n) = 1.
  by rewrite -(subnKC hdn') expnD exprM hg expr1n.
rewrite gN => /eqP; rewrite eq_sym -subr_eq0 opprK -[1 + 1]/(2%:R) => /eqP e.
by move: h2; rewrite e eqxx.
Qed.
End P.
