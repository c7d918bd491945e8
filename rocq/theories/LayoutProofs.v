(** The rows and columns of the jindo commitment. *)
From Coq Require Import ZArith.
From mathcomp Require Import all_ssreflect all_algebra zify ssrZ.
From Verif Require Import UintModel UintProofs RingProofs JindoIntModel JindoIntProofs CycModel JindoModel JindoProofs.
Set Implicit Arguments. Unset Strict Implicit. Unset Printing Implicit Defensive.
Import GRing.Theory.
Delimit Scope Z_scope with Z.
Local Open Scope ring_scope.

Section Fold.
Variable F : fieldType.
Lemma pow_fold (c : F) n m : (0 < n)%N -> (m < n)%N ->
  let l := foldl (fun l i => set_nth 0 l i (nth 0 l i.-1 * c)) (set_nth 0 (nseq n 0) 0 1) (iota 1 m) in
  size l = n /\ forall i, (i <= m)%N -> nth 0 l i = c ^+ i.
Proof.
move=> hn; elim: m => [|m IH] hm.
  split; first by rewrite /= size_set_nth size_nseq (maxn_idPr _).
  by case=> [|//] _; rewrite /= nth_set_nth /= expr0.
have [h1 h2] := IH (ltnW hm); rewrite -[X in iota 1 X](addn1 m) iotaD foldl_cat /= add1n.
split; first by rewrite size_set_nth h1 (maxn_idPr _).
move=> i; rewrite leq_eqVlt nth_set_nth /= => /orP[/eqP ->|hi]; first by rewrite eqxx h2 // exprSr.
by rewrite (ltn_eqF hi) h2.
Qed.
(** an assignment per index *)
Lemma set_fold (f : nat -> F) (l0 : seq F) a m : (a + m <= size l0)%N ->
  let l := foldl (fun l i => set_nth 0 l i (f i)) l0 (iota a m) in
  size l = size l0 /\ forall i, nth 0 l i = if (a <= i < a + m)%N then f i else nth 0 l0 i.
Proof.
elim: m => [|m IH] hm.
  by split=> // i; rewrite addn0; case: ifP => // /andP[h1 h2]; move: h2; rewrite ltnNge h1.
have [|h1 h2] := IH; first by apply: leq_trans hm; rewrite leq_add2l.
have ham : (a + m < size l0)%N by rewrite -addnS.
rewrite -[X in iota a X](addn1 m) iotaD foldl_cat /=; split; first by rewrite size_set_nth h1 (maxn_idPr _).
move=> i; rewrite nth_set_nth /= h2 addnS ltnS; case: eqP => [->|ne]; first by rewrite leq_addr leqnn.
have -> : (i <= a + m)%N = (i < a + m)%N by rewrite leq_eqVlt; case: eqP ne.
by [].
Qed.
End Fold.

Section Layout.
Variables (F : fieldType) (U : uint F) (P : jparams).
Local Notation s := (slots P).
Local Notation n := (cols P).
Local Notation R := (rows P).
Local Notation cs := (cols P * slots P)%N.
Hypothesis hcs : (0 < cs)%N.
Hypothesis hR : (2 <= R)%N.
Hypothesis h64 : (Z.of_nat cs < 2 ^ 64)%Z.
Lemma ExpcsE (x : F) : Exp x (Z.of_nat cs) = x ^+ cs.
Proof. by rewrite /Exp exp_loopE ?mul1r ?Nat2Z.id //; split; [exact: Nat2Z.is_nonneg|]. Qed.
Lemma leftVecE (x : F) : size (leftVec P x) = R /\
  forall j, (j < R)%N -> nth 0 (leftVec P x) j = if j == R.-1 then x else x ^+ (j * cs).
Proof.
have h0 : (0 < R)%N by apply: leq_trans hR.
have hp : (R.-1 < R)%N by rewrite prednK.
have [h1 h2] := pow_fold (Exp x (Z.of_nat cs)) h0 hp.
rewrite /leftVec; split; first by rewrite size_set_nth h1 (maxn_idPr _).
move=> j hj; rewrite nth_set_nth /=; case: eqP => // _.
by rewrite h2 ?ExpcsE -?exprM 1?mulnC // -ltnS prednK.
Qed.
Lemma rightVecE (x : F) : size (rightVec P x) = cs /\ forall k, (k < cs)%N -> nth 0 (rightVec P x) k = x ^+ k.
Proof.
have hp : (cs.-1 < cs)%N by rewrite prednK.
have [h1 h2] := pow_fold x hcs hp; split; first exact: h1.
by move=> k hk; apply: h2; rewrite -ltnS prednK.
Qed.
Lemma lastRowE (u : seq F) k : nth 0 (lastRow P u) k = if (k < cs.-1)%N then nth 0 u k else 0.
Proof.
rewrite /lastRow nth_set_nth /=; case: ltnP => h; first by rewrite (ltn_eqF h) nth_take.
by case: eqP => // _; rewrite nth_default // size_take; case: ltnP => // h'; apply: leq_trans h' h.
Qed.
Lemma firstRowE (v u : seq F) : size (firstRow P v u) = cs /\
  forall k, (k < cs)%N -> nth 0 (firstRow P v u) k = nth 0 v k - (if k is k'.+1 then nth 0 (lastRow P u) k' else 0).
Proof.
pose g i := if (i < size v)%N then nth 0 v i - nth 0 (lastRow P u) i.-1 else 0 - nth 0 (lastRow P u) i.-1.
have hsz : (1 + cs.-1 <= size (set_nth (0%R : F) (nseq cs 0%R) 0%N (nth 0%R v 0%N)))%N.
  by rewrite size_set_nth size_nseq (maxn_idPr _) // add1n prednK.
have [h1 h2] := set_fold g hsz; split.
  by rewrite /firstRow [LHS]h1 size_set_nth size_nseq (maxn_idPr _).
move=> k hk; rewrite /firstRow -/g [LHS]h2 add1n prednK // hk andbT; case: k hk => [|k] hk /=.
  by rewrite nth_set_nth /= subr0.
by rewrite /g; case: ltnP => [//|h]; rewrite [nth 0 v k.+1]nth_default.
Qed.

(** the field element at row j, position k = i * slots + l of the matrix *)
Definition entry (v : seq F) (w : coins F) (j k : nat) : F :=
  nth 0 (odflt [::] (cell P v w (k %/ s) j)) (k %% s).

Lemma nth_sub (T : Type) (x0 : T) (v : seq T) a b k : (k < b - a)%N -> nth x0 (sub v a b) k = nth x0 v (a + k).
Proof. by move=> h; rewrite /sub nth_take // nth_drop. Qed.
Lemma nth_sub_out (T : Type) (x0 : T) (v : seq T) a b k : (b - a <= k)%N -> nth x0 (sub v a b) k = x0.
Proof. by move=> h; rewrite /sub nth_default // size_take; case: ltnP => // h'; apply: leq_trans h' h. Qed.
Lemma s_gt0 : (0 < s)%N. Proof. by move: hcs; rewrite muln_gt0 => /andP[]. Qed.

Lemma entryE (v : seq F) w j k : (k < cs)%N -> (j < R)%N ->
  entry v w j k = if j == 0%N then nth 0 (firstRow P v (coinU w)) k
                  else if j == R.-1 then nth 0 (lastRow P (coinU w)) k
                  else nth 0 v (j * cs + k).
Proof.
move=> hk hj; have hi : (k %/ s < n)%N by rewrite ltn_divLR ?s_gt0.
have hm : (k %% s < s)%N by rewrite ltn_mod s_gt0.
have hw : ((k %/ s).+1 * s - k %/ s * s = s)%N by rewrite mulSn addnK.
rewrite /entry /cell (ltn_eqF hi); case: (j =P 0%N) => [_|j0]; first by rewrite /= nth_sub ?hw // -divn_eq.
case: eqP => jR; first by rewrite /= nth_sub ?hw // -divn_eq.
rewrite -mulnA; case: ltnP => h.
  rewrite nth_nil nth_default //; apply: leq_trans (ltnW h) _.
  by rewrite leq_add2l leq_trunc_div.
have -> : (j * cs + k = j * cs + k %/ s * s + k %% s)%N by rewrite -addnA -divn_eq.
rewrite mulSn [(s + _)%N]addnC addnA [odflt _ _]/=.
set a := (j * cs + _ * s)%N in h *.
have [h'|h'] := ltnP (k %% s) (minn (a + s) (size v) - a); first by rewrite nth_sub.
rewrite nth_sub_out //.
have [|h2] := leqP (size v) (a + k %% s); first by move=> h2; rewrite nth_default.
by move: h'; rewrite leqNgt ltn_subRL leq_min h2 ltn_add2l hm.
Qed.

(** left^T M right = v(x) *)
Lemma layout_eval (v : seq F) w x : (size v <= R.-1 * cs)%N ->
  \sum_(j < R) nth 0 (leftVec P x) j * (\sum_(k < cs) entry v w j k * nth 0 (rightVec P x) k) = (Poly v).[x].
Proof.
move=> hv; have [_ hl] := leftVecE x; have [_ hr] := rightVecE x.
have [_ hf] := firstRowE v (coinU w).
have hR0 : (0 < R)%N by apply: leq_trans hR.
have Rp : R.-1 = R.-2.+1 by rewrite prednK // -subn1 subn_gt0.
pose f j := nth 0 (leftVec P x) j * (\sum_(k < cs) entry v w j k * nth 0 (rightVec P x) k).
pose V j := \sum_(k < cs) nth 0 v (j * cs + k) * x ^+ (j * cs + k).
have mid j : (0 < j < R.-1)%N -> f j = V j.
  move=> /andP[h1 h2]; have hj : (j < R)%N by apply: leq_trans h2 _; exact: leq_pred.
  rewrite /f hl // (ltn_eqF h2) big_distrr /=; apply: eq_bigr => k _.
  by rewrite entryE // (gtn_eqF h1) (ltn_eqF h2) hr // mulrCA -exprD.
have ends : f 0%N + f R.-1 = V 0%N.
  have e0 : (0 == R.-1)%N = false by rewrite Rp.
  have eR : (R.-1 == 0)%N = false by rewrite Rp.
  rewrite /f !hl ?prednK // e0 eqxx mul0n expr0 mul1r.
  have -> : \sum_(k < cs) entry v w R.-1 k * nth 0 (rightVec P x) k = \sum_(k < cs) nth 0 (lastRow P (coinU w)) k * x ^+ k.
    by apply: eq_bigr => k _; rewrite entryE ?prednK // eR eqxx hr.
  have -> : \sum_(k < cs) entry v w 0 k * nth 0 (rightVec P x) k =
      \sum_(k < cs) nth 0 v k * x ^+ k - \sum_(k < cs) (if k : nat is k'.+1 then nth 0 (lastRow P (coinU w)) k' else 0) * x ^+ k.
    rewrite -sumrB; apply: eq_bigr => k _.
    by rewrite entryE // eqxx hr // hf // mulrBl.
  have -> : V 0%N = \sum_(k < cs) nth 0 v k * x ^+ k by apply: eq_bigr => k _; rewrite mul0n add0n.
  rewrite -addrA; apply/eqP; rewrite -subr_eq0 addrAC subrr add0r addrC subr_eq0; apply/eqP.
  rewrite -(big_mkord xpredT (fun k => nth 0 (lastRow P (coinU w)) k * x ^+ k)).
  rewrite -(big_mkord xpredT (fun k => (if k is k'.+1 then nth 0 (lastRow P (coinU w)) k' else 0) * x ^+ k)).
  rewrite -(prednK hcs) big_nat_recr // big_nat_recl //.
  rewrite -[GRing.add_monoid F _ _]/(_ + _) lastRowE ltnn !mul0r addr0 add0r big_distrr /=; apply: eq_bigr => k _.
  by rewrite mulrCA -exprS.
have -> : \sum_(j < R) f j = \sum_(j < R.-1) V j.
  rewrite -(big_mkord xpredT f) -{1}(prednK hR0) big_nat_recr //= Rp big_nat_recl // addrAC -Rp ends.
  rewrite -(big_mkord xpredT V) Rp big_nat_recl //; congr (_ + _).
  by apply: eq_big_nat => j hj; rewrite mid // Rp /=.
rewrite -(big_mkord xpredT V).
have step m : \sum_(0 <= j < m) V j = \sum_(0 <= k < m * cs) nth 0 v k * x ^+ k.
  elim: m => [|m IH]; first by rewrite mul0n !big_geq.
  rewrite big_nat_recr //= IH mulSn [(cs + _)%N]addnC [RHS](big_cat_nat _ _ _ (leq0n (m * cs)) (leq_addr _ _)) /=; congr (_ + _).
  rewrite -{1}[(m * cs)%N]add0n big_addn addKn big_mkord; apply: eq_bigr => i _; by rewrite addnC.
rewrite step big_mkord (@horner_coef_wide _ (R.-1 * cs) _ x) ?(leq_trans (size_Poly _)) //.
by apply: eq_bigr => k _; rewrite coef_Poly.
Qed.

(** the blinding row *)
Lemma firstRow_onto (v t : seq F) : size t = cs.-1 ->
  exists u, [/\ size u = cs.-1, behead (firstRow P v u) = t & forall u', size u' = cs.-1 -> behead (firstRow P v u') = t -> u' = u].
Proof.
move=> ht; pose u := mkseq (fun k => nth 0 v k.+1 - nth 0 t k) cs.-1.
have key u0 k : (k < cs.-1)%N -> nth 0 (behead (firstRow P v u0)) k = nth 0 v k.+1 - nth 0 u0 k.
  move=> hk; have [_ h] := firstRowE v u0.
  by rewrite nth_behead h ?lastRowE ?hk // -(prednK hcs) ltnS.
have sz u0 : size (behead (firstRow P v u0)) = cs.-1 by rewrite size_behead; have [-> _] := firstRowE v u0.
exists u; split; first by rewrite size_mkseq.
  apply: (@eq_from_nth _ 0); rewrite sz // => k hk; rewrite key // nth_mkseq //.
  by rewrite opprB addrCA subrr addr0.
move=> u' hu' e; apply: (@eq_from_nth _ 0); rewrite ?size_mkseq // hu' => k hk.
by rewrite nth_mkseq // -e key // opprB addrCA subrr addr0.
Qed.
End Layout.
