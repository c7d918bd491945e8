(** Contexts only grow, and what each norm constraint forces. *)
From Coq Require Import ZArith Lia.
From mathcomp Require Import all_ssreflect all_algebra zify.
From Verif Require Import RingTac Spec UintModel BigpolyModel UintProofs RingProofs NormModel NormProofs
  BucklerModel DefineModel BucklerSpec FillProofs.
Set Implicit Arguments. Unset Strict Implicit. Unset Printing Implicit Defensive.
Import GRing.Theory.
Local Open Scope ring_scope.
Delimit Scope Z_scope with Z.

Lemma In_rcons A (x y : A) s : List.In x (rcons s y) <-> List.In x s \/ x = y.
Proof.
elim: s => [|z s IH] /=; first by split=> [[->|[]]|[[]|->]]; [right|left].
rewrite IH; tauto.
Qed.

Lemma In_mem (T : eqType) (x : T) s : List.In x s <-> x \in s.
Proof.
elim: s => [|y s IH] //=; rewrite inE IH; split; first by case=> [->|->]; rewrite ?eqxx ?orbT.
by case/orP => [/eqP ->|]; [left|right].
Qed.

Lemma In_map A B (f : A -> B) s y : List.In y (map f s) <-> exists x, List.In x s /\ y = f x.
Proof.
elim: s => [|x s IH] /=; first by split=> // -[x []].
rewrite IH; split.
  by case=> [<-|[z [h ->]]]; [exists x|exists z]; auto.
by case=> z [[->|h] ->]; [left|right; exists z].
Qed.

Lemma In_zip_rcons A B (a : A) (b : B) s t : size s = size t ->
  zip (rcons s a) (rcons t b) = rcons (zip s t) (a, b).
Proof. exact: zip_rcons. Qed.

Section Grow.
Variables (F : fieldType) (U : uint F).
Implicit Types (x y : context F).
Add Ring FRing : (rt [comRingType of F]).
Ltac fring := norm_ring [comRingType of F]; ring.
Local Notation sb := (setBigInt U).

(** what never shrinks *)
Record grows x y : Prop := Grows {
  gr_rank : crank y = crank x;
  gr_pw : (cpwCnt x <= cpwCnt y)%N;
  gr_w : (cwCnt x <= cwCnt y)%N;
  gr_ar : forall c, List.In c (carith x) -> List.In c (carith y);
  gr_su : (size (csum x) = size (csums x) -> size (csum y) = size (csums y)
      /\ forall c s, List.In (c, s) (zip (csum x) (csums x)) -> List.In (c, s) (zip (csum y) (csums y)));
  gr_tw : forall id B pb pm wd, aget (ctwo y) id = Some (B, pb, pm, wd) ->
      aget (ctwo x) id = Some (B, pb, pm, wd) \/ (cpwCnt x <= pb)%N && (cpwCnt x <= pm)%N
}.

Lemma grows_refl x : grows x x.
Proof. by split=> //; auto. Qed.

Lemma grows_trans y x z : grows x y -> grows y z -> grows x z.
Proof.
move=> h1 h2; split.
- by rewrite (gr_rank h2) (gr_rank h1).
- exact: leq_trans (gr_pw h1) (gr_pw h2).
- exact: leq_trans (gr_w h1) (gr_w h2).
- by move=> c h; apply: (gr_ar h2); apply: (gr_ar h1).
- move=> h; have [h3 h4] := gr_su h1 h; have [h5 h6] := gr_su h2 h3.
  by split=> // c s h7; apply: h6; apply: h4.
- move=> id B pb pm wd h; case: (gr_tw h2 h) => [h3|/andP[h3 h4]]; first exact: gr_tw h1 _ _ _ _ _ h3.
  by right; have := gr_pw h1; lia.
Qed.

Lemma grows_arith x c : grows x (AddArithmeticConstraint x c).
Proof. by split=> //=; auto => d h; apply/In_rcons; left. Qed.

Lemma grows_sum x c s : grows x (AddSumCheckConstraintBig x c s).
Proof.
split=> //=; auto => h; split; first by rewrite !size_rcons h.
by move=> d t hd; rewrite In_zip_rcons //; apply/In_rcons; left.
Qed.

Lemma grows_lin x o i chk : grows x (AddLinearConstraint x o i chk).
Proof. by split=> //=; auto. Qed.

Lemma grows_fold_arith x (D : seq nat) (f : nat -> constraint F) :
  grows x (foldl (fun x d => AddArithmeticConstraint x (f d)) x D).
Proof.
elim: D x => [|d D IH] x /=; first exact: grows_refl.
exact: grows_trans (grows_arith x (f d)) (IH _).
Qed.

Lemma fold_arith_In x (D : seq nat) (f : nat -> constraint F) d : d \in D ->
  List.In (f d) (carith (foldl (fun x d => AddArithmeticConstraint x (f d)) x D)).
Proof.
elim: D x => [|e D IH] x //=; rewrite inE => /orP[/eqP ->|]; last exact: IH.
by apply: (gr_ar (grows_fold_arith _ D f)) => /=; apply/In_rcons; right.
Qed.

Lemma grows_run1 x y c : run1 U x c = Some y -> grows x y.
Proof.
case: c => [c|c s|o i a tf tr|w B|w B|w B] /=.
- by move=> [<-]; exact: grows_arith.
- by move=> [<-]; exact: grows_sum.
- by move=> [<-]; exact: grows_lin.
- rewrite /AddInfNormConstraintBig; case: ifP => _; first by move=> [<-]; exact: grows_refl.
  case: ifP => _; first by move=> [<-]; exact: grows_arith.
  case: ifP => _; first by move=> [<-]; exact: grows_arith.
  case: (decomposeBase B) => [base|] // [<-].
  apply: grows_trans (grows_arith _ _); apply: grows_trans (grows_fold_arith _ _ _).
  by split=> //=; auto; lia.
- move=> [<-]; rewrite /AddSqNormConstraintBig.
  apply: grows_trans (grows_sum _ _ _); apply: grows_trans (grows_arith _ _).
  split=> //=; auto; [lia|move=> id B' pb pm wd; rewrite aget_aset].
  by case: eqP => [_ [_ <- <- _]|_]; [right; lia|left].
- rewrite /AddApproxInfNormConstraintBig; case: (decomposeBase _) => [base|] // [<-].
  by split=> //=; auto; lia.
Qed.

Lemma grows_define x cs y : define U x cs = Some y -> grows x y.
Proof.
elim: cs x => [|c cs IH] x /=; first by move=> [<-]; exact: grows_refl.
case E: (run1 U x c) => [x1|] // /IH h; exact: grows_trans (grows_run1 E) h.
Qed.

Lemma define_cat x cs1 cs2 y : define U x (cs1 ++ cs2) = Some y ->
  exists x1, define U x cs1 = Some x1 /\ define U x1 cs2 = Some y.
Proof.
elim: cs1 x => [|c cs IH] x /=; first by exists x.
by case E: (run1 U x c) => [x1|] //; exact: IH.
Qed.

(** * Values of the generated constraints *)
Lemma cval_rcons (pw w : seq (seq F)) i c t : cval pw w i (rcons c t) = cval pw w i c + tval_ pw w i t.
Proof. by rewrite /cval -cats1 big_cat big_seq1. Qed.
Lemma cval_nil (pw w : seq (seq F)) i : cval pw w i [::] = 0.
Proof. by rewrite /cval big_nil. Qed.

Lemma zeroC_val (pw w : seq (seq F)) i a : cval pw w i (zeroC U a) = slot w a i.
Proof. by rewrite /zeroC cval_rcons cval_nil /tval_ /= setBigInt_one add0r !mul1r big_seq1. Qed.

Lemma ternaryC_val (pw w : seq (seq F)) i a :
  cval pw w i (ternaryC U a) = slot w a i ^+ 3 - slot w a i.
Proof.
rewrite /ternaryC !cval_rcons cval_nil /tval_ /= (sbN U 1) setBigInt_one add0r mulr1 mul1r.
by rewrite !big_cons big_nil !mulr1 mulN1r !exprS expr0 mulr1.
Qed.

Lemma dcmpC_val (pw w : seq (seq F)) i a base D :
  cval pw w i (dcmpC U a base D) = slot w a i - \sum_(j < size base) sb (nth 0%Z base j) * slot w (nth 0%N D j) i.
Proof.
rewrite /dcmpC -(big_mkord xpredT (fun j => sb (nth 0%Z base j) * slot w (nth 0%N D j) i)) /index_iota subn0.
elim: (size base) => [|n IH]; first by rewrite /= big_nil subr0 cval_rcons cval_nil /tval_ /= setBigInt_one add0r !mul1r big_seq1.
rewrite -addn1 iotaD foldl_cat big_cat [foldl _ _ (iota _ 1)]/= cval_rcons IH big_seq1 add0n.
by rewrite /tval_ /= big_seq1 mulr1 opprD addrA mulNr.
Qed.

Lemma binC_val (pw w : seq (seq F)) i a m :
  cval pw w i (binC U a m) = slot w a i * (slot w a i - slot pw m i).
Proof.
rewrite /binC !cval_rcons cval_nil /tval_ /= (sbN U 1) setBigInt_one add0r !mul1r.
by rewrite !big_cons big_nil !mulr1 mulrBr mulN1r mulNr [slot pw m i * _]mulrC.
Qed.

Lemma sqC_val (pw w : seq (seq F)) i a d b :
  cval pw w i (sqC U a d b) = slot w a i * slot w a i - slot pw b i * slot w d i.
Proof.
rewrite /sqC !cval_rcons cval_nil /tval_ /= (sbN U 1) setBigInt_one add0r !mul1r.
by rewrite !big_cons big_nil !mulr1 mulN1r mulNr.
Qed.

Lemma ternary_roots (a : F) : a ^+ 3 - a = 0 -> exists2 z, a = sb z & (Z.abs z <= 1)%Z.
Proof.
move=> h; have : a * (a - 1) * (a + 1) = 0.
  by rewrite -h; fring.
move/eqP; rewrite !mulf_eq0 => /orP[/orP[/eqP ->|]|].
- by exists 0%Z; rewrite ?sb0.
- by rewrite subr_eq0 => /eqP ->; exists 1%Z; rewrite ?setBigInt_one.
- by rewrite addr_eq0 => /eqP ->; exists (-1)%Z; rewrite ?(sbN U 1) ?setBigInt_one.
Qed.

(** sums of sb of integers *)
Lemma sb_sum n (f : nat -> Z) : \sum_(j < n) sb (f j) = sb (zsum n f).
Proof.
rewrite -(big_mkord xpredT (fun j => sb (f j))) /index_iota subn0 /zsum.
by elim: (iota 0 n) => [|j l IH] /=; rewrite ?big_nil ?sb0 // big_cons IH setBigInt_add.
Qed.

Lemma zsum_ext n (f g : nat -> Z) : (forall i, (i < n)%N -> f i = g i) -> zsum n f = zsum n g.
Proof.
move=> h; rewrite /zsum.
have : forall l, all (fun i => (i < n)%N) l -> foldr (fun i a => (f i + a)%Z) 0%Z l = foldr (fun i a => (g i + a)%Z) 0%Z l.
  by elim=> [|i l IH] //= /andP[hi hl]; rewrite IH // h.
by apply; apply/allP => i; rewrite mem_iota.
Qed.

Lemma zsumS n f : zsum n.+1 f = (f 0%N + zsum n (fun i => f i.+1))%Z.
Proof.
rewrite /zsum /= (iotaDl 1 0 n).
by congr (_ + _)%Z; elim: (iota 0 n) => [|i l IH] //=; rewrite IH.
Qed.

Lemma zsum_dotz (d base : seq Z) : size d = size base ->
  zsum (size base) (fun j => nth 0%Z base j * nth 0%Z d j)%Z = dotz d base.
Proof.
elim: base d => [|b base IH] [|x d] //= [h].
by rewrite zsumS /= (IH d h) dotz_cons; lia.
Qed.

Lemma zsum_le n (f g : nat -> Z) : (forall i, (i < n)%N -> f i <= g i)%Z -> (zsum n f <= zsum n g)%Z.
Proof.
elim: n f g => [|n IH] f g h; first by rewrite /zsum /=; lia.
rewrite !zsumS; have := h 0%N isT; have := IH (fun i => f i.+1) (fun i => g i.+1) (fun i hi => h i.+1 hi); lia.
Qed.

Lemma zsum_sumz (base : seq Z) : zsum (size base) (fun j => nth 0%Z base j) = sumz base.
Proof. by elim: base => [|b base IH] //; rewrite /= zsumS /= IH sumz_cons. Qed.

Lemma zsum_abs n f : (Z.abs (zsum n f) <= zsum n (fun i => Z.abs (f i)))%Z.
Proof.
elim: n f => [|n IH] f; first by rewrite /zsum /=; lia.
rewrite !zsumS; have := IH (fun i => f i.+1); lia.
Qed.

Lemma cover_le B : (cover B <= B)%Z.
Proof. by rewrite /cover; case: ifP => _; lia. Qed.

Lemma greedy_nth_pos base j : greedy base -> (0 <= nth 0 base j)%Z.
Proof.
move=> /greedy_nonneg h; case: (ltnP j (size base)) => hj; last by rewrite nth_default.
by have := all_nthP 0%Z h j hj => /Z.leb_spec0.
Qed.

(** choice over a finite range *)
Lemma fin_choice (T : Type) (d : T) n (P : nat -> T -> Prop) : (forall j, (j < n)%N -> exists t, P j t) ->
  exists f, forall j, (j < n)%N -> P j (f j).
Proof.
elim: n => [|n IH] h; first by exists (fun _ => d).
have [|f hf] := IH; first by move=> j hj; apply: h; lia.
have [t ht] := h n (ltnSn n).
exists (fun j => if j == n then t else f j) => j; rewrite ltnS leq_eqVlt => /orP[/eqP ->|hj]; first by rewrite eqxx.
by case: eqP => [->|_] //; apply: hf.
Qed.

Lemma inf_sound pw w i a base D : greedy base -> size D = size base ->
  (forall j, (j < size D)%N -> cval pw w i (ternaryC U (nth 0%N D j)) = 0) ->
  cval pw w i (dcmpC U a base D) = 0 ->
  exists z, repr U (slot w a i) z /\ (Z.abs z <= sumz base)%Z.
Proof.
move=> hg hs ht; rewrite dcmpC_val => /eqP; rewrite subr_eq0 => /eqP ->.
have [z hz] : exists z : nat -> Z, forall j, (j < size base)%N -> slot w (nth 0%N D j) i = sb (z j) /\ (Z.abs (z j) <= 1)%Z.
  have hc := @fin_choice Z 0%Z (size base) (fun j t => slot w (nth 0%N D j) i = sb t /\ (Z.abs t <= 1)%Z).
  apply: hc => j hj; have := ht j; rewrite hs => /(_ hj); rewrite ternaryC_val => /ternary_roots[y h1 h2].
  by exists y.
exists (zsum (size base) (fun j => nth 0%Z base j * z j)%Z); split.
  rewrite /repr -sb_sum; apply: eq_bigr => j _.
  by have [-> _] := hz j (ltn_ord j); rewrite setBigInt_mul.
refine (Z.le_trans _ _ _ (@zsum_abs _ _) _); rewrite -zsum_sumz; apply: zsum_le => j hj.
have [_ h] := hz j hj; have := @greedy_nth_pos base j hg; move: (nth _ _ _) (z j) h => b t; nia.
Qed.
End Grow.
