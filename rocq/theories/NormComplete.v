(** The auxiliary witnesses computed by Prove satisfy the generated constraints. *)
From Coq Require Import ZArith Lia.
From mathcomp Require Import all_ssreflect all_algebra zify.
From Verif Require Import RingTac Spec UintModel BigpolyModel UintProofs RingProofs NormModel NormProofs
  BucklerModel DefineModel BucklerSpec FillProofs NormSound ContextProofs CheckerProofs.
Set Implicit Arguments. Unset Strict Implicit. Unset Printing Implicit Defensive.
Import GRing.Theory.
Local Open Scope ring_scope.
Delimit Scope Z_scope with Z.

Section Complete.
Variables (F : fieldType) (U : uint F).
Add Ring FRing : (rt [comRingType of F]).
Ltac fring := norm_ring [comRingType of F]; ring.
Local Notation sb := (setBigInt U).
Local Notation bi := (bigInt U).
Local Notation q := (modulus U).

Lemma modOfE : modOf U = q.
Proof.
rewrite /modOf bigInt_setBigInt; have h := modulus_gt1 U.
by have <- := Z.mod_unique (-1) q (-1) (q - 1); lia.
Qed.

Lemma decomposeBigE x z base : repr U x z -> (2 * Z.abs z < q)%Z ->
  decomposeBig (bi x) base (modOf U) = dcmp_digits z base.
Proof.
move=> <- hz; rewrite modOfE bigInt_setBigInt /decomposeBig Z.shiftr_div_pow2 // -[(2 ^ 1)%Z]/2%Z.
have hq := modulus_gt1 U; have h2 := Z.div_mod q 2; have h3 := Z.mod_pos_bound q 2.
case: (Z_le_gt_dec 0 z) => h0.
  rewrite Z.mod_small; last lia.
  by case: Z.ltb_spec => //; lia.
have <- : (z + q = z mod q)%Z by apply: (Z.mod_unique z q (-1)); lia.
by case: Z.ltb_spec; [move=> _; congr dcmp_digits; lia|lia].
Qed.

Lemma decomposeBigZ s base : (0 <= s)%Z -> (2 * s < q)%Z -> decomposeBig s base (modOf U) = dcmp_digits s base.
Proof.
move=> h0 h1; rewrite modOfE /decomposeBig Z.shiftr_div_pow2 // -[(2 ^ 1)%Z]/2%Z.
have h2 := Z.div_mod q 2; have h3 := Z.mod_pos_bound q 2.
by case: Z.ltb_spec => //; lia.
Qed.

(** nonnegative values get 0/1 digits *)
Lemma digits_bin base s : greedy base -> (0 <= s)%Z -> all (fun d => (d =? 0) || (d =? 1))%Z (dcmp_digits s base).
Proof.
elim: base s => [|b base IH] s //= /andP[/andP[/Z.ltb_spec0 hb _] hg] hs.
case: Z.leb_spec => h1 /=; first by rewrite IH //; lia.
case: Z.leb_spec => h2 /=; first lia.
by rewrite IH.
Qed.

Lemma tern_val (d : Z) : ((d =? -1) || (d =? 0) || (d =? 1))%Z -> sb d ^+ 3 - sb d = 0.
Proof.
case/orP => [/orP[]|] /Z.eqb_spec ->.
- by rewrite (sbN U 1) setBigInt_one; fring.
- by rewrite sb0; fring.
- by rewrite setBigInt_one; fring.
Qed.

Lemma size_digits z base : size (dcmp_digits z base) = size base.
Proof.
elim: base z => [|b base IH] z //=.
by case: ifP => _ /=; rewrite ?IH //; case: ifP => _ /=; rewrite IH.
Qed.

Lemma digit_sum z base : greedy base -> (Z.abs z <= sumz base)%Z ->
  \sum_(j < size base) sb (nth 0%Z base j) * sb (nth 0%Z (dcmp_digits z base) j) = sb z.
Proof.
move=> hg hz; have [s1 _ e] := greedy_digits hg hz.
rewrite -[in RHS]e -zsum_dotz // -sb_sum; apply: eq_bigr => j _; by rewrite setBigInt_mul.
Qed.

(** What the prover's filling guarantees, for the final context. *)
Record auxOK (x : context F) (proj : seq (seq bool)) (pw w : seq (seq F)) : Prop := AuxOK {
  ax_inf : forall id e base a k, aget (cinf x) id = Some e -> decomposeBase e.2 = Some base ->
    (k < crank x)%N -> a \in e.1 -> slot w a k = infDigit U base (slot w id k) (index a e.1);
  ax_two : forall id B pb pm wd base, aget (ctwo x) id = Some (B, pb, pm, wd) -> decomposeBase B = Some base ->
    (size base <= crank x)%N /\
    forall k, (k < crank x)%N ->
      [/\ slot pw pb k = (if (k < size base)%N then sb (nth 0%Z base k) else 0),
          slot pw pm k = (if (k < size base)%N then 1 else 0) &
          slot w wd k = (if (k < size base)%N then
             sb (nth 0%Z (decomposeBig (sqSum U (crank x) w id mod modOf U)%Z base (modOf U)) k) else 0)];
  ax_proj : forall id wp, aget (cproj x) id = Some wp ->
    nth [::] w wp = proj_transform proj (nseq (crank x) 0) (nth [::] w id);
  ax_projD : forall wp B wD base, aget (cprojD x) wp = Some (B, wD) -> decomposeBase B = Some base ->
    [/\ (128 * size base <= crank x)%N, size (nth [::] w wD) = crank x & forall k, (k < crank x)%N ->
      slot w wD k = if (k < 128 * size base)%N
        then infDigit U base (slot w wp (k %/ size base)) (k %% size base) else 0]
}.

(** * One norm constraint at a time *)
Lemma inf_complete pw w i a base (D : seq nat) z : greedy base -> uniq D -> size D = size base ->
  repr U (slot w a i) z -> (Z.abs z <= sumz base)%Z -> (2 * Z.abs z < q)%Z ->
  (forall d, d \in D -> slot w d i = infDigit U base (slot w a i) (index d D)) ->
  (forall d, d \in D -> cval pw w i (ternaryC U d) = 0) /\ cval pw w i (dcmpC U a base D) = 0.
Proof.
move=> hg uD hs hz h1 h2 hd; have [s1 t1 e1] := greedy_digits hg h1.
have hv d : d \in D -> slot w d i = sb (nth 0%Z (dcmp_digits z base) (index d D)).
  by move=> h; rewrite hd // /infDigit (decomposeBigE base hz h2).
split.
  move=> d h; rewrite ternaryC_val hv //; apply: tern_val.
  by apply: (all_nthP 0%Z t1); rewrite s1 -hs index_mem.
rewrite dcmpC_val; apply/eqP; rewrite subr_eq0; apply/eqP.
rewrite -{1}hz -(digit_sum hg h1); apply: eq_bigr => j _; congr (_ * _).
by rewrite hv ?index_uniq ?mem_nth ?hs.
Qed.

Lemma sb_inv_mod (s t : Z) : sb s = sb t -> (0 <= s < q)%Z -> (0 <= t < q)%Z -> s = t.
Proof. by move=> /sb_inj_mod; move=> e h1 h2; rewrite !Z.mod_small in e. Qed.

Lemma two_complete N pw w a wd pb pm base (z : nat -> Z) : greedy base -> (size base <= N)%N ->
  (forall i, (i < N)%N -> repr U (slot w a i) (z i)) ->
  (zsum N (fun i => z i * z i) <= sumz base)%Z -> (2 * zsum N (fun i => z i * z i) < q)%Z ->
  (forall k, (k < N)%N ->
      [/\ slot pw pb k = (if (k < size base)%N then sb (nth 0%Z base k) else 0),
          slot pw pm k = (if (k < size base)%N then 1 else 0) &
          slot w wd k = (if (k < size base)%N then
             sb (nth 0%Z (decomposeBig (sqSum U N w a mod modOf U)%Z base (modOf U)) k) else 0)]) ->
  (forall i, (i < N)%N -> cval pw w i (binC U wd pm) = 0) /\ \sum_(i < N) cval pw w i (sqC U a wd pb) = 0.
Proof.
move=> hg hN hz hb hq hs.
set S := zsum N _ in hb hq.
have S0 : (0 <= S)%Z.
  have -> : 0%Z = zsum N (fun _ => 0%Z) by rewrite /zsum; elim: (iota 0 N) => //= i l <-.
  by apply: zsum_le => i _; nia.
have eS : (sqSum U N w a mod modOf U = S)%Z.
  apply: sb_inv_mod; last by lia.
    rewrite modOfE sb_mod /sqSum -!sb_sum; apply: eq_bigr => i _.
    by rewrite !setBigInt_mul setBigInt_bigInt -hz.
  by rewrite modOfE; apply: Z.mod_pos_bound; exact: modulus_pos.
rewrite eS (decomposeBigZ base S0 hq) in hs.
have Sa : (Z.abs S <= sumz base)%Z by lia.
have bin := digits_bin hg S0.
split.
  move=> i hi; rewrite binC_val; have [_ -> ->] := hs i hi.
  case: ifP => hk; last by rewrite mul0r.
  have := all_nthP 0%Z bin i; rewrite size_digits => /(_ hk).
  by case/orP => /Z.eqb_spec ->; rewrite ?sb0 ?setBigInt_one ?mul0r ?subrr ?mulr0.
under eq_bigr => i _ do rewrite sqC_val.
rewrite sumrB; apply/eqP; rewrite subr_eq0; apply/eqP.
transitivity (sb S).
  rewrite /S -sb_sum; apply: eq_bigr => i _.
  by rewrite setBigInt_mul hz.
rewrite -(digit_sum hg Sa).
rewrite (big_ord_widen N (fun j => sb (nth 0%Z base j) * sb (nth 0%Z (dcmp_digits S base) j)) hN).
rewrite [LHS]big_mkcond; apply: eq_bigr => i _; have [-> _ ->] := hs i (ltn_ord i).
by rewrite /=; case: ifP => // _; rewrite mul0r.
Qed.

(** integer value of one row of the projection *)
Definition zrow (row : seq bool) (z : nat -> Z) : Z :=
  zsum (size row) (fun j => if nth false row j then z j else 0%Z).

Lemma proj_row_repr row (v : seq F) z : (forall j, (j < size row)%N -> repr U v`_j (z j)) ->
  repr U (proj_row row v) (zrow row z).
Proof.
move=> h; rewrite /repr proj_rowE /zrow -sb_sum; apply: eq_bigr => j _.
by case: ifP => _; [apply: h|rewrite sb0].
Qed.

Lemma approx_complete N proj (w : seq (seq F)) a wp wD base z : (0 < N)%N -> greedy base -> (0 < size base)%N ->
  size proj = 128%N -> all (fun r => size r == N) proj -> (128 * size base <= N)%N ->
  (forall i, (i < N)%N -> repr U (slot w a i) (z i)) ->
  (forall k, (k < 128)%N -> (Z.abs (zrow (nth [::] proj k) z) <= sumz base)%Z /\
     (2 * Z.abs (zrow (nth [::] proj k) z) < q)%Z) ->
  nth [::] w wp = proj_transform proj (nseq N 0) (nth [::] w a) ->
  size (nth [::] w wD) = N ->
  (forall k, (k < N)%N -> slot w wD k = if (k < 128 * size base)%N
        then infDigit U base (slot w wp (k %/ size base)) (k %% size base) else 0) ->
  nth [::] w wp = recomp_transform [seq sb b | b <- base] (nseq N 0) (nth [::] w wD).
Proof.
move=> N0 hg hL sp hrow h128 hz hS ewp sD hD.
have sN : size (nseq N (0 : F)) = N by rewrite size_nseq.
have hp : (size proj <= size (nseq N (0%R : F)))%N by rewrite sN sp; nia.
have [s1 e1] := proj_transformP (nth [::] w a) hp.
have hL' : (0 < size [seq sb b | b <- base])%N by rewrite size_map.
have [s2 e2] := recomp_transformP (nseq N 0) (nth [::] w wD) hL'.
rewrite ewp; apply: (@eq_from_nth _ 0); first by rewrite s1 s2.
rewrite s1 sN => k hk; rewrite e1 ?sN // e2 ?sN // size_map sp.
have h128' : (128 <= N %/ size base)%N by rewrite leq_divRL.
case: (ltnP k 128) => hk1; last first.
  case: ifP => // hk2; rewrite big1 // => j _.
  have hkj : (k * size base + j < N)%N.
    have h1 : (k.+1 * size base <= N)%N by rewrite -leq_divRL.
    apply: leq_trans h1; rewrite mulSn addnC ltn_add2r; exact: ltn_ord.
  rewrite -/(slot w wD (k * size base + j)) hD //.
  have -> : (k * size base + j < 128 * size base)%N = false.
    apply/negbTE; rewrite -leqNgt; apply: leq_trans (leq_addr _ _); by rewrite leq_mul2r hk1 orbT.
  by rewrite mulr0.
have -> : (k < N %/ size base)%N by lia.
have [h1 h2] := hS k hk1.
have hrep : repr U (slot w wp k) (zrow (nth [::] proj k) z).
  rewrite /slot ewp e1 ?sN // sp hk1; apply: proj_row_repr => j hj; apply: hz.
  by move: hj; have /eqP -> := all_nthP [::] hrow k (eq_ind_r (fun s => (k < s)%N) hk1 sp).
have -> : proj_row (nth [::] proj k) (nth [::] w a) = sb (zrow (nth [::] proj k) z).
  by rewrite hrep /slot ewp e1 ?sN // sp hk1.
rewrite -(digit_sum hg h1); apply: eq_bigr => j _.
rewrite (nth_map 0%Z) //; congr (_ * _).
have hkj : (k * size base + j < 128 * size base)%N.
  have h3 : (k.+1 * size base <= 128 * size base)%N by rewrite leq_mul2r hk1 orbT.
  apply: leq_trans h3; rewrite mulSn addnC ltn_add2r; exact: ltn_ord.
have hkN : (k * size base + j < N)%N by exact: leq_trans hkj h128.
rewrite -/(slot w wD (k * size base + j)) hD // hkj.
rewrite divnMDl // divn_small // addn0 modnMDl modn_small // /infDigit.
by rewrite (decomposeBigE base hrep h2).
Qed.

(** * Whole programs *)

(** the bound that decomposeBase really covers *)
Definition cover1 (B : Z) : Z := if (B <=? 1)%Z then B else cover B.

(** An honest assignment meets the calls of Define.  The bounds are those the prover can
    meet: [cover1], and integers that are their own centred representative. *)
Definition cmdOK (N : nat) (proj : seq (seq bool)) (pw w : seq (seq F)) (c : cmd F) : Prop :=
  match c with
  | CArith c => forall i, (i < N)%N -> cval pw w i c = 0
  | CSum c s => \sum_(i < N) cval pw w i c = sb s
  | CLin o i _ tf _ => nth [::] w o = tf (nseq N 0) (nth [::] w i)
  | CInf a B => (B < 0)%Z \/ forall i, (i < N)%N -> exists z,
      [/\ repr U (slot w a i) z, (Z.abs z <= cover1 B)%Z & (2 * Z.abs z < q)%Z]
  | CTwo a B => (2 <= B)%Z /\ exists z, [/\ forall i, (i < N)%N -> repr U (slot w a i) (z i),
      (zsum N (fun i => z i * z i) <= cover B)%Z & (2 * zsum N (fun i => z i * z i) < q)%Z]
  | CApprox a B => (2 <= Z.of_nat N * B)%Z /\ exists z, (forall i, (i < N)%N -> repr U (slot w a i) (z i)) /\
      forall k, (k < 128)%N -> (Z.abs (zrow (nth [::] proj k) z) <= cover (Z.of_nat N * B))%Z /\
        (2 * Z.abs (zrow (nth [::] proj k) z) < q)%Z
  end.

Definition infT (c : cmd F) : seq nat := if c is CInf w B then (if (2 <=? B)%Z then [:: w] else [::]) else [::].
Definition twoT (c : cmd F) : seq nat := if c is CTwo w _ then [:: w] else [::].
Definition appT (c : cmd F) : seq nat := if c is CApprox w _ then [:: w] else [::].
Definition targets (f : cmd F -> seq nat) (cs : seq (cmd F)) := flatten (map f cs).

(** a pointer determines the checker object behind it *)
Definition linEnv (env : nat -> cobj F) (c : cmd F) : Prop :=
  if c is CLin _ _ a tf tr then env a = OUser tf tr else True.

Lemma decomposeBase_some B base : decomposeBase B = Some base -> (2 <= B)%Z -> greedy base /\ sumz base = cover B.
Proof. by move=> e /decomposeBaseP [b [e2 h1 h2 _]]; rewrite e in e2; case: e2 => ->. Qed.

Lemma size_greedy_pos base B : decomposeBase B = Some base -> (0 < size base)%N.
Proof. by rewrite /decomposeBase; case: ifP => // _ [<-]; rewrite size_rcons. Qed.

(** entries written by a call survive when no later call has the same target *)
Lemma run1_cinf x y c id : run1 U x c = Some y -> id \notin infT c -> aget (cinf y) id = aget (cinf x) id.
Proof.
case: c => [c|c s|o i a tf tr|w B|w B|w B] /=; try by move=> [<-].
- rewrite /AddInfNormConstraintBig; case: ifP => [_ [<-]|/Z.ltb_ge h0] //; case: ifP => [_ [<-]|/Z.eqb_neq h1] //.
  case: ifP => [_ [<-]|/Z.eqb_neq h2] //; case: (decomposeBase B) => [base|] // [<-].
  rewrite fold_arithE /=; have -> : (2 <=? B)%Z by apply/Z.leb_spec0; lia.
  by rewrite inE aget_aset => /negbTE ->.
- by rewrite /AddApproxInfNormConstraintBig; case: (decomposeBase _) => [base|] // [<-].
Qed.

Lemma run1_ctwo x y c id : run1 U x c = Some y -> id \notin twoT c -> aget (ctwo y) id = aget (ctwo x) id.
Proof.
case: c => [c|c s|o i a tf tr|w B|w B|w B] /=; try by move=> [<-].
- rewrite /AddInfNormConstraintBig; case: ifP => [_ [<-]|_] //; case: ifP => [_ [<-]|_] //.
  by case: ifP => [_ [<-]|_] //; case: (decomposeBase B) => [base|] // [<-]; rewrite fold_arithE.
- by move=> [<-] /=; rewrite inE aget_aset => /negbTE ->.
- by rewrite /AddApproxInfNormConstraintBig; case: (decomposeBase _) => [base|] // [<-].
Qed.

Lemma run1_cproj x y c id : run1 U x c = Some y -> id \notin appT c -> aget (cproj y) id = aget (cproj x) id.
Proof.
case: c => [c|c s|o i a tf tr|w B|w B|w B] /=; try by move=> [<-].
- rewrite /AddInfNormConstraintBig; case: ifP => [_ [<-]|_] //; case: ifP => [_ [<-]|_] //.
  by case: ifP => [_ [<-]|_] //; case: (decomposeBase B) => [base|] // [<-]; rewrite fold_arithE.
- by rewrite /AddApproxInfNormConstraintBig; case: (decomposeBase _) => [base|] // [<-] /=; rewrite inE aget_aset => /negbTE ->.
Qed.

Lemma run1_cprojD x y c wp : run1 U x c = Some y -> (wp < cwCnt x)%N -> aget (cprojD y) wp = aget (cprojD x) wp.
Proof.
case: c => [c|c s|o i a tf tr|w B|w B|w B] /=; try by move=> [<-].
- rewrite /AddInfNormConstraintBig; case: ifP => [_ [<-]|_] //; case: ifP => [_ [<-]|_] //.
  by case: ifP => [_ [<-]|_] //; case: (decomposeBase B) => [base|] // [<-]; rewrite fold_arithE.
- rewrite /AddApproxInfNormConstraintBig; case: (decomposeBase _) => [base|] // [<-] /= h.
  by rewrite aget_aset (ltn_eqF h).
Qed.

Section Keep.
Variables (cs : seq (cmd F)).
Lemma define_cinf x y id : define U x cs = Some y -> id \notin targets infT cs -> aget (cinf y) id = aget (cinf x) id.
Proof.
elim: cs x => [|c l IH] x /=; first by move=> [->].
case E: (run1 U x c) => [x1|] // hd; rewrite /targets /= mem_cat negb_or => /andP[h1 h2].
by rewrite (IH _ hd h2) (run1_cinf E).
Qed.
Lemma define_ctwo x y id : define U x cs = Some y -> id \notin targets twoT cs -> aget (ctwo y) id = aget (ctwo x) id.
Proof.
elim: cs x => [|c l IH] x /=; first by move=> [->].
case E: (run1 U x c) => [x1|] // hd; rewrite /targets /= mem_cat negb_or => /andP[h1 h2].
by rewrite (IH _ hd h2) (run1_ctwo E).
Qed.
Lemma define_cproj x y id : define U x cs = Some y -> id \notin targets appT cs -> aget (cproj y) id = aget (cproj x) id.
Proof.
elim: cs x => [|c l IH] x /=; first by move=> [->].
case E: (run1 U x c) => [x1|] // hd; rewrite /targets /= mem_cat negb_or => /andP[h1 h2].
by rewrite (IH _ hd h2) (run1_cproj E).
Qed.
Lemma define_cprojD x y wp : define U x cs = Some y -> (wp < cwCnt x)%N -> aget (cprojD y) wp = aget (cprojD x) wp.
Proof.
elim: cs x => [|c l IH] x /=; first by move=> [->].
case E: (run1 U x c) => [x1|] // hd h.
by rewrite (IH _ hd) ?(run1_cprojD E) //; apply: leq_trans h (gr_w (grows_run1 E)).
Qed.
End Keep.

(** the linear checkers registered in a context *)
Record lwf (E : nat + nat -> cobj F) (x : context F) : Prop := Lwf {
  lw_obj : forall chk, List.In chk (clinChk x) -> cobj_of chk = E (caddr chk);
  lw_fresh : forall k, aget (clin x) (inr k.+1) <> None -> (k < cwCnt x)%N;
  lw_key : forall chk, List.In chk (clinChk x) -> aget (clin x) (caddr chk) <> None;
  lw_size : (0 < size (clin x))%N = (0 < size (clinChk x))%N
}.

Lemma In_cat A (a : A) s t : List.In a (s ++ t) <-> List.In a s \/ List.In a t.
Proof. by elim: s => [|b s IH] /=; [tauto|rewrite IH; tauto]. Qed.

Lemma size_aset (K : eqType) A (m : seq (K * A)) k e : (0 < size (aset m k e))%N.
Proof. by case: m => [|[k' y] m] //=; case: ifP. Qed.

Lemma addlin_sat E x proj w o i chk : lwf E x -> linSat x proj w -> cobj_of chk = E (caddr chk) ->
  (if caddr chk is inr k.+1 then (k < cwCnt x)%N else true) ->
  nth [::] w o = TransformTo proj (cobj_of chk) (nseq (crank x) 0) (nth [::] w i) ->
  lwf E (AddLinearConstraint x o i chk) /\ linSat (AddLinearConstraint x o i chk) proj w.
Proof.
move=> [h1 h2 h3 h4] hs hc hk hv; split.
  split=> /=.
  - case: (aget (clin x) (caddr chk)) => [_|] c; first exact: h1.
    by move/In_rcons => [|->//]; exact: h1.
  - move=> k; rewrite aget_aset; case: eqP => [e _|_]; last exact: h2.
    by rewrite -e in hk.
  - case Eo: (aget (clin x) (caddr chk)) => [l|] c; last move/In_rcons => [|->]; rewrite ?aget_aset ?eqxx //.
      by move/h3; case: eqP.
    by move/h3; case: eqP.
  - rewrite size_aset; case Eo: (aget _ _) => [l|]; last by rewrite size_rcons.
    symmetry; rewrite -h4; by case: (clin x) Eo.
move=> c o' i' /=; rewrite aget_aset => hc'.
have hobj : cobj_of c = E (caddr c).
  by move: hc'; case: (aget _ _) => [_|]; [exact: h1|move/In_rcons => [|->//]; exact: h1].
case: eqP => [e|ne] /=.
  move/In_rcons => [|[-> ->]]; last by rewrite hobj e -hc.
  case Eo: (aget (clin x) (caddr chk)) => [l|] //= hl.
  by apply: (hs c) => //; [move: hc'; rewrite Eo|rewrite e Eo].
move=> hl; apply: (hs c) => //; move: hc'; case: (aget _ (caddr chk)) => [_|] //.
by move/In_rcons => [//|e]; rewrite e in ne.
Qed.

Lemma linSat_same (x y : context F) proj w : linSat x proj w -> crank y = crank x -> clinChk y = clinChk x -> clin y = clin x ->
  linSat y proj w.
Proof. by move=> h e1 e2 e3 chk o i; rewrite e1 e2 e3; exact: h. Qed.

Lemma lwf_same E (x y : context F) : lwf E x -> (cwCnt x <= cwCnt y)%N -> clinChk y = clinChk x -> clin y = clin x -> lwf E y.
Proof.
case=> h1 h2 h3 h4 e e2 e3; split; rewrite ?e2 ?e3 //.
by move=> k /h2; lia.
Qed.

Lemma arithSat_rcons (x : context F) c pw w : arithSat x pw w -> (forall i, (i < crank x)%N -> cval pw w i c = 0) ->
  arithSat (AddArithmeticConstraint x c) pw w.
Proof. by move=> h hc d /= /In_rcons[|->] //; exact: h. Qed.

Lemma sumSat_rcons (x : context F) c s pw w : size (csum x) = size (csums x) -> sumSat U x pw w ->
  \sum_(i < crank x) cval pw w i c = sb s ->
  sumSat U (AddSumCheckConstraintBig x c s) pw w.
Proof. by move=> hs h hc d t /=; rewrite In_zip_rcons // => /In_rcons[|[-> ->]] //; exact: h. Qed.

(* small facts, kept apart because lia is slow in large contexts *)
Lemma z_notneg B : (0 <= B)%Z -> ~ (B < 0)%Z. Proof. lia. Qed.
Lemma z_abs0 z : (Z.abs z <= 0)%Z -> z = 0%Z. Proof. lia. Qed.
Lemma z_abs1 z : (Z.abs z <= 1)%Z -> z = (-1)%Z \/ z = 0%Z \/ z = 1%Z. Proof. lia. Qed.
Lemma z_ge2 B : (0 <= B)%Z -> B <> 0%Z -> B <> 1%Z -> (2 <= B)%Z. Proof. lia. Qed.
Lemma cover1_ge2 B : (2 <= B)%Z -> cover1 B = cover B.
Proof. by rewrite /cover1; case: Z.leb_spec => //; lia. Qed.
Lemma ltn_add2 n : (n < n + 2)%N. Proof. lia. Qed.
Lemma ltn_add2' k n : (k < n)%N -> (k < n + 2)%N. Proof. lia. Qed.

Theorem sat_define p0 n0 T E env x y cs proj pw w :
  wf p0 n0 T x -> lwf E x -> all (cmdIn p0 n0) cs -> define U x cs = Some y ->
  size (csum x) = size (csums x) -> (0 < crank x)%N ->
  (forall c, List.In c cs -> linEnv env c) -> (forall a, E (inl a) = env a) -> E (inr 0%N) = OProj F ->
  size proj = 128%N -> all (fun r => size r == crank x) proj ->
  uniq (targets infT cs) -> uniq (targets twoT cs) -> uniq (targets appT cs) ->
  auxOK y proj pw w ->
  (forall c, List.In c cs -> cmdOK (crank x) proj pw w c) ->
  arithSat x pw w -> sumSat U x pw w -> linSat x proj w ->
  [/\ arithSat y pw w, sumSat U y pw w & linSat y proj w] /\ exists E', lwf E' y.
Proof.
move=> + + + + + + + + + sp.
elim: cs T E x => [|c cs IH] T E x hwf hl /=.
  by move=> _ [<-] *; split=> //; exists E.
move=> /andP[hc hcs]; case R: (run1 U x c) => [x1|] // hd hss hN henv eE eP hrow.
rewrite /targets /= !cat_uniq => /and3P[_ u1 ui] /and3P[_ u2 ut] /and3P[_ u3 ua] hax hok sA sS sL.
have [T1 [w1 _]] := wf_run1 hwf hc R.
have gr := grows_run1 R; have [ss1 _] := gr_su gr hss.
have hN1 : (0 < crank x1)%N by rewrite (gr_rank gr).
have {}IH := fun E1 hl1 eE1 eP1 => IH T1 E1 x1 w1 hl1 hcs hd ss1 hN1 (fun d h => henv d (or_intror h)) eE1 eP1.
rewrite (gr_rank gr) in IH.
have {}IH := fun E1 hl1 eE1 eP1 => IH E1 hl1 eE1 eP1 hrow ui ut ua hax (fun d h => hok d (or_intror h)).
have := hok c (or_introl erefl); have := henv c (or_introl erefl).
have hnot (f : cmd F -> seq nat) a : a \in f c -> ~~ has (mem (f c)) (flatten (map f cs)) -> a \notin targets f cs.
  by move=> ha /hasPn h; apply/negP => hb; have := h _ hb; rewrite /= ha.
case: c R hc u1 u2 u3 hnot {hok henv} => [c|c s|o i a tf tr|a B|a B|a B] R hc u1 u2 u3 hnot henv hok.
- move: R => [e]; rewrite -e in IH; apply: (IH E) => //.
  + exact: lwf_same hl _ _ _.
  + exact: arithSat_rcons.
- move: R => [e]; rewrite -e in IH; apply: (IH E) => //.
  + exact: lwf_same hl _ _ _.
  + exact: sumSat_rcons.
- move: R => [e].
  have [|||h1 h2] := @addlin_sat E x proj w o i (Chk (inl a) (OUser tf tr)) hl sL; rewrite ?eE //.
  by rewrite -e in IH; apply: (IH E).
- have hcnt := gr_w gr.
  move: R; rewrite /= /AddInfNormConstraintBig; case: ifP => [_ [e]|/Z.ltb_ge b0].
    by rewrite -e in IH; apply: (IH E).
  have {}hok : forall i, (i < crank x)%N -> exists z,
      [/\ repr U (slot w a i) z, (Z.abs z <= cover1 B)%Z & (2 * Z.abs z < q)%Z] by case: hok => // /(z_notneg b0).
  case: ifP => [/Z.eqb_spec eB [e]|/Z.eqb_neq b1].
    rewrite -e in IH; apply: (IH E) => //; first exact: lwf_same hl _ _ _.
    apply: arithSat_rcons => // i hi; rewrite zeroC_val; have [z [h1 h2 h3]] := hok i hi.
    have z0 : z = 0%Z by apply: z_abs0; move: h2; rewrite eB.
    by rewrite -h1 z0 sb0.
  case: ifP => [/Z.eqb_spec eB [e]|/Z.eqb_neq b2].
    rewrite -e in IH; apply: (IH E) => //; first exact: lwf_same hl _ _ _.
    apply: arithSat_rcons => // i hi; rewrite ternaryC_val; have [z [h1 h2 h3]] := hok i hi.
    rewrite -h1; apply: tern_val; move: h2; rewrite eB /cover1 /= => h2.
    by have [->|[->|->]] := z_abs1 h2.
  case Eb: (decomposeBase B) => [base|] // [e].
  have B2 := z_ge2 b0 b1 b2.
  have [hg hs] := decomposeBase_some Eb B2.
  have hT : (2 <=? B)%Z by apply/Z.leb_spec0.
  have keep : aget (cinf y) a = Some (iota (cwCnt x) (size base), B).
    rewrite (define_cinf hd); first by rewrite -e fold_arithE /= aget_aset eqxx.
    by apply: hnot => //=; rewrite hT inE.
  have er : crank y = crank x by rewrite (gr_rank (grows_define hd)) (gr_rank gr).
  have both i : (i < crank x)%N -> (forall d, d \in iota (cwCnt x) (size base) -> cval pw w i (ternaryC U d) = 0) /\
      cval pw w i (dcmpC U a base (iota (cwCnt x) (size base))) = 0.
    move=> hi; have [z [h1 h2 h3]] := hok i hi.
    apply: (inf_complete pw hg (iota_uniq _ _) (size_iota _ _) h1 _ h3).
      by rewrite hs -cover1_ge2.
    by move=> d hd'; have := ax_inf hax keep Eb (k := i) (a := d); rewrite er => /(_ hi hd').
  rewrite -e in IH; apply: (IH E) => //.
  + by apply: lwf_same hl _ _ _; rewrite fold_arithE //= leq_addr.
  + apply: arithSat_rcons; last by rewrite fold_arithE => i hi; have [_] := both i hi.
    move=> d; rewrite fold_arithE /= => /In_cat[hdx|/In_map[j [hj ->]]] i hi; first exact: sA.
    by have [h _] := both i hi; apply: h; apply/In_mem.
  + by move=> d t; rewrite fold_arithE /=; exact: sS.
  + by apply: linSat_same sL _ _ _; rewrite fold_arithE.
- move: R => [e]; have [B2 [z [hz h1 h2]]] := hok.
  have [base [Eb hg hs _]] := decomposeBaseP B2.
  have keep : aget (ctwo y) a = Some (B, cpwCnt x, (cpwCnt x).+1, cwCnt x).
    rewrite (define_ctwo hd); first by rewrite -e /= aget_aset eqxx.
    by apply: hnot => //=; rewrite inE.
  have er : crank y = crank x by rewrite (gr_rank (grows_define hd)) (gr_rank gr).
  have [hsz hslots] := ax_two hax keep Eb; rewrite er in hsz hslots.
  rewrite -hs in h1.
  have [hb hsum] := two_complete hg hsz hz h1 h2 hslots.
  rewrite -e in IH; apply: (IH E) => //.
  + by apply: lwf_same hl _ _ _; rewrite //=.
  + exact: arithSat_rcons.
  + by apply: sumSat_rcons => //=; rewrite hsum sb0.
- move: R; rewrite /= /AddApproxInfNormConstraintBig.
  case Eb: (decomposeBase _) => [base|] // [e]; have [B2 [z [hz hS]]] := hok.
  have [hg hs] := decomposeBase_some Eb B2.
  have keep : aget (cproj y) a = Some (cwCnt x).
    rewrite (define_cproj hd); first by rewrite -e /= aget_aset eqxx.
    by apply: hnot => //=; rewrite inE.
  have keepD : aget (cprojD y) (cwCnt x) = Some (Z.of_nat (crank x) * B, (cwCnt x).+1)%Z.
    rewrite (define_cprojD hd); first by rewrite -e /= aget_aset eqxx.
    by rewrite -e /=; exact: ltn_add2.
  have er : crank y = crank x by rewrite (gr_rank (grows_define hd)) (gr_rank gr).
  have e1 := ax_proj hax keep; have [h128 sD hD] := ax_projD hax keepD Eb; rewrite er in e1 h128 sD hD.
  rewrite -hs in hS.
  have e2 := approx_complete hN hg (size_greedy_pos Eb) sp hrow h128 hz hS e1 sD hD.
  pose E' k := if k == inr (cwCnt x).+1 then ORecomp [seq sb b | b <- base] else E k.
  set x1' := set_cnt (set_proj x true (cproj x) (cprojD x) (cwSecond x)) (cpwCnt x) (cwCnt x + 2)%N in e.
  have l1 : lwf E' x1'.
    case: hl => g1 g2 g3 g4; split=> //= [chk hchk|k hk]; last by exact: ltn_add2' (g2 k hk).
    by rewrite g1 // /E'; case: eqP => // ek; have := g3 _ hchk; rewrite ek => /g2; rewrite ltnn.
  have s1 : linSat x1' proj w by apply: linSat_same sL _ _ _.
  have [|||l2 s2] := @addlin_sat E' x1' proj w (cwCnt x) a (Chk (inr 0%N) (OProj F)) l1 s1 => //.
  set x2 := AddLinearConstraint x1' _ _ _ in e l2 s2.
  set x3 := set_proj x2 _ _ _ _ in e.
  have l3 : lwf E' x3 by apply: lwf_same l2 _ _ _.
  have s3 : linSat x3 proj w by apply: linSat_same s2 _ _ _.
  have [|||l4 s4] := @addlin_sat E' x3 proj w (cwCnt x) (cwCnt x).+1 (Chk (inr (cwCnt x).+1) (ORecomp [seq sb b | b <- base])) l3 s3.
  + by rewrite /E' eqxx.
  + exact: ltn_add2.
  + exact: e2.
  rewrite -e in IH; apply: (IH E') => //.
  + exact: lwf_same l4 _ _ _.
Qed.
End Complete.
