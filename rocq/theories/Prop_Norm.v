(** Properties C17-C22, C46, C47, C74: norm constraints (buckler/utils.go, context.go and the
    filling of auxiliary witnesses in prover.go). *)
From Coq Require Import ZArith Lia.
From mathcomp Require Import all_ssreflect all_algebra zify.
From Verif Require Import RingTac Spec UintModel BigpolyModel UintProofs UintFp RingProofs NormModel NormProofs
  BucklerModel DefineModel BucklerSpec FillProofs NormSound ContextProofs CheckerProofs NormComplete FillComplete.
Set Implicit Arguments. Unset Strict Implicit. Unset Printing Implicit Defensive.
Import GRing.Theory.
Local Open Scope ring_scope.
Delimit Scope Z_scope with Z.

(** * C17 *)
Definition isTernary (d : seq Z) := all (fun x => (x =? -1) || (x =? 0) || (x =? 1))%Z d.
(** sum of digit * weight *)
Definition combine (d base : seq Z) : Z := foldr Z.add 0%Z [seq (x.1 * x.2)%Z | x <- zip d base].
(** the largest reachable integer: the bound, or one less for a power of two *)
Definition reach (B M : Z) : Prop :=
  ((exists k, (0 <= k /\ B = 2 ^ k)%Z) -> M = (B - 1)%Z) /\ (~ (exists k, (0 <= k /\ B = 2 ^ k)%Z) -> M = B).

Lemma combineE d base : combine d base = dotz d base.
Proof. by elim: d base => [|x d IH] [|b base] //; rewrite dotz_cons -IH. Qed.

Lemma cover_reach B : (2 <= B)%Z -> reach B (cover B).
Proof.
move=> hB; have h0 : (0 < B)%Z by lia.
have h := isPow2P h0; rewrite /reach /cover; split.
  by move=> /h ->.
by case: (Z.shiftl 1 (trailingZeroBits B) =? B)%Z h => // h [] //; apply/h.
Qed.

(** C17, partial: holds with [reach] in place of the bound; bounds 0 and 1 (where the code
    panics, and which only AddSqTwoNorm passes on) and negative bounds are left out. *)
Theorem C17_decomposition_partial B : (2 <= B)%Z -> exists base M,
  [/\ decomposeBase B = Some base, all (fun b => 0 <? b)%Z base, reach B M,
      forall z, (exists d, [/\ isTernary d, size d = size base & combine d base = z]) <-> (Z.abs z <= M)%Z &
      forall z q, (Z.abs z <= M)%Z -> (2 * Z.abs z < q)%Z ->
        let d := decomposeBig (z mod q)%Z base q in
        [/\ isTernary d, size d = size base & combine d base = z]].
Proof.
move=> hB; have [base [e hg hs _]] := decomposeBaseP hB.
exists base, (cover B); split=> //.
- by elim: base hg {e hs} => [|b s IH] //= /andP[/andP[-> _] /IH ->].
- exact: cover_reach.
- move=> z; split.
    move=> [d [ht sd <-]]; rewrite combineE -hs; apply: ternary_bound => //; exact: greedy_nonneg.
  move=> hz; rewrite -hs in hz; have [h1 h2 h3] := greedy_digits hg hz.
  by exists (dcmp_digits z base); rewrite combineE.
- move=> z q hz hq d; rewrite -hs in hz; have [h1 h2 h3] := greedy_digits hg hz.
  suff -> : d = dcmp_digits z base by rewrite combineE.
  rewrite /d /decomposeBig Z.shiftr_div_pow2 // -[(2 ^ 1)%Z]/2%Z.
  have g2 := Z.div_mod q 2; have g3 := Z.mod_pos_bound q 2.
  case: (Z_le_gt_dec 0 z) => h0.
    rewrite Z.mod_small; last lia.
    by case: Z.ltb_spec => //; lia.
  have <- : (z + q = z mod q)%Z by apply: (Z.mod_unique z q (-1)); lia.
  by case: Z.ltb_spec; [move=> _; congr dcmp_digits; lia|lia].
Qed.

(** C17 refuted as stated: no power of two is reachable. *)
Theorem C17_power_of_two_refuted k : (1 <= k)%Z -> exists base, decomposeBase (2 ^ k) = Some base /\
  forall d, isTernary d -> size d = size base -> combine d base <> (2 ^ k)%Z.
Proof.
move=> hk; have h2 : (2 <= 2 ^ k)%Z by rewrite -{1}(Z.pow_1_r 2); apply: Z.pow_le_mono_r; lia.
have [base [M [e _ [hM _] h _]]] := C17_decomposition_partial h2.
exists base; split=> // d hd sd ec; have [hz _] := h (2 ^ k)%Z.
have hp : exists j, (0 <= j /\ 2 ^ k = 2 ^ j)%Z by exists k; split=> //; lia.
have := hz (ex_intro _ d (And3 hd sd ec)); rewrite (hM hp); lia.
Qed.

Example ex_C17 : decomposeBase 1003 = Some [:: 502; 251; 125; 63; 31; 16; 8; 4; 2; 1]%Z /\
  decomposeBase 10 = Some [:: 5; 3; 1; 1]%Z /\ decomposeBig 90 [:: 5; 3; 1; 1]%Z 97 = [:: -1; 0; -1; -1]%Z /\
  decomposeBig 9 [:: 5; 3; 1; 1]%Z 97 = [:: 1; 1; 1; 0]%Z.
Proof. by vm_compute. Qed.

Section Props.
Variables (F : fieldType) (U : uint F).
Local Notation sb := (setBigInt U).
Local Notation q := (modulus U).

(** Compile: the context a Define builds from p0 public and n0 secret witnesses. *)
Definition compiled (N p0 n0 : nat) (cs : seq (cmd F)) (x : context F) : Prop :=
  all (cmdIn p0 n0) cs /\ define U (newContext F N p0 n0) cs = Some x.

(** * C18.  Any program around the call, any assignment whatever (auxiliary slots included). *)
Lemma inf_call_sound cs1 cs2 w B x0 x (pw W : seq (seq F)) :
  define U x0 (cs1 ++ CInf w B :: cs2) = Some x -> (0 <= B)%Z -> arithSat x pw W ->
  infBounded U (crank x0) (nth [::] W w) (cover1 B).
Proof.
move=> hd hB hs; have [x1 [h1 h2]] := define_cat hd.
move: h2 => /=; case E: (AddInfNormConstraintBig U x1 w B) => [x2|] // h3.
have gr := grows_define h3; have g0 := grows_define h1.
have gr2 : grows x1 x2 by apply: (@grows_run1 _ U x1 x2 (CInf w B)).
have rk : crank x = crank x0 by rewrite (gr_rank gr) (gr_rank gr2) (gr_rank g0).
have sat c : List.In c (carith x2) -> forall i, (i < crank x0)%N -> cval pw W i c = 0.
  by move=> hc i hi; apply: hs; [exact: gr_ar gr _ hc|rewrite rk].
move=> i hi; move: E; rewrite /AddInfNormConstraintBig; case: Z.ltb_spec => [|_]; first lia.
case: Z.eqb_spec => [eB|ne0] => [[e]|].
  have := sat (zeroC U w); rewrite -e /= => /(_ (proj2 (In_rcons _ _ _) (or_intror erefl)) i hi).
  by rewrite zeroC_val /slot => h; exists 0%Z; rewrite eB /repr sb0 h.
case: Z.eqb_spec => [eB|ne1] => [[e]|].
  have := sat (ternaryC U w); rewrite -e /= => /(_ (proj2 (In_rcons _ _ _) (or_intror erefl)) i hi).
  rewrite ternaryC_val => h; have [z h1q h2q] := ternary_roots U h; exists z; rewrite eB; split=> //.
have hB2 : (2 <= B)%Z by lia.
have [base [Eb hg hsum _]] := decomposeBaseP hB2; rewrite Eb => -[e].
rewrite cover1_ge2 // -hsum; apply: (@inf_sound _ _ pw W i w base (iota (cwCnt x1) (size base))) => //.
- by rewrite size_iota.
- move=> j hj; apply: sat => //; rewrite -e; apply: (gr_ar (grows_arith _ _)).
  by rewrite fold_arithE /=; apply/In_cat; right; apply/In_map; exists (nth 0%N (iota (cwCnt x1) (size base)) j); split=> //; apply/In_mem/mem_nth.
- by apply: sat => //; rewrite -e /=; apply/In_rcons; right.
Qed.

Lemma cover1_le B : (cover1 B <= B)%Z.
Proof. by rewrite /cover1; case: ifP => _; [lia|exact: cover_le]. Qed.

Theorem C18_inf_norm_sound N p0 n0 cs1 cs2 w B x (pw W : seq (seq F)) :
  compiled N p0 n0 (cs1 ++ CInf w B :: cs2) x -> (0 <= B)%Z -> arithSat x pw W ->
  infBounded U N (nth [::] W w) B.
Proof.
move=> [_ hd] hB hs i hi; have [z [h1 h2]] := inf_call_sound hd hB hs hi.
by exists z; split=> //; have := @cover1_le B; lia.
Qed.

(** * C20 refuted: a negative bound adds nothing at all, *)
Theorem C20_negative_inf_bound_refuted x w B : (B < 0)%Z -> run1 U x (CInf w B) = Some x.
Proof. by move=> h; rewrite /= /AddInfNormConstraintBig; case: Z.ltb_spec => //; lia. Qed.

(** so a circuit with the impossible call accepts exactly what the circuit without it does *)
Theorem C20_negative_inf_program_refuted N p0 n0 cs1 cs2 w B x : (B < 0)%Z -> (w < n0)%N ->
  compiled N p0 n0 (cs1 ++ cs2) x -> compiled N p0 n0 (cs1 ++ CInf w B :: cs2) x.
Proof.
move=> hB hw [h1 h2]; split; first by move: h1; rewrite !all_cat /= hw.
elim: cs1 (newContext F N p0 n0) {h1} h2 => [|c cs1 IH] y h.
  by rewrite [LHS]/=  /AddInfNormConstraintBig; case: Z.ltb_spec => //; lia.
by move: h => /=; case: (run1 U y c) => [y1|] // /IH.
Qed.

(** * C21.  [ord] is the order in which Verify happens to range over the map. *)
Lemma fillPw_fits N m ord pw pw' : isOrder m ord -> fillPw U N m ord pw = Some pw' -> twoFits N m.
Proof.
move=> [_ ho] h id B pb pm wd he; have hin : id \in ord by rewrite ho he.
elim: ord pw {ho} h hin => [|a ord IH] pw //=; rewrite inE.
case Ea: (aget m a) => [e|]; last first.
  by move=> h /orP[/eqP ea|]; [rewrite -ea he in Ea|exact: IH h].
case Ef: (fillPw1 U N pw e) => [pw1|] // h /orP[/eqP ea|]; last exact: IH h.
rewrite -ea he in Ea; case: Ea => ee; move: Ef; rewrite -ee /fillPw1.
by case Eb: (decomposeBase B) => [base|] //; case: ltnP => // hl _; exists base.
Qed.

Theorem C21_two_norm_sound N p0 n0 cs1 cs2 w B x ord (pw0 pw W : seq (seq F)) :
  compiled N p0 n0 (cs1 ++ CTwo w B :: cs2) x -> (0 <= B)%Z ->
  isOrder (ctwo x) ord -> size pw0 = p0 -> goodw N pw0 ->
  fillPw U N (ctwo x) ord (padw N (cpwCnt x) pw0) = Some pw ->
  arithSat x pw W -> sumSat U x pw W ->
  twoBoundedMod U N (nth [::] W w) B.
Proof.
move=> [hin hd] hB ho sp gp hf hA hS.
have fits := fillPw_fits ho hf.
move: (hin); rewrite all_cat /= => /andP[hin1 /andP[hc hin2]].
have [x1 [h1 h2]] := define_cat hd.
have [T1 [w1 _]] := wf_define (wf_new F N p0 n0) hin1 h1.
have [T [wx _]] := wf_define (wf_new F N p0 n0) hin hd.
set x2 := AddSqNormConstraintBig U x1 w B in h2.
have h3 : define U x2 cs2 = Some x by exact: h2.
have gr := grows_define h3; have g0 := grows_define h1.
have gr2 : grows x1 x2 by apply: (@grows_run1 _ U x1 x2 (CTwo w B)).
have rk1 : crank x1 = N by rewrite (gr_rank g0).
have rk : crank x = N by rewrite (gr_rank gr) (gr_rank gr2).
have ss1 : size (csum x1) = size (csums x1) by have [] := gr_su g0 erefl.
have [ss2 _] := gr_su gr2 ss1.
have [_ hsu] := gr_su gr ss2.
set pb := cpwCnt x1; set pm := (cpwCnt x1).+1; set wd := cwCnt x1.
have bin i : (i < N)%N -> slot W wd i * (slot W wd i - slot pw pm i) = 0.
  move=> hi; rewrite -(binC_val U); apply: hA; last by rewrite rk.
  by apply: (gr_ar gr); apply/In_rcons; right.
have sq : \sum_(i < N) slot W w i * slot W w i = \sum_(i < N) slot pw pb i * slot W wd i.
  apply/eqP; rewrite -subr_eq0 -sumrB; apply/eqP.
  have := hS (sqC U w wd pb) 0%Z; rewrite rk sb0 => hq0.
  transitivity (\sum_(i < N) cval pw W i (sqC U w wd pb)); first by apply: eq_bigr => i _; rewrite sqC_val.
  by apply: hq0; apply: hsu; rewrite In_zip_rcons //; apply/In_rcons; right.
have hp : (cpwCnt x2 <= cpwCnt x)%N := gr_pw gr.
have ep2 : cpwCnt x2 = (pb + 2)%N by [].
have hp0 : (p0 <= pb)%N by exact: wf_p w1.
have szP : size (padw N (cpwCnt x) pw0) = cpwCnt x by apply: size_padw; lia.
have gdP : goodw N (padw N (cpwCnt x) pw0) by apply: goodw_padw => //; lia.
have [uo oo] := ho.
have hwf := wf_twoWF wx; rewrite rk in hwf.
have [|pw' [e' s' g' n' d']] := fillPwP U hwf fits uo _ gdP; first by rewrite szP.
rewrite hf in e'; case: e' => e'; rewrite -{}e' in s' g' n' d'.
have zP a : (p0 <= a < cpwCnt x)%N -> nth [::] (padw N (cpwCnt x) pw0) a = nseq N 0 by rewrite -sp; exact: nth_padw_ge.
(* an entry of the final map that writes to pb or pm is ours *)
have ours id B' pb' pm' wd' a : aget (ctwo x) id = Some (B', pb', pm', wd') -> (a == pb') || (a == pm') ->
    a \in [:: pb; pm] -> id = w /\ (B', pb', pm', wd') = (B, pb, pm, wd).
  move=> he ha ha2; have {ha2}ha2 : a = pb \/ a = pm by move: ha2; rewrite !inE => /orP[]/eqP; auto.
  have {}ha : a = pb' \/ a = pm' by case/orP: ha => /eqP; auto.
  case: (gr_tw gr he) => [|/andP[h4 h5]]; last by rewrite ep2 in h4 h5; lia.
  rewrite /x2 /= aget_aset; case: eqP => [-> [<- <- <- <-]|_] //.
  by move=> /(wf_two w1)[_ /andP[_ h4] /andP[_ h5] _ _]; lia.
have [live|dead] : aget (ctwo x) w = Some (B, pb, pm, wd) \/ aget (ctwo x) w <> Some (B, pb, pm, wd).
  case E: (aget (ctwo x) w) => [[[[B' pb'] pm'] wd']|]; last by right.
  case: (Z.eq_dec B' B) => [->|ne]; last by right=> -[].
  case: (altP ((pb', pm', wd') =P (pb, pm, wd))) => [[-> -> ->]|/eqP ne]; first by left.
  by right=> -[h4 h5 h6]; apply: ne; rewrite h4 h5 h6.
- have [base [Eb hsz]] := fits _ _ _ _ _ live.
  have win : w \in ord by rewrite oo live.
  have [f1 f2] := d' _ _ _ _ _ _ win live Eb.
  have [hB2|hB2] := Z_le_gt_dec 2 B; last first.
    by have [eB|eB] : B = 0%Z \/ B = 1%Z by [lia| |]; rewrite eB in Eb.
  have [b' [Eb' hg hsum _]] := decomposeBaseP hB2; rewrite Eb in Eb'; case: Eb' => eb; rewrite -{}eb in hg hsum.
  have dig i : (i < N)%N -> exists t, slot W wd i = sb t /\ (0 <= t <= if (i < size base)%N then 1 else 0)%Z.
    move=> hi; have := bin i hi; rewrite f2; case: ifP => hi2.
      rewrite setBigInt_one => /eqP; rewrite mulf_eq0 subr_eq0 => /orP[]/eqP ->.
        by exists 0%Z; rewrite sb0.
      by exists 1%Z; rewrite setBigInt_one.
    rewrite (slot_zero i (zP pm _)); last by rewrite /pm; lia.
    by rewrite subr0 => /eqP; rewrite mulf_eq0 orbb => /eqP ->; exists 0%Z; rewrite sb0.
  have [t ht] := fin_choice 0%Z dig.
  exists (zsum (size base) (fun j => nth 0%Z base j * t j)%Z); split.
    split.
      have z0 : (0 <= zsum (size base) (fun _ => 0%Z))%Z by rewrite /zsum; elim: (iota 0 (size base)) => //= i l; lia.
      refine (Z.le_trans _ _ _ z0 _); apply: zsum_le => j hj; have := @greedy_nth_pos base j hg; have [_] := ht j (leq_trans hj hsz).
      by move: (nth _ _ _) (t j) => b s; case: ifP => _; nia.
    apply: (@Z.le_trans _ (cover B)); last exact: cover_le.
    rewrite -hsum -zsum_sumz; apply: zsum_le => j hj; have := @greedy_nth_pos base j hg.
    have [_] := ht j (leq_trans hj hsz); rewrite hj; move: (nth _ _ _) (t j) => b s; nia.
  rewrite /repr -sb_sum.
  have -> : \sum_(i < N) (nth [::] W w)`_i * (nth [::] W w)`_i = \sum_(i < N) slot pw pb i * slot W wd i by exact: sq.
  rewrite (big_ord_widen N (fun j => sb (nth 0%Z base j * t j)%Z) hsz) [LHS]big_mkcond; apply: eq_bigr => i _.
  rewrite f1; have [-> ] := ht i (ltn_ord i); case: ifP => hi2 h4; first by rewrite setBigInt_mul.
  have -> : t i = 0%Z by lia.
  by rewrite sb0 mulr0.
- have zero a : a \in [:: pb; pm] -> nth [::] pw a = nseq N 0.
    move=> ha; rewrite n'; first by apply: zP; move: ha; rewrite !inE /pm -/pb => /orP[]/eqP ->; lia.
    move=> id B' pb' pm' wd' _ he; apply/andP; split; apply/eqP => ea.
      by have [|e1 e2] := ours _ _ _ _ _ a he _ ha; [rewrite ea eqxx|apply: dead; rewrite -e1 he e2].
    by have [|e1 e2] := ours _ _ _ _ _ a he _ ha; [rewrite ea eqxx orbT|apply: dead; rewrite -e1 he e2].
  exists 0%Z; split; first lia.
  rewrite /repr sb0; apply/esym.
  have -> : \sum_(i < N) (nth [::] W w)`_i * (nth [::] W w)`_i = \sum_(i < N) slot pw pb i * slot W wd i by exact: sq.
  rewrite big1 // => i _.
  by rewrite (slot_zero i (zero pb _)) ?mul0r // inE eqxx.
Qed.

(** * C19, C22, C47: completeness of the prover's filling.

    [honest]: a circuit, its compiled context, map orders and an assignment such that
    every call of Define is met.  The restrictions, all needed (see the refutations):
    bounds as far as decomposeBase reaches ([cover1]), values that are their own centred
    representatives, no second norm constraint of the same kind on one witness, at most one
    two-norm constraint, and decompositions that fit into the rank (the code panics
    otherwise). *)
Record honest N p0 n0 env cs x ordI ordT ordP ordD (pw0 w0 : seq (seq F)) : Prop := Honest {
  ho_N : (0 < N)%N;
  ho_c : compiled N p0 n0 cs x;
  ho_env : forall c, List.In c cs -> linEnv env c;
  ho_u1 : uniq (targets (@infT F) cs);
  ho_u2 : uniq (targets (@twoT F) cs);
  ho_u3 : uniq (targets (@appT F) cs);
  ho_fit : twoFits N (ctwo x);
  ho_one : (size (ctwo x) <= 1)%N;
  ho_128 : chasProj x -> (128 <= N)%N;
  ho_fitD : forall wp B wD base, aget (cprojD x) wp = Some (B, wD) -> decomposeBase B = Some base ->
    (128 * size base <= N)%N;
  ho_oI : isOrder (cinf x) ordI; ho_oT : isOrder (ctwo x) ordT;
  ho_oP : isOrder (cproj x) ordP; ho_oD : isOrder (cprojD x) ordD;
  ho_sw : size w0 = n0; ho_sp : size pw0 = p0; ho_gw : goodw N w0; ho_gp : goodw N pw0
}.

(** the vectors Prove computes, given the matrix of the random projection *)
Definition filled N (x : context F) ordI ordT ordP ordD pw0 w0 proj (pw w2 : seq (seq F)) : Prop :=
  exists wi w1, [/\ fillInf U N (cinf x) ordI (padw N (cwCnt x) w0) = Some wi,
    fillTwo U N (ctwo x) ordT 0 (padw N (cpwCnt x) pw0) wi = Some (pw, w1) &
    (if chasProj x then fillProjD U N (cprojD x) ordD (fillProj proj (cproj x) ordP w1) else Some w1) = Some w2].

(** The prover's own auxiliary witnesses satisfy every constraint of the circuit, and the
    user's witnesses are left alone. *)
Theorem C19_filling_complete_partial N p0 n0 env cs x ordI ordT ordP ordD pw0 w0 proj :
  honest N p0 n0 env cs x ordI ordT ordP ordD pw0 w0 ->
  size proj = 128%N -> all (fun r => size r == N) proj ->
  (forall c, List.In c cs -> cmdOK U N proj pw0 w0 c) ->
  exists pw w2, [/\ filled N x ordI ordT ordP ordD pw0 w0 proj pw w2,
    forall a, (a < n0)%N -> nth [::] w2 a = nth [::] w0 a,
    arithSat x pw w2, sumSat U x pw w2 & linSat x proj w2].
Proof.
case=> hN [hin hd] henv u1 u2 u3 hf h1 h128 hD oI oT oP oD sw sp gw gp hs hr hok.
have [wi [pw [w1 [e1 e2 e3 [_ _ _ h]]]]] :=
  define_complete hN hin hd henv u1 u2 u3 hf h1 h128 hD oI oT oP oD sw sp gw gp.
have [w2 [e4 s4 n4 k4 [a1 a2 a3 _]]] := h proj hs hr hok.
by exists pw, w2; split=> //; exists wi, w1.
Qed.

(** C22, partial: one two-norm constraint in the circuit, a sum of squares that
    decomposeBase reaches and that does not wrap modulo q; the other constraints are those
    of C19. *)
Theorem C22_two_norm_complete_partial N p0 n0 env cs1 w B cs2 x ordI ordT ordP ordD pw0 w0 proj z :
  honest N p0 n0 env (cs1 ++ CTwo w B :: cs2) x ordI ordT ordP ordD pw0 w0 ->
  size proj = 128%N -> all (fun r => size r == N) proj ->
  (2 <= B)%Z -> (forall i, (i < N)%N -> repr U (slot w0 w i) (z i)) ->
  (zsum N (fun i => z i * z i) <= B)%Z -> (2 * zsum N (fun i => z i * z i) < q)%Z ->
  ~ (exists k, 0 <= k /\ B = 2 ^ k)%Z \/ (zsum N (fun i => z i * z i) < B)%Z ->
  (forall c, List.In c (cs1 ++ cs2) -> cmdOK U N proj pw0 w0 c) ->
  exists pw w2, [/\ filled N x ordI ordT ordP ordD pw0 w0 proj pw w2,
    forall a, (a < n0)%N -> nth [::] w2 a = nth [::] w0 a,
    arithSat x pw w2, sumSat U x pw w2 & linSat x proj w2].
Proof.
move=> h hs hr hB hz h1 h2 h3 hok; apply: (C19_filling_complete_partial h hs hr) => c.
rewrite In_cat /= => -[hc|[<-|hc]]; [by apply: hok; rewrite In_cat; left| |by apply: hok; rewrite In_cat; right].
split=> //; exists z; split=> //.
have [r1 r2] := cover_reach hB; have [e|ne] : cover B = (B - 1)%Z /\ (exists k, 0 <= k /\ B = 2 ^ k)%Z \/ cover B = B.
- rewrite /cover; case E: (_ =? _)%Z; last by right.
  left; split=> //; apply/isPow2P => //; lia.
- by case: e => -> hp; case: h3 => // h3; lia.
- by rewrite ne.
Qed.

(** C47: all entries of w bounded by B, N*B below q/2.  When N*B is a power of two the
    one vector that decomposeBase misses is excluded by asking that no row of the random
    matrix is all ones. *)
Theorem C47_approx_complete N p0 n0 env cs1 w B cs2 x ordI ordT ordP ordD pw0 w0 proj z :
  honest N p0 n0 env (cs1 ++ CApprox w B :: cs2) x ordI ordT ordP ordD pw0 w0 ->
  size proj = 128%N -> all (fun r => size r == N) proj ->
  (1 <= B)%Z -> (2 * (Z.of_nat N * B) < q)%Z -> (2 <= Z.of_nat N * B)%Z ->
  (forall i, (i < N)%N -> repr U (slot w0 w i) (z i) /\ (Z.abs (z i) <= B)%Z) ->
  ~ (exists k, 0 <= k /\ Z.of_nat N * B = 2 ^ k)%Z \/ all (fun r => has (fun b => ~~ b) r) proj ->
  (forall c, List.In c (cs1 ++ cs2) -> cmdOK U N proj pw0 w0 c) ->
  exists pw w2, [/\ filled N x ordI ordT ordP ordD pw0 w0 proj pw w2,
    forall a, (a < n0)%N -> nth [::] w2 a = nth [::] w0 a,
    arithSat x pw w2, sumSat U x pw w2 & linSat x proj w2].
Proof.
move=> h hs hr hB hq h2 hz h3 hok; apply: (C19_filling_complete_partial h hs hr) => c.
rewrite In_cat /= => -[hc|[<-|hc]]; [by apply: hok; rewrite In_cat; left| |by apply: hok; rewrite In_cat; right].
split=> //; exists z; split; first by move=> i hi; have [] := hz i hi.
move=> k hk.
have srow : size (nth [::] proj k) = N.
  by apply/eqP; apply: (all_nthP [::] hr); rewrite hs.
set row := nth [::] proj k in srow *.
(* the row sum, counted with the number of ones *)
pose cnt := zsum N (fun j => if nth false row j then 1%Z else 0%Z).
have habs : (Z.abs (zrow row z) <= cnt * B)%Z.
  rewrite /zrow srow; refine (Z.le_trans _ _ _ (@zsum_abs _ _) _).
  have -> : (cnt * B = zsum N (fun j => (if nth false row j then 1 else 0) * B))%Z.
    by rewrite /cnt /zsum; elim: (iota 0 N) => [|j l IH] //=; rewrite Z.mul_add_distr_r IH.
  by apply: zsum_le => j hj; have [_ hj2] := hz j hj; case: ifP => _; lia.
have hcnt : (0 <= cnt <= Z.of_nat N)%Z.
  rewrite /cnt /zsum -{3}(size_iota 0 N); elim: (iota 0 N) => [|j l IH] //=.
  by move: IH; set f := foldr _ _ _; case: ifP => _; lia.
have hNB : (cnt * B <= Z.of_nat N * B)%Z by nia.
split; last by lia.
have [e|ne] : cover (Z.of_nat N * B) = (Z.of_nat N * B - 1)%Z /\ (exists k, 0 <= k /\ Z.of_nat N * B = 2 ^ k)%Z
   \/ cover (Z.of_nat N * B) = (Z.of_nat N * B)%Z.
- rewrite /cover; case E: (_ =? _)%Z; last by right.
  left; split=> //; apply/isPow2P => //; lia.
- case: e => -> hp; case: h3 => // h3.
  have /hasP[b hb nb] : has (fun b => ~~ b) row by apply: (all_nthP [::] h3); rewrite hs.
  have [j hj ej] := nthP false hb; rewrite srow in hj.
  suff : (cnt < Z.of_nat N)%Z by nia.
  have hj' : j \in iota 0 N by rewrite mem_iota.
  rewrite /cnt /zsum -{2}(size_iota 0 N); move: hj'; elim: (iota 0 N) {hcnt habs hNB} => [|a l IH] //.
  have le l' : (foldr (fun i a => (if nth false row i then 1 else 0) + a) 0 l' <= Z.of_nat (size l'))%Z.
    by elim: l' => [|b1 l1 IHl] //=; case: ifP => _; lia.
  rewrite inE => /orP[/eqP <-|/IH {}IH] /=.
    by rewrite ej (negbTE nb); have := le l; lia.
  by move: IH; set f := foldr _ _ _; case: ifP => _; lia.
- by rewrite ne; lia.
Qed.

(** * C46 refuted: whatever w and whatever the projection, the constraints that
    AddApproxInfNorm adds can be satisfied.  (The ternary test on the decomposition is
    commented out, context.go 222-226.) *)
Theorem C46_any_witness_refuted N B x base (v : seq F) proj :
  compiled N 0 1 [:: CApprox 0%N B] x -> decomposeBase (Z.of_nat N * B) = Some base -> (128 * size base <= N)%N ->
  size v = N -> size proj = 128%N ->
  exists W, [/\ nth [::] W 0 = v, arithSat x [::] W, sumSat U x [::] W & linSat x proj W].
Proof.
move=> [_]; rewrite /= /AddApproxInfNormConstraintBig /= => + Eb; rewrite Eb => -[<-] hN sv sp.
have hL := size_greedy_pos Eb.
have last1 : nth 0%Z base (size base).-1 = 1%Z.
  by move: Eb; rewrite /decomposeBase; case: ifP => // _ [<-]; rewrite nth_last last_rcons.
set L := size base in hN hL last1.
pose p : seq F := proj_transform proj (nseq N 0) v.
pose d : seq F := mkseq (fun k => if (k %% L == L.-1)%N then p`_(k %/ L) else 0) N.
exists [:: v; p; d]; split=> // chk o i /=; rewrite /=.
have sN : size (nseq N (0 : F)) = N by rewrite size_nseq.
have hp : (size proj <= size (nseq N (0%R : F)))%N by rewrite sN sp; nia.
have [s1 e1] := proj_transformP v hp.
have hL' : (0 < size [seq sb b | b <- base])%N by rewrite size_map.
have [s2 e2] := recomp_transformP (nseq N 0) d hL'.
case=> [<-|[<-|//]] /=; first by case=> // -[<- <-].
case=> // -[<- <-] /=; apply: (@eq_from_nth _ 0); first by rewrite s1 s2.
rewrite s1 sN => k hk; rewrite e2 ?sN // size_map -/L.
have h128' : (128 <= N %/ L)%N by rewrite leq_divRL.
case: ifP => hk2; last by rewrite e1 ?sN // sp; case: ifP => //; lia.
have hkL : (k.+1 * L <= N)%N by rewrite -leq_divRL.
have hj (j : 'I_L) : d`_(k * L + j) = if j == L.-1 :> nat then p`_k else 0.
  rewrite nth_mkseq; last by apply: leq_trans hkL; rewrite mulSn addnC ltn_add2r.
  by rewrite modnMDl modn_small // divnMDl // divn_small // addn0.
have hl : (L.-1 < L)%N by rewrite ltn_predL.
rewrite (bigD1 (Ordinal hl)) // (hj (Ordinal hl)) eqxx (nth_map 0%Z) // -[nth 0%Z base (Ordinal hl)]/(nth 0%Z base L.-1) last1 setBigInt_one mul1r big1 => [|j nj]; first by rewrite [RHS]addr0.
rewrite hj; case: eqP => [ej|]; last by rewrite mulr0.
by case/eqP: nj; apply: val_inj.
Qed.

(** * C19 refuted at the bound itself: with B = 2^k a witness with an entry equal to B
    satisfies the constraints for no choice of auxiliary witnesses. *)
Theorem C19_power_of_two_refuted N p0 n0 cs1 cs2 w k x (pw W : seq (seq F)) i :
  compiled N p0 n0 (cs1 ++ CInf w (2 ^ k)%Z :: cs2) x -> (1 <= k)%Z -> (2 * 2 ^ k < q)%Z ->
  (i < N)%N -> repr U (slot W w i) (2 ^ k) -> ~ arithSat x pw W.
Proof.
move=> [_ hd] hk hq hi hr hs.
have h2 : (2 <= 2 ^ k)%Z by rewrite -{1}(Z.pow_1_r 2); apply: Z.pow_le_mono_r; lia.
have [|z [h1 h3]] := inf_call_sound hd _ hs hi; first lia.
rewrite cover1_ge2 // in h3.
have [hc _] := cover_reach h2; rewrite hc in h3; last by exists k; split=> //; lia.
have : sb z = sb (2 ^ k) by rewrite h1 hr.
move/sb_inj_mod => e.
have [t ht] : (q | 2 ^ k - z)%Z by apply/Z.mod_divide; [lia|rewrite Zminus_mod e Z.sub_diag].
have : t = 0%Z by nia.
lia.
Qed.

(** * C20 refuted for the two-norm as well: bound -3 is decomposed to the weights -1, 1, and
    the all-zero assignment satisfies everything the call adds. *)
Theorem C20_negative_sq_bound_refuted N : (2 <= N)%N -> exists x base pw W,
  [/\ compiled N 0 1 [:: CTwo 0%N (-3)%Z] x, decomposeBase (-3) = Some base,
      fillPw U N (ctwo x) [:: 0%N] (padw N (cpwCnt x) [::]) = Some pw,
      arithSat x pw W & sumSat U x pw W].
Proof.
move=> hN; have Eb : decomposeBase (-3) = Some [:: -1; 1]%Z by vm_compute.
exists (AddSqNormConstraintBig U (newContext F N 0 1) 0 (-3)), [:: -1; 1]%Z.
have [pw Ep] : exists pw, fillPw U N (ctwo (AddSqNormConstraintBig U (newContext F N 0 1) 0 (-3))) [:: 0%N]
    (padw N (cpwCnt (AddSqNormConstraintBig U (newContext F N 0 1) 0 (-3))) [::]) = Some pw.
  have hin : all (@cmdIn F 0 1) [:: CTwo 0%N (-3)%Z] by [].
  have [T [hw _]] := wf_define (wf_new F N 0 1) hin (erefl (Some (AddSqNormConstraintBig U (newContext F N 0 1) 0 (-3)))).
  set x := AddSqNormConstraintBig _ _ _ _ in hw *.
  have fits : twoFits N (ctwo x) by move=> id B pb pm wd; rewrite /= ; case: id => // -[<- _ _ _]; exists [:: -1; 1]%Z.
  have s1 : size (padw N (cpwCnt x) ([::] : seq (seq F))) = cpwCnt x by apply: size_padw.
  have g1 : goodw N (padw N (cpwCnt x) ([::] : seq (seq F))) by apply: goodw_padw.
  have u1 : uniq [:: 0%N] by [].
  have := fillPwP U (wf_twoWF hw) fits u1 _ g1; rewrite s1 leqnn => /(_ isT)[pw [ep _ _ _ _]].
  by exists pw.
have z (id i : nat) : slot ([::] : seq (seq F)) id i = 0 by rewrite /slot !nth_nil.
exists pw, [::]; split=> //.
- move=> c /= [<-|//] i _; by rewrite binC_val !z mul0r.
- move=> c s /= [[<- <-]|//]; rewrite sb0 big1 // => i _.
  by rewrite sqC_val !z !mulr0 subr0.
Qed.

Lemma AddInf_ge2 x w B : (2 <= B)%Z -> AddInfNormConstraintBig U x w B =
  if decomposeBase B is Some base then
    let wD := iota (cwCnt x) (size base) in
    let x := set_cnt (set_inf x (aset (cinf x) w (wD, B))) (cpwCnt x) (cwCnt x + size base)%N in
    let x := foldl (fun x d => AddArithmeticConstraint x (ternaryC U d)) x wD in
    Some (AddArithmeticConstraint x (dcmpC U w base wD))
  else None.
Proof.
move=> h; rewrite /AddInfNormConstraintBig; case: Z.ltb_spec => [|_]; first lia.
case: Z.eqb_spec => [|_]; first lia.
by case: Z.eqb_spec => [|_]; first lia.
Qed.

(** * C74 refuted: a second AddInfNormConstraint on the same witness makes every non-zero
    witness fail.  The second call overwrites the map entry of the first
    (context.go 161-165), so Prove leaves the first decomposition at zero. *)
Theorem C74_repeated_refuted N p0 n0 cs1 cs2 cs3 w B1 B2 x ordI ordT ordP ordD pw0 w0 proj (pw w2 : seq (seq F)) :
  compiled N p0 n0 (cs1 ++ CInf w B1 :: cs2 ++ CInf w B2 :: cs3) x -> (2 <= B1)%Z -> (2 <= B2)%Z ->
  w \notin targets (@infT F) cs3 -> ctwo x = [::] -> chasProj x = false ->
  isOrder (cinf x) ordI -> isOrder (ctwo x) ordT -> size w0 = n0 -> goodw N w0 ->
  filled N x ordI ordT ordP ordD pw0 w0 proj pw w2 -> nth [::] w0 w <> nseq N 0 -> ~ arithSat x pw w2.
Proof.
move=> [hin hd] hB1 hB2 hw3 hctwo hproj [uI oI] [_ oT] sw gw [wi [w1 [e1 e2 e3]]] hne hs.
have eT : ordT = [::].
  by case: ordT oT {e2} => [|a l] // /(_ a); rewrite inE eqxx hctwo.
rewrite eT hproj /= in e2 e3; case: e3 => e3; case: e2 => e2 e2'; rewrite -{}e3 -{}e2' {w1 w2 e2} in hs.
move: (hin); rewrite all_cat /= => /andP[hin1 /andP[hc1]]; rewrite all_cat /= => /andP[hin2 /andP[hc2 hin3]].
have [y1 [h1 h2]] := define_cat hd.
have [T1 [w1 _]] := wf_define (wf_new F N p0 n0) hin1 h1.
move: h2 => /=; case E1: (AddInfNormConstraintBig U y1 w B1) => [y2|] // h2.
have [y3 [h3 h4]] := define_cat h2.
move: h4 => /=; case E2: (AddInfNormConstraintBig U y3 w B2) => [y4|] // h4.
have r1 : run1 U y1 (CInf w B1) = Some y2 by [].
have r2 : run1 U y3 (CInf w B2) = Some y4 by [].
have [T2 [w2 _]] := @wf_run1 _ U _ _ _ _ _ (CInf w B1) w1 hc1 r1; have [T3 [w3 hT3]] := wf_define w2 hin2 h3.
have [T4 [w4 hT4]] := @wf_run1 _ U _ _ _ _ _ (CInf w B2) w3 hc2 r2; have [T5 [w5 hT5]] := wf_define w4 hin3 h4.
have g3 := grows_define h3; have g4 := grows_define h4; have gr1 := grows_run1 r1; have gr2 := grows_run1 r2.
have g0 := grows_define h1.
have rk : crank x = N by rewrite (gr_rank g4) (gr_rank gr2) (gr_rank g3) (gr_rank gr1) (gr_rank g0).
have [base [Eb hg _ _]] := decomposeBaseP hB1; have [base2 [Eb2 _ _ _]] := decomposeBaseP hB2.
move: E1; rewrite AddInf_ge2 //; rewrite Eb => -[ey2].
move: E2; rewrite AddInf_ge2 //; rewrite Eb2 => -[ey4].
have hD : List.In (dcmpC U w base (iota (cwCnt y1) (size base))) (carith x).
  apply: (gr_ar g4); apply: (gr_ar gr2); apply: (gr_ar g3); rewrite -ey2 /=.
  by apply/In_rcons; right.
have cntx : (cwCnt y3 <= cwCnt x)%N := leq_trans (gr_w gr2) (gr_w g4).
have hw4 : aget (cinf x) w = Some (iota (cwCnt y3) (size base2), B2).
  rewrite (define_cinf h4) //; rewrite -ey4 /= ?fold_arithE /= aget_aset eqxx //.
have hn1 : (n0 <= cwCnt y1)%N := wf_n w1.
have hnx : (size w0 <= cwCnt x)%N by rewrite sw (wf_n w5).
have sW : size (padw N (cwCnt x) w0) = cwCnt x by exact: size_padw.
have gW : goodw N (padw N (cwCnt x) w0) by apply: goodw_padw.
have [|wi' [e' s' g' n' d']] := fillInfP U (wf_infWF w5) uI _ gW; first by rewrite sW.
rewrite e1 in e'; case: e' => e'; rewrite -{}e' in s' g' n' d'.
have hwn : (w < n0)%N by have [] := wf_inf w5 hw4.
have keep : nth [::] wi w = nth [::] w0 w.
  rewrite n' ?nth_padw_lt ?sw // => id e _ /(wf_inf w5)[_ _ h _ _].
  by apply/negP => /(allP h)/andP[] /andP[+ _] _; rewrite leqNgt hwn.
have c2 : cwCnt y2 = (cwCnt y1 + size base)%N by rewrite -ey2 /= fold_arithE.
have in2 : aget (cinf y2) w = Some (iota (cwCnt y1) (size base), B1) by rewrite -ey2 /= fold_arithE /= aget_aset eqxx.
have stale a : a \in iota (cwCnt y1) (size base) -> nth [::] wi a = nseq N 0.
  move=> ha; have := ha; rewrite mem_iota => ha'.
  have [_ _ tg _ _] := wf_inf w2 in2; have /andP[_ /eqP t2] := allP tg a ha.
  have /andP[ha1 ha2] := ha'; rewrite -c2 in ha2.
  have q3 : (a < cwCnt y3)%N := leq_trans ha2 (gr_w g3).
  have q4 : (a < cwCnt y4)%N := leq_trans q3 (gr_w gr2).
  have t5 : T5 a = (1, w)%N by rewrite (hT5 _ q4) (hT4 _ q3) (hT3 _ ha2).
  rewrite n'; first by apply: nth_padw_ge; rewrite sw (leq_trans hn1 ha1) (leq_trans q3 cntx).
  move=> id e _ he; apply/negP => hae; have [_ _ tg5 _ _] := wf_inf w5 he.
  have /andP[_ /eqP] := allP tg5 a hae; rewrite t5 => -[eid]; rewrite -eid hw4 in he.
  by case: he => ee; rewrite -ee /= mem_iota leqNgt q3 in hae.
apply: hne; apply: (@eq_from_nth _ 0); first by rewrite size_nseq gw // sw.
rewrite gw ?sw // => i hi; rewrite nth_nseq hi.
have := hs _ hD i; rewrite rk => /(_ hi); rewrite dcmpC_val big1 ?subr0.
  by rewrite /slot keep.
move=> j _; rewrite /slot stale ?nth_nseq ?hi ?mulr0 //.
by apply: mem_nth; rewrite size_iota.
Qed.
End Props.

(** * C22 refuted with two such constraints: the running sum sqNm is not reset between map
    entries (prover.go 88-111), so whichever entry Go visits second gets the digits of the
    sum of both norms. *)
Definition two97 : seq (seq F97) := [:: [:: 1; 1; 0; 0; 0; 0; 0; 0]; [:: 1; 1; 0; 0; 0; 0; 0; 0]].
Definition cs22 : seq (cmd F97) := [:: CTwo 0%N 3%Z; CTwo 1%N 3%Z].

Lemma order01 ord : uniq ord -> (forall id, (id \in ord) = (id < 2)%N) -> ord = [:: 0%N; 1%N] \/ ord = [:: 1%N; 0%N].
Proof.
case: ord => [_ /(_ 0%N)//|a [|b l]] /=.
  by move=> _ h; have := h 0%N; have := h 1%N; rewrite !inE => /eqP <- /eqP.
case: l => [|c l]; last first.
  rewrite !inE !negb_or => /andP[/and3P[n1 n2 _] /andP[/andP[n3 _] _]] h.
  have := h a; have := h b; have := h c; rewrite !inE !eqxx ?orbT /=; lia.
rewrite inE andbT => n1 h; have := h 0%N; have := h 1%N; have := h a; have := h b.
rewrite !inE !eqxx ?orbT /=; case: a n1 {h} => [|[|a]] //; case: b => [|[|b]] //; auto.
Qed.

Lemma sum8 (f : nat -> F97) : \sum_(i < 8) f i = foldr (fun i a => f i + a) 0 [:: 0; 1; 2; 3; 4; 5; 6; 7]%N.
Proof. by rewrite !big_ord_recl big_ord0 /=. Qed.

Theorem C22_two_constraints_refuted : exists x,
  [/\ compiled U97 8 0 2 cs22 x, twoBounded U97 8 (nth [::] two97 0) 3, twoBounded U97 8 (nth [::] two97 1) 3 &
   forall ordI ordT ordP ordD proj pw w2, isOrder (cinf x) ordI -> isOrder (ctwo x) ordT ->
     filled U97 8 x ordI ordT ordP ordD [::] two97 proj pw w2 -> ~ sumSat U97 x pw w2].
Proof.
pose x1 := AddSqNormConstraintBig U97 (newContext F97 8 0 2) 0 3.
exists (AddSqNormConstraintBig U97 x1 1 3).
have tb : twoBounded U97 8 [:: 1; 1; 0; 0; 0; 0; 0; 0] 3.
  exists (nth 0%Z [:: 1; 1; 0; 0; 0; 0; 0; 0]%Z); split=> //.
  by do 8 (case=> [_|]; first by rewrite /repr ?sb0 ?setBigInt_one).
split=> //.
move=> ordI ordT ordP ordD proj pw w2 oI [uT oT] [wi [w1 [e1 e2 e3]]] hs.
have eI : ordI = [::] by case: oI => _; case: (ordI) => [|a l] // /(_ a); rewrite inE eqxx.
rewrite eI /= in e1; case: e1 => e1; case: e3 => e3; rewrite -{}e1 {}e3 in e2.
have h0 := hs (sqC U97 0 2 0) 0%Z (or_introl erefl).
have h1 := hs (sqC U97 1 3 2) 0%Z (or_intror (or_introl erefl)).
have {h0} : foldr (fun i a => (slot w2 0 i * slot w2 0 i - slot pw 0 i * slot w2 2 i) + a) 0 [:: 0; 1; 2; 3; 4; 5; 6; 7]%N = 0 :> F97.
  by rewrite -sum8 -(sb0 U97); refine (eq_trans _ h0); apply: eq_bigr => i _; rewrite sqC_val.
have {h1} : foldr (fun i a => (slot w2 1 i * slot w2 1 i - slot pw 2 i * slot w2 3 i) + a) 0 [:: 0; 1; 2; 3; 4; 5; 6; 7]%N = 0 :> F97.
  by rewrite -sum8 -(sb0 U97); refine (eq_trans _ h1); apply: eq_bigr => i _; rewrite sqC_val.
have [] : ordT = [:: 0; 1]%N \/ ordT = [:: 1; 0]%N.
- by apply: order01 => // id; rewrite oT; case: id => [|[|id]].
- move=> eT; rewrite eT in e2 => h1 _; move: h1.
  have -> : pw = (odflt ([::], [::]) (Some (pw, w2))).1 by [].
  have -> : w2 = (odflt ([::], [::]) (Some (pw, w2))).2 by [].
  by rewrite -e2 => /(congr1 val); vm_compute.
- move=> eT; rewrite eT in e2 => _.
  have -> : pw = (odflt ([::], [::]) (Some (pw, w2))).1 by [].
  have -> : w2 = (odflt ([::], [::]) (Some (pw, w2))).2 by [].
  by rewrite -e2 => /(congr1 val); vm_compute.
Qed.

(** * Concrete circuits meeting the hypotheses *)
Lemma order0 (A : Type) (m : seq (nat * A)) e : m = [:: (0%N, e)] -> isOrder m [:: 0%N].
Proof. by move=> ->; split=> // id; rewrite inE /=; case: id. Qed.

(** C18, C19, C21, C22: the vector (1,-2,0,3,0,0,5,0) with |.|_inf <= 11 and |.|^2 <= 40;
    by C19 the assignment the prover computes meets the hypotheses of C18 and C21. *)
Definition excs : seq (cmd F97) := [:: CInf 0%N 11%Z; CTwo 0%N 40%Z].
Definition exz := [:: 1; -2; 0; 3; 0; 0; 5; 0]%Z.
Definition exw : seq (seq F97) := [:: [seq setBigInt U97 z | z <- exz]].
Example ex_C19_C22 : exists x env,
  honest U97 8 0 1 env excs x [:: 0%N] [:: 0%N] [::] [::] [::] exw /\
  (forall proj c, List.In c excs -> cmdOK U97 8 proj [::] exw c).
Proof.
have E1 : decomposeBase 11 = Some [:: 6; 3; 1; 1]%Z by vm_compute.
have E2 : decomposeBase 40 = Some [:: 20; 10; 5; 3; 1; 1]%Z by vm_compute.
have [x1 [Ex i1 t1 [p1 q1 r1]]] : exists x1, [/\ AddInfNormConstraintBig U97 (newContext F97 8 0 1) 0 11 = Some x1,
   cinf x1 = [:: (0%N, ([:: 1; 2; 3; 4]%N, 11%Z))], ctwo x1 = [::] & [/\ cproj x1 = [::], cprojD x1 = [::] & chasProj x1 = false]].
  by rewrite /AddInfNormConstraintBig -[(11 <? 0)%Z]/false -[(11 =? 0)%Z]/false -[(11 =? 1)%Z]/false E1; eexists; split=> //; rewrite fold_arithE.
exists (AddSqNormConstraintBig U97 x1 0 40), (fun _ => OProj _); split; last first.
  move=> proj c [<-|[<-|//]].
    right=> i hi; exists (nth 0%Z exz i); split; last by case: i hi => [|[|[|[|[|[|[|[|]]]]]]]].
      by rewrite /repr /slot (nth_map 0%Z).
    by case: i hi => [|[|[|[|[|[|[|[|]]]]]]]].
  split=> //; exists (nth 0%Z exz); split=> // i hi; by rewrite /repr /slot (nth_map 0%Z).
split=> //.
- split=> //; rewrite -[define _ _ _]/(if AddInfNormConstraintBig U97 (newContext F97 8 0 1) 0 11 is Some y
    then define U97 y [:: CTwo 0%N 40%Z] else None).
  by rewrite Ex.
- by move=> c [<-|[<-|//]].
- by move=> id B pb pm wd; rewrite /= t1 /=; case: id => // -[<- _ _ _]; exists [:: 20; 10; 5; 3; 1; 1]%Z.
- by rewrite /= t1.
- by rewrite /= r1.
- by move=> wp B wD base; rewrite /= q1.
- by apply: (order0 (e := ([:: 1; 2; 3; 4]%N, 11%Z))); rewrite /= i1.
- by eapply order0; rewrite /= t1.
- by rewrite /= p1; split.
- by rewrite /= q1; split.
- by case.
Qed.

(** C46, C47: rank 2048, any field (C47 also asks 2 * N * B < q, here a modulus above
    4096), bound 1, a projection with alternating rows. *)
Definition exrow (N : nat) : seq bool := mkseq odd N.
Definition exproj (N : nat) : seq (seq bool) := nseq 128 (exrow N).
Lemma ex47_base : exists base, decomposeBase 2048 = Some base /\ size base = 11%N.
Proof. by eexists; split; [vm_compute; reflexivity|]. Qed.

Example ex_C47 (F : fieldType) (U : uint F) (z : nat -> Z) N : N = 2048%N -> (forall i, Z.abs (z i) <= 1)%Z ->
  let w0 := [:: [seq setBigInt U (z i) | i <- iota 0 N]] in
  exists x env, [/\ honest U N 0 1 env [:: CApprox 0%N 1%Z] x [::] [::] [:: 0%N] [:: 1%N] [::] w0,
    size (exproj N) = 128%N, all (fun r => size r == N) (exproj N) & all (fun r => has (fun b => ~~ b) r) (exproj N)].
Proof.
move=> eN hz w0; have [base [Eb sbase]] := ex47_base.
have eZ : (Z.of_nat N * 1 = 2048)%Z by rewrite eN; lia.
have h0 : (0 < N)%N by rewrite eN.
have h128 : (128 <= N)%N by rewrite eN.
have h11 : (128 * 11 <= N)%N by rewrite eN.
move: N eN eZ h0 h128 h11 @w0 => N _ eZ h0 h128 h11 w0.
have [x [Ex i1 t1 [p1 q1]]] : exists x, [/\ AddApproxInfNormConstraintBig U (newContext F N 0 1) 0 1 = Some x,
   cinf x = [::], ctwo x = [::] & cproj x = [:: (0%N, 1%N)] /\ cprojD x = [:: (1%N, (2048%Z, 2%N))]].
  rewrite /AddApproxInfNormConstraintBig.
  have -> : (Z.of_nat (crank (newContext F N 0 1)) * 1 = 2048)%Z by exact: eZ.
  by rewrite Eb; eexists.
exists x, (fun _ => OProj _); split.
- apply: Honest => //.
  + by split=> //; rewrite /define /run1 Ex.
  + by move=> c [<-|//].
  + by move=> id B pb pm wd; rewrite t1.
  + by rewrite t1.
  + move=> wp B wD b; rewrite q1; case: wp => [|[|wp]] // -[<- _]; rewrite Eb => -[<-]; by rewrite sbase.
  + by rewrite i1.
  + by rewrite t1.
  + exact: order0 p1.
  + by rewrite q1; split=> // -[|[|id]].
  + by move=> [|//] _; rewrite size_map size_iota.
- by rewrite size_nseq.
- by apply/allP => r; rewrite mem_nseq => /andP[_ /eqP ->]; rewrite size_mkseq.
- apply/allP => r; rewrite mem_nseq => /andP[_ /eqP ->]; apply/(has_nthP false).
  by exists 0%N; [rewrite size_mkseq|rewrite nth_mkseq].
Qed.

(** C74: the two calls of the refutation, on (1,0,...,0) *)
Example ex_C74 : exists x, compiled U97 8 0 1 [:: CInf 0%N 3%Z; CInf 0%N 5%Z] x /\ ctwo x = [::] /\ chasProj x = false
  /\ 0%N \notin targets (@infT F97) [::].
Proof.
have st x B base : (2 <= B)%Z -> decomposeBase B = Some base ->
    exists y, [/\ AddInfNormConstraintBig U97 x 0 B = Some y, ctwo y = ctwo x & chasProj y = chasProj x].
  by move=> hB Eb; rewrite AddInf_ge2 // Eb; eexists; split=> //; rewrite fold_arithE.
have E1 : decomposeBase 3 = Some [:: 2; 1]%Z by vm_compute.
have E2 : decomposeBase 5 = Some [:: 3; 1; 1]%Z by vm_compute.
have [|y1 [e1 t1 p1]] := st (newContext F97 8 0 1) 3%Z _ _ E1; first by [].
have [|y2 [e2 t2 p2]] := st y1 5%Z _ _ E2; first by [].
exists y2; rewrite t2 t1 p2 p1; split=> //; split=> //.
rewrite -[define _ _ _]/(if AddInfNormConstraintBig U97 (newContext F97 8 0 1) 0 3 is Some y
    then (if AddInfNormConstraintBig U97 y 0 5 is Some z then Some z else None) else None).
by rewrite e1 e2.
Qed.

Print Assumptions C17_decomposition_partial.
Print Assumptions C18_inf_norm_sound.
Print Assumptions C19_filling_complete_partial.
Print Assumptions C19_power_of_two_refuted.
Print Assumptions C20_negative_sq_bound_refuted.
Print Assumptions C21_two_norm_sound.
Print Assumptions C22_two_norm_complete_partial.
Print Assumptions C22_two_constraints_refuted.
Print Assumptions C46_any_witness_refuted.
Print Assumptions C47_approx_complete.
Print Assumptions C74_repeated_refuted.
