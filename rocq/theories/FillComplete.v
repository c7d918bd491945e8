(** The prover's filling of the auxiliary slots, for a whole context. *)
From Coq Require Import ZArith Lia.
From mathcomp Require Import all_ssreflect all_algebra zify.
From Verif Require Import RingTac Spec UintModel BigpolyModel UintProofs RingProofs NormModel NormProofs
  BucklerModel DefineModel BucklerSpec FillProofs NormSound ContextProofs CheckerProofs NormComplete.
Set Implicit Arguments. Unset Strict Implicit. Unset Printing Implicit Defensive.
Import GRing.Theory.
Local Open Scope ring_scope.
Delimit Scope Z_scope with Z.

Section FillAll.
Variables (F : fieldType) (U : uint F).
Local Notation sb := (setBigInt U).
Local Notation bi := (bigInt U).
Local Notation q := (modulus U).
Implicit Types (x : context F) (w pw : seq (seq F)).

Lemma size_padw N cnt w : (size w <= cnt)%N -> size (padw N cnt w) = cnt.
Proof. by move=> h; rewrite size_cat size_nseq; lia. Qed.

Lemma nth_padw_lt N cnt w a : (a < size w)%N -> nth [::] (padw N cnt w) a = nth [::] w a.
Proof. by move=> h; rewrite nth_cat h. Qed.

Lemma nth_padw_ge N cnt w a : (size w <= a < cnt)%N -> nth [::] (padw N cnt w) a = nseq N 0.
Proof. by move=> /andP[h1 h2]; rewrite nth_cat ltnNge h1 /= nth_nseq; case: ifP => //; lia. Qed.

Lemma goodw_padw N cnt w : goodw N w -> (size w <= cnt)%N -> goodw N (padw N cnt w).
Proof.
move=> hg hs a; rewrite size_padw // => ha; case: (ltnP a (size w)) => h; first by rewrite nth_padw_lt // hg.
by rewrite nth_padw_ge ?h // size_nseq.
Qed.

Lemma slot_zero w a k N : nth [::] w a = nseq N 0 -> slot w a k = 0.
Proof. by move=> e; rewrite /slot e nth_nseq; case: ifP. Qed.

(** the matrices in the record of an order: a permutation of the keys *)
Definition isOrder (A : Type) (m : seq (nat * A)) (ord : seq nat) : Prop :=
  uniq ord /\ forall id, (id \in ord) = isSome (aget m id).

(** verifier and prover compute the same public vectors, whatever the map orders *)
Lemma fillPw_order p0 n0 pcnt cnt N m ord ord' pw : twoWF p0 n0 pcnt cnt N m -> twoFits N m ->
  isOrder m ord -> isOrder m ord' -> (pcnt <= size pw)%N -> goodw N pw ->
  fillPw U N m ord pw = fillPw U N m ord' pw.
Proof.
move=> hm hf [u1 o1] [u2 o2] hs hg.
have [p1 [-> s1 g1 n1 d1]] := fillPwP U hm hf u1 hs hg.
have [p2 [-> s2 g2 n2 d2]] := fillPwP U hm hf u2 hs hg.
congr Some; apply: (@eq_from_nth _ [::]); first by rewrite s1 s2.
rewrite s1 => a ha.
pose hit := fun (e : nat * (Z * nat * nat * nat)) => (a == e.2.1.1.2) || (a == e.2.1.2).
have [/hasP[id hid]|hno] := boolP (has (fun id => if aget m id is Some e then hit (id, e) else false) ord); last first.
  rewrite n1 ?n2 // => id B pb pm wd hi hm'.
    rewrite o2 -o1 in hi; move/hasPn/(_ id hi): hno; by rewrite hm' /hit /= negb_or.
  by move/hasPn/(_ id hi): hno; rewrite hm' /hit /= negb_or.
case Em: (aget m id) => [[[[B pb] pm] wd]|] //; rewrite /hit /= => h.
have hid' : id \in ord' by rewrite o2 -o1.
have [base [Eb hb]] := hf _ _ _ _ _ Em.
have [x1 y1] := d1 _ _ _ _ _ _ hid Em Eb; have [x2 y2] := d2 _ _ _ _ _ _ hid' Em Eb.
apply: (@eq_from_nth _ 0); first by rewrite g1 ?g2 ?s1 ?s2.
move=> k _; case/orP: h => /eqP ->; rewrite -!/(slot _ _ _); first by rewrite x1 x2.
by rewrite y1 y2.
Qed.

Lemma wf_projDWF p0 n0 T x : wf p0 n0 T x ->
  (forall wp B wD base, aget (cprojD x) wp = Some (B, wD) -> decomposeBase B = Some base ->
     (128 * size base <= crank x)%N) -> projDWF (cwCnt x) (crank x) (cprojD x).
Proof.
move=> h hf; split.
  move=> id B wD e; have [_ /andP[/andP[_ h1] _] [base Eb]] := wf_projD h e.
  by split=> //; exists base; split=> //; exact: hf e Eb.
move=> id id' B B' wD wD' e e'.
have [/andP[_ /eqP t1] /andP[_ /eqP t2] _] := wf_projD h e.
have [/andP[_ /eqP t1'] /andP[_ /eqP t2'] _] := wf_projD h e'.
apply/andP; split; first by apply/eqP => ee; rewrite ee t2' in t1.
by apply/implyP => ne; apply/eqP => ee; rewrite ee t2' in t2; case: t2 => ee'; rewrite ee' eqxx in ne.
Qed.

(** Everything the later steps need to know about the filled vectors. *)
Theorem fills_ok p0 n0 T x ordI ordT ordP ordD pw0 w0 :
  wf p0 n0 T x -> twoFits (crank x) (ctwo x) -> (size (ctwo x) <= 1)%N ->
  (chasProj x -> (128 <= crank x)%N) ->
  (forall wp B wD base, aget (cprojD x) wp = Some (B, wD) -> decomposeBase B = Some base ->
     (128 * size base <= crank x)%N) ->
  isOrder (cinf x) ordI -> isOrder (ctwo x) ordT -> isOrder (cproj x) ordP -> isOrder (cprojD x) ordD ->
  size w0 = n0 -> size pw0 = p0 -> goodw (crank x) w0 -> goodw (crank x) pw0 ->
  exists wi pw w1,
  [/\ fillInf U (crank x) (cinf x) ordI (padw (crank x) (cwCnt x) w0) = Some wi,
      fillTwo U (crank x) (ctwo x) ordT 0 (padw (crank x) (cpwCnt x) pw0) wi = Some (pw, w1),
      fillPw U (crank x) (ctwo x) ordT (padw (crank x) (cpwCnt x) pw0) = Some pw &
      [/\ size pw = cpwCnt x, goodw (crank x) pw,
          (forall a, (a < p0)%N -> nth [::] pw a = nth [::] pw0 a),
          size w1 = cwCnt x /\ goodw (crank x) w1 &
      forall proj, size proj = 128%N -> exists w2,
        [/\ (if chasProj x then fillProjD U (crank x) (cprojD x) ordD (fillProj proj (cproj x) ordP w1)
             else Some w1) = Some w2,
            size w2 = cwCnt x /\ goodw (crank x) w2,
            (forall a, (a < n0)%N -> nth [::] w2 a = nth [::] w0 a),
            (forall a, a \notin cwSecond x -> (a < cwCnt x)%N -> nth [::] w2 a = nth [::] w1 a) &
            auxOK U x proj pw w2]]].
Proof.
move=> hw hf h2 h128 hD [uI oI] [uT oT] [uP oP] [uD oD] sw sp gw gp.
set N := crank x in hf h128 hD gw gp *.
have hn := wf_n hw; have hp := wf_p hw.
have sW : size (padw N (cwCnt x) w0) = cwCnt x by apply: size_padw; rewrite sw.
have gW : goodw N (padw N (cwCnt x) w0) by apply: goodw_padw; rewrite ?sw.
have sP : size (padw N (cpwCnt x) pw0) = cpwCnt x by apply: size_padw; rewrite sp.
have gP : goodw N (padw N (cpwCnt x) pw0) by apply: goodw_padw; rewrite ?sp.
have zW a : (n0 <= a < cwCnt x)%N -> nth [::] (padw N (cwCnt x) w0) a = nseq N 0 by rewrite -sw; exact: nth_padw_ge.
have zP a : (p0 <= a < cpwCnt x)%N -> nth [::] (padw N (cpwCnt x) pw0) a = nseq N 0 by rewrite -sp; exact: nth_padw_ge.
have [|wi [ei si gi ni di]] := fillInfP U (wf_infWF hw) uI _ gW; first by rewrite sW.
have [|pw [ep sp' gp' np dp]] := fillPwP U (wf_twoWF hw) hf uT _ gP; first by rewrite sP.
have [|w1 [e1 s1 g1 n1 d1]] := fillTwoP 0%Z (wf_twoWF hw) hf uT _ gi ep; first by rewrite si sW.
exists wi, pw, w1; split=> //.
(* the tag of a slot identifies what writes to it *)
have tagI id e a : aget (cinf x) id = Some e -> a \in e.1 -> (n0 <= a < cwCnt x)%N /\ T a = (1, id)%N.
  by move=> /(wf_inf hw)[_ _ h _ _] /(allP h)/andP[-> /eqP ->].
have tagT id B pb pm wd : aget (ctwo x) id = Some (B, pb, pm, wd) -> (n0 <= wd < cwCnt x)%N /\ T wd = (2, id)%N.
  by move=> /(wf_two hw)[_ _ _ _ /andP[-> /eqP ->]].
have keepI a : (a < n0)%N || ((T a).1 != 1)%N -> nth [::] wi a = nth [::] (padw N (cwCnt x) w0) a.
  move=> ha; apply: ni => id e _ he; apply/negP => hin; have [h3 h4] := tagI _ _ _ he hin.
  by move: ha; rewrite h4 /= orbF; lia.
have keepT a : (a < n0)%N || ((T a).1 != 2)%N -> nth [::] w1 a = nth [::] wi a.
  move=> ha; apply: n1 => id B pb pm wd _ he; apply/eqP => ea; have [h3 h4] := tagT _ _ _ _ _ he.
  by move: ha; rewrite ea h4 /= orbF; lia.
have low1 a : (a < n0)%N -> nth [::] w1 a = nth [::] w0 a.
  by move=> ha; rewrite keepT ?ha // keepI ?ha // nth_padw_lt // sw.
have lowi a : (a < n0)%N -> nth [::] wi a = nth [::] w0 a.
  by move=> ha; rewrite keepI ?ha // nth_padw_lt // sw.
split=> //.
- by rewrite sp' sP.
- move=> a ha; rewrite np ?nth_padw_lt ?sp // => id B pb pm wd _ /(wf_two hw)[_ h3 h4 _ _].
  by apply/andP; split; apply/eqP; lia.
- by rewrite s1 si sW.
move=> proj sproj.
(* contents of the auxiliary vectors after the first round *)
have aI w : (forall a, (a < n0)%N -> nth [::] w a = nth [::] w0 a) ->
    (forall a, (n0 <= a < cwCnt x)%N -> (T a).1 = 1%N -> nth [::] w a = nth [::] w1 a) ->
    forall id e base a k, aget (cinf x) id = Some e -> decomposeBase e.2 = Some base ->
    (k < N)%N -> a \in e.1 -> slot w a k = infDigit U base (slot w id k) (index a e.1).
  move=> hlow h1 id e base a k he hb hk ha; have [r1 r2] := tagI _ _ _ he ha.
  have [r3 _ _ _ _] := wf_inf hw he.
  have hin : id \in ordI by rewrite oI he.
  rewrite /slot h1 ?r2 // keepT; last by rewrite r2 orbT.
  rewrite -/(slot wi a k) (di _ _ _ _ _ hin he hb hk ha) /slot hlow //.
  by rewrite nth_padw_lt ?sw.
have aT w : (forall a, (a < n0)%N -> nth [::] w a = nth [::] w0 a) ->
    (forall a, (n0 <= a < cwCnt x)%N -> (T a).1 = 2%N -> nth [::] w a = nth [::] w1 a) ->
    forall id B pb pm wd base, aget (ctwo x) id = Some (B, pb, pm, wd) -> decomposeBase B = Some base ->
    (size base <= N)%N /\
    forall k, (k < N)%N ->
      [/\ slot pw pb k = (if (k < size base)%N then sb (nth 0%Z base k) else 0),
          slot pw pm k = (if (k < size base)%N then 1 else 0) &
          slot w wd k = (if (k < size base)%N then
             sb (nth 0%Z (decomposeBig (sqSum U N w id mod modOf U)%Z base (modOf U)) k) else 0)].
  move=> hlow h1 id B pb pm wd base he hb.
  have [b' [hb' hsz]] := hf _ _ _ _ _ he; rewrite hb in hb'; case: hb' => eb; rewrite -eb in hsz.
  split=> // k hk; have [r1 r2] := tagT _ _ _ _ _ he; have [r3 r4 r5 r6 _] := wf_two hw he.
  have hin : id \in ordT by rewrite oT he.
  have [q1 q2] := dp _ _ _ _ _ _ hin he hb.
  have ord1 : ordT = [:: id].
    have hk1 : size ordT = 1%N.
      apply/eqP; rewrite eqn_leq; apply/andP; split; last by case: (ordT) hin.
      have sub : {subset ordT <= akeys (ctwo x)} by move=> c; rewrite oT mem_akeys.
      by apply: leq_trans (uniq_leq_size uT sub) _; rewrite size_map.
    by case: (ordT) hk1 hin => [|c [|d l]] //= _; rewrite inE => /eqP ->.
  split.
  - by rewrite q1; case: ifP => // _; apply: slot_zero (zP _ _).
  - by rewrite q2; case: ifP => _; [rewrite setBigInt_one|apply: slot_zero (zP _ _)].
  rewrite /slot h1 ?r2 // -/(slot w1 wd k) (d1 _ _ _ _ _ _ _ ord1 he hb).
  have -> : sqSum U N w id = sqSum U N wi id by apply: zsum_ext => j _; rewrite /slot hlow // lowi.
  case: ifP => _; last by apply: (@slot_zero _ _ _ N); rewrite keepI ?r2 ?orbT // zW.
  by rewrite Z.add_0_l.
case: ifP => hp0; last first.
  have [c1 c2] := wf_np hw (negbT hp0).
  exists w1; split=> //; first by rewrite s1 si sW.
  split; [exact: aI|exact: aT|by rewrite c1|by rewrite c2].
have hN := h128 hp0.
have tagP id wp : aget (cproj x) id = Some wp -> [/\ (id < n0)%N, (n0 <= wp < cwCnt x)%N & T wp = (3, id)%N].
  by move=> /(wf_proj hw)[? /andP[? /eqP ?]].
have tagD wp B wD : aget (cprojD x) wp = Some (B, wD) ->
    [/\ (n0 <= wp < cwCnt x)%N, (T wp).1 = 3%N, (n0 <= wD < cwCnt x)%N & T wD = (4, wp)%N].
  by move=> /(wf_projD hw)[/andP[? /eqP ?] /andP[? /eqP ?] _].
have [||sv gv nv dv] := @fillProjP F _ _ _ _ _ proj _ (wf_projWF hw) uP _ g1.
- by rewrite s1 si sW.
- by rewrite sproj.
set v := fillProj _ _ _ _ in sv gv nv dv *.
have [|w2 [e2 s2 g2 n2 d2]] := fillProjDP U (wf_projDWF hw hD) uD _ gv; first by rewrite sv s1 si sW.
exists w2; split=> //.
- by rewrite s2 sv s1 si sW.
- move=> a ha; rewrite n2; last by move=> wp B wD _ /tagD[_ _ h _]; apply/eqP; lia.
  rewrite nv; last by move=> id wp _ /tagP[_ h _]; apply/eqP; lia.
  exact: low1.
- move=> a; have [_ ->] := wf_sec hw => ha hac.
  rewrite n2; last by move=> wp B wD _ /tagD[_ _ h3 h4]; apply: contraNneq ha => ->; rewrite h3 h4.
  by rewrite nv // => id wp _ /tagP[_ h3 h4]; apply: contraNneq ha => ->; rewrite h3 h4.
have low2 a : (a < n0)%N -> nth [::] w2 a = nth [::] w0 a.
  move=> ha; rewrite n2; last by move=> wp B wD _ /tagD[_ _ h _]; apply/eqP; lia.
  rewrite nv; last by move=> id wp _ /tagP[_ h _]; apply/eqP; lia.
  exact: low1.
have keep2 a : (n0 <= a < cwCnt x)%N -> (T a).1 \in [:: 1; 2]%N -> nth [::] w2 a = nth [::] w1 a.
  move=> ha ht; rewrite n2; last by move=> wp B wD _ /tagD[_ _ h3 h4]; apply: contraTneq ht => ->; rewrite h4.
  by rewrite nv // => id wp _ /tagP[_ h3 h4]; apply: contraTneq ht => ->; rewrite h4.
have keepP a : (T a).1 = 3%N -> nth [::] w2 a = nth [::] v a.
  by move=> ht; rewrite n2 // => wp B wD _ /tagD[_ _ h3 h4]; apply: contra_eq_neq ht => ->; rewrite h4.
split.
- by apply: aI => // a ha ht; apply: keep2; rewrite ?ht.
- by apply: aT => // a ha ht; apply: keep2; rewrite ?ht.
- move=> id wp he; have [h3 h4 h5] := tagP _ _ he.
  have t3 : (T wp).1 = 3%N by rewrite h5.
  have hid : id \in ordP by rewrite oP he.
  rewrite (keepP wp t3) (dv id wp hid he) (low1 id h3) (low2 id h3); congr proj_transform.
  by rewrite keepT ?h5 ?orbT // keepI ?h5 ?orbT // zW.
- move=> wp B wD base he hb; have [h3 h4 h5 h6] := tagD _ _ _ he.
  split; [exact: hD he hb| |].
    by apply: g2; rewrite s2 sv s1 si sW; lia.
  have hin : wp \in ordD by rewrite oD he.
  move=> k hk; rewrite (d2 _ _ _ _ hin he hb) /slot keepP //; case: ifP => // _.
  have e3 : nth [::] v wD = nseq N 0.
    rewrite nv; last by move=> id w _ /tagP[_ _ h7]; apply: contra_eq_neq h6 => ->; rewrite h7.
    by rewrite keepT ?h6 ?orbT // keepI ?h6 ?orbT // zW.
  by rewrite e3 nth_nseq; case: ifP.
Qed.

(** * From the user's assignment to the constraints of the context *)
Lemma slot_ext w w' a i : nth [::] w a = nth [::] w' a -> slot w a i = slot w' a i.
Proof. by rewrite /slot => ->. Qed.

Lemma cval_ext p n pw pw' w w' i c : consIn p n c ->
  (forall a, (a < p)%N -> nth [::] pw a = nth [::] pw' a) ->
  (forall a, (a < n)%N -> nth [::] w a = nth [::] w' a) -> cval pw w i c = cval pw' w' i c.
Proof.
move=> hc hp hn; rewrite /cval; elim: c hc => [|t c IH]; first by rewrite !big_nil.
rewrite /consIn /= => /andP[/andP[h1 h2] hc]; rewrite !big_cons IH //; congr (_ + _).
rewrite /tval_; congr (_ * _ * _).
  by case: (tpw t) h1 => // j hj; apply: slot_ext; apply: hp.
elim: (twit t) h2 => [|j l IHl]; first by rewrite !big_nil.
by move=> /= /andP[hj hl]; rewrite !big_cons IHl //; congr (_ * _); apply: slot_ext; apply: hn.
Qed.

Lemma cmdOK_ext p n N proj pw pw' w w' c : cmdIn p n c ->
  (forall a, (a < p)%N -> nth [::] pw a = nth [::] pw' a) ->
  (forall a, (a < n)%N -> nth [::] w a = nth [::] w' a) ->
  cmdOK U N proj pw w c -> cmdOK U N proj pw' w' c.
Proof.
case: c => [c|c s|o i a tf tr|a B|a B|a B] /= hc hp hn.
- by move=> h i hi; rewrite -(cval_ext i hc hp hn) h.
- by move=> <-; apply: eq_bigr => i _; rewrite (cval_ext i hc hp hn).
- by case/andP: hc => h1 h2; rewrite -!hn.
- by rewrite /slot -hn.
- by rewrite /slot -hn.
- by rewrite /slot -hn.
Qed.

Lemma lwf_new (E : nat + nat -> cobj F) N p n : lwf E (newContext F N p n).
Proof. by split. Qed.

(** The whole of it: an assignment that meets every call of Define extends, by the prover's
    own filling, to one that meets every constraint of the compiled context. *)
Theorem define_complete N p0 n0 env cs x ordI ordT ordP ordD pw0 w0 :
  (0 < N)%N -> all (cmdIn p0 n0) cs -> define U (newContext F N p0 n0) cs = Some x ->
  (forall c, List.In c cs -> linEnv env c) ->
  uniq (targets (@infT F) cs) -> uniq (targets (@twoT F) cs) -> uniq (targets (@appT F) cs) ->
  twoFits N (ctwo x) -> (size (ctwo x) <= 1)%N -> (chasProj x -> (128 <= N)%N) ->
  (forall wp B wD base, aget (cprojD x) wp = Some (B, wD) -> decomposeBase B = Some base -> (128 * size base <= N)%N) ->
  isOrder (cinf x) ordI -> isOrder (ctwo x) ordT -> isOrder (cproj x) ordP -> isOrder (cprojD x) ordD ->
  size w0 = n0 -> size pw0 = p0 -> goodw N w0 -> goodw N pw0 ->
  exists wi pw w1,
  [/\ fillInf U N (cinf x) ordI (padw N (cwCnt x) w0) = Some wi,
      fillTwo U N (ctwo x) ordT 0 (padw N (cpwCnt x) pw0) wi = Some (pw, w1),
      fillPw U N (ctwo x) ordT (padw N (cpwCnt x) pw0) = Some pw &
      [/\ size pw = cpwCnt x, goodw N pw, size w1 = cwCnt x /\ goodw N w1 &
      forall proj, size proj = 128%N -> all (fun r => size r == N) proj ->
        (forall c, List.In c cs -> cmdOK U N proj pw0 w0 c) -> exists w2,
        [/\ (if chasProj x then fillProjD U N (cprojD x) ordD (fillProj proj (cproj x) ordP w1)
             else Some w1) = Some w2,
            size w2 = cwCnt x /\ goodw N w2,
            (forall a, (a < n0)%N -> nth [::] w2 a = nth [::] w0 a),
            (forall a, a \notin cwSecond x -> (a < cwCnt x)%N -> nth [::] w2 a = nth [::] w1 a) &
            [/\ arithSat x pw w2, sumSat U x pw w2, linSat x proj w2 & exists E', lwf E' x]]]].
Proof.
move=> hN hcs hd henv u1 u2 u3 hf h2 h128 hD oI oT oP oD sw sp gw gp.
have er : crank x = N by rewrite (gr_rank (grows_define hd)).
have [T [hw _]] := wf_define (wf_new F N p0 n0) hcs hd.
rewrite -er in hf h128 hD gw gp *.
have [wi [pw [w1 [e1 e2 e3 [s1 g1 n1 s2 h]]]]] := fills_ok hw hf h2 h128 hD oI oT oP oD sw sp gw gp.
exists wi, pw, w1; split=> //; split=> // proj sproj hrow hok.
have [w2 [e4 s4 n4 k4 hax]] := h proj sproj.
exists w2; split=> //.
pose E0 (k : nat + nat) := if k is inl a then env a else OProj F.
have hok' c : List.In c cs -> cmdOK U N proj pw w2 c.
  move=> hc; apply: (@cmdOK_ext p0 n0 _ _ pw0 _ w0) => //.
  - by have : all (cmdIn p0 n0) cs by []; elim: (cs) hc => [|d l IH] //= [-> /andP[]|hl /andP[_]] //; exact: IH.
  - by move=> a ha; rewrite n1.
  - by move=> a ha; rewrite n4.
  - by have := hok c hc; rewrite er.
have := @sat_define F U p0 n0 (fun _ => (0, 0)%N) E0 env (newContext F N p0 n0) x cs proj pw w2
  (wf_new F N p0 n0) (lwf_new _ _ _ _) hcs hd erefl hN henv (fun _ => erefl) erefl sproj.
rewrite [crank (newContext _ _ _ _)]/= -{1}er => /(_ hrow u1 u2 u3 hax hok').
by case=> // -[? ? ?] ?.
Qed.
End FillAll.
