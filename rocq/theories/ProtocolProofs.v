(** Prove and Verify with the transcript resolved: which bytes every challenge depends on. *)
From Coq Require Import ZArith.
From mathcomp Require Import all_ssreflect all_algebra zify.
From Verif Require Import UintModel BigpolyModel RingProofs NormModel BucklerModel ProtocolModel.
Set Implicit Arguments. Unset Strict Implicit. Unset Printing Implicit Defensive.
Import GRing.Theory.
Local Open Scope ring_scope.
Delimit Scope Z_scope with Z.

Section TranscriptP.
Variables (H : bytes -> bytes) (name : nat -> bytes).

Definition tinv (st : transcript) (bs : nat -> seq bytes) (vs : seq bytes) :=
  [/\ forall k, tbind_of st k = bs k,
      forall k, tval st k = if (k < size vs)%N then Some (nth [::] vs k) else None &
      tprev st = if vs is [::] then None else Some ((size vs).-1, last [::] vs)].

Lemma tinv0 : tinv tr0 (fun _ => [::]) [::].
Proof. by split=> // k. Qed.

Definition upd (bs : nat -> seq bytes) id b := fun k => if k == id then bs k ++ b else bs k.

Lemma tinv_bind st bs vs id b : tinv st bs vs -> (size vs <= id)%N ->
  tinv (BindAll st id b) (upd bs id b) vs.
Proof.
elim: b st bs => [|b l IH] st bs [hb hv hp] h.
  by split=> // k; rewrite hb /upd; case: eqP => // ->; rewrite cats0.
have hB : tinv (Bind st id b) (upd bs id [:: b]) vs.
  rewrite /Bind hv ltnNge h /=; split=> //= k.
  by rewrite /upd hb; case: eqP => // _; rewrite cats1.
have [b1 v1 p1] := IH _ _ hB h; split=> // k.
by rewrite b1 /upd; case: eqP => // _; rewrite -catA.
Qed.

(** the value of challenge number [id] *)
Definition chal (id : nat) (prev : bytes) (bs : seq bytes) : bytes :=
  H (name id ++ (if id is 0 then [::] else prev) ++ flatten bs).

Lemma tinv_cc st bs vs id : tinv st bs vs -> id = size vs ->
  exists2 st', ComputeChallenge H name st id = Some (chal id (last [::] vs) (bs id), st') &
    tinv st' bs (rcons vs (chal id (last [::] vs) (bs id))).
Proof.
move=> [hb hv hp] hid; rewrite /ComputeChallenge hv {1}hid ltnn.
exists (Tr (tbind_of st) (fun k => if k == id then Some (chal id (last [::] vs) (bs id)) else tval st k)
           (Some (id, chal id (last [::] vs) (bs id)))).
  rewrite /chal hid; case: vs hp hid {hv} => [|a l] hp hid /=; first by rewrite hb.
  by rewrite hp /= eqxx hb.
move: (chal _ _ _) => v; split=> //=.
- move=> k; rewrite size_rcons nth_rcons ltnS -hid.
  case: (ltngtP k id) => h; rewrite ?hv -?hid ?h ?ltnn //.
  by rewrite ltnNge (ltnW h).
- by rewrite size_rcons last_rcons /= -hid; case: (vs).
Qed.

Lemma tinv_cc' st bs vs id : tinv st bs vs -> id = size vs ->
  exists v st', [/\ ComputeChallenge H name st id = Some (v, st'),
    v = chal id (last [::] vs) (bs id) & tinv st' bs (rcons vs v)].
Proof. by move=> h e; have [st' h1 h2] := tinv_cc h e; exists (chal id (last [::] vs) (bs id)), st'. Qed.
End TranscriptP.
Arguments chal : simpl never.
Arguments upd : simpl never.

Section ProtocolP.
Variables (F : fieldType) (U : uint F).
Variables (P : pcs F) (H : bytes -> bytes) (name : nat -> bytes).
Variables (setBytes : bytes -> F) (marshal : F -> bytes).
Variable xofProj : nat -> bytes -> seq (seq bool).
Variables (T TE : transformer F) (x : context F).
Local Notation N := (crank x).
Local Notation E := (trank TE).
Local Notation ch := (chal H name).
Local Notation firstRound := (firstRound x).
Local Notation comPoly := (comPoly x).

(** ** The pieces of a proof *)

(** all challenges from the three groups of bound values *)
Definition c0 (B0 : seq bytes) := ch 0 [::] B0.
Definition c1 B0 B1 := ch 1 (c0 B0) B1.
Definition c2 B0 B1 := ch 2 (c1 B0 B1) [::].
Definition c3 B0 B1 := ch 3 (c2 B0 B1) [::].
Definition c4 B0 B1 := ch 4 (c3 B0 B1) [::].
Definition c5 B0 B1 B5 := ch 5 (c4 B0 B1) B5.
Definition chs B0 B1 B5 := [:: c0 B0; c1 B0 B1; c2 B0 B1; c3 B0 B1; c4 B0 B1; c5 B0 B1 B5].

(** bytes bound by the verifier, from the commitments and the two mask sums *)
Definition vB0 (cs : seq (com P)) : seq bytes :=
  [seq nth [::] [seq pSer c | c <- cs] i | i <- iota 0 (cwCnt x) & firstRound i].
Definition vB1 (cs : seq (com P)) (ls ss : F) : seq bytes :=
  let ser := [seq pSer c | c <- cs] in
  [seq nth [::] ser i | i <- cwSecond x]
  ++ (if hasLin x then [:: nth [::] ser (cwCnt x); marshal ls] else [::])
  ++ (if hasSum x then [:: nth [::] ser (cwCnt x + hasLin x)%N; marshal ss] else [::]).
Definition vB5 (cs : seq (com P)) : seq bytes :=
  drop (cwCnt x + hasLin x + hasSum x) [seq pSer c | c <- cs].
Definition vchs (pf : proof P) : seq bytes :=
  chs (vB0 (pfWitness pf)) (vB1 (pfWitness pf) (pfLinSum pf) (pfSumSum pf)) (vB5 (pfWitness pf)).

(** the three checks of Verify at the challenges [cs] *)
Definition vChecks (pw : seq (seq F)) (pf : proof P) (cs : seq bytes) : bool :=
  let c i := nth [::] cs i in
  let pt := setBytes (c 5%N) in
  let evals := pfEvals pf in
  let vanish := Exp pt (Z.of_nat N) - setBigInt U 1 in
  let pwEvals := [seq evalSlice (encode T E v) pt | v <- pw] in
  let i1 := (cwCnt x + hasLin x)%N in
  let i2 := (i1 + hasSum x)%N in
  let i3 := (i2 + hasArith x)%N in
  let i4 := (i3 + (if hasLin x then 3 else 0))%N in
  [&& pVerify pt (pfWitness pf) evals (pfEval pf),
      hasArith x ==> vrf_arithCheck x (setBytes (c 1%N)) vanish evals`_i2 evals pwEvals,
      hasLin x ==> vrf_linCheck U T TE x (pRank P) (xofProj N (c 0%N)) (setBytes (c 2%N)) (setBytes (c 3%N))
       evals`_(cwCnt x) pt vanish (pfLinSum pf) evals`_i3 evals`_(i3 + 1) evals`_(i3 + 2) evals &
      hasSum x ==> vrf_sumCheck x (pRank P) (setBytes (c 4%N)) evals`_i1 pt vanish (pfSumSum pf)
       evals`_i4 evals`_(i4 + 1) evals`_(i4 + 2) evals pwEvals].

(** Verify in closed form *)
Definition VerifyE (ordTwo : seq nat) (pw0 : seq (seq F)) (pf : proof P) : option (bool * seq bytes) :=
  if ~~ (8 %| N)%N then None else
  if fillPw U N (ctwo x) ordTwo (padw N (cpwCnt x) pw0) is Some pw then
  let nm := (hasLin x + hasSum x)%N in
  if (size (pfWitness pf) < cwCnt x + nm)%N then None else
  if (0 < nm)%N && (size (pfEvals pf) < cwCnt x + nm)%N then None else
  if (size (pfWitness pf) != batch x) || (size (pfEvals pf) != batch x) then None else
  Some (vChecks pw pf (vchs pf), vchs pf) else None.

Local Notation VerifyC := (VerifyC U H name setBytes marshal xofProj T TE x).

Lemma updE bs id b k : upd bs id b k = if k == id then bs k ++ b else bs k.
Proof. by []. Qed.

Lemma if_fun (A B : Type) (b : bool) (f : A -> B) u v : (if b then f u else f v) = f (if b then u else v).
Proof. by case: b. Qed.

Lemma three_checks (a A l L s S : bool) (c : seq bytes) :
  (if a && ~~ A then Some (false, c) else if l && ~~ L then Some (false, c) else
   if s && ~~ S then Some (false, c) else Some (true, c)) = Some ([&& a ==> A, l ==> L & s ==> S], c).
Proof. by case: a A l L s S => [] [] [] [] [] []. Qed.

Lemma VerifyCE ord pw0 pf : VerifyC ord pw0 pf = VerifyE ord pw0 pf.
Proof.
rewrite /ProtocolModel.VerifyC /VerifyE.
case: ifP => // _; case: (fillPw _ _ _ _ _) => // pw.
case: ifP => // _; case: ifP => // _.
have t0 := @tinv_bind _ _ _ 0 (vB0 (pfWitness pf)) tinv0 (leqnn _).
rewrite -/(vB0 (pfWitness pf)).
have [st1 -> t1] := tinv_cc H name t0 (erefl _).
rewrite updE /= in t1 *.
set B0 := vB0 _ in t0 t1 *. rewrite -/(c0 B0) in t1 *.
set S2 := BindAll st1 1 _.
set S3 := if hasLin x then _ else S2.
set S4 := if hasSum x then _ else S3.
have t2 := tinv_bind [seq nth [::] [seq pSer c | c <- pfWitness pf] i | i <- cwSecond x] t1 (leqnn 1); rewrite -/S2 in t2.
pose L := if hasLin x then [:: nth [::] [seq pSer c | c <- pfWitness pf] (cwCnt x); marshal (pfLinSum pf)] else [::].
have e3 : S3 = BindAll S2 1 L by rewrite /S3 /L; case: (hasLin x).
have t3 := tinv_bind L t2 (leqnn 1); rewrite -e3 in t3.
pose S := if hasSum x then [:: nth [::] [seq pSer c | c <- pfWitness pf] (cwCnt x + hasLin x)%N; marshal (pfSumSum pf)] else [::].
have e4 : S4 = BindAll S3 1 S by rewrite /S4 /S; case: (hasSum x).
have t4 := tinv_bind S t3 (leqnn 1); rewrite -e4 in t4.
have [st5 -> t5] := tinv_cc H name t4 (erefl _).
rewrite /= !updE /= in t5 *; rewrite -catA in t5 *.
set B1 := _ ++ _ ++ S in t5 *.
have eB1 : B1 = vB1 (pfWitness pf) (pfLinSum pf) (pfSumSum pf) by [].
rewrite -/(c1 B0 B1) in t5 *.
have [st6 -> t6] := tinv_cc H name t5 (erefl _); rewrite /= !updE /= in t6 *.
rewrite -/(c2 B0 B1) in t6 *.
have [st7 -> t7] := tinv_cc H name t6 (erefl _); rewrite /= !updE /= in t7 *.
rewrite -/(c3 B0 B1) in t7 *.
have [st8 -> t8] := tinv_cc H name t7 (erefl _); rewrite /= !updE /= in t8 *.
rewrite -/(c4 B0 B1) in t8 *.
have t9 := tinv_bind (vB5 (pfWitness pf)) t8 (leqnn 5).
rewrite -/(vB5 (pfWitness pf)).
have [st10 -> t10] := tinv_cc H name t9 (erefl _); rewrite /= !updE /=.
rewrite /vchs -/B0 -eB1 -/(c5 B0 B1 (vB5 (pfWitness pf))).
rewrite -/(chs B0 B1 (vB5 (pfWitness pf))).
case: ifP => // _; rewrite /vChecks -[nth _ (chs _ _ _) 5]/(c5 B0 B1 (vB5 (pfWitness pf))).
case: (pVerify _ _ _ _) => //=.
by rewrite -map_comp three_checks.
Qed.

(** ** Prove in closed form *)
Local Notation ProveC := (ProveC U H name setBytes marshal xofProj T TE x).
Local Notation wEcd := (wEcd T TE).

Definition projFill (k : coins P) (proj : seq (seq bool)) (w : seq (seq F)) : option (seq (seq F)) :=
  if chasProj x then
    if (N < 128)%N then None else
    fillProjD U N (cprojD x) (ordProjD k) (fillProj proj (cproj x) (ordProj k) w)
  else Some w.

Definition ecdOf (k : coins P) w w2 i := wEcd k (if firstRound i then w else w2) i.
Definition wNTTs k w w2 := [seq fwdNTT TE (ecdOf k w w2 i) | i <- iota 0 (cwCnt x)].
Definition wPolys k w w2 := [seq comPoly (ecdOf k w w2 i) | i <- iota 0 (cwCnt x)].
Definition linMask (k : coins P) := (sumCheckMask TE x (kLin k) (2 * N)).1.
Definition linSum (k : coins P) := (sumCheckMask TE x (kLin k) (2 * N)).2.
Definition sumMask (k : coins P) := (sumCheckMask TE x (kSum k) (csumMax x)).1.
Definition sumSum (k : coins P) := (sumCheckMask TE x (kSum k) (csumMax x)).2.
Definition headPolys k w w2 := wPolys k w w2
  ++ (if hasLin x then [:: take (2 * N) (linMask k)] else [::])
  ++ (if hasSum x then [:: take (csumMax x) (sumMask k)] else [::]).

(** every Commit call draws the coins of its position *)
Definition comsAt (k : coins P) (i : nat) (ps : seq (seq F)) :=
  [seq pCommit (kC k (i + j)%N) (nth [::] ps j) | j <- iota 0 (size ps)].
Definition coms k ps := [seq c.1 | c <- comsAt k 0 ps].
Definition opns k ps := [seq c.2 | c <- comsAt k 0 ps].

Definition triple (q : seq F * seq F * seq F) := [:: q.1.1; q.1.2; q.2].
Definition aPart b pwN wN := if hasArith x then omap (fun q => [:: q]) (prv_arithCheck TE x b pwN wN) else Some [::].
Definition lPart proj b c k wN :=
  if hasLin x then omap triple (prv_linCheck U T TE x (pRank P) proj b c (linMask k) wN) else Some [::].
Definition sPart b k pwN wN :=
  if hasSum x then omap triple (prv_sumCheck TE x (pRank P) b (sumMask k) pwN wN) else Some [::].

Definition pB0 (k : coins P) w := [seq pSer (pCommit (kC k i) (comPoly (wEcd k w i))).1 | i <- iota 0 (cwCnt x) & firstRound i].

Definition pfOf k hd tl (pt : F) : proof P :=
  let polys := hd ++ tl in
  let r := pEvaluate (kE k) pt polys (coms k polys) (opns k polys) in
  Proof (coms k polys) (if hasLin x then linSum k else 0) (if hasSum x then sumSum k else 0) r.1 r.2.

Definition ProveE (k : coins P) (pw0 w0 : seq (seq F)) : option (proof P * seq bytes) :=
  if ~~ (8 %| N)%N || ~~ (8 %| E)%N || ((0 < cwCnt x) && (E <= N))%N then None else
  if fillInf U N (cinf x) (ordInf k) (padw N (cwCnt x) w0) is Some wi then
  if fillTwo U N (ctwo x) (ordTwo k) 0 (padw N (cpwCnt x) pw0) wi is Some (pw, w) then
  let pwN := [seq fwdNTT TE (encode T E v) | v <- pw] in
  let B0 := pB0 k w in
  let proj := xofProj N (c0 B0) in
  if projFill k proj w is Some w2 then
  let hd := headPolys k w w2 in
  let wN := wNTTs k w w2 in
  let B1 := vB1 (coms k hd) (linSum k) (sumSum k) in
  if aPart (setBytes (c1 B0 B1)) pwN wN is Some aP then
  if lPart proj (setBytes (c2 B0 B1)) (setBytes (c3 B0 B1)) k wN is Some lP then
  if sPart (setBytes (c4 B0 B1)) k pwN wN is Some sP then
  let tl := aP ++ lP ++ sP in
  let B5 := [seq pSer c.1 | c <- comsAt k (size hd) tl] in
  if ~~ all (commitOK P) (hd ++ tl) then None else
  Some (pfOf k hd tl (setBytes (c5 B0 B1 B5)), chs B0 B1 B5)
  else None else None else None else None else None else None.

Lemma comsAt_cat k i a b : comsAt k i (a ++ b) = comsAt k i a ++ comsAt k (i + size a) b.
Proof.
rewrite /comsAt size_cat iotaD map_cat add0n; congr (_ ++ _).
  by apply/eq_in_map => j; rewrite mem_iota => /andP [_ h]; rewrite nth_cat h.
rewrite -{1}[size a]addn0 iotaDl -map_comp; apply/eq_in_map => j _ /=.
by rewrite nth_cat ltnNge leq_addr /= addKn addnA.
Qed.


Lemma size_comsAt k i ps : size (comsAt k i ps) = size ps.
Proof. by rewrite size_map size_iota. Qed.

Lemma size_coms k ps : size (coms k ps) = size ps.
Proof. by rewrite size_map size_comsAt. Qed.

Lemma coms_cat k a b : coms k (a ++ b) = coms k a ++ [seq c.1 | c <- comsAt k (size a) b].
Proof. by rewrite /coms comsAt_cat map_cat add0n. Qed.

Lemma nth_ser k ps i : (i < size ps)%N ->
  nth [::] [seq pSer c | c <- coms k ps] i = pSer (pCommit (kC k i) (nth [::] ps i)).1.
Proof.
move=> h; rewrite /coms /comsAt -!map_comp (nth_map 0%N) ?size_iota //.
by rewrite /= nth_iota.
Qed.

Lemma size_wPolys k w w2 : size (wPolys k w w2) = cwCnt x.
Proof. by rewrite size_map size_iota. Qed.

Lemma nth_wPolys k w w2 i : (i < cwCnt x)%N -> nth [::] (wPolys k w w2) i = comPoly (ecdOf k w w2 i).
Proof. by move=> h; rewrite /wPolys (nth_map 0%N) ?size_iota // nth_iota. Qed.

Lemma size_headPolys k w w2 : size (headPolys k w w2) = (cwCnt x + hasLin x + hasSum x)%N.
Proof. by rewrite !size_cat size_wPolys -addnA; case: (hasLin x); case: (hasSum x). Qed.

Lemma nth_head_w k w w2 i : (i < cwCnt x)%N -> nth [::] (headPolys k w w2) i = comPoly (ecdOf k w w2 i).
Proof. by move=> h; rewrite nth_cat size_wPolys h nth_wPolys. Qed.

Lemma nth_head_lin k w w2 : hasLin x -> nth [::] (headPolys k w w2) (cwCnt x) = take (2 * N) (linMask k).
Proof. by move=> h; rewrite nth_cat size_wPolys ltnn subnn h. Qed.

Lemma nth_head_sum k w w2 : hasSum x ->
  nth [::] (headPolys k w w2) (cwCnt x + hasLin x) = take (csumMax x) (sumMask k).
Proof.
move=> h; rewrite nth_cat size_wPolys ltnNge leq_addr /= addKn h.
by case: (hasLin x).
Qed.

Hypothesis hsec : all (fun i => i < cwCnt x)%N (cwSecond x).

Lemma ProveCE k pw0 w0 : ProveC k pw0 w0 = ProveE k pw0 w0.
Proof.
rewrite /ProtocolModel.ProveC /ProveE.
case: ifP => // _; case: (fillInf _ _ _ _ _) => // wi.
case: (fillTwo _ _ _ _ _ _ _) => // -[pw w].
set B0 := pB0 k w.
have t0 := @tinv_bind _ _ _ 0 B0 tinv0 (leqnn _).
rewrite -[[seq pSer _ | i <- _ & _]]/B0.
have [v0 [st1 [-> ev0 t1]]] := tinv_cc' H name t0 (erefl _).
rewrite /= updE /= -/(c0 B0) in t1 ev0; rewrite {}ev0 in t1 *.
rewrite -/(projFill k _ w); case: (projFill _ _ _) => // w2.
case el: (sumCheckMask TE x (kLin k) (2 * N)) => [lm ls].
case es: (sumCheckMask TE x (kSum k) (csumMax x)) => [sm ss].
have elm : lm = linMask k by rewrite /linMask el.
have els : ls = linSum k by rewrite /linSum el.
have esm : sm = sumMask k by rewrite /sumMask es.
have ess : ss = sumSum k by rewrite /sumSum es.
rewrite {}elm {}els {}esm {}ess {el es lm ls sm ss}.
set hd := headPolys k w w2.
rewrite -/(wNTTs k w w2) -/(ecdOf k w w2).
set wN := wNTTs k w w2.
set ser := [seq pSer c | c <- coms k hd].
have esec : [seq pSer (pCommit (kC k i) (comPoly (ecdOf k w w2 i))).1 | i <- cwSecond x] =
            [seq nth [::] ser i | i <- cwSecond x].
  apply/eq_in_map => i hi; have hi' := allP hsec _ hi.
  rewrite nth_ser ?size_headPolys; last by rewrite -addnA ltn_addr.
  by rewrite nth_head_w.
rewrite /ecdOf in esec; rewrite {}esec.
set S2 := BindAll st1 1 _.
set S3 := if hasLin x then _ else S2.
set S4 := if hasSum x then _ else S3.
have t2 := tinv_bind [seq nth [::] ser i | i <- cwSecond x] t1 (leqnn 1); rewrite -/S2 in t2.
pose L := if hasLin x then [:: nth [::] ser (cwCnt x); marshal (linSum k)] else [::].
have e3 : S3 = BindAll S2 1 L.
  rewrite /S3 /L; case hl: (hasLin x) => //.
  by rewrite nth_ser ?nth_head_lin // size_headPolys hl; case: (hasSum x) => /=; lia.
have t3 := tinv_bind L t2 (leqnn 1); rewrite -{}e3 in t3.
pose S := if hasSum x then [:: nth [::] ser (cwCnt x + hasLin x)%N; marshal (sumSum k)] else [::].
have e4 : S4 = BindAll S3 1 S.
  rewrite /S4 /S; case hl: (hasSum x) => //.
  by rewrite nth_ser ?nth_head_sum // size_headPolys hl /= addn1.
have t4 := tinv_bind S t3 (leqnn 1); rewrite -{}e4 in t4.
have [v1 [st5 [-> ev1 t5]]] := tinv_cc' H name t4 (erefl _).
rewrite /= !updE /= -catA in t5 ev1.
set B1 := vB1 (coms k hd) (linSum k) (sumSum k).
rewrite -[_ ++ L ++ S]/B1 -/(c1 B0 B1) in ev1; rewrite {}ev1 in t5 *.
set pwN := map _ pw.
rewrite -/(aPart (setBytes (c1 B0 B1)) pwN wN).
case ea: (aPart _ _ _) => [aP|] //.
have saP : size aP = hasArith x.
  by move: ea; rewrite /aPart; case: (hasArith x); [case: (prv_arithCheck _ _ _ _ _) => //= q|] => -[<-].
have eaC : [seq pCommit (kC k (cwCnt x + hasLin x + hasSum x)) q | q <- aP] = comsAt k (size hd) aP.
  rewrite size_headPolys.
  case: (aP) saP => [|q [|q2 l]] //=; last by case: (hasArith x).
  by rewrite /comsAt /= addn0.
rewrite eaC -(size_headPolys k w w2) -/hd.
set a5 := [seq pSer c.1 | c <- comsAt k (size hd) aP].
have {}t5 := tinv_bind a5 t5 (isT : 2 <= 5)%N.
have [v2 [st6 [-> ev2 t6]]] := tinv_cc' H name t5 (erefl _).
rewrite /= !updE /= -/(c2 B0 B1) in t6 ev2; rewrite {}ev2 in t6 *.
have [v3 [st7 [-> ev3 t7]]] := tinv_cc' H name t6 (erefl _).
rewrite /= !updE /= -/(c3 B0 B1) in t7 ev3; rewrite {}ev3 in t7 *.
rewrite -/triple -/(lPart (xofProj N (c0 B0)) (setBytes (c2 B0 B1)) (setBytes (c3 B0 B1)) k wN).
case elP: (lPart _ _ _ _ _) => [lP|] //.
rewrite -/(comsAt k (size hd + size aP) lP).
set l5 := [seq pSer c.1 | c <- comsAt k _ lP].
have {}t7 := tinv_bind l5 t7 (isT : 4 <= 5)%N.
have [v4 [st8 [-> ev4 t8]]] := tinv_cc' H name t7 (erefl _).
rewrite /= !updE /= -/(c4 B0 B1) in t8 ev4; rewrite {}ev4 in t8 *.
rewrite -/triple -/(sPart (setBytes (c4 B0 B1)) k pwN wN).
case esP: (sPart _ _ _ _) => [sP|] //.
rewrite -/(comsAt k (size hd + size aP + size lP) sP).
set s5 := [seq pSer c.1 | c <- comsAt k _ sP].
have {}t8 := tinv_bind s5 t8 (isT : 5 <= 5)%N.
have [v5 [st9 [-> ev5 t9]]] := tinv_cc' H name t8 (erefl _).
rewrite /= !updE /= -catA in ev5.
have e5 : a5 ++ l5 ++ s5 = [seq pSer c.1 | c <- comsAt k (size hd) (aP ++ lP ++ sP)].
  by rewrite !comsAt_cat !map_cat.
rewrite {}e5 in ev5; set B5 := map _ _ in ev5 *.
rewrite -/(c5 B0 B1 B5) in ev5; rewrite {}ev5.
have ep : [seq comPoly (wEcd k (if firstRound i then w else w2) i) | i <- iota 0 (cwCnt x)] ++
    (if hasLin x then [:: take (2 * N) (linMask k)] else [::]) ++
    (if hasSum x then [:: take (csumMax x) (sumMask k)] else [::]) ++ aP ++ lP ++ sP = hd ++ aP ++ lP ++ sP.
  by rewrite /hd /headPolys -!catA.
rewrite {}ep; case: ifP => // _.
set C := [seq pCommit _ _ | i <- _] ++ _.
have eh : comsAt k 0 hd = [seq pCommit (kC k i) (comPoly (wEcd k (if firstRound i then w else w2) i)) | i <- iota 0 (cwCnt x)]
   ++ (if hasLin x then [:: pCommit (kC k (cwCnt x)) (take (2 * N) (linMask k))] else [::])
   ++ (if hasSum x then [:: pCommit (kC k (cwCnt x + hasLin x)) (take (csumMax x) (sumMask k))] else [::]).
  rewrite /hd /headPolys !comsAt_cat !size_wPolys !add0n.
  congr (_ ++ _).
    rewrite /comsAt size_wPolys; apply/eq_in_map => i; rewrite mem_iota => /andP [_ hi].
    by rewrite add0n nth_wPolys.
  congr (_ ++ _); first by case: (hasLin x) => //; rewrite /comsAt /= addn0.
  have -> : size (if hasLin x then [:: take (2 * N) (linMask k)] else [::]) = hasLin x by case: (hasLin x).
  by case: (hasSum x) => //; rewrite /comsAt /= addn0.
have eC : C = comsAt k 0 (hd ++ aP ++ lP ++ sP).
  by rewrite /C (comsAt_cat _ _ hd) (comsAt_cat _ _ aP) (comsAt_cat _ _ lP) !add0n eh -!catA.
rewrite {}eC /pfOf -/(coms k _) -/(opns k _).
by case: (pEvaluate _ _ _ _ _).
Qed.

(** the bytes the verifier binds are those the prover bound *)
Lemma vB0_coms k w w2 tl : vB0 (coms k (headPolys k w w2 ++ tl)) = pB0 k w.
Proof.
apply/eq_in_map => i; rewrite mem_filter mem_iota => /andP [hf /andP [_ hi]].
have hi' : (i < size (headPolys k w w2))%N by rewrite size_headPolys -addnA ltn_addr.
rewrite nth_ser; last by rewrite size_cat (leq_trans hi') // leq_addr.
by rewrite nth_cat hi' nth_head_w // /ecdOf hf.
Qed.

Lemma nth_ser_hd k hd tl i : (i < size hd)%N ->
  nth [::] [seq pSer c | c <- coms k (hd ++ tl)] i = nth [::] [seq pSer c | c <- coms k hd] i.
Proof. by move=> h; rewrite coms_cat map_cat nth_cat size_map size_coms h. Qed.

Lemma vB1_coms k w w2 tl ls ss :
  vB1 (coms k (headPolys k w w2 ++ tl)) ls ss = vB1 (coms k (headPolys k w w2)) ls ss.
Proof.
rewrite /vB1; congr (_ ++ (_ ++ _)).
- apply/eq_in_map => i hi; have hi' := allP hsec _ hi.
  by rewrite nth_ser_hd // size_headPolys -addnA ltn_addr.
- case hl: (hasLin x) => //; rewrite nth_ser_hd // size_headPolys hl; case: (hasSum x) => /=; lia.
- case hl: (hasSum x) => //; rewrite nth_ser_hd // size_headPolys hl /=; lia.
Qed.

Lemma vB1_if C (ls ss : F) :
  vB1 C (if hasLin x then ls else 0) (if hasSum x then ss else 0) = vB1 C ls ss.
Proof. by rewrite /vB1; case: (hasLin x); case: (hasSum x). Qed.

Lemma vB5_coms k w w2 tl :
  vB5 (coms k (headPolys k w w2 ++ tl)) = [seq pSer c.1 | c <- comsAt k (size (headPolys k w w2)) tl].
Proof.
rewrite /vB5 coms_cat map_cat -map_comp drop_cat size_map size_coms size_headPolys ltnn subnn drop0.
by [].
Qed.

Lemma prove_chs k pw0 w0 pf cs : ProveC k pw0 w0 = Some (pf, cs) -> cs = vchs pf.
Proof.
rewrite ProveCE /ProveE; case: ifP => // _; case: (fillInf _ _ _ _ _) => // wi.
case: (fillTwo _ _ _ _ _ _ _) => // -[pw w]; case: (projFill _ _ _) => // w2.
case: (aPart _ _ _) => // aP; case: (lPart _ _ _ _ _) => // lP; case: (sPart _ _ _ _) => // sP.
case: ifP => // _ [<- <-].
by rewrite /vchs /pfOf /= vB0_coms vB1_if vB1_coms vB5_coms.
Qed.

End ProtocolP.
