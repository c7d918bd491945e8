(** C61, C71, C81, C82: parameter bookkeeping and the search for a modulus. *)
From Coq Require Import ZArith Lia.
From mathcomp Require Import all_ssreflect.
From mathcomp.zify Require Import zify ssrZ.
From Verif Require Import ParamsModel.
Set Implicit Arguments. Unset Strict Implicit. Unset Printing Implicit Defensive.
Delimit Scope Z_scope with Z.
Local Arguments Z.mul : simpl never.
Local Arguments Z.add : simpl never.
Local Arguments Z.sub : simpl never.
Local Arguments Z.pow : simpl never.
Local Arguments Z.of_nat : simpl never.

(** * C61 *)

Lemma slots_exact j : (slotsOf (2 ^ j) * 2 ^ j = degreeOf (2 ^ j))%N /\ (0 < slotsOf (2 ^ j))%N.
Proof.
rewrite /slotsOf /degreeOf; have h0 : (0 < 2 ^ j)%N by rewrite expn_gt0.
case: (leqP j 8) => h.
  have hle : (2 ^ j <= 256)%N by rewrite -[256%N]/(2 ^ 8)%N leq_exp2l.
  rewrite (maxn_idPr hle); have -> : 256%N = (2 ^ (8 - j) * 2 ^ j)%N by rewrite -expnD subnK.
  by rewrite mulnK // expn_gt0.
have hle : (256 <= 2 ^ j)%N by rewrite -[256%N]/(2 ^ 8)%N leq_exp2l // ltnW.
by rewrite (maxn_idPl hle) divnn h0 mul1n.
Qed.
Lemma ceilDivP a b : (0 < b)%N -> (a <= ceilDiv a b * b < a + b)%N.
Proof. move=> h; rewrite /ceilDiv; have := divn_eq (a + (b - 1)) b; have := ltn_pmod (a + (b - 1)) h; lia. Qed.

(** what a round leaves *)
Definition consistent (targetN exp : nat) (p : parameters) : Prop :=
  [/\ pRank p = (pCols p * (pRows p - 1) * pSlots p)%N, pSlots p = slotsOf exp,
      pRows p = (ceilDiv targetN (pCols p * slotsOf exp)).+1, (0 < pCols p)%N & pDcmpLen p = ((pCols p).+1 * pInRank p)%N].
Lemma nnList_pos c nn : nn \in nnList c -> (0 < nn <= c)%N.
Proof. by rewrite mem_filter => /andP[h /mapP[i _ e]]; rewrite h andbT e expn_gt0. Qed.
Lemma fold_inv targetN exp cand (P : parameters * option Z -> Prop) l st :
  P st -> (forall st nn, nn \in l -> P st -> P (paramStep targetN exp cand st nn)) ->
  P (foldl (paramStep targetN exp cand) st l).
Proof.
elim: l st => [//|n l IH] st h hs /=; apply: IH; first by apply: hs => //; rewrite mem_head.
by move=> st' nn hn; apply: hs; rewrite in_cons hn orbT.
Qed.

(** For every size and every power-of-two exponent, whatever the floats give: either no round was
    accepted and the parameters are the zero value, or the polynomial fits: rank = rows' * cols *
    slots >= targetN (with rows' = rows - 1, the last row being the blinding row), less than one
    row above it, and slots * exp is the ring degree. *)
Theorem C61_rank targetN j cand p : NewParameters targetN (2 ^ j) cand = Some p ->
  p = zeroParameters \/
  [/\ pRank p = (pCols p * (pRows p - 1) * pSlots p)%N, (targetN <= pRank p < targetN + pCols p * pSlots p)%N,
      (pSlots p * 2 ^ j = maxn (2 ^ j) 256)%N & pDcmpLen p = ((pCols p).+1 * pInRank p)%N].
Proof.
rewrite /NewParameters; case: ifP => // _ [<-].
set c := ceilDiv _ _; pose P (st : parameters * option Z) := st.1 = zeroParameters \/ consistent targetN (2 ^ j) st.1.
have : P (foldl (paramStep targetN (2 ^ j) cand) (zeroParameters, None) (nnList c)).
  apply: fold_inv; first by left.
  move=> [ps ms] nn /nnList_pos /andP[h0 _] hP; rewrite /paramStep; case: (cand nn) => [cd|//].
  case: ifP => // _; have C q qq t : consistent targetN (2 ^ j) (Parameters (nn * ceilDiv targetN (nn * slotsOf (2 ^ j)) * slotsOf (2 ^ j))
     (ceilDiv targetN (nn * slotsOf (2 ^ j))).+1 nn (degreeOf (2 ^ j) %/ 2 ^ j) (cInRank cd) (cOutRank cd) (nn.+1 * cInRank cd) q qq t).
    by split=> //=; rewrite subn1.
  by case: (cPrimes cd) => [q|]; [case: (cPrimesOut cd) => [qq|] |]; right; apply: C.
move: (foldl _ _ _) => [ps ms] [/= -> | [h1 h2 h3 h4 h5]]; [by left | right].
have [e1 e2] := slots_exact j; move: h1 h2 h3 h4 h5 => /= h1 h2 h3 h4 h5.
split=> //; last by rewrite h2.
have := @ceilDivP targetN (pCols ps * slotsOf (2 ^ j)); rewrite muln_gt0 h4 e2 => /(_ isT).
rewrite h1 h2 h3 subn1 succnK; move: (ceilDiv _ _) => a; move: (pCols ps) (slotsOf _) => b s; lia.
Qed.
(** with prime generation that succeeds in every round, rings and norms belong to the round that
    set the rank *)
Theorem C61_one_round_partial targetN exp cand p :
  (forall nn c, cand nn = Some c -> cPrimes c <> None /\ cPrimesOut c <> None) ->
  NewParameters targetN exp cand = Some p -> p = zeroParameters \/
  exists c, [/\ cand (pCols p) = Some c, pQ p = cPrimes c, pQOut p = cPrimesOut c, pNorms p = Some (pCols p) & pInRank p = cInRank c].
Proof.
move=> hc; rewrite /NewParameters; case: ifP => // _ [<-]; set cc := ceilDiv _ _.
pose P (st : parameters * option Z) := st.1 = zeroParameters \/ exists c, [/\ cand (pCols st.1) = Some c, pQ st.1 = cPrimes c, pQOut st.1 = cPrimesOut c,
  pNorms st.1 = Some (pCols st.1) & pInRank st.1 = cInRank c].
rewrite -/(P (foldl (paramStep targetN exp cand) (zeroParameters, None) (nnList cc))); apply: fold_inv; first by left.
move=> [ps ms] nn _ hP; rewrite /paramStep; case E : (cand nn) => [cd|//]; case: ifP => // _.
have [] := hc _ _ E; case E1 : (cPrimes cd) => [q|//] _; case E2 : (cPrimesOut cd) => [qq|//] _.
by right; exists cd.
Qed.
(** Otherwise they can come from different rounds: here cols = 2 with the rings and norms of
    cols = 1 *)
Definition exCand (nn : nat) : option candidate :=
  if nn == 1%N then Some (Candidate 100 3 2 (Some [:: 97%Z]) (Some [:: 193%Z]))
  else if nn == 2%N then Some (Candidate 90 4 2 None (Some [:: 193%Z])) else None.
Theorem C61_mixed_refuted : exists targetN cand p, NewParameters targetN 2 cand = Some p /\
  pCols p = 2%N /\ pNorms p = Some 1%N /\ pInRank p = 4%N /\ pQ p = Some [:: 97%Z].
Proof. by exists 256%N, exCand; eexists; split; first reflexivity. Qed.
(** and when no round succeeds the zero value comes back without an error *)
Theorem C61_silent_refuted targetN exp : (0 < targetN)%N -> NewParameters targetN exp (fun _ => None) = Some zeroParameters.
Proof.
move=> h; rewrite /NewParameters ltnNge h /=; congr Some.
by elim: (nnList _) => [//|n l IH] /=.
Qed.
Example ex_C61 : omap pRank (NewParameters 1000 4 (fun nn => Some (Candidate (Z.of_nat nn) 3 2 (Some [:: 97%Z]) (Some [:: 193%Z])))) = Some 1024%N.
Proof. by vm_compute. Qed.

(** * C81: the search for the rank ends *)

(** Once the bit length of q exceeds 240 the loop never ends, since q grows with mu *)
Theorem C81_diverges_refuted logQ rank mu fuel :
  (forall a b, (a <= b)%N -> (logQ a <= logQ b)%Z) -> (maxLogQ < logQ mu)%Z -> muLoop fuel mu logQ rank = None.
Proof.
move=> hm; elim: fuel mu => [//|f IH] mu h /=.
have -> : (maxLogQ <? logQ mu)%Z by apply/Z.ltb_lt.
by apply: IH; have := hm mu mu.+1 (leqnSn mu); lia.
Qed.
(** below it, a rank that is nondecreasing in mu and at most some mu with q small up to there is
    found, and it is the least fixed point *)
Theorem C81_least_partial logQ rank top : (0 < top)%N ->
  (forall a, (a <= top)%N -> (logQ a <= maxLogQ)%Z) -> (forall a b, (a <= b)%N -> (rank a <= rank b)%N) -> (0 < rank 1)%N ->
  (rank top <= top)%N ->
  exists mu, [/\ muLoop top 1 logQ rank = Some mu, rank mu = mu, (mu <= top)%N & forall a, (0 < a < mu)%N -> rank a <> a].
Proof.
move=> h0 hq hr h1 ht.
have ex : exists a, (0 < a)%N && (rank a <= a)%N by exists top; rewrite h0.
case: (ex_minnP ex) => mu /andP[m0 m1] hmin.
have emu : rank mu = mu.
  apply/eqP; rewrite eqn_leq m1 /=; case: mu m0 m1 hmin => [//|[|m]] _ m1 hmin; first exact: h1.
  rewrite leqNgt; apply/negP => hlt; have hge : (rank m.+1 <= m.+1)%N by apply: leq_trans (hr _ _ (leqnSn _)) hlt.
  by have := hmin m.+1; rewrite hge => /(_ isT); lia.
have hle : (mu <= top)%N by apply: hmin; rewrite h0.
exists mu; split=> //; last by move=> a /andP[a0 a1] e; have := hmin a; rewrite a0 e leqnn => /(_ isT); lia.
have L : forall fuel a, (0 < a <= mu)%N -> (mu < a + fuel)%N -> muLoop fuel a logQ rank = Some mu.
  elim=> [|f IH] a /andP[a0 ha] hf /=; first by lia.
  have -> : (maxLogQ <? logQ a)%Z = false by apply/Z.ltb_ge; apply: hq; lia.
  case: eqP => e; last by apply: IH; [case: (ltngtP a mu) ha => // e2; rewrite ?e2 // in e | lia].
  by congr Some; apply/eqP; rewrite eqn_leq ha; apply: hmin; rewrite a0 e leqnn.
by apply: L; lia.
Qed.
Example ex_C81 : muLoop 9 1 (fun mu => 200 + Z.of_nat mu)%Z (fun mu => 3 + mu %/ 2)%N = Some 5%N.
Proof. by vm_compute. Qed.

(** * C71 *)

(** what is promised about a modulus *)
Definition goodModulus (prime : Z -> bool) (s e p b k : Z) : Prop :=
  [/\ p = (b ^ k + 1)%Z, (s <= BitLen p < e)%Z, prime p, ((2 ^ 31 | b ^ k))%Z & (b <= 2 ^ 25)%Z].
Lemma baseOKP prime s e k b : reflect (goodModulus prime s e (b ^ k + 1) b k) (baseOK prime s e k b).
Proof.
rewrite /baseOK; apply: (iffP idP).
  case: Z.ltb_spec => // h1; case: Z.leb_spec => //= h2; case: (boolP (prime _)) => //= h3.
  case: Z.eqb_spec => //= h4; case: Z.ltb_spec => // h5 _; split=> //.
  by apply/Z.mod_divide.
case=> _ [h1 h2] h3 h4 h5.
have -> : (BitLen (b ^ k + 1) <? s)%Z = false by apply/Z.ltb_ge.
have -> : (e <=? BitLen (b ^ k + 1))%Z = false by apply/Z.leb_gt.
rewrite h3 /= (_ : ((b ^ k) mod (2 * maxRank) = 0)%Z) /=; last by apply/Z.mod_divide.
by have -> : (baseBound <? b)%Z = false by apply/Z.ltb_ge.
Qed.
Lemma baseLoopP prime s e k lo hi :
  match baseLoop prime s e k lo hi with
  | Some b => goodModulus prime s e (b ^ k + 1) b k /\ (lo <= b <= hi)%Z
  | None => forall b, (lo <= b <= hi)%Z -> ~ goodModulus prime s e (b ^ k + 1) b k
  end.
Proof.
rewrite /baseLoop; set bs := map _ _; case: ltnP => h.
  have hf : has (baseOK prime s e k) bs by rewrite has_find.
  split; first by apply/baseOKP; apply: nth_find.
  have : nth 0%Z bs (find (baseOK prime s e k) bs) \in bs by rewrite mem_nth.
  move: (nth _ _ _) => b /mapP[i]; rewrite mem_iota => hi' ->; lia.
move=> b hb hg; have : has (baseOK prime s e k) bs.
  apply/hasP; exists b; last exact/baseOKP.
  by apply/mapP; exists (Z.to_nat (b - lo)); [rewrite mem_iota; lia | lia].
by rewrite has_find ltnNge h.
Qed.
(** every answer is a good modulus, with a power of two exponent below the bit length, whatever
    the primality test and the float roots say *)
Theorem C71_sound prime s e bLo bHi p b k : findModulus prime s e bLo bHi = Some (p, b, k) ->
  goodModulus prime s e p b k /\ exists logk, (0 < logk)%N /\ k = (2 ^ Z.of_nat logk)%Z /\ (k < e)%Z.
Proof.
rewrite /findModulus; set l := iota _ _.
have : forall i, i \in l -> (0 < i)%N /\ (2 ^ Z.of_nat i < e)%Z.
  move=> i; rewrite mem_iota => hi; split; first by lia.
  have h1 : (Z.of_nat i < Z.log2_up e)%Z by lia.
  case: (Z.lt_ge_cases (2 ^ Z.of_nat i) e) => // h2.
  by have := proj1 (Z.log2_up_le_pow2 e (Z.of_nat i) _) h2; have := Z.log2_up_nonneg e; case: (Z.leb_spec e 0) => h3;
     [have := Z.log2_up_eqn0 e; lia | lia].
elim: l => [//|logk l IH] hl /=.
have hl' : forall i, i \in l -> (0 < i)%N /\ (2 ^ Z.of_nat i < e)%Z by move=> i hi; apply: hl; rewrite in_cons hi orbT.
case: ifP => _; first exact: IH.
have := baseLoopP prime s e (2 ^ Z.of_nat logk) (bLo (2 ^ Z.of_nat logk)%Z) (bHi (2 ^ Z.of_nat logk)%Z).
case: baseLoop => [b' [hg _] [<- <- <-]|_]; last exact: IH.
by split=> //; exists logk; have [] := hl logk (mem_head _ _).
Qed.
(** and nothing is missed: if the roots are right, nil means there is no good modulus with
    exponent 2^logk, 1 <= logk < ceil(log2(e)) *)
Definition rootFloor (x k r : Z) : Prop := (0 <= r /\ r ^ k <= x < (r + 1) ^ k)%Z.
Theorem C71_complete (prime : Z -> bool) s e bLo bHi : (1 <= s)%Z -> (1 <= e)%Z ->
  (forall x, prime x -> forall m, (1 <= m)%Z -> x <> (2 * 2 ^ m)%Z) ->
  (forall logk, rootFloor (2 ^ (s - 1)) (2 ^ Z.of_nat logk) (bLo (2 ^ Z.of_nat logk)%Z)) ->
  (forall logk, (2 ^ e <= bHi (2 ^ Z.of_nat logk) ^ 2 ^ Z.of_nat logk /\ 0 <= bHi (2 ^ Z.of_nat logk))%Z) ->
  findModulus prime s e bLo bHi = None ->
  forall logk b p, (1 <= logk)%N -> (Z.of_nat logk < Z.log2_up e)%Z -> (2 <= b)%Z -> ~ goodModulus prime s e p b (2 ^ Z.of_nat logk).
Proof.
move=> hs he hpr hlo hhi hn logk b p h1 h2 hb hg.
have K0 : (0 < 2 ^ Z.of_nat logk)%Z by apply: Z.pow_pos_nonneg; lia.
have [ep [hl1 hl2] hp hd hbb] := hg.
have bpos : (0 < b ^ 2 ^ Z.of_nat logk)%Z by apply: Z.pow_pos_nonneg; lia.
have hlog := Z.log2_spec p _; rewrite ep in hlog hl1 hl2 hp; rewrite /BitLen in hl1 hl2.
have {hlog} [g1 g2] := hlog ltac:(lia).
(* b is within the roots *)
have B1 : (bLo (2 ^ Z.of_nat logk) <= b)%Z.
  have [r0 [r1 r2]] := hlo logk.
  case: (Z.le_gt_cases (bLo (2 ^ Z.of_nat logk)%Z) b) => // hlt.
  have hpl : (b ^ 2 ^ Z.of_nat logk < bLo (2 ^ Z.of_nat logk) ^ 2 ^ Z.of_nat logk)%Z by apply: Z.pow_lt_mono_l; lia.
  have hge : (2 ^ (s - 1) <= 2 ^ Z.log2 (b ^ 2 ^ Z.of_nat logk + 1))%Z by apply: Z.pow_le_mono_r; lia.
  have E : (b ^ 2 ^ Z.of_nat logk + 1 = 2 ^ (s - 1))%Z by lia.
  have [d ed] := hd.
  have s2 : (2 <= s - 1)%Z.
    case: (Z.le_gt_cases 2 (s - 1)) => // hs2.
    have : (2 ^ (s - 1) <= 2 ^ 1)%Z by apply: Z.pow_le_mono_r; lia.
    have : (2 ^ 1 <= b ^ 2 ^ Z.of_nat logk)%Z; last lia.
    apply: (Z.le_trans _ (b ^ 1)); first by rewrite !Z.pow_1_r.
    by apply: Z.pow_le_mono_r; lia.
  exfalso; apply: (hpr _ hp (s - 2)%Z); first lia.
  by rewrite E -Z.pow_succ_r; [congr (2 ^ _)%Z|]; lia.
have B2 : (b <= bHi (2 ^ Z.of_nat logk))%Z.
  have [r1 r2] := hhi logk.
  case: (Z.le_gt_cases b (bHi (2 ^ Z.of_nat logk)%Z)) => // hlt.
  have hpl : (bHi (2 ^ Z.of_nat logk) ^ 2 ^ Z.of_nat logk < b ^ 2 ^ Z.of_nat logk)%Z by apply: Z.pow_lt_mono_l; lia.
  have : (2 ^ Z.succ (Z.log2 (b ^ 2 ^ Z.of_nat logk + 1)) <= 2 ^ e)%Z by apply: Z.pow_le_mono_r; lia.
  lia.
have hin : logk \in iota 1 (Z.to_nat (Z.log2_up e) - 1) by rewrite mem_iota; lia.
move: hn; rewrite /findModulus; elim: (iota _ _) hin => [//|a l IH] /=.
rewrite in_cons => /orP[/eqP <-|hin]; last first.
  by case: ifP => _; [apply: IH | case: baseLoop => // hn; apply: IH].
have -> : (baseBound <? bLo (2 ^ Z.of_nat logk))%Z = false by apply/Z.ltb_ge; rewrite /baseBound; lia.
have := baseLoopP prime s e (2 ^ Z.of_nat logk) (bLo (2 ^ Z.of_nat logk)%Z) (bHi (2 ^ Z.of_nat logk)%Z).
by case: baseLoop => // hno _; apply: (hno b); [lia | rewrite -ep].
Qed.
Print Assumptions C61_rank.
Print Assumptions C61_one_round_partial.
Print Assumptions C61_mixed_refuted.
Print Assumptions C81_diverges_refuted.
Print Assumptions C81_least_partial.
Print Assumptions C71_sound.
Print Assumptions C71_complete.
(** 62 bits: with roots only for k = 8 (197 .. 228), the smallest base whose power plus one is the
    prime 208^8 + 1 *)
Example ex_C71 : findModulus (fun p => (p =? 3503536769037500417)%Z) 62 63
   (fun k => if (k =? 8)%Z then 197 else 1)%Z (fun k => if (k =? 8)%Z then 228 else 0)%Z
  = Some (3503536769037500417, 208, 8)%Z.
Proof. by vm_compute. Qed.
(** the roots in it are right *)
Example ex_C71_roots : rootFloor (2 ^ 61) 8 197 /\ (2 ^ 62 <= 228 ^ 8)%Z.
Proof. by vm_compute. Qed.
