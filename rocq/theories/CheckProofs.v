(** The arithmetic, linear and sum checks: what the prover's transforms compute and what the
    verifier's equations test, as polynomial identities. *)
From Coq Require Import ZArith Lia.
From mathcomp Require Import all_ssreflect all_algebra zify.
From Verif Require Import RingTac Spec UintModel BigpolyModel BitrevProofs NttProofs NttCore UintProofs NttTables
  PolyProofs RingProofs NormModel BucklerModel DefineModel BucklerSpec FillProofs ContextProofs CheckerProofs EncodeProofs.
Set Implicit Arguments. Unset Strict Implicit. Unset Printing Implicit Defensive.
Import GRing.Theory.
Local Open Scope ring_scope.
Delimit Scope Z_scope with Z.
Local Notation V N := ('X^N - 1).

Section Ops.
Variables (F : fieldType) (m : nat) (h : F).
Local Notation E := (2 ^ m)%N.
Local Notation ev := (evs m h).
Implicit Types (A B : {poly F}).

Lemma addv_evs A B : addv (ev A) (ev B) = ev (A + B).
Proof.
apply: (@eq_from_nth _ 0); rewrite size_map size_zip !size_evs minnn // => i hi.
by rewrite (nth_map (0, 0)) ?size_zip ?size_evs ?minnn // nth_zip ?size_evs //= !nth_evs // hornerD.
Qed.
Lemma subv_evs A B : subv (ev A) (ev B) = ev (A - B).
Proof.
apply: (@eq_from_nth _ 0); rewrite size_map size_zip !size_evs minnn // => i hi.
by rewrite (nth_map (0, 0)) ?size_zip ?size_evs ?minnn // nth_zip ?size_evs //= !nth_evs // hornerD hornerN.
Qed.
Lemma mulv_evs A B : mulv (ev A) (ev B) = ev (A * B).
Proof.
apply: (@eq_from_nth _ 0); first by rewrite size_mulv !size_evs.
by rewrite size_mulv ?size_evs // => i hi; rewrite nth_mulv ?size_evs // !nth_evs // hornerM.
Qed.
Lemma scalev_evs (b : F) A : scalev b (ev A) = ev (A * b%:P).
Proof.
apply: (@eq_from_nth _ 0); rewrite size_map !size_evs // => i hi.
by rewrite (nth_map 0) ?size_evs // !nth_evs // hornerM hornerC.
Qed.
Lemma nseq_evs (c : F) : nseq E c = ev c%:P.
Proof.
apply: (@eq_from_nth _ 0); rewrite size_nseq ?size_evs // => i hi.
by rewrite nth_nseq hi nth_evs // hornerC.
Qed.
Lemma addv_cf k A B : addv (cf k A) (cf k B) = cf k (A + B).
Proof.
apply: (@eq_from_nth _ 0); rewrite size_map size_zip !size_cf minnn // => i hi.
by rewrite (nth_map (0, 0)) ?size_zip ?size_cf ?minnn // nth_zip ?size_cf //= !nth_mkseq // coefD.
Qed.
End Ops.

Lemma addv0_cf (F : fieldType) (A B : {poly F}) k : (size A <= k)%N -> addv (cf k A) (cf k B) = cf k (A + B).
Proof. by move=> _; exact: addv_cf. Qed.

Section Circ.
Variables (F : fieldType) (PW W : nat -> {poly F}).
Implicit Types (t : term F) (c : constraint F) (cs : seq (constraint F)).

(** the polynomial of a term, of a constraint, and of a batch of constraints *)
Definition tpoly t : {poly F} :=
  (tcoeff t)%:P * (if tpw t is Some j then PW j else 1) * \prod_(j <- twit t) W j.
Definition cpoly c : {poly F} := \sum_(t <- c) tpoly t.
Definition circ (b : F) cs : {poly F} := \sum_(c <- cs) cpoly c * b%:P.

Lemma circE b cs : circ b cs = b%:P * \sum_(c <- cs) cpoly c.
Proof. by rewrite mulrC mulr_suml. Qed.

(** degrees *)
Lemma size_tpoly N t np nw : termIn np nw t -> (0 < N)%N ->
  (forall j, (j < np)%N -> (size (PW j) <= N)%N) -> (forall j, (j < nw)%N -> (size (W j) <= N.+1)%N) ->
  (size (tpoly t) <= (termDeg N t).+1)%N.
Proof.
move=> /andP[hp hw] N0 sP sW; rewrite /tpoly /termDeg.
apply: size_mul_deg.
  rewrite -[X in (_ <= X.+1)%N]add0n; apply: size_mul_deg; first exact: size_polyC_deg.
  by case: (tpw t) hp => [j hj|_]; [have := sP j hj; lia|rewrite size_poly1].
elim: (twit t) hw => [_|j l IH] /=; first by rewrite big_nil size_poly1.
by move=> /andP[hj /IH hl]; rewrite big_cons mulSn; apply: size_mul_deg => //; exact: sW.
Qed.

Lemma maxRank_le N c t : List.In t c -> (termDeg N t < maxRank N c)%N.
Proof.
rewrite /maxRank ltnS; move: 0%N => a.
have mono (l : constraint F) b : (b <= foldl (fun m t => if m < termDeg N t then termDeg N t else m) b l)%N.
  elim: l b => [|u l IH] b //=; apply: leq_trans (IH _); case: ifP => // /ltnW; exact.
elim: c a => [|u c IH] a //= [->|/IH]; last exact.
by apply: leq_trans (mono _ _); case: ifP => // /negbT; rewrite -leqNgt.
Qed.

Lemma size_sum_leq (I : Type) (r : seq I) (f : I -> {poly F}) k :
  (forall i, List.In i r -> (size (f i) <= k)%N) -> (size (\sum_(i <- r) f i)%R <= k)%N.
Proof.
elim: r => [|i r IH] h; first by rewrite big_nil size_poly0.
rewrite big_cons (leq_trans (size_add _ _)) // geq_max h /=; [apply: IH|by left].
by move=> j hj; apply: h; right.
Qed.

Lemma all_In (A : Type) (p : pred A) s a : all p s -> List.In a s -> p a.
Proof. by elim: s => [|b s IH] //= /andP[hb /IH hs] [<-|]. Qed.

Lemma size_cpoly N c np nw : consIn np nw c -> (0 < N)%N ->
  (forall j, (j < np)%N -> (size (PW j) <= N)%N) -> (forall j, (j < nw)%N -> (size (W j) <= N.+1)%N) ->
  (size (cpoly c) <= maxRank N c)%N.
Proof.
move=> hc N0 sP sW; apply: size_sum_leq => t ht.
by apply: leq_trans (maxRank_le N ht); apply: (size_tpoly (np := np) (nw := nw)) => //; apply: all_In hc ht.
Qed.

Lemma size_mulC (A : {poly F}) (b : F) k : (size A <= k)%N -> (size (A * b%:P)%R <= k)%N.
Proof. by move=> hA; rewrite mulrC mul_polyC (leq_trans (size_scale_leq _ _)). Qed.

Lemma size_circ N b cs np nw M : all (consIn np nw) cs -> (0 < N)%N ->
  (forall j, (j < np)%N -> (size (PW j) <= N)%N) -> (forall j, (j < nw)%N -> (size (W j) <= N.+1)%N) ->
  (forall c, List.In c cs -> (maxRank N c <= M)%N) -> (size (circ b cs) <= M)%N.
Proof.
move=> hcs N0 sP sW hM; apply: size_sum_leq => c hc; apply: size_mulC.
apply: leq_trans (hM c hc); apply: (size_cpoly (np := np) (nw := nw)) => //; apply: all_In hcs hc.
Qed.

(** values *)
Lemma tpoly_val (pw w : seq (seq F)) i y np nw t : termIn np nw t ->
  (forall j, (j < np)%N -> (PW j).[y] = slot pw j i) -> (forall j, (j < nw)%N -> (W j).[y] = slot w j i) ->
  (tpoly t).[y] = tval_ pw w i t.
Proof.
move=> /andP[hp hw] vP vW; rewrite /tpoly /tval_ !hornerM hornerC; congr (_ * _ * _).
  by case: (tpw t) hp => [j /vP|_]; rewrite ?hornerC.
elim: (twit t) hw => [_|j l IH] /=; first by rewrite !big_nil hornerC.
by move=> /andP[hj /IH hl]; rewrite !big_cons hornerM hl vW.
Qed.

Lemma cpoly_val (pw w : seq (seq F)) i y np nw c : consIn np nw c ->
  (forall j, (j < np)%N -> (PW j).[y] = slot pw j i) -> (forall j, (j < nw)%N -> (W j).[y] = slot w j i) ->
  (cpoly c).[y] = cval pw w i c.
Proof.
move=> hc vP vW; rewrite /cpoly /cval; elim: c hc => [_|t c IH] /=; first by rewrite !big_nil horner0.
move=> /andP[ht /IH e]; rewrite !big_cons hornerD e; congr (_ + _).
exact: (tpoly_val (np := np) (nw := nw)).
Qed.

Lemma circ_val (pw w : seq (seq F)) b i y np nw cs : all (consIn np nw) cs ->
  (forall j, (j < np)%N -> (PW j).[y] = slot pw j i) -> (forall j, (j < nw)%N -> (W j).[y] = slot w j i) ->
  (circ b cs).[y] = b * \sum_(c <- cs) cval pw w i c.
Proof.
move=> hc vP vW; rewrite circE hornerM hornerC; congr (_ * _).
elim: cs hc => [_|c cs IH] /=; first by rewrite !big_nil horner0.
move=> /andP[ht /IH e]; rewrite !big_cons hornerD e; congr (_ + _).
exact: (cpoly_val (np := np) (nw := nw)).
Qed.

(** the verifier's evaluation *)
Lemma vrf_evalCircuitE b (evals pwEvals : seq F) pt np nw cs : all (consIn np nw) cs ->
  (forall j, (j < np)%N -> pwEvals`_j = (PW j).[pt]) -> (forall j, (j < nw)%N -> evals`_j = (W j).[pt]) ->
  vrf_evalCircuit b cs evals pwEvals = (circ b cs).[pt].
Proof.
move=> hc vP vW; rewrite /vrf_evalCircuit.
have tE t : termIn np nw t -> vrf_term evals pwEvals t = (tpoly t).[pt].
  move=> /andP[hp hw]; rewrite /vrf_term /tpoly !hornerM hornerC.
  have -> : (if tpw t is Some j then tcoeff t * pwEvals`_j else tcoeff t)
    = tcoeff t * (if tpw t is Some j then PW j else 1).[pt].
    by case: (tpw t) hp => [j /vP ->|_] //; rewrite hornerC mulr1.
  move: (_ * _) => a; elim: (twit t) a hw => [|j l IH] a /=; first by rewrite big_nil hornerC mulr1.
  by move=> /andP[hj hl]; rewrite big_cons hornerM IH // vW // mulrA.
have cE c a : consIn np nw c -> foldl (fun ev t => ev + vrf_term evals pwEvals t) a c = a + (cpoly c).[pt].
  rewrite /cpoly; elim: c a => [|t c IH] a /=; first by rewrite big_nil horner0 addr0.
  by move=> /andP[ht hc']; rewrite big_cons hornerD IH // tE // addrA.
have gen a : foldl (fun out c => out + foldl (fun ev t => ev + vrf_term evals pwEvals t) 0 c * b) a cs
   = a + (circ b cs).[pt].
  rewrite /circ; elim: cs a hc => [|c cs IH] a /=; first by rewrite big_nil horner0 addr0.
  by move=> /andP[h1 h2]; rewrite big_cons hornerD hornerM hornerC IH // cE // add0r addrA.
by rewrite gen add0r.
Qed.

(** the prover's evaluation *)
Section Prv.
Variables (TE : transformer F) (m : nat) (h : F).
Hypothesis GE : good_cyclic TE m h.
Local Notation ev := (evs m h).
Variables (pwN wN : seq (seq F)) (np nw : nat).
Hypothesis eP : forall j, (j < np)%N -> nth [::] pwN j = ev (PW j).
Hypothesis eW : forall j, (j < nw)%N -> nth [::] wN j = ev (W j).

Lemma prv_termE t : termIn np nw t -> prv_term TE pwN wN t = ev (tpoly t).
Proof.
move=> /andP[hp hw]; rewrite /prv_term /tpoly (gy_rank GE) (nseq_evs _ h).
have -> : (if tpw t is Some j then mulv (ev (tcoeff t)%:P) (nth [::] pwN j) else ev (tcoeff t)%:P)
   = ev ((tcoeff t)%:P * (if tpw t is Some j then PW j else 1)).
  by case: (tpw t) hp => [j /eP ->|_]; rewrite ?mulv_evs ?mulr1.
move: (_ * _) => A; elim: (twit t) A hw => [|j l IH] A /=; first by rewrite big_nil mulr1.
by move=> /andP[hj hl]; rewrite big_cons eW // mulv_evs IH // mulrA.
Qed.

Lemma prv_evalCircuitE b cs : all (consIn np nw) cs -> prv_evalCircuit TE b cs pwN wN = ev (circ b cs).
Proof.
move=> hcs; rewrite /prv_evalCircuit (gy_rank GE) (nseq_evs _ h).
have cE c A : consIn np nw c -> foldl (fun e t => addv e (prv_term TE pwN wN t)) (ev A) c = ev (A + cpoly c).
  rewrite /cpoly; elim: c A => [|t c IH] A /=; first by rewrite big_nil addr0.
  by move=> /andP[ht hc']; rewrite big_cons prv_termE // addv_evs IH // addrA.
have gen A : foldl (fun out c => addv out (scalev b (foldl (fun e t => addv e (prv_term TE pwN wN t)) (ev 0%:P) c))) (ev A) cs
   = ev (A + circ b cs).
  rewrite /circ; elim: cs A hcs => [|c cs IH] A /=; first by rewrite big_nil addr0.
  by move=> /andP[h1 h2]; rewrite big_cons cE // polyC0 add0r scalev_evs addv_evs IH // addrA.
by rewrite gen polyC0 add0r.
Qed.
End Prv.
End Circ.

(** * Quotient and remainder, and the shifted copy of the remainder *)
Section Quo.
Variables (F : fieldType) (TE : transformer F) (x : context F).
Local Notation N := (crank x).
Local Notation E := (trank TE).
Hypothesis N0 : (0 < N)%N.

Lemma quoremE (A : {poly F}) : (size A <= E)%N ->
  quorem TE x (cf E A) = (cf E (A %/ V N), cf E (A %% V N)).
Proof.
move=> sA; have [] := @quoremP F E N (cf E A) (size_cf _ _) N0.
rewrite /quorem; case: (foldl _ _ _) => q r /= sq sr _ eq er.
by rewrite (cf_size sq) (cf_size sr) eq er Poly_cf.
Qed.

Definition tailp (A : {poly F}) : {poly F} := Poly (mkseq (fun i => A`_i.+1) (N - 1)).
Lemma size_tailp A : (size (tailp A) <= N - 1)%N.
Proof. by rewrite (leq_trans (size_Poly _)) // size_mkseq. Qed.
Lemma tailpE (A : {poly F}) : (size A <= N)%N -> A = (A`_0)%:P + 'X * tailp A.
Proof.
move=> sA; apply/polyP => -[|i]; rewrite coefD coefC coefXM /= ?addr0 // add0r coef_Poly.
case: (ltnP i (N - 1)) => hi; first by rewrite nth_mkseq.
rewrite [RHS]nth_default ?size_mkseq // nth_default //; apply: leq_trans sA _; move: hi N0; lia.
Qed.

Lemma remLoHiE R (A : {poly F}) : (N <= E)%N -> (size A <= N)%N -> (N - 1 <= R)%N ->
  remLoHi x R (cf E A) = Some (cf (N - 1) (tailp A), cf R ('X^(R - (N - 1)) * tailp A)).
Proof.
move=> hNE sA hR; rewrite /remLoHi ltnNge hR /=.
have e : mkseq (fun i => (cf E A)`_i.+1) (N - 1) = cf (N - 1) (tailp A).
  apply: (@eq_from_nth _ 0); rewrite !size_mkseq // => i hi.
  rewrite !nth_mkseq //; last by move: hi hNE N0; lia.
  by rewrite coef_Poly nth_mkseq.
rewrite e; congr (Some (_, _)).
apply: (@eq_from_nth _ 0); rewrite size_cat size_nseq !size_cf; first by move: hR; lia.
move=> i hi; rewrite nth_cat size_nseq nth_nseq [RHS]nth_mkseq; last by move: hi hR; lia.
rewrite coefXnM; case: ifP => h1; first by rewrite if_same.
by rewrite nth_cf ?size_tailp.
Qed.
End Quo.

Lemma ExpE (F : fieldType) (pt : F) k : (k < 2 ^ 32)%N -> Exp pt (Z.of_nat k) = pt ^+ k.
Proof.
move=> hk; rewrite /Exp exp_loopE; first by rewrite mul1r Nat2Z.id.
split; first by lia.
apply: (Z.lt_trans _ (2 ^ 32)%Z) => //.
have -> : (2 ^ 32)%Z = Z.of_nat (2 ^ 32)%N; last by apply/Nat2Z.inj_lt/ltP.
by rewrite -[(2 ^ 32)%N]/(expn 2 (16 * 2)) expnM -mulnn Nat2Z.inj_mul.
Qed.

(** * The three checks of the prover *)
Section Prover.
Variables (F : fieldType) (U : uint F) (T TE : transformer F) (x : context F).
Variables (n m : nat) (g h : F).
Hypothesis GT : good_cyclic T n g.
Hypothesis GE : good_cyclic TE m h.
Hypothesis hN : crank x = (2 ^ n)%N.
Local Notation N := (crank x).
Local Notation E := (trank TE).
Variables (PW W : nat -> {poly F}) (pwN wN : seq (seq F)) (np nw : nat).
Hypothesis eP : forall j, (j < np)%N -> nth [::] pwN j = evs m h (PW j).
Hypothesis eW : forall j, (j < nw)%N -> nth [::] wN j = evs m h (W j).
Hypothesis sP : forall j, (j < np)%N -> (size (PW j) <= N)%N.
Hypothesis sW : forall j, (j < nw)%N -> (size (W j) <= N.+1)%N.
Hypothesis hNE : (N <= E)%N.

Let N0 : (0 < N)%N. Proof. by rewrite hN N_pos. Qed.

Lemma prv_arithCheckE b : all (consIn np nw) (carith x) ->
  (N <= carithMax x <= E)%N -> (forall c, List.In c (carith x) -> (maxRank N c <= carithMax x)%N) ->
  prv_arithCheck TE x b pwN wN = Some (cf (carithMax x - N) (circ PW W b (carith x) %/ V N)).
Proof.
move=> hc /andP[h1 h2] hM; rewrite /prv_arithCheck ltnNge h1 /=.
have sC := size_circ b hc N0 sP sW hM.
rewrite (prv_evalCircuitE GE eP eW b hc) (inv_evs GE) -?(gy_rank GE); last exact: leq_trans h2.
rewrite quoremE //; last exact: leq_trans h2.
by rewrite take_cf //; move: h2; lia.
Qed.

(** the polynomial whose remainder the sum check reveals *)
Definition sumPoly b (M : {poly F}) : {poly F} := circ PW W b (csum x) * b%:P + M.

Lemma prv_sumCheckE R b (M : {poly F}) : all (consIn np nw) (csum x) ->
  (N <= csumMax x <= E)%N -> (forall c, List.In c (csum x) -> (maxRank N c <= csumMax x)%N) ->
  (N - 1 <= R)%N -> (size M <= csumMax x)%N ->
  prv_sumCheck TE x R b (cf E M) pwN wN
   = Some (cf (csumMax x - N) (sumPoly b M %/ V N), cf (N - 1) (tailp x (sumPoly b M %% V N)),
           cf R ('X^(R - (N - 1)) * tailp x (sumPoly b M %% V N))).
Proof.
move=> hc /andP[h1 h2] hM hR sM; rewrite /prv_sumCheck.
have sC := size_circ b hc N0 sP sW hM.
have sC2 : (size (circ PW W b (csum x) * b%:P)%R <= csumMax x)%N by apply: size_mulC.
rewrite (prv_evalCircuitE GE eP eW b hc) scalev_evs (inv_evs GE) -?(gy_rank GE); last exact: leq_trans h2.
rewrite addv_cf -/(sumPoly b M).
have sS : (size (sumPoly b M) <= csumMax x)%N by rewrite (leq_trans (size_add _ _)) // geq_max sC2.
rewrite quoremE //; last exact: leq_trans h2.
rewrite ltnNge h1 /= remLoHiE // ?size_mod_V // take_cf //; move: h2; lia.
Qed.

(** ** The linear check *)
Section Lin.
Variables (proj : seq (seq bool)) (vec : seq F).

(** one polynomial per linear constraint, in the order of the loop *)
Fixpoint lterms (vtr : seq F) (chks : seq (checker F)) : seq {poly F} :=
  if chks is chk :: r then
    let vtr' := TransposeTo proj (cobj_of chk) vtr vec in
    [seq interp T vtr' * W io.2 - interp T vec * W io.1 | io <- odflt [::] (aget (clin x) (caddr chk))]
      ++ lterms vtr' r
  else [::].
Definition horner_batch (b : F) (l : seq {poly F}) (a : {poly F}) : {poly F} := foldl (fun e t => e * b%:P + t) a l.
Definition linPoly b : {poly F} := horner_batch b (lterms (nseq N 0) (clinChk x)) 0.

(** the checkers keep the length of their buffers *)
Definition keepsSize (chks : seq (checker F)) : Prop := forall chk vtr, List.In chk chks -> size vtr = N ->
  size (TransposeTo proj (cobj_of chk) vtr vec) = N.
Definition linIn (chks : seq (checker F)) : Prop :=
  forall chk io, List.In chk chks -> List.In io (odflt [::] (aget (clin x) (caddr chk))) -> (io.1 < nw)%N /\ (io.2 < nw)%N.
Hypothesis sv : size vec = N.

Lemma prv_linLoopE b : keepsSize (clinChk x) -> linIn (clinChk x) ->
  prv_linLoop T TE x proj b vec (fwdNTT TE (encode T E vec)) wN = evs m h (linPoly b).
Proof.
rewrite /prv_linLoop /linPoly; have -> : nseq E 0 = evs m h (0 : {poly F}) by rewrite (gy_rank GE) (nseq_evs _ h) polyC0.
have hEE : (2 ^ n <= E)%N by rewrite -hN.
have enc v : size v = N -> fwdNTT TE (encode T E v) = evs m h (interp T v).
  move=> s; rewrite (fwd_evs GE) ?(Poly_encode GT) // -?hN //.
  by rewrite (size_encode GT) ?(gy_rank GE) // -?hN // -?(gy_rank GE).
rewrite enc //.
have: size (nseq N (0 : F)) = N by rewrite size_nseq.
move: (nseq N 0) => vtr; move: (0 : {poly F}) => A.
elim: (clinChk x) vtr A => [|chk r IH] vtr A svt hk hi //=.
have s' := hk chk vtr (or_introl erefl) svt.
rewrite enc //; set vt' := TransposeTo _ _ _ _ in s' *.
have -> : foldl (fun ev io => addv (scalev b ev) (subv (mulv (evs m h (interp T vt')) (nth [::] wN io.2))
    (mulv (evs m h (interp T vec)) (nth [::] wN io.1)))) (evs m h A) (odflt [::] (aget (clin x) (caddr chk)))
  = evs m h (horner_batch b [seq interp T vt' * W io.2 - interp T vec * W io.1 | io <- odflt [::] (aget (clin x) (caddr chk))] A).
  have := hi chk; elim: (odflt _ _) A => [|io l IHl] A hio //=.
  have [h1 h2] := hio io (or_introl erefl) (or_introl erefl).
  rewrite !eW // !mulv_evs subv_evs scalev_evs addv_evs IHl // => io' hc hl; apply: hio => //; by right.
rewrite /horner_batch foldl_cat IH //; first by move=> c v hc; apply: hk; right.
by move=> c io hc; apply: hi; right.
Qed.

Lemma size_lterms b (A : {poly F}) vtr chks : size vtr = N -> keepsSize chks -> linIn chks -> (size A <= 2 * N)%N ->
  (size (horner_batch b (lterms vtr chks) A) <= 2 * N)%N.
Proof.
elim: chks vtr A => [|chk r IH] vtr A svt hk hi sA //=.
have s' := hk chk vtr (or_introl erefl) svt.
rewrite /horner_batch foldl_cat; apply: IH => //; first by move=> c v hc; apply: hk; right.
  by move=> c io hc; apply: hi; right.
set vt' := TransposeTo _ _ _ _ in s' *.
have := hi chk; elim: (odflt _ _) A sA => [|io l IHl] A sA hio //=.
have [h1 h2] := hio io (or_introl erefl) (or_introl erefl).
apply: IHl => [|io' hc hl]; last by apply: hio => //; right.
have pr v j : size v = N -> (j < nw)%N -> (size (interp T v * W j)%R <= 2 * N)%N.
  move=> s hj; have s2 : (size (interp T v) <= (N - 1).+1)%N.
    have h3 : (size (interp T v) <= 2 ^ n)%N by apply: size_interp; rewrite -hN.
    by apply: leq_trans h3 _; rewrite -hN; move: N0; lia.
  by apply: leq_trans (size_mul_deg s2 (sW hj)) _; move: N0; lia.
rewrite (leq_trans (size_add _ _)) // geq_max size_mulC //=.
by rewrite (leq_trans (size_add _ _)) // geq_max size_opp !pr.
Qed.

Lemma size_linPoly b : keepsSize (clinChk x) -> linIn (clinChk x) -> (size (linPoly b) <= 2 * N)%N.
Proof. by move=> hk hi; apply: size_lterms; rewrite ?size_nseq ?size_poly0. Qed.

(** values on the roots: the sum over all roots of each term is an inner product *)
Lemma sum_lterm (w : seq (seq F)) vt' o i : size vt' = N ->
  (forall k, (k < N)%N -> (W i).[cpt n g k] = slot w i k) -> (forall k, (k < N)%N -> (W o).[cpt n g k] = slot w o k) ->
  \sum_(k < 2 ^ n) (interp T vt' * W i - interp T vec * W o).[cpt n g k]
    = dot N vt' (nth [::] w i) - dot N vec (nth [::] w o).
Proof.
move=> s' hi ho; rewrite /dot -sumrB hN; apply: eq_bigr => k _.
have hk : (k < N)%N by rewrite hN.
rewrite hornerD hornerN !hornerM hi // ho // !(interp_val GT) // -?hN //.
Qed.
End Lin.

Lemma size_linCheckVec a : size (linCheckVec U x a) = N.
Proof.
rewrite /linCheckVec; have gen : forall l (v : seq F), size (foldl (fun v i => rcons v (v`_(i - 1) * a)) v l) = (size v + size l)%N.
  by elim=> [|i l IH] v /=; rewrite ?addn0 // IH size_rcons addSnnS.
by rewrite gen size_iota /=; move: N0; lia.
Qed.

Lemma linCheckVecE a i : (i < N)%N -> (linCheckVec U x a)`_i = a ^+ i.
Proof.
rewrite /linCheckVec.
have gen k : (k < N)%N -> foldl (fun v i => rcons v (v`_(i - 1) * a)) [:: setBigInt U 1] (iota 1 k) = mkseq (fun i => a ^+ i) k.+1.
  elim: k => [|k IH] hk; first by rewrite /= setBigInt_one.
  rewrite -[iota 1 k.+1]/(iota 1 (k.+1)) -(addn1 k) iotaD foldl_cat IH ?(ltnW hk) //= add1n subn1 /= nth_mkseq // -exprSr addn1.
  by rewrite [RHS]mkseqS.
by move=> hi; rewrite gen ?nth_mkseq //; move: N0 hi; lia.
Qed.

Lemma prv_linCheckE R proj b a (M : {poly F}) : let vec := linCheckVec U x a in
  keepsSize proj vec (clinChk x) -> linIn (clinChk x) -> (2 * N <= E)%N -> (N - 1 <= R)%N -> (size M <= 2 * N)%N ->
  let S := linPoly proj vec b * b%:P + M in
  prv_linCheck U T TE x R proj b a (cf E M) wN
   = Some (cf N (S %/ V N), cf (N - 1) (tailp x (S %% V N)), cf R ('X^(R - (N - 1)) * tailp x (S %% V N))).
Proof.
move=> vec hk hi hE hR sM S; rewrite /prv_linCheck -/vec.
have sv : size vec = N by rewrite size_linCheckVec.
rewrite (prv_linLoopE sv b hk hi) scalev_evs.
have sl := size_linPoly sv b hk hi.
have sl2 : (size (linPoly proj vec b * b%:P)%R <= 2 * N)%N by apply: size_mulC.
rewrite (inv_evs GE) -?(gy_rank GE); last exact: leq_trans hE.
rewrite addv_cf -/S.
have sS : (size S <= 2 * N)%N by rewrite (leq_trans (size_add _ _)) // geq_max sl2.
rewrite quoremE //; last exact: leq_trans hE.
by rewrite remLoHiE // ?size_mod_V // take_cf.
Qed.
End Prover.
