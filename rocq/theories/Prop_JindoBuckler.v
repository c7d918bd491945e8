(** Buckler on top of jindo: the commitment scheme of ProtocolModel replaced by the model of
    jindo.  C72 with the real scheme, C73 for every circuit with a linear or sum check, and a
    forged proof of a circuit nothing satisfies. *)
From Coq Require Import ZArith Lia.
From mathcomp Require Import all_ssreflect all_algebra zify ssrZ.
From Verif Require Import CycModel.
From Verif Require Import RingTac Spec UintModel BigpolyModel BitrevProofs NttProofs NttCore UintProofs NttTables
  UintFp PolyProofs RingProofs NormModel BucklerModel DefineModel BucklerSpec FillProofs NormSound ContextProofs
  CheckerProofs NormComplete FillComplete Prop_Norm RangeProofs EncodeProofs CheckProofs CheckSound Prop_Check
  ProtocolModel ProtocolProofs Prop_Protocol Prop_Forge.
From Verif Require JindoIntModel JindoIntProofs Prop_JindoInt CycModel JindoModel JindoProofs Prop_JindoEnc JindoHonest Prop_JindoCommit.
Set Implicit Arguments. Unset Strict Implicit. Unset Printing Implicit Defensive.
Import GRing.Theory.
Local Open Scope ring_scope.
Delimit Scope Z_scope with Z.
Local Arguments Z.mul : simpl never.
Local Arguments Z.add : simpl never.
Local Arguments Z.pow : simpl never.
Local Arguments Z.of_nat : simpl never.

Section Compose.
Variables (F : fieldType) (U : uint F) (J : JindoModel.jparams) (inv : Z -> Z -> Z).
Local Notation d := (JindoModel.slots J * JindoModel.exp J)%N.
Variables (RQ : CycModel.cyc d (JindoIntModel.prodz (JindoModel.qs J))) (RO : CycModel.cyc d (JindoIntModel.prodz (JindoModel.qos J))).
Variable ck : JindoModel.ckey RQ RO.
Variable xof : seq (JindoModel.item F RQ RO) -> nat -> Z * Z.
(** Commitment.WriteRawTo (any function) *)
Variable ser : seq RO -> bytes.
Local Notation o0 := (JindoModel.Opening [::] [::] [::] : JindoModel.opening RQ RO).

(** jindo as Buckler calls it.  A panic of Commit or Evaluate becomes the empty result (the
    theorems below show there is none), a panic of Verify becomes a rejection. *)
Definition jindoPcs : pcs F := @Pcs F (seq RO) (JindoModel.opening RQ RO) (JindoModel.proof RQ RO) (JindoModel.coins F)
  (JindoModel.rank J)
  (fun w v => odflt ([::], o0) (JindoModel.Commit U inv ck v w))
  ser
  (fun _ x vs com os => odflt ([::], JindoModel.Proof [::] [::] 0 [::] [::]) (JindoModel.Evaluate U ck xof x vs com os))
  (fun x com y pf => JindoModel.Verify U inv ck xof x com y pf == Some true).

Hypothesis S : Prop_JindoEnc.jsetting U J inv.
Hypothesis D : JindoHonest.jdims J.
Hypothesis hexp : (2 <= JindoModel.exp J <= 120)%N.
Variables B BL : Z.
Hypothesis Nm : Prop_JindoCommit.jnums J B BL.

(** samples within the bounds the parameters were made for *)
Definition coinsOK (kC : nat -> JindoModel.coins F) : Prop :=
  forall t, JindoHonest.okCoins J B (kC t) /\ Prop_JindoCommit.okMLWE J BL (kC t).

(** a run of Commit and Evaluate: accepted, with the true evaluations *)
Lemma jindo_run (kC : nat -> JindoModel.coins F) (kE : JindoModel.coins F) pt polys :
  coinsOK kC -> size polys = JindoModel.batch J -> all (commitOK jindoPcs) polys ->
  let cos := [seq @pCommit F jindoPcs (kC i) (nth [::] polys i) | i <- iota 0 (size polys)] in
  let r := @pEvaluate F jindoPcs kE pt polys [seq c.1 | c <- cos] [seq c.2 | c <- cos] in
  r.1 = [seq evalSlice p pt | p <- polys] /\ @pVerify F jindoPcs pt [seq c.1 | c <- cos] r.1 r.2.
Proof.
move=> hk hs hok cos r.
have [|com [os [y [pf [sc so hcm hev]]]]] := @Prop_JindoCommit.C58_total F U J inv RQ RO ck S D xof pt polys kC B (Prop_JindoCommit.jn_B Nm)
  (fun t _ => (hk t).1) hexp hs; first by move=> v hv; exact: (allP hok).
have ec : [seq c.1 | c <- cos] = com.
  apply: (@eq_from_nth _ [::]); rewrite !size_map size_iota hs ?sc // => i hi.
  rewrite (nth_map ([::], o0)) ?size_map ?size_iota ?hs // (nth_map 0%N) ?size_iota ?hs // nth_iota ?hs //.
  by rewrite /= add0n (hcm i).
have eo : [seq c.2 | c <- cos] = os.
  apply: (@eq_from_nth _ o0); rewrite !size_map size_iota hs ?so // => i hi.
  rewrite (nth_map ([::], o0)) ?size_map ?size_iota ?hs // (nth_map 0%N) ?size_iota ?hs // nth_iota ?hs //.
  by rewrite /= add0n (hcm i).
have er : r = (y, pf) by rewrite /r ec eo /= hev.
have [e1 e2] := Prop_JindoCommit.C58_complete S D Nm (fun t _ => (hk t).1) (fun t _ => (hk t).2) hcm hev.
rewrite er ec /= e2 eqxx; split=> //; rewrite e1; apply: eq_map => p; by rewrite /evalSlice evalSliceE pevalE.
Qed.

Lemma jindo_complete (x : context F) (k : coins jindoPcs) : JindoModel.batch J = batch x -> coinsOK (kC k) -> pcsComplete x k.
Proof. by move=> hb hk pt polys hs hok; apply: jindo_run => //; rewrite hs hb. Qed.

Section Buckler.
Variables (H : bytes -> bytes) (name : nat -> bytes).
Variables (setBytes : bytes -> F) (marshal : F -> bytes).
Variable xofProj : nat -> bytes -> seq (seq bool).
Variables (N p0 n0 : nat) (cs : seq (cmd F)) (x : context F) (T TE : transformer F) (n : nat) (g : F).
Hypothesis K : keys U N p0 n0 cs x T TE n g.
Hypothesis hb : JindoModel.batch J = batch x.
Local Notation Verify := (Verify U H name setBytes marshal xofProj T TE x).

(** C72 with jindo as the commitment scheme: no assumption on the scheme is left *)
Theorem C72_jindo_partial env (k : coins jindoPcs) pw0 w0 ordT :
  (3 <= n)%N -> (N < 2 ^ 32)%N -> (commitRank x <= JindoModel.rank J < 2 ^ 32)%N ->
  (hasArith x -> (N < carithMax x)%N) -> (hasSum x -> (N < csumMax x)%N) -> coinsOK (kC k) ->
  (forall d, size (xofProj N d) = 128%N /\ all (fun r => size r == N) (xofProj N d)) ->
  honest U N p0 n0 env cs x (ordInf k) (ordTwo k) (ordProj k) (ordProjD k) pw0 w0 ->
  isOrder (ctwo x) ordT ->
  (forall d c, List.In c cs -> cmdOK U N (xofProj N d) pw0 w0 c) ->
  \sum_(s <- csums x) setBigInt U s = 0 ->
  exists pf, Prove U H name setBytes marshal xofProj T TE x k pw0 w0 = Some pf /\ Verify ordT pw0 pf = Some true.
Proof.
move=> h1 h2 h3 h4 h5 h6 h7 ho oT hok hs0.
have se : setting xofProj N x n k by split=> //; exact: jindo_complete.
exact: (C72_honest_accepted_partial H name setBytes marshal K se ho oT hok hs0).
Qed.

(** the commitments and the proof a forger makes: of any polynomials at all *)
Definition anyComs (kC : nat -> JindoModel.coins F) polys : seq (seq RO) :=
  [seq (@pCommit F jindoPcs (kC i) (nth [::] polys i)).1 | i <- iota 0 (size polys)].

(** C73: for every circuit with a linear or a sum check and every statement, and for any
    polynomials (for instance zeros) committed, there is a proof Verify accepts, unless the
    challenges are special. *)
Theorem C73_jindo_refuted ordT pw0 (kC : nat -> JindoModel.coins F) (ls ss : F) polys :
  (3 <= n)%N -> (N < 2 ^ 32)%N -> isOrder (ctwo x) ordT -> twoFits N (ctwo x) -> statement N p0 pw0 ->
  hasLin x || hasSum x -> size polys = batch x -> all (commitOK jindoPcs) polys -> coinsOK kC ->
  let com := anyComs kC polys in
  let pt := pointOf H name setBytes marshal x (@Proof F jindoPcs com ls ss [::] (JindoModel.Proof [::] [::] 0 [::] [::])) in
  let kappa := Prop_JindoCommit.weight U inv ck xof pt com in
  pt ^+ N != 1 -> kappa (cwCnt x) * (pt ^+ N - 1) + kappa (iquo x) != 0 ->
  exists pf : proof jindoPcs, [/\ pfWitness pf = com, pfLinSum pf = ls, pfSumSum pf = ss & Verify ordT pw0 pf = Some true].
Proof.
move=> hn hN oT hf st hls hs hok hk com pt kappa hpt hka.
have [] := @jindo_run kC (kC 0%N) pt polys hk (etrans hs (esym hb)) hok.
set cos := [seq pCommit _ _ | i <- _]; set r := pEvaluate _ _ _ _ _ => er hv.
have ec : [seq c.1 | c <- cos] = com by rewrite /cos -map_comp.
rewrite ec in hv.
pose pf := @Proof F jindoPcs com ls ss r.1 r.2.
have sc : size com = batch x by rewrite size_map size_iota.
have hV : pt ^+ N - 1 != 0 by rewrite subr_eq0.
have hlo : loose x (pointOf H name setBytes marshal x pf) (pfWitness pf) (pfEval pf) kappa r.1.
  move=> es hes hsum; apply/eqP; move/eqP: hv => hv.
  have [_ hw] := Prop_JindoCommit.C59_weighted (y' := es) D (etrans hes (esym hb)) hv.
  by apply: hw; rewrite /Prop_JindoCommit.wsum hb.
have [ev [_ hacc]] := @C73_forged_refuted F U jindoPcs H name setBytes marshal xofProj N p0 n0 cs x T TE n g K ordT pw0 pf r.1 [::] kappa hn hN oT hf st hls sc hlo hV hka.
by exists (@Proof F jindoPcs com ls ss ev r.2).
Qed.
End Buckler.
End Compose.

(** * A circuit nothing satisfies, and an accepted proof of it *)
(** p = 257 = 16^2 + 1, rank 8; jindo with degree 4, two slots, four columns, five rows *)
Definition F257 := [fieldType of 'F_257].
Definition U257 : uint F257 := @uintFp 257 isT.
Definition J257 : JindoModel.jparams := JindoModel.JParams 6 32 5 4 16 2 2 1 1 1 2 1 5
  [:: 10007; 10009]%Z [:: 2199023255579; 2199023255607]%Z 1000000 1000000000000 1.
Lemma set257 : Prop_JindoEnc.jsetting U257 J257 Prop_JindoInt.invSearch.
Proof.
split=> //; first exact: Prop_JindoInt.invSearchP.
- by split=> [q [<-|[<-|[]]]|[|[|i]] [|[|j]] // /andP[]].
by split=> [q [<-|[<-|[]]]|[|[|i]] [|[|j]] // /andP[]].
Qed.
Lemma dims257 : JindoHonest.jdims J257. Proof. by split. Qed.
Lemma nums257 : Prop_JindoCommit.jnums J257 3 3. Proof. by split; vm_compute. Qed.

(** w0 = p0 in every slot, and the total of w0 is 0 *)
Definition fcA : constraint F257 := [:: Term 1 None [:: 0%N]; Term (-1) (Some 0%N) [::]].
Definition fcS : constraint F257 := [:: Term 1 None [:: 0%N]].
Definition fcs : seq (cmd F257) := [:: CArith fcA; CSum fcS 0].
Definition fx : context F257 := AddSumCheckConstraintBig (AddArithmeticConstraint (newContext F257 8 1 1) fcA) fcS 0.
Definition fpw : seq (seq F257) := [:: 1 :: nseq 7 0].

Lemma cyc257 r : List.In r [:: 8; 16]%N -> exists T, NewCyclicTransformer U257 r = Some T.
Proof.
move=> h; have [||T [n [g [e _ _]]]] := @NewCyclicP F257 U257 r; last by exists T.
  have p2 a k : r = (2 ^ a)%N -> (Z.of_nat (2 * r) * k = 256)%Z -> ntt_rank U257 r.
    by move=> e1 e2; exists a => //; exists k; rewrite Z.mul_comm; exact: esym e2.
  case: h => [e|[e|//]]; [apply: (p2 3%N 16%Z)|apply: (p2 4%N 8%Z)]; by rewrite -?e.
by case: h => [<-|[<-|//]].
Qed.
Lemma fkeys : exists T TE n g, keys U257 8 1 1 fcs fx T TE n g.
Proof.
have [T hT] := @cyc257 8%N (or_introl erefl).
have e16 : embRank fx = 16%N by vm_compute.
have [TE hTE] := @cyc257 16%N (or_intror (or_introl erefl)); rewrite -e16 in hTE.
have lt : (8 < embRank fx)%N by rewrite e16.
have [||n [g K]] := @keys_new _ U257 8%N 1%N 1%N fcs fx T TE _ _ hT hTE lt.
- by split.
- by move=> c [<-|[<-|[]]]; exact: I.
by exists T, TE, n, g.
Qed.
(** no witness at all *)
Lemma funsat w : ~ (arithSat fx fpw w /\ sumSat U257 fx fpw w).
Proof.
case=> hA hS; have := hS fcS 0%Z (or_introl erefl); rewrite -[crank fx]/8%N sb0.
have e i : (i < 8)%N -> cval fpw w i fcS = (nth [::] fpw 0)`_i.
  move=> hi; have := hA fcA (or_introl erefl) i hi; rewrite /cval /fcA /fcS !big_cons !big_nil /tval_ /= !big_cons !big_nil /=.
  by rewrite !mulr1 !addr0 mul1r mulN1r => /eqP; rewrite subr_eq0 => /eqP.
have -> : \sum_(i < 8) cval fpw w i fcS = 1.
  rewrite (eq_bigr (fun i : 'I_8 => (nth [::] fpw 0)`_i)) => [|i _]; last by rewrite e.
  by rewrite !big_ord_recl big_ord0 /= !addr0.
by move/eqP; rewrite oner_eq0.
Qed.

Lemma d257 : (0 < JindoModel.slots J257 * JindoModel.exp J257)%N. Proof. by []. Qed.
Lemma q257 : (1 < JindoIntModel.prodz (JindoModel.qs J257))%Z. Proof. by []. Qed.
Lemma qo257 : (1 < JindoIntModel.prodz (JindoModel.qos J257))%Z. Proof. by []. Qed.
Definition RQ257 : cyc (JindoModel.slots J257 * JindoModel.exp J257) (JindoIntModel.prodz (JindoModel.qs J257)) := cycQ d257 q257.
Definition RO257 : cyc (JindoModel.slots J257 * JindoModel.exp J257) (JindoIntModel.prodz (JindoModel.qos J257)) := cycQ d257 qo257.
Definition w257 (t : nat) : JindoModel.coins F257 := JindoModel.Coins [:: 5%:R; 7%:R; 11%:R] (fun j => [:: j%:R; t%:R]) (fun i j => [:: 1; -2; 3; 0]%Z) (fun i j => [:: -1; 0; 2; 3]%Z).
Definition xof257 (l : seq (JindoModel.item F257 RQ257 RO257)) (k : nat) : Z * Z := (Z.of_nat k + 7, 0)%Z.
Lemma ok257 : coinsOK J257 3 3 w257.
Proof. by move=> t; split; [split=> // i j [|[|[|[|[|k]]]]]|move=> i j; split=> // -[|[|[|[|[|k]]]]]]. Qed.

(** whatever the commitment key, and whatever is bound into the transcript: with challenge
    bytes that read as 3 the circuit is "proved" from commitments to zero polynomials *)
Theorem C73_unsat_refuted : exists T TE n g, keys U257 8 1 1 fcs fx T TE n g /\
  (forall w, ~ (arithSat fx fpw w /\ sumSat U257 fx fpw w)) /\
  forall (ck : JindoModel.ckey RQ257 RO257) ser name marshal xofProj,
  exists pf : proof (jindoPcs U257 Prop_JindoInt.invSearch ck xof257 ser),
    Verify U257 (fun _ => [:: 3%N]) name (fun b => (sumn b)%:R) marshal xofProj T TE fx [::] fpw pf = Some true.
Proof.
have [T [TE [n [g K]]]] := fkeys; exists T, TE, n, g; split=> //; split; first exact: funsat.
move=> ck ser name marshal xofProj.
have hn : (3 <= n)%N by rewrite -(@leq_exp2l 2) // -(ks_N K).
have h32 : (8 < 2 ^ 32)%N by rewrite -[8%N]/(2 ^ 3)%N ltn_exp2l.
have oT : isOrder (ctwo fx) [::] by split=> // -[].
have hf : twoFits 8 (ctwo fx) by move=> ? ? ? ? ? [].
have st : statement 8 1 fpw by split=> //; case.
have hall : all (commitOK (jindoPcs U257 Prop_JindoInt.invSearch ck xof257 ser)) (nseq 6 [:: 0]) by [].
have h := @C73_jindo_refuted F257 U257 J257 Prop_JindoInt.invSearch RQ257 RO257 ck xof257 ser set257 dims257 isT 3 3 nums257
  (fun _ => [:: 3%N]) name (fun b => (sumn b)%:R) marshal xofProj 8 1 1 fcs fx T TE n g K erefl [::] fpw w257 0 0 (nseq 6 [:: 0]) hn h32 oT hf st isT erefl hall ok257.
pose com := anyComs U257 Prop_JindoInt.invSearch ck xof257 ser w257 (nseq 6 [:: 0]).
pose pt : F257 := 3%:R.
have hb : JindoModel.chalsOf J257 (JindoModel.batchBytes ck xof257 pt com) = Some
  [:: [:: -1; 0; 0; 0]; [:: 0; 0; 1; 0]; [:: 1; 0; 1; 0]; [:: 2; 0; 1; 0]; [:: 3; 0; 1; 0]; [:: 4; 0; 1; 0]]%Z by vm_compute.
have k1 : Prop_JindoCommit.weight U257 Prop_JindoInt.invSearch ck xof257 pt com 1 = 16%:R.
  by rewrite (Prop_JindoCommit.weightE set257 _ _ _ hb) //; apply/eqP; vm_compute.
have k3 : Prop_JindoCommit.weight U257 Prop_JindoInt.invSearch ck xof257 pt com 3 = 18%:R.
  by rewrite (Prop_JindoCommit.weightE set257 _ _ _ hb) //; apply/eqP; vm_compute.
have c1 : pt ^+ 8 != 1 by rewrite /pt -natrX; vm_compute.
have c2 : Prop_JindoCommit.weight U257 Prop_JindoInt.invSearch ck xof257 pt com 1 * (pt ^+ 8 - 1)
  + Prop_JindoCommit.weight U257 Prop_JindoInt.invSearch ck xof257 pt com 3 != 0 by rewrite k1 k3 /pt -natrX; vm_compute.
have [pf [_ _ _ hv]] := h c1 c2.
by exists pf.
Qed.

(** the honest case over the same scheme: p0 = w0 = 0 *)
Lemma fhr : (commitRank fx <= JindoModel.rank J257 < 2 ^ 32)%N.
Proof.
apply/andP; split; first by vm_compute.
by apply: (@leq_trans (2 ^ 6)%N); rewrite ?leq_exp2l.
Qed.
Lemma fho : honest U257 8 1 1 (fun _ => OUser (fun _ v => v) (fun _ v => v)) fcs fx [::] [::] [::] [::] [:: nseq 8 0] [:: nseq 8 0].
Proof. by split=> //; try (by split=> //; move=> []); try (by case); move=> c [<-|[<-|[]]]. Qed.
Lemma fok M c : List.In c fcs -> cmdOK U257 8 M [:: nseq 8 0] [:: nseq 8 0] c.
Proof.
have hv i : (nseq 8 (0 : F257))`_i = 0 by rewrite nth_nseq if_same.
move: (nseq 8 (0 : F257)) hv => v hv [<-|[<-|[]]].
  by move=> i hi; rewrite /cval /fcA !big_cons !big_nil /tval_ /slot /= !big_cons !big_nil /= !hv !(mulr0, mul0r, addr0).
rewrite -[cmdOK _ _ _ _ _ _]/(\sum_(i < 8) cval [:: v] [:: v] i fcS = setBigInt U257 0) sb0.
rewrite big1 // => i _; rewrite /cval /fcS !big_cons !big_nil /tval_ /slot /= !big_cons !big_nil /= hv.
by rewrite !(mulr0, mul0r, addr0).
Qed.
Lemma fh0 : \sum_(s <- csums fx) setBigInt U257 s = 0. Proof. by rewrite big_seq1 sb0. Qed.
Definition fxof (N : nat) (_ : bytes) : seq (seq bool) := nseq 128 (nseq N true).
Lemma fhx (d : bytes) : size (fxof 8 d) = 128%N /\ all (fun r => size r == 8%N) (fxof 8 d).
Proof. by split=> //; rewrite all_nseq size_nseq eqxx. Qed.
Definition fk (P := fun ck ser => jindoPcs U257 Prop_JindoInt.invSearch ck xof257 ser) ck ser : coins (P ck ser) :=
  @Coins F257 (P ck ser) (fun i => i%:R) (fun i => (3 * i)%N%:R) (fun i => 5%:R) w257 (w257 0) [::] [::] [::] [::].
Lemma f1 n T TE g : keys U257 8 1 1 fcs fx T TE n g -> (3 <= n)%N.
Proof. by move=> K; rewrite -(@leq_exp2l 2) // -(ks_N K). Qed.
Lemma f2 : (8 < 2 ^ 32)%N. Proof. by rewrite -[8%N]/(2 ^ 3)%N ltn_exp2l. Qed.
Lemma f3 : hasArith fx -> (8 < carithMax fx)%N. Proof. by move=> _; vm_compute. Qed.
Lemma f4 : hasSum fx -> (8 < csumMax fx)%N. Proof. by move=> _; vm_compute. Qed.
Lemma f5 : isOrder (ctwo fx) [::]. Proof. by split=> // -[]. Qed.
Lemma f6 ck ser : coinsOK J257 3 3 (kC (fk ck ser)). Proof. exact: ok257. Qed.
Lemma f7 ck ser : honest U257 8 1 1 (fun _ => OUser (fun _ v => v) (fun _ v => v)) fcs fx (ordInf (fk ck ser)) (ordTwo (fk ck ser)) (ordProj (fk ck ser)) (ordProjD (fk ck ser)) [:: nseq 8 0] [:: nseq 8 0].
Proof. exact: fho. Qed.
Lemma f8 d c : List.In c fcs -> cmdOK U257 8 (fxof 8 d) [:: nseq 8 0] [:: nseq 8 0] c.
Proof. exact: fok. Qed.
Lemma f9 : JindoModel.batch J257 = batch fx. Proof. by []. Qed.
Example ex_C72_jindo : exists T TE n g, keys U257 8 1 1 fcs fx T TE n g /\
  forall (ck : JindoModel.ckey RQ257 RO257) ser H name setBytes marshal,
  exists pf,
    Prove U257 H name setBytes marshal fxof T TE fx (fk ck ser) [:: nseq 8 0] [:: nseq 8 0] = Some pf /\
    Verify U257 H name setBytes marshal fxof T TE fx [::] [:: nseq 8 0] pf = Some true.
Proof.
have [T [TE [n [g K]]]] := fkeys; exists T, TE, n, g; split=> // ck ser H name setBytes marshal.
exact: (@C72_jindo_partial F257 U257 J257 _ _ _ ck xof257 ser set257 dims257 isT 3 3 nums257 H name setBytes marshal fxof 8 1 1 fcs fx T TE n g K f9 (fun _ => OUser (fun _ v => v) (fun _ v => v)) (fk ck ser) [:: nseq 8 0] [:: nseq 8 0] [::] (f1 K) f2 fhr f3 f4 (f6 ck ser) fhx (f7 ck ser) f5 f8 fh0).
Qed.

Print Assumptions C72_jindo_partial.
Print Assumptions C73_jindo_refuted.
Print Assumptions C73_unsat_refuted.
