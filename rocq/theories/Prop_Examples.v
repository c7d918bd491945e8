(** C89-C92: the circuits shipped with the code, from their structs to Prove and Verify. *)
From Coq Require Import ZArith.
From mathcomp Require Import all_ssreflect all_algebra zify.
From Verif Require Import RingTac Spec UintModel BigpolyModel BitrevProofs NttProofs NttCore UintProofs NttTables
  UintFp PolyProofs RingProofs NormModel BucklerModel DefineModel CheckerModel WalkModel BucklerSpec FillProofs NormSound
  ContextProofs CheckerProofs NormComplete FillComplete Prop_Norm RangeProofs EncodeProofs CheckProofs CheckSound
  Prop_Check Prop_Bigpoly Prop_Checker Prop_Walk ProtocolModel ProtocolProofs Prop_Protocol ExampleModel ExampleProofs.
Set Implicit Arguments. Unset Strict Implicit. Unset Printing Implicit Defensive.
Import GRing.Theory.
Local Open Scope ring_scope.
Delimit Scope Z_scope with Z.

Local Arguments Z.of_nat : simpl never.
Local Arguments Z.mul : simpl never.
Local Arguments Z.add : simpl never.
Local Arguments Z.sub : simpl never.
Local Arguments Z.opp : simpl never.
Local Arguments idToWit : simpl never.
Local Arguments idToPub : simpl never.
Section Ex.
Variables (F : fieldType) (U : uint F).
Local Notation sb := (setBigInt U).
Local Notation q := (modulus U).
Add Ring FRing : (rt [comRingType of F]).

(** [v] are the coefficients behind the NTT values [vn]: FwdNTTTo writes them (C03 says what
    that means) *)
Definition transformOf (f : nttField F) (rank : nat) (v vn : seq F) : Prop :=
  size v = rank /\ forall o, size o = rank -> FwdNTTTo (nckNtt (nfChk f)) o v = Some vn.

Section Circuit.
Variables (rank : nat) (f : nttField F).
(** NewNTTChecker returned; nothing inside it is a witness *)
Hypothesis hc : NewNTTChecker U rank = Some (nfChk f).
Hypothesis h8 : (8 <= rank)%N.
Hypothesis hv : inert (nfView f).
Local Notation tf := (nttTf (nfChk f)).
Local Notation tr := (nttTr (nfChk f)).
Local Notation T0 := (nckNtt (nfChk f)).

Lemma sbm1 : sb (-1) = -1.
Proof. by rewrite (sbN U 1) setBigInt_one. Qed.
Lemma q17 : (17 <= q)%Z.
Proof.
move: hc; rewrite /NewNTTChecker; case E: (NewCyclotomicTransformer U rank) => [T|] // _.
have [_ [k hk]] := proj1 (C06_cyclotomic_constructor U rank) (ex_intro _ T E).
have e : Z.of_nat (2 * rank) = (2 * Z.of_nat rank)%Z by lia.
have h1 := modulus_gt1 U; have hr : (8 <= Z.of_nat rank)%Z by lia.
rewrite e in hk; move: (Z.of_nat rank) hr hk h1 => r hr hk h1 {E e}.
have k0 : (0 < k)%Z by nia.
nia.
Qed.
Lemma idOK i : (i < 7)%N -> idFits U (Z.of_nat i).
Proof. by have := q17 => h hi; split; lia. Qed.
Lemma widW i : (i < 7)%N -> wid U (idToWit U (Z.of_nat i)) = i.
Proof. by move=> /idOK h; rewrite /wid (proj1 (C27_roundtrip h)) Nat2Z.id. Qed.
Lemma widP i : (i < 7)%N -> wid U (idToPub U (Z.of_nat i)) = i.
Proof. by move=> /idOK h; rewrite /wid (proj2 (C27_roundtrip h)) Nat2Z.id. Qed.
Lemma field_walk st : exists v', firstWalk U true false (fieldV (Some f)) st = (VIface (VPtr v'), st, false).
Proof. by rewrite /=; have [v' ->] := inert_first U st true false hv; exists v'. Qed.
Lemma fwd_of v vn : transformOf f rank v vn -> vn = fwdNTT T0 v.
Proof.
move=> [sv /(_ (nseq rank 0))]; rewrite size_nseq => /(_ erefl).
by rewrite FwdNTTTo_ok ?size_nseq ?sv ?(chk_div hc) // => -[].
Qed.
Lemma of_fwd v : size v = rank -> transformOf f rank v (fwdNTT T0 v).
Proof. by move=> sv; split=> // o so; rewrite FwdNTTTo_ok ?so ?sv ?(chk_div hc). Qed.

(** * C89: examples/mult *)
Definition multCmds : seq (cmd F) :=
  [:: CLin 2 0 (nfAddr f) tf tr; CLin 3 1 (nfAddr f) tf tr;
      CArith [:: Term (sb 1) (Some 0%N) [:: 2%N]; Term (sb (-1)) None [:: 3%N]]; CInf 0 5].
Lemma multCompileE c : mNTT c = Some f -> multCompile U rank c = define U (newContext F rank 1 4) multCmds.
Proof.
case: c => _ yn x z xn zn /= ->.
rewrite /multCompile /compileWalk /multV /=; have [v' ->] := inert_first U (0, 0)%N true false hv.
by rewrite /multDefine /linNTT /multArith /infNorm /= !widW // !widP.
Qed.

Lemma plain_mult c : List.In c multCmds -> plain f c.
Proof. by case=> [<-|[<-|[<-|[<-|[]]]]]. Qed.

(** the relation the example documents: Z = X*Y in the ring of X^rank+1, and |X| <= 5 *)
Definition multRel (X Y Z : seq F) : Prop :=
  Poly Z = (Poly X * Poly Y) %% ('X^rank + 1) /\ infBounded U rank X 5.

(** Sound: whatever assignment [a] of the struct is given to Prove and whatever the auxiliary
    vectors are, if the compiled constraints hold then the relation does. *)
Theorem C89_mult_sound c a x pw w W proj Y : mNTT c = Some f -> multCompile U rank c = Some x ->
  inert (fieldV (mNTT a)) -> full rank (multV a) ->
  proveInputs rank (cpwCnt x) (cwCnt x) (multV a) = Some (inr (pw, w)) ->
  (forall i, (i < 4)%N -> nth [::] W i = nth [::] w i) -> arithSat x pw W -> linSat x proj W ->
  transformOf f rank Y (mYNTT a) -> multRel (mX a) Y (mZ a).
Proof.
move=> ef; rewrite multCompileE // => hd ha hf hi hW hA hL hY.
have gr := grows_define hd.
have [pp pw_] := ha; have st : settable true false (multV a) by rewrite /multV /= inert_settable.
move: hi; rewrite proveInputsP //; last first.
- by apply: leq_trans (gr_w gr); rewrite /= pw_.
- by apply: leq_trans (gr_pw gr); rewrite /= pp.
rewrite /multV /= pp pw_ /= => -[epw ew]; have /and5P[_ /eqP sY /eqP sX /eqP sZ /and3P[/eqP sXn /eqP sZn _]] := hf.
have W0 : nth [::] W 0 = mX a by rewrite hW // -ew.
have W1 : nth [::] W 1 = mZ a by rewrite hW // -ew.
have W2 : nth [::] W 2 = mXNTT a by rewrite hW // -ew.
have W3 : nth [::] W 3 = mZNTT a by rewrite hW // -ew.
have P0 : nth [::] pw 0 = mYNTT a by rewrite -epw.
have eX := plain_linSat plain_mult hd (or_introl erefl) hL.
have eZ := plain_linSat plain_mult hd (or_intror (or_introl erefl)) hL.
rewrite W0 W2 (nttTfE hc) ?size_nseq // in eX; rewrite W1 W3 (nttTfE hc) ?size_nseq // in eZ.
have hm := arith_call hd (or_intror (or_intror (or_introl erefl))) hA.
have hin : compiled U rank 1 4 multCmds x by split.
split; last first.
  have := @C18_inf_norm_sound F U rank 1 4 (take 3 multCmds) [::] 0 5 x pw W hin (Zle_0_pos 5) hA; rewrite W0; exact.
have [pt [e1 e2 _ _ e5]] := chk_points hc h8.
rewrite -(e5 _ sZ); apply/e2 => i hi; rewrite hornerM -!e1 //; last by case: hY.
have := hm i hi; rewrite /cval !big_cons big_nil /tval_ /= !big_cons !big_nil /slot P0 W2 W3.
rewrite -eX -eZ -(fwd_of hY) sbm1 setBigInt_one !mulr1 !mul1r addr0 mulN1r => /eqP; rewrite subr_eq0 => /eqP <-.
by rewrite mulrC.
Qed.

Section Run.
Variables (P : pcs F) (H : bytes -> bytes) (name : nat -> bytes).
Variables (setBytes : bytes -> F) (marshal : F -> bytes).
Variable xofProj : nat -> bytes -> seq (seq bool).
Local Notation Prove := (Prove U H name setBytes marshal xofProj).
Local Notation Verify := (Verify U H name setBytes marshal xofProj).
Local Notation running := (running U xofProj rank).

(** Prove reads [pw0] and [w0] from the struct [a], Verify reads [pw0] from [b], and the proof
    is accepted *)
Definition accepted (x : context F) T TE (k : coins P) ordT (a b : cv F) : Prop :=
  exists pw0 w0 pf, [/\ proveInputs rank (cpwCnt x) (cwCnt x) a = Some (inr (padw rank (cpwCnt x) pw0, padw rank (cwCnt x) w0)),
    verifyInputs rank (cpwCnt x) b = Some (inr (padw rank (cpwCnt x) pw0)),
    Prove T TE x k pw0 w0 = Some pf & Verify T TE x ordT pw0 pf = Some true].

(** Complete: what main computes from X and Y satisfies the relation and is accepted. *)
Theorem C89_mult_accepted c x T TE (k : coins P) ordT X Y : mNTT c = Some f -> multCompile U rank c = Some x ->
  running x T TE k ordT -> size X = rank -> size Y = rank -> infBounded U rank X 5 ->
  let a := multAssign T0 X Y in
  multRel X Y (mZ a) /\ accepted x T TE k ordT (multV a) (multV (multPublic (mYNTT a))).
Proof.
move=> ef; rewrite multCompileE // => hd hr sX sY hX a.
have [pt [e1 e2 e3 e4 e5]] := chk_points hc h8.
have [iX zX] := e4 _ sX; have [iY zY] := e4 _ sY.
have sm : size (mulv (fwdNTT T0 X) (fwdNTT T0 Y)) = rank by rewrite size_mulv ?zX ?zY.
have [fZ sZ] := e3 _ sm.
have hrel : multRel X Y (mZ a).
  split=> //=; rewrite -(e5 _ sZ); apply/e2 => i hi.
  by rewrite hornerM -!e1 // fZ nth_mulv // zX zY.
split=> //; have gr := grows_define hd.
have [_ ep _] := plain_define plain_mult (plain_new f rank 1 4) hd; rewrite /= in ep.
have hin : compiled U rank 1 4 multCmds x by split.
pose w0 := [:: X; mZ a; fwdNTT T0 X; mZNTT a]; pose pw0 := [:: fwdNTT T0 Y].
have gw : goodw rank w0 by case=> [|[|[|[|i]]]].
have gp : goodw rank pw0 by case=> [|i].
have [] := @plain_accepted F U P H name setBytes marshal xofProj rank 1 4 f multCmds x T TE k ordT pw0 w0 plain_mult isT hc hin isT hr erefl erefl gw gp.
  move=> d [<-|[<-|[<-|[<-|[]]]]] /=.
  - by rewrite (nttTfE hc) ?size_nseq.
  - by rewrite (nttTfE hc) ?size_nseq // fZ.
  - move=> i hi; rewrite /cval !big_cons big_nil /tval_ /= !big_cons !big_nil /slot /=.
    by rewrite sbm1 setBigInt_one nth_mulv ?zX ?zY // !mulr1 !mul1r addr0 mulN1r mulrC subrr.
  - right=> i hi; have [z [z1 z2]] := hX i hi; exists z; have := q17; split=> //; lia.
move=> pf [h1 h2]; exists pw0, w0, pf; split=> //.
- rewrite proveInputsP //; last by apply: leq_trans (gr_w gr).
    by rewrite /= zY sX sZ zX sm eqxx.
  by rewrite ep.
- by rewrite /verifyInputs /= ep /= zY eqxx /=.
Qed.

(** * C90: examples/bfv *)
Section Bfv.
(** the fields set before compilation: plaintext modulus, scaling factor, error bound *)
Variables (t delta err : Z).
Hypothesis ht : (1 <= t < 2 ^ 64)%Z.
Hypothesis herr : (0 <= err < 2 ^ 64)%Z.

(** the documented relation: c0 + c1*s = delta*m + e in the ring, |m| < t, |e| <= err *)
Definition bfvRel (C0 C1 S M E : seq F) : Prop :=
  [/\ (Poly C0 + Poly C1 * Poly S) %% ('X^rank + 1) = (sb delta *: Poly M + Poly E) %% ('X^rank + 1),
     infBounded U rank M (t - 1) & infBounded U rank E err].

Definition bfvCmds : seq (cmd F) :=
  [:: CLin 1 2 (nfAddr f) tf tr; CLin 3 4 (nfAddr f) tf tr;
      CArith [:: Term (sb 1) (Some 0%N) [::]; Term (sb 1) (Some 1%N) [:: 0%N]; Term (sb (- delta)) None [:: 1%N];
                 Term (sb (-1)) None [:: 3%N]]; CInf 2 (t - 1); CInf 4 err].
Definition bfvReady (c : bfvC F) : Prop := [/\ bNTT c = Some f, bT c = t, bDelta c = delta, bErr c = err & inert (bDeltaV c)].
Lemma bfvCompileE c : bfvReady c -> bfvCompile U rank c = define U (newContext F rank 2 5) bfvCmds.
Proof.
case: c => ntt t' err' c0 c1 sk d dv mn m en e [/= -> -> -> -> hdv].
rewrite /bfvCompile /compileWalk /bfvV /=; have [v' ->] := inert_first U (0, 0)%N true false hv.
have [dv' ->] := inert_first U (2, 1)%N true false hdv => /=.
rewrite /bfvDefine /linNTT /bfvArith /infNorm /= !widW // !widP // Z.mod_small //.
by rewrite /w64; lia.
Qed.
Lemma plain_bfv c : List.In c bfvCmds -> plain f c.
Proof. by case=> [<-|[<-|[<-|[<-|[<-|[]]]]]]. Qed.

Lemma bfv_val pw w i : cval pw w i [:: Term (sb 1) (Some 0%N) [::]; Term (sb 1) (Some 1%N) [:: 0%N]; Term (sb (- delta)) None [:: 1%N];
    Term (sb (-1)) None [:: 3%N]] = slot pw 0 i + slot pw 1 i * slot w 0 i - sb delta * slot w 1 i - slot w 3 i.
Proof.
rewrite /cval !big_cons big_nil /tval_ /= !big_cons !big_nil sbm1 setBigInt_one sbN.
by rewrite !mulr1 !mul1r addr0 mulN1r mulNr !addrA.
Qed.

Theorem C90_bfv_sound c a x pw w W proj C0 C1 S : bfvReady c -> bfvCompile U rank c = Some x ->
  inert (fieldV (bNTT a)) -> inert (bDeltaV a) -> full rank (bfvV a) ->
  proveInputs rank (cpwCnt x) (cwCnt x) (bfvV a) = Some (inr (pw, w)) ->
  (forall i, (i < 5)%N -> nth [::] W i = nth [::] w i) -> arithSat x pw W -> linSat x proj W ->
  transformOf f rank C0 (bC0 a) -> transformOf f rank C1 (bC1 a) -> transformOf f rank S (bSk a) ->
  bfvRel C0 C1 S (bMsg a) (bErrC a).
Proof.
move=> hb; rewrite bfvCompileE // => hd ha hdv hf hi hW hA hL h0 h1 hS.
have gr := grows_define hd.
have [p1 p2] := ha; have [d1 d2] := hdv.
have st : settable true false (bfvV a) by rewrite /bfvV /= !inert_settable.
move: hi; rewrite proveInputsP //; last first.
- by apply: leq_trans (gr_w gr); rewrite /= p2 d2.
- by apply: leq_trans (gr_pw gr); rewrite /= p1 d1.
rewrite /bfvV /= p1 p2 d1 d2 /= => -[epw ew].
have := hf; rewrite /= => /and5P[_ /and3P[/eqP s0 /eqP s1 _] /eqP sS _ /and5P[/eqP smn /eqP sm /eqP sen /eqP se _]].
have W0 : nth [::] W 0 = bSk a by rewrite hW // -ew.
have W1 : nth [::] W 1 = bMsgNTT a by rewrite hW // -ew.
have W2 : nth [::] W 2 = bMsg a by rewrite hW // -ew.
have W3 : nth [::] W 3 = bErrNTT a by rewrite hW // -ew.
have W4 : nth [::] W 4 = bErrC a by rewrite hW // -ew.
have P0 : nth [::] pw 0 = bC0 a by rewrite -epw.
have P1 : nth [::] pw 1 = bC1 a by rewrite -epw.
have eM := plain_linSat plain_bfv hd (or_introl erefl) hL.
have eE := plain_linSat plain_bfv hd (or_intror (or_introl erefl)) hL.
rewrite W1 W2 (nttTfE hc) ?size_nseq // in eM; rewrite W3 W4 (nttTfE hc) ?size_nseq // in eE.
have hm := arith_call hd (or_intror (or_intror (or_introl erefl))) hA.
have hin : compiled U rank 2 5 bfvCmds x by split.
have t0 : (0 <= t - 1)%Z by lia.
split.
- have [pt [e1 e2 _ _ e5]] := chk_points hc h8.
  apply/e2 => i hi; rewrite !hornerD hornerM hornerZ -!e1 //; [|by case: hS|by case: h1|by case: h0].
  have := hm i hi; rewrite bfv_val /slot P0 P1 W0 W1 W3 -eM -eE -(fwd_of h0) -(fwd_of h1) -(fwd_of hS).
  by rewrite -addrA -opprD => /eqP; rewrite subr_eq0 => /eqP.
- by have := @C18_inf_norm_sound F U rank 2 5 (take 3 bfvCmds) [:: CInf 4 err] 2 (t - 1) x pw W hin t0 hA; rewrite W2; exact.
- by have := @C18_inf_norm_sound F U rank 2 5 (take 4 bfvCmds) [::] 4 err x pw W hin (proj1 herr) hA; rewrite W4; exact.
Qed.

(** a bound that decomposeBase reaches (C17): anything up to [B], except [B] itself when it is
    a power of two from 2 on *)
Definition reached (B b : Z) : Prop := (b <= B)%Z /\ (b < B \/ ~ exists k, 1 <= k /\ B = 2 ^ k)%Z.
Lemma reached_cover B b : (0 <= b)%Z -> reached B b -> (b <= cover1 B)%Z.
Proof.
move=> hb [h1 h2]; rewrite /cover1; case: Z.leb_spec => // hB; have hB2 : (2 <= B)%Z by lia.
case: h2 => h2.
  by rewrite /NormProofs.cover; case: ifP => _; move: h1 h2; clear; lia.
have [_ r2] := cover_reach hB2; rewrite r2 // => -[k [k0 k1]]; apply: h2; exists k; split=> //.
case: (Z.eq_dec k 0) => [e|]; last by move: k0; clear; lia.
by move: k1 hB; rewrite e; clear; lia.
Qed.

(** Complete: every solution of the relation whose m and e are within what decomposeBase
    reaches is accepted, with the ciphertext as the public input. *)
Theorem C90_bfv_accepted_partial c x T TE (k : coins P) ordT C0 C1 S M E bm be : bfvReady c -> bfvCompile U rank c = Some x ->
  running x T TE k ordT -> size C0 = rank -> size C1 = rank -> size S = rank -> size M = rank -> size E = rank ->
  bfvRel C0 C1 S M E -> infBounded U rank M bm -> infBounded U rank E be ->
  reached (t - 1) bm -> reached err be -> (0 <= bm)%Z -> (0 <= be)%Z -> (2 * bm < q)%Z -> (2 * be < q)%Z ->
  let N := fwdNTT T0 in
  accepted x T TE k ordT (bfvV (bfvAssign (N C0) (N C1) (N S) (N M) M (N E) E)) (bfvV (bfvPublic (N C0) (N C1))).
Proof.
move=> hb; rewrite bfvCompileE // => hd hr s0 s1 sS sM sE [hrel _ _] hM hE rM rE m0 e0 mq eq N.
have [pt [e1 e2 e3 e4 e5]] := chk_points hc h8.
have [_ z0] := e4 _ s0; have [_ z1] := e4 _ s1; have [_ zS] := e4 _ sS; have [_ zM] := e4 _ sM; have [_ zE] := e4 _ sE.
have gr := grows_define hd.
have [_ ep _] := plain_define plain_bfv (plain_new f rank 2 5) hd; rewrite /= in ep.
have hin : compiled U rank 2 5 bfvCmds x by split.
pose w0 := [:: N S; N M; M; N E; E]; pose pw0 := [:: N C0; N C1].
have gw : goodw rank w0 by case=> [|[|[|[|[|i]]]]].
have gp : goodw rank pw0 by case=> [|[|i]].
have ut : uniq (targets (@infT F) bfvCmds) by rewrite /targets /=; do 2!case: ifP.
have [] := @plain_accepted F U P H name setBytes marshal xofProj rank 2 5 f bfvCmds x T TE k ordT pw0 w0 plain_bfv isT hc hin ut hr erefl erefl gw gp.
  move=> d [<-|[<-|[<-|[<-|[<-|[]]]]]] /=.
  - by rewrite (nttTfE hc) ?size_nseq.
  - by rewrite (nttTfE hc) ?size_nseq.
  - move=> i hi; rewrite bfv_val /slot /= /N !e1 //.
    have /e2/(_ i hi) := hrel; rewrite !hornerD hornerM hornerZ => ->.
    by rewrite -addrA -opprD subrr.
  - right=> i hi; have [z [z2 z3]] := hM i hi; exists z; have := reached_cover m0 rM; split=> //; lia.
  - right=> i hi; have [z [z2 z3]] := hE i hi; exists z; have := reached_cover e0 rE; split=> //; lia.
move=> pf [h1 h2]; exists pw0, w0, pf; split=> //.
- rewrite proveInputsP //; last by apply: leq_trans (gr_w gr).
    by rewrite /= /N z0 z1 zS zM zE sM sE eqxx.
  by rewrite ep.
- by rewrite /verifyInputs /= ep /= /N z0 z1 eqxx /=.
Qed.

(** * C91 refuted: the secret key is not constrained, so any ciphertext whose c1 has no zero
    among its NTT values is accepted as an encryption of any message with any error. *)
Theorem C91_any_message_refuted c x T TE (k : coins P) ordT C0 C1 M E bm be : bfvReady c -> bfvCompile U rank c = Some x ->
  running x T TE k ordT -> size C0 = rank -> size C1 = rank -> size M = rank -> size E = rank ->
  (forall i, (i < rank)%N -> (fwdNTT T0 C1)`_i != 0) ->
  infBounded U rank M bm -> infBounded U rank E be ->
  reached (t - 1) bm -> reached err be -> (0 <= bm)%Z -> (0 <= be)%Z -> (2 * bm < q)%Z -> (2 * be < q)%Z ->
  let N := fwdNTT T0 in
  exists sk, accepted x T TE k ordT (bfvV (bfvAssign (N C0) (N C1) sk (N M) M (N E) E)) (bfvV (bfvPublic (N C0) (N C1))).
Proof.
move=> hb hC hr s0 s1 sM sE hz hM hE rM rE m0 e0 mq eq N.
have [pt [e1 e2 e3 e4 e5]] := chk_points hc h8.
pose sk := mkseq (fun i => (sb delta * (N M)`_i + (N E)`_i - (N C0)`_i) / (N C1)`_i) rank.
have ssk : size sk = rank by rewrite size_mkseq.
have [i1 i2] := e3 _ ssk; exists sk; rewrite -[X in bfvAssign _ _ X]i1.
apply: (@C90_bfv_accepted_partial c x T TE k ordT C0 C1 (invNTT T0 sk) M E bm be) => //; split.
- apply/e2 => i hi; rewrite !hornerD hornerM hornerZ -!e1 // i1 nth_mkseq //.
  by rewrite mulrC divfK ?hz // addrC subrK.
- by move=> i hi; have [z [z1 z2]] := hM i hi; exists z; split=> //; case: rM; lia.
- by move=> i hi; have [z [z1 z2]] := hE i hi; exists z; split=> //; case: rE; lia.
Qed.
End Bfv.

(** * C92: the public key circuit of the tests *)
(** pk1 = pk0*sk + noise in the ring, with ternary sk and noise *)
Definition pkRel (P0 P1 S E : seq F) : Prop :=
  [/\ Poly P1 = (Poly P0 * Poly S + Poly E) %% ('X^rank + 1), infBounded U rank S 1 & infBounded U rank E 1].
Definition pkCmds : seq (cmd F) :=
  [:: CLin 1 0 (nfAddr f) tf tr; CLin 3 2 (nfAddr f) tf tr;
      CArith [:: Term (sb 1) (Some 1%N) [::]; Term (sb (-1)) (Some 0%N) [:: 1%N]; Term (sb (-1)) None [:: 3%N]];
      CInf 0 1; CInf 2 1].
Lemma pkCompileE c : kNTT c = Some f -> pkCompile U rank c = define U (newContext F rank 2 4) pkCmds.
Proof.
case: c => _ sk skn p0 p1 ns nsn /= ->.
rewrite /pkCompile /compileWalk /pkV /=; have [v' ->] := inert_first U (0, 0)%N true false hv.
by rewrite /pkDefine /linNTT /pkArith /infNorm /= !widW // !widP.
Qed.
Lemma plain_pk c : List.In c pkCmds -> plain f c.
Proof. by case=> [<-|[<-|[<-|[<-|[<-|[]]]]]]. Qed.
Lemma pk_val pw w i : cval pw w i [:: Term (sb 1) (Some 1%N) [::]; Term (sb (-1)) (Some 0%N) [:: 1%N]; Term (sb (-1)) None [:: 3%N]]
  = slot pw 1 i - slot pw 0 i * slot w 1 i - slot w 3 i.
Proof.
rewrite /cval !big_cons big_nil /tval_ /= !big_cons !big_nil sbm1 setBigInt_one.
by rewrite !mulr1 !mul1r addr0 !mulN1r mulNr !addrA.
Qed.

Theorem C92_pk_sound c a x pw w W proj P0 P1 : kNTT c = Some f -> pkCompile U rank c = Some x ->
  inert (fieldV (kNTT a)) -> full rank (pkV a) ->
  proveInputs rank (cpwCnt x) (cwCnt x) (pkV a) = Some (inr (pw, w)) ->
  (forall i, (i < 4)%N -> nth [::] W i = nth [::] w i) -> arithSat x pw W -> linSat x proj W ->
  transformOf f rank P0 (kPk0 a) -> transformOf f rank P1 (kPk1 a) -> pkRel P0 P1 (kSk a) (kNoise a).
Proof.
move=> hb; rewrite pkCompileE // => hd ha hf hi hW hA hL h0 h1.
have gr := grows_define hd.
have [p1 p2] := ha.
have st : settable true false (pkV a) by rewrite /pkV /= !inert_settable.
move: hi; rewrite proveInputsP //; last first.
- by apply: leq_trans (gr_w gr); rewrite /= p2.
- by apply: leq_trans (gr_pw gr); rewrite /= p1.
rewrite /pkV /= p1 p2 /= => -[epw ew].
have := hf; rewrite /= => /and5P[_ /eqP sS /eqP sSn /and3P[/eqP s0 /eqP s1 _] /and3P[/eqP sE /eqP sEn _]].
have W0 : nth [::] W 0 = kSk a by rewrite hW // -ew.
have W1 : nth [::] W 1 = kSkNTT a by rewrite hW // -ew.
have W2 : nth [::] W 2 = kNoise a by rewrite hW // -ew.
have W3 : nth [::] W 3 = kNoiseNTT a by rewrite hW // -ew.
have P0' : nth [::] pw 0 = kPk0 a by rewrite -epw.
have P1' : nth [::] pw 1 = kPk1 a by rewrite -epw.
have eS := plain_linSat plain_pk hd (or_introl erefl) hL.
have eE := plain_linSat plain_pk hd (or_intror (or_introl erefl)) hL.
rewrite W1 W0 (nttTfE hc) ?size_nseq // in eS; rewrite W3 W2 (nttTfE hc) ?size_nseq // in eE.
have hm := arith_call hd (or_intror (or_intror (or_introl erefl))) hA.
have hin : compiled U rank 2 4 pkCmds x by split.
have o1 : (0 <= 1)%Z by [].
split.
- have [pt [e1 e2 _ _ e5]] := chk_points hc h8; have [sP1 _] := h1.
  rewrite -(e5 _ sP1); apply/e2 => i hi; rewrite hornerD hornerM -!e1 //; last by case: h0.
  have := hm i hi; rewrite pk_val /slot P0' P1' W1 W3 -eS -eE -(fwd_of h0) -(fwd_of h1).
  by rewrite -addrA -opprD => /eqP; rewrite subr_eq0 => /eqP.
- by have := @C18_inf_norm_sound F U rank 2 4 (take 3 pkCmds) [:: CInf 2 1] 0 1 x pw W hin o1 hA; rewrite W0; exact.
- by have := @C18_inf_norm_sound F U rank 2 4 (take 4 pkCmds) [::] 2 1 x pw W hin o1 hA; rewrite W2; exact.
Qed.

(** complete: any ternary key and noise, any pk0, with the pk1 of the test; the test gives the
    same struct to Verify *)
Theorem C92_pk_accepted c x T TE (k : coins P) ordT S E p0 : kNTT c = Some f -> pkCompile U rank c = Some x ->
  running x T TE k ordT -> size S = rank -> size E = rank -> size p0 = rank ->
  infBounded U rank S 1 -> infBounded U rank E 1 ->
  let a := PkC None S (fwdNTT T0 S) p0 (addv (mulv p0 (fwdNTT T0 S)) (fwdNTT T0 E)) E (fwdNTT T0 E) in
  accepted x T TE k ordT (pkV a) (pkV a).
Proof.
move=> hb; rewrite pkCompileE // => hd hr sS sE sp hS hE a.
have [pt [e1 e2 e3 e4 e5]] := chk_points hc h8.
have [_ zS] := e4 _ sS; have [_ zE] := e4 _ sE.
have zm : size (mulv p0 (fwdNTT T0 S)) = rank by rewrite size_mulv ?sp ?zS.
have za : size (addv (mulv p0 (fwdNTT T0 S)) (fwdNTT T0 E)) = rank by rewrite size_map size_zip zm zE minnn.
have gr := grows_define hd.
have [_ ep _] := plain_define plain_pk (plain_new f rank 2 4) hd; rewrite /= in ep.
have hin : compiled U rank 2 4 pkCmds x by split.
pose w0 := [:: S; fwdNTT T0 S; E; fwdNTT T0 E]; pose pw0 := [:: p0; kPk1 a].
have gw : goodw rank w0 by case=> [|[|[|[|i]]]].
have gp : goodw rank pw0 by case=> [|[|i]].
have ut : uniq (targets (@infT F) pkCmds) by [].
have tern (v : seq F) i : infBounded U rank v 1 -> (i < rank)%N ->
    exists z, [/\ repr U v`_i z, (Z.abs z <= cover1 1)%Z & (2 * Z.abs z < q)%Z].
  by move=> h hi; have [z [z2 z3]] := h i hi; exists z; have := q17; split=> //; lia.
have [] := @plain_accepted F U P H name setBytes marshal xofProj rank 2 4 f pkCmds x T TE k ordT pw0 w0 plain_pk isT hc hin ut hr erefl erefl gw gp.
  move=> d [<-|[<-|[<-|[<-|[<-|[]]]]]] /=.
  - by rewrite (nttTfE hc) ?size_nseq.
  - by rewrite (nttTfE hc) ?size_nseq.
  - move=> i hi; rewrite pk_val /slot /= (nth_map (0, 0)); last by rewrite size_zip zm zE minnn.
    by rewrite nth_zip ?zm ?zE //= nth_mulv ?sp ?zS // -addrA -opprD subrr.
  - by right=> i hi; exact: tern.
  - by right=> i hi; exact: tern.
move=> pf [h1 h2]; exists pw0, w0, pf; split=> //.
- rewrite proveInputsP //; last by apply: leq_trans (gr_w gr).
    by rewrite /= sp sS zS za sE zE eqxx.
  by rewrite ep.
- have hq : (0 + size (pubs (pkV a)) <= size (nseq (cpwCnt x) ([::] : seq F)))%N by rewrite size_nseq ep.
  have hf : full rank (pkV a) by rewrite /= sp sS zS za sE zE eqxx.
  by rewrite /verifyInputs /= ep /= sp eqxx /= za eqxx /=.
Qed.
End Run.
End Circuit.
End Ex.

(** * Concrete instances over Z/193, rank 8 *)
Lemma orderOf (A : Type) (m : seq (nat * A)) : uniq [seq p.1 | p <- m] -> isOrder m [seq p.1 | p <- m].
Proof.
move=> u; split=> // id; elim: m {u} => [|[j a] m IH] //=; rewrite inE /aget /= eq_sym.
by case: eqP => //= _; rewrite IH.
Qed.
Definition ordCoins (o : seq nat) : coins idPcs :=
  @Coins F193 idPcs (fun i => i%:R) (fun i => (3 * i + 1)%N%:R) (fun i => (5 * i)%N%:R) (fun _ => tt) tt
    o [::] [::] [::].
Lemma run193 (x : context F193) : List.In (embRank x) [:: 16; 32]%N -> (commitRank x <= 64)%N ->
  uniq [seq p.1 | p <- cinf x] -> ctwo x = [::] -> cproj x = [::] -> cprojD x = [::] ->
  exists T TE, running U193 exXof 8 x T TE (ordCoins [seq p.1 | p <- cinf x]) [::].
Proof.
move=> he hR hi h2 hp hD; have [T hT] := @cyc193 8%N (or_intror (or_intror (or_introl erefl))).
have [TE hTE] := @cyc193 (embRank x) (or_intror (or_intror (or_intror he))).
exists T, TE; apply: Running; [|exact: hT|exact: hTE|..].
- by apply/andP; split=> //; rewrite -[X in (X < _)%N]/(2 ^ 3)%N ltn_exp2l.
- by apply/andP; split; first exact: hR; rewrite -[pRank _]/(2 ^ 6)%N ltn_exp2l.
- exact: idComplete.
- by move=> d; split=> //; rewrite all_nseq size_nseq eqxx.
- exact: orderOf.
- by rewrite h2; split.
- by rewrite hp; split.
- by rewrite hD; split.
- by rewrite h2; split.
Qed.
(** the checker, with nothing inside that the walk could mistake for a witness *)
Lemma chk193 : exists f : nttField F193, [/\ NewNTTChecker U193 8 = Some (nfChk f), inert (nfView f) & nfAddr f = 0%N].
Proof.
have [|T hT] := proj2 (C06_cyclotomic_constructor U193 8).
  by split=> //; [exists 3%N|exists 12%Z].
exists (NttField 0 (NttChecker T (setBigInt U193 8)) (VStruct [::])); split; [|by split|by []].
by rewrite /NewNTTChecker hT.
Qed.

Definition fine (o : option (context F193)) : bool :=
  if o is Some x then [&& embRank x \in [:: 16; 32]%N, (commitRank x <= 64)%N, uniq [seq p.1 | p <- cinf x],
    nilp (ctwo x), nilp (cproj x) & nilp (cprojD x)] else false.
Lemma fineP o : fine o -> exists x T TE, o = Some x /\ running U193 exXof 8 x T TE (ordCoins [seq p.1 | p <- cinf x]) [::].
Proof.
case: o => // x /and5P[h1 h2 h3 /nilP h4 /andP[/nilP h5 /nilP h6]].
have [|T [TE h]] := @run193 x _ h2 h3 h4 h5 h6; last by exists x, T, TE.
by move: h1; rewrite !inE => /orP[/eqP ->|/eqP ->]; [left|right; left].
Qed.

Lemma poly_one (K : fieldType) n : Poly (1 :: nseq n 0) = 1 :> {poly K}.
Proof.
have h : Poly (nseq n 0) = 0 :> {poly K} by elim: n => //= n IH; rewrite cons_poly_def IH mul0r add0r.
by rewrite /= cons_poly_def h mul0r add0r.
Qed.
Section Inst.
Variable f : nttField F193.
Hypothesis ha : nfAddr f = 0%N.
Lemma fine_mult : fine (define U193 (newContext F193 8 1 4) (multCmds U193 f)).
Proof. by rewrite /multCmds; rewrite ha; move: (nttTf _) (nttTr _) => tf tr; vm_compute. Qed.
Lemma fine_bfv : fine (define U193 (newContext F193 8 2 5) (bfvCmds U193 f 4 48 10)).
Proof. by rewrite /bfvCmds; rewrite ha; move: (nttTf _) (nttTr _) => tf tr; vm_compute. Qed.
Lemma fine_pk : fine (define U193 (newContext F193 8 2 4) (pkCmds U193 f)).
Proof. by rewrite /pkCmds; rewrite ha; move: (nttTf _) (nttTr _) => tf tr; vm_compute. Qed.

Hypothesis hc : NewNTTChecker U193 8 = Some (nfChk f).
Hypothesis hv : inert (nfView f).
Local Notation N := (fwdNTT (nckNtt (nfChk f))).
Local Notation ok := (@accepted F193 U193 8 idPcs exH exName exSet exMar exXof).
Definition mult0 : multC F193 := MultC (Some f) [::] [::] [::] [::] [::].
Definition bfv0 : bfvC F193 := BfvC (Some f) 4 10 [::] [::] [::] 48 (VStruct [::]) [::] [::] [::] [::].
Definition pk0 : pkC F193 := PkC (Some f) [::] [::] [::] [::] [::] [::].
Lemma small193 z B : (Z.abs z <= B)%Z -> infBounded U193 8 (nseq 8 (setBigInt U193 z)) B.
Proof. by move=> h i hi; exists z; split; [rewrite /repr nth_nseq hi|]. Qed.
Lemma q193 : modulus U193 = 193%Z. Proof. by []. Qed.

(** X = (-4,...,-4), Y = (7,...,7): the mult circuit compiles, and its run is accepted *)
Lemma inst_mult : exists x T TE (k : coins idPcs), [/\ multCompile U193 8 mult0 = Some x, running U193 exXof 8 x T TE k [::] &
  let a := multAssign (nckNtt (nfChk f)) (nseq 8 (setBigInt U193 (-4))) (nseq 8 (setBigInt U193 7)) in
  ok x T TE k [::] (multV a) (multV (multPublic (mYNTT a)))].
Proof.
have [x [T [TE [hd hr]]]] := fineP fine_mult.
have hC : multCompile U193 8 mult0 = Some x by rewrite (multCompileE hc isT hv).
exists x, T, TE, (ordCoins [seq p.1 | p <- cinf x]); split; [exact: hC|exact: hr|].
have hX : infBounded U193 8 (nseq 8 (setBigInt U193 (-4))) 5 by apply: small193.
by have [_] := C89_mult_accepted hc isT hv exH exName exSet exMar (erefl : mNTT mult0 = Some f) hC hr (size_nseq _ _) (size_nseq _ (setBigInt U193 7)) hX.
Qed.

(** t = 4, Delta = 48, |e| <= 10, the ciphertext ((5,...,5), 1): accepted as an encryption of
    (1,...,1) and of (2,...,2) *)
Lemma inst_bfv : exists x T TE (k : coins idPcs), [/\ bfvCompile U193 8 bfv0 = Some x, running U193 exXof 8 x T TE k [::] &
  let c0 := N (nseq 8 (setBigInt U193 5)) in let c1 := N (1 :: nseq 7 0) in let e := nseq 8 (setBigInt U193 (-9)) in
  forall z, (Z.abs z <= 2)%Z -> let m := nseq 8 (setBigInt U193 z) in
  exists sk, ok x T TE k [::] (bfvV (bfvAssign c0 c1 sk (N m) m (N e) e)) (bfvV (bfvPublic c0 c1))].
Proof.
have [x [T [TE [hd hr]]]] := fineP fine_bfv.
have hb : bfvReady f 4 48 10 bfv0 by split; [exact: erefl|exact: erefl|exact: erefl|exact: erefl|exact: (conj erefl erefl)].
have ht : (1 <= 4 < 2 ^ 64)%Z by clear; lia.
have hC : bfvCompile U193 8 bfv0 = Some x by rewrite (bfvCompileE hc isT hv ht hb).
exists x, T, TE, (ordCoins [seq p.1 | p <- cinf x]); split; [exact: hC|exact: hr|].
move=> c0 c1 e z hz m.
apply: (C91_any_message_refuted hc isT hv exH exName exSet exMar ht hb hC hr (size_nseq _ _) (bm := 2%Z) (be := 9%Z)).
- exact: erefl.
- exact: size_nseq.
- exact: size_nseq.
- have [pt [e1 _ _ _ _]] := chk_points hc isT.
  move=> i hi; rewrite e1; [|exact: erefl|exact: hi].
  rewrite (poly_one _ 7).
  by rewrite hornerC; exact: oner_neq0.
- exact: small193.
- by apply: small193.
- by split; [|left]; clear; lia.
- by split; [|left]; clear; lia.
- by clear; lia.
- by clear; lia.
- by rewrite q193; clear; lia.
- by rewrite q193; clear; lia.
Qed.

(** sk = (1,...,1), noise = (-1,...,-1), pk0 = (5,...,5) *)
Lemma inst_pk : exists x T TE (k : coins idPcs), [/\ pkCompile U193 8 pk0 = Some x, running U193 exXof 8 x T TE k [::] &
  let s := nseq 8 (setBigInt U193 1) in let e := nseq 8 (setBigInt U193 (-1)) in let p := nseq 8 (setBigInt U193 5) in
  let a := PkC None s (N s) p (addv (mulv p (N s)) (N e)) e (N e) in ok x T TE k [::] (pkV a) (pkV a)].
Proof.
have [x [T [TE [hd hr]]]] := fineP fine_pk.
have hC : pkCompile U193 8 pk0 = Some x by rewrite (pkCompileE hc isT hv).
exists x, T, TE, (ordCoins [seq p.1 | p <- cinf x]); split; [exact: hC|exact: hr|].
move=> s e p a; apply: (C92_pk_accepted hc isT hv exH exName exSet exMar (erefl : kNTT pk0 = Some f) hC hr); [exact: size_nseq|exact: size_nseq|exact: size_nseq|exact: small193|exact: small193].
Qed.
End Inst.

Example ex_C89 : exists f x T TE (k : coins idPcs), [/\ NewNTTChecker U193 8 = Some (nfChk f),
  multCompile U193 8 (mult0 f) = Some x, running U193 exXof 8 x T TE k [::] &
  let a := multAssign (nckNtt (nfChk f)) (nseq 8 (setBigInt U193 (-4))) (nseq 8 (setBigInt U193 7)) in
  accepted U193 8 exH exName exSet exMar exXof x T TE k [::] (multV a) (multV (multPublic (mYNTT a)))].
Proof.
have [f [hc hv ha]] := chk193; have [x [T [TE [k [h1 h2 h3]]]]] := inst_mult ha hc hv.
by exists f, x, T, TE, k; split; [exact: hc|exact: h1|exact: h2|exact: h3].
Qed.
Example ex_C90_C91 : exists f x T TE (k : coins idPcs), [/\ NewNTTChecker U193 8 = Some (nfChk f),
  bfvCompile U193 8 (bfv0 f) = Some x, running U193 exXof 8 x T TE k [::] &
  let N := fwdNTT (nckNtt (nfChk f)) in
  let c0 := N (nseq 8 (setBigInt U193 5)) in let c1 := N (1 :: nseq 7 0) in let e := nseq 8 (setBigInt U193 (-9)) in
  forall z, (Z.abs z <= 2)%Z -> let m := nseq 8 (setBigInt U193 z) in
  exists sk, accepted U193 8 exH exName exSet exMar exXof x T TE k [::]
    (bfvV (bfvAssign c0 c1 sk (N m) m (N e) e)) (bfvV (bfvPublic c0 c1))].
Proof.
have [f [hc hv ha]] := chk193; have [x [T [TE [k [h1 h2 h3]]]]] := inst_bfv ha hc hv.
by exists f, x, T, TE, k; split; [exact: hc|exact: h1|exact: h2|exact: h3].
Qed.
Example ex_C92 : exists f x T TE (k : coins idPcs), [/\ NewNTTChecker U193 8 = Some (nfChk f),
  pkCompile U193 8 (pk0 f) = Some x, running U193 exXof 8 x T TE k [::] &
  let N := fwdNTT (nckNtt (nfChk f)) in
  let s := nseq 8 (setBigInt U193 1) in let e := nseq 8 (setBigInt U193 (-1)) in let p := nseq 8 (setBigInt U193 5) in
  let a := PkC None s (N s) p (addv (mulv p (N s)) (N e)) e (N e) in
  accepted U193 8 exH exName exSet exMar exXof x T TE k [::] (pkV a) (pkV a)].
Proof.
have [f [hc hv ha]] := chk193; have [x [T [TE [k [h1 h2 h3]]]]] := inst_pk ha hc hv.
by exists f, x, T, TE, k; split; [exact: hc|exact: h1|exact: h2|exact: h3].
Qed.

Print Assumptions C89_mult_sound.
Print Assumptions C89_mult_accepted.
Print Assumptions C90_bfv_sound.
Print Assumptions C90_bfv_accepted_partial.
Print Assumptions C91_any_message_refuted.
Print Assumptions C92_pk_sound.
Print Assumptions C92_pk_accepted.
Print Assumptions ex_C90_C91.
