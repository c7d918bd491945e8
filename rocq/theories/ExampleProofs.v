(** Lemmas for the shipped circuits: the walks over their structs, circuits made of NTT
    checks, arithmetic constraints and infinity norms only, and negacyclic products. *)
From Coq Require Import ZArith.
From mathcomp Require Import all_ssreflect all_algebra zify.
From Verif Require Import RingTac Spec UintModel BigpolyModel BitrevProofs NttProofs NttCore UintProofs NttTables
  UintFp PolyProofs RingProofs NormModel BucklerModel DefineModel CheckerModel WalkModel BucklerSpec FillProofs NormSound
  ContextProofs CheckerProofs NormComplete FillComplete Prop_Norm RangeProofs EncodeProofs CheckProofs CheckSound
  Prop_Check Prop_Bigpoly Prop_Checker Prop_Walk ProtocolModel ProtocolProofs Prop_Protocol ExampleModel.
Set Implicit Arguments. Unset Strict Implicit. Unset Printing Implicit Defensive.
Import GRing.Theory.
Local Open Scope ring_scope.
Delimit Scope Z_scope with Z.

Section Ex.
Variables (F : fieldType) (U : uint F).
Local Notation sb := (setBigInt U).
Local Notation q := (modulus U).

(** * Values without witnesses *)
Definition inert (v : cv F) : Prop := pubs v = [::] /\ wits v = [::].
Lemma flat_nil (A B : Type) (f : A -> seq B) l : flatten (map f l) = [::] -> forall u, List.In u l -> f u = [::].
Proof.
elim: l => [|a l IH] //= h u; have [h1 h2] : f a = [::] /\ flatten (map f l) = [::].
  by move: h; case: (f a) => //=; case: (flatten _).
by case=> [<-|/(IH h2)].
Qed.
Lemma all_In (A : Type) (P : pred A) l : (forall u, List.In u l -> P u) -> all P l.
Proof. by elim: l => [|a l IH] //= h; rewrite h ?IH //; [move=> u hu; apply: h; right|left]. Qed.
Lemma inert_settable v : inert v -> forall addr ro, settable addr ro v.
Proof.
have lst (l : seq (cv F)) : (forall u, List.In u l -> inert u -> forall addr ro, settable addr ro u) ->
    flatten (map (@pubs F) l) = [::] -> flatten (map (@wits F) l) = [::] -> forall addr ro, all (settable addr ro) l.
  move=> IH h1 h2 addr ro; apply: all_In => u hu; apply: IH => //; split; [exact: flat_nil h1 _ hu|exact: flat_nil h2 _ hu].
elim/cv_ind': v => [x|x|||u IH|u IH|u IH|l IH|l IH|l IH] [] //= h1 h2 addr ro; try (by apply: IH; split).
all: exact: lst IH h1 h2 _ _.
Qed.
Lemma inert_first v st addr ro : inert v -> exists v', firstWalk U addr ro v st = (v', st, false).
Proof.
move=> h; have [v' [e _ _ _]] := firstWalkP U st (inert_settable h addr ro).
by exists v'; rewrite e; case: h => -> ->; rewrite !addn0; case: st {e}.
Qed.
Lemma inert_full rank v : inert v -> full rank v.
Proof.
have lst (l : seq (cv F)) : (forall u, List.In u l -> inert u -> full rank u) ->
    flatten (map (@pubs F) l) = [::] -> flatten (map (@wits F) l) = [::] -> all (full rank) l.
  move=> IH h1 h2; apply: all_In => u hu; apply: IH => //; split; [exact: flat_nil h1 _ hu|exact: flat_nil h2 _ hu].
elim/cv_ind': v => [x|x|||u IH|u IH|u IH|l IH|l IH|l IH] [] //= h1 h2; try (by apply: IH; split).
all: exact: lst IH h1 h2.
Qed.

(** what Prove reads from a struct whose witnesses all have length rank *)
Lemma proveInputsP rank (v : cv F) pwCnt wCnt : settable true false v -> full rank v ->
  (size (pubs v) <= pwCnt)%N -> (size (wits v) <= wCnt)%N ->
  proveInputs rank pwCnt wCnt v = Some (inr (padw rank pwCnt (pubs v), padw rank wCnt (wits v))).
Proof.
move=> hs hf hp hw; have P0 := @prvWalkP F rank v true false (Pst (nseq pwCnt [::]) (nseq wCnt [::]) 0 0) hs hf.
have z0 total (xs : seq (seq F)) : (size xs <= total)%N ->
    zerosFrom rank (size xs) total (wr (nseq total [::]) 0 xs) = padw rank total xs.
  by move=> h; rewrite /zerosFrom /wr take0 /= take_size_cat.
by rewrite /proveInputs /= P0 /= ?add0n ?z0 //; split; rewrite /= size_nseq.
Qed.

(** * Circuits of NTT checks, arithmetic constraints and infinity norms *)
Definition plain (f : nttField F) (c : cmd F) : Prop :=
  match c with
  | CLin _ _ a tf tr => [/\ a = nfAddr f, tf = nttTf (nfChk f) & tr = nttTr (nfChk f)]
  | CArith _ | CInf _ _ => True
  | _ => False
  end.
Definition isLin (c : cmd F) : bool := if c is CLin _ _ _ _ _ then true else false.

(** what such a Define leaves untouched, and its linear constraints *)
Record plainCtx (f : nttField F) (x : context F) : Prop := PlainCtx {
  pl_two : ctwo x = [::]; pl_has : chasProj x = false; pl_pr : cproj x = [::]; pl_prD : cprojD x = [::];
  pl_sum : csum x = [::]; pl_sums : csums x = [::];
  pl_key : forall k, aget (clin x) k <> None -> k = inl (nfAddr f);
  pl_chk : forall chk, List.In chk (clinChk x) -> chk = Chk (inl (nfAddr f)) (OUser (nttTf (nfChk f)) (nttTr (nfChk f)));
  pl_reg : aget (clin x) (inl (nfAddr f)) <> None -> List.In (Chk (inl (nfAddr f)) (OUser (nttTf (nfChk f)) (nttTr (nfChk f)))) (clinChk x)
}.
Lemma plain_new f N p n : plainCtx f (newContext F N p n).
Proof. by split. Qed.

Lemma plain_run1 f x y c : plain f c -> plainCtx f x -> run1 U x c = Some y ->
  [/\ plainCtx f y, cpwCnt y = cpwCnt x & forall k io, List.In io (odflt [::] (aget (clin x) k)) -> List.In io (odflt [::] (aget (clin y) k))].
Proof.
case: c => [c|c s|o i a tf tr|w B|w B|w B] //=.
- by move=> _ [h1 h2 h3 h4 h5 h6 h7 h8 h9] [<-].
- move=> [-> -> ->] [h1 h2 h3 h4 h5 h6 h7 h8 h9] [<-]; split=> //=; last first.
    move=> k io; rewrite aget_aset /=; case: eqP => [->|//] h.
    by apply/In_rcons; left.
  split=> //=.
  + by move=> k; rewrite aget_aset /=; case: eqP => [->//|_]; exact: h7.
  + by move=> chk; case: (aget _ _) => [_|]; [exact: h8|move/In_rcons=> [/h8|]].
  + rewrite aget_aset eqxx => _; case E: (aget _ _) => [l|]; first by apply: h9; rewrite E.
    by apply/In_rcons; right.
- move=> _ [h1 h2 h3 h4 h5 h6 h7 h8 h9]; rewrite /AddInfNormConstraintBig.
  case: ifP => [_ [<-]|_]; first by [].
  case: ifP => [_ [<-]|_]; first by [].
  case: ifP => [_ [<-]|_]; first by [].
  by case: (decomposeBase B) => [base|] // [<-]; rewrite fold_arithE.
Qed.

Lemma plain_define f cs : (forall c, List.In c cs -> plain f c) -> forall x y, plainCtx f x -> define U x cs = Some y ->
  [/\ plainCtx f y, cpwCnt y = cpwCnt x & forall k io, List.In io (odflt [::] (aget (clin x) k)) -> List.In io (odflt [::] (aget (clin y) k))].
Proof.
elim: cs => [|c cs IH] h x y hx /=; first by move=> [<-].
case E: (run1 U x c) => [x1|] // hd; have [h1 h2 h3] := plain_run1 (h c (or_introl erefl)) hx E.
have [|g1 g2 g3] := IH _ x1 y h1 hd; first by move=> d hd'; apply: h; right.
by split=> //; [rewrite g2|move=> k io /h3/g3].
Qed.

(** the linear constraints of the calls are in the context *)
Lemma plain_lin f cs x p n N o i : (forall c, List.In c cs -> plain f c) -> define U (newContext F N p n) cs = Some x ->
  List.In (CLin o i (nfAddr f) (nttTf (nfChk f)) (nttTr (nfChk f))) cs ->
  List.In (o, i) (odflt [::] (aget (clin x) (inl (nfAddr f)))) /\ hasLin x.
Proof.
move=> hp hd hi; have [cs1 [cs2 e]] := List.in_split _ _ hi; rewrite e in hp hd.
have hp1 c : List.In c cs1 -> plain f c by move=> h; apply: hp; apply/List.in_or_app; left.
have hp2 c : List.In c cs2 -> plain f c by move=> h; apply: hp; apply/List.in_or_app; right; right.
have [x1 [hd1 hd2]] := define_cat hd.
have [k1 _ _] := plain_define hp1 (plain_new f N p n) hd1.
move: hd2 => /=; set x2 := AddLinearConstraint _ _ _ _ => hd2.
have [//|k2 _ _] := @plain_run1 f x1 x2 (CLin o i (nfAddr f) (nttTf (nfChk f)) (nttTr (nfChk f))) _ k1 erefl.
have [k3 _ g] := plain_define hp2 k2 hd2.
have h2 : List.In (o, i) (odflt [::] (aget (clin x2) (inl (nfAddr f)))).
  by rewrite /x2 /= aget_aset eqxx /=; apply/In_rcons; right.
have h3 := g _ _ h2; split=> //.
by move: h3; rewrite /hasLin; case: (clin x).
Qed.

Lemma plain_linSat f cs x p n N o i proj w : (forall c, List.In c cs -> plain f c) -> define U (newContext F N p n) cs = Some x ->
  List.In (CLin o i (nfAddr f) (nttTf (nfChk f)) (nttTr (nfChk f))) cs -> linSat x proj w ->
  nth [::] w o = nttTf (nfChk f) (nseq N 0) (nth [::] w i).
Proof.
move=> hp hd hi hs; have [h1 _] := plain_lin hp hd hi.
have [k _ _] := plain_define hp (plain_new f N p n) hd.
have e : crank x = N by rewrite (gr_rank (grows_define hd)).
have := hs (Chk (inl (nfAddr f)) (OUser (nttTf (nfChk f)) (nttTr (nfChk f)))) o i; rewrite /= e; apply=> //.
by apply: (pl_reg k); move: h1; case: (aget _ _).
Qed.

Lemma arith_call cs x p n N c pw w : define U (newContext F N p n) cs = Some x -> List.In (CArith c) cs ->
  arithSat x pw w -> forall i, (i < N)%N -> cval pw w i c = 0.
Proof.
move=> hd hi hs i hlt; have [cs1 [cs2 e]] := List.in_split _ _ hi; rewrite e in hd.
have [x1 [hd1 /= hd2]] := define_cat hd; apply: hs; last by rewrite (gr_rank (grows_define hd)).
by apply: (gr_ar (grows_define hd2)); apply/In_rcons; right.
Qed.

(** * The NTT checker on vectors of its rank *)
Section Checker.
Variables (rank : nat) (chk : nttChecker F).
Hypothesis hc : NewNTTChecker U rank = Some chk.
Hypothesis h8 : (8 <= rank)%N.

Lemma chk_good : exists n g, [/\ rank = (2 ^ n)%N, (3 <= n)%N & good_cyclotomic (nckNtt chk) n g].
Proof.
move: hc; rewrite /NewNTTChecker; case E: (NewCyclotomicTransformer U rank) => [T|] // -[<-].
have [n [g [hr G]]] := NewCyclotomic_good E; exists n, g; split=> //.
by move: h8; rewrite hr; case: n {hr G} => [|[|[|n]]].
Qed.
Lemma chk_div : (8 %| rank)%N.
Proof. by have [n [g [-> hn _]]] := chk_good; rewrite -(subnK hn) expnD dvdn_mull. Qed.
Lemma nttTfE o v : size o = rank -> size v = rank -> nttTf chk o v = fwdNTT (nckNtt chk) v.
Proof.
move=> so sv; rewrite /nttTf /nttTransformTo FwdNTTTo_ok ?so ?sv //; exact: chk_div.
Qed.
Lemma chk_law : userLaw rank (nttTf chk) (nttTr chk).
Proof.
move=> o1 o2 v u s1 s2 sv su; have [a [b [e1 e2 z1 z2 h]]] := C23_ntt_transpose hc h8 s1 s2 sv su.
by rewrite /nttTf /nttTr e1 e2.
Qed.

(** entries of transforms are values at roots of X^N+1; agreement at all of them is
    congruence modulo X^N+1 *)
Lemma chk_points : exists pt : nat -> F, [/\
  forall (v : seq F) i, size v = rank -> (i < rank)%N -> (fwdNTT (nckNtt chk) v)`_i = (Poly v).[pt i],
  forall A B : {poly F}, (forall i, (i < rank)%N -> A.[pt i] = B.[pt i]) <-> A %% ('X^rank + 1) = B %% ('X^rank + 1),
  forall v : seq F, size v = rank -> fwdNTT (nckNtt chk) (invNTT (nckNtt chk) v) = v /\ size (invNTT (nckNtt chk) v) = rank,
  forall v : seq F, size v = rank -> invNTT (nckNtt chk) (fwdNTT (nckNtt chk) v) = v /\ size (fwdNTT (nckNtt chk) v) = rank &
  forall v : seq F, size v = rank -> Poly v %% ('X^rank + 1) = Poly v].
Proof.
have [n [g [hr hn G]]] := chk_good; have [_ gN _ _ _ hz] := G.
have hn0 : (0 < n)%N by case: n hn {hr G gN hz}.
have sV : size ('X^(2 ^ n) + 1 : {poly F}) = (2 ^ n).+1 by apply: size_XnD1; rewrite expn_gt0.
have V0 : ('X^(2 ^ n) + 1 : {poly F}) != 0 by rewrite -size_poly_eq0 sV.
exists (fun i => g ^+ (brv n i).*2.+1); rewrite hr; split.
- by move=> v i sv hi; rewrite (fwd_cyclo_nth G) // pevalE.
- move=> A B; have rt i : root ('X^(2 ^ n) + 1) (g ^+ (brv n i).*2.+1) \/ ~~ (i < 2 ^ n)%N.
    case: (ltnP i (2 ^ n)) => hi; [left|by right].
    by have /allP := cyclo_pts_root gN; apply; apply/mapP; exists i => //; rewrite mem_iota.
  have mv (P : {poly F}) i : (i < 2 ^ n)%N -> (P %% ('X^(2 ^ n) + 1)).[g ^+ (brv n i).*2.+1] = P.[g ^+ (brv n i).*2.+1].
    move=> hi; case: (rt i) => [/rootP r|]; last by rewrite hi.
    by rewrite {2}(divp_eq P ('X^(2 ^ n) + 1)) hornerD hornerM r mulr0 add0r.
  split=> h.
    apply: (@eq_modp_roots _ _ _ _ (cyclo_pts g n) (2 ^ n)) => //.
    + exact: cyclo_pts_uniq.
    + by rewrite size_map size_iota.
    + exact: cyclo_pts_root.
    + by rewrite -ltnS -sV ltn_modp.
    by move=> y /mapP[i]; rewrite mem_iota /= add0n => hi ->; rewrite mv // h.
  by move=> i hi; rewrite -mv // h mv.
- by move=> v sv; rewrite (fwd_inv_cyclo G) // (size_invNTT _ (n := n)).
- by move=> v sv; rewrite (inv_fwd_cyclo G) // (size_fwdNTT _ (n := n)).
- by move=> v sv; rewrite modp_small // sV ltnS -sv size_Poly.
Qed.
End Checker.

(** * Prove and Verify on such a circuit *)
Section Accept.
Variables (P : pcs F) (H : bytes -> bytes) (name : nat -> bytes).
Variables (setBytes : bytes -> F) (marshal : F -> bytes).
Variable xofProj : nat -> bytes -> seq (seq bool).

(** Compile returned (the transformers exist), sizes in int range, the commitment scheme has
    the rank Compile asks for and is complete, any map orders, a matrix of the right shape *)
Record running (rank : nat) (x : context F) (T TE : transformer F) (k : coins P) (ordT : seq nat) : Prop := Running {
  ru_8 : (8 <= rank < 2 ^ 32)%N;
  ru_T : NewCyclicTransformer U rank = Some T; ru_TE : NewCyclicTransformer U (embRank x) = Some TE;
  ru_R : (commitRank x <= pRank P < 2 ^ 32)%N;
  ru_pcs : pcsComplete x k;
  ru_xof : forall d, size (xofProj rank d) = 128%N /\ all (fun r => size r == rank) (xofProj rank d);
  ru_I : isOrder (cinf x) (ordInf k); ru_2 : isOrder (ctwo x) (ordTwo k); ru_P : isOrder (cproj x) (ordProj k);
  ru_D : isOrder (cprojD x) (ordProjD k); ru_V : isOrder (ctwo x) ordT
}.

Lemma plain_accepted rank p n f cs x T TE (k : coins P) ordT pw0 w0 :
  (forall c, List.In c cs -> plain f c) -> has isLin cs -> NewNTTChecker U rank = Some (nfChk f) ->
  compiled U rank p n cs x -> uniq (targets (@infT F) cs) -> running rank x T TE k ordT ->
  size w0 = n -> size pw0 = p -> goodw rank w0 -> goodw rank pw0 ->
  (forall c, List.In c cs -> cmdOK U rank [::] pw0 w0 c) ->
  exists pf, Prove U H name setBytes marshal xofProj T TE x k pw0 w0 = Some pf /\
    Verify U H name setBytes marshal xofProj T TE x ordT pw0 pf = Some true.
Proof.
move=> hp hl hc hC ui [/andP[h8 h32] hT hTE hR hpcs hx oI o2 oP oD oV] sw sp gw gp hok; have [hin hd] := hC.
have law c : List.In c cs -> cmdLaw rank c.
  by move/hp; case: c => //= o i a tf tr [_ -> ->]; exact: chk_law hc h8.
have [k1 _ _] := plain_define hp (plain_new f rank p n) hd.
have hL : hasLin x.
  have [c hc1 hc2] : exists2 c, List.In c cs & isLin c.
    by elim: cs hl {hp hC ui hok law hin hd} => [|c cs IH] //= /orP[h|/IH[d h1 h2]]; [exists c => //; left|exists d => //; right].
  have := hp c hc1; case: c hc1 hc2 => // o i a tf tr hi _ [ea ef et].
  by rewrite ea ef et in hi; case: (plain_lin hp hd hi).
have [rr _ _ _ _ l2 _ _ _ _ _] := rg_define (rg_new F rank p n) (leqnn p) (leqnn n) hin law hd.
have hA : (rank < carithMax x)%N by have := l2 hL; move: h8; clear; lia.
have hlt : (rank < embRank x)%N by apply: leq_trans hA (proj1 (embRank_ge x)).
have [m [g K]] := keys_new hC law hT hTE hlt.
have hm : (3 <= m)%N by move: h8; rewrite (ks_N K); clear; case: m => [|[|[|m]]].
have noS : hasSum x = false by rewrite /hasSum (pl_sum k1).
have se : setting xofProj rank x m k by split=> //; rewrite noS.
have noT : targets (@twoT F) cs = [::] /\ targets (@appT F) cs = [::].
  elim: cs hp {hl hC ui hok law hin hd k1 hL rr l2 hA hlt K se noS} => [|c cs IH] //= hp.
  have [e1 e2] := IH (fun d h => hp d (or_intror h)).
  by have := hp c (or_introl erefl); rewrite /targets /= -/(targets _ _) e1 -/(targets _ _) e2; case: c {hp}.
have ho : honest U rank p n (fun=> OUser (nttTf (nfChk f)) (nttTr (nfChk f))) cs x (ordInf k) (ordTwo k) (ordProj k) (ordProjD k) pw0 w0.
  split=> //; rewrite ?(pl_two k1) ?(pl_has k1) ?(pl_prD k1) ?(proj1 noT) ?(proj2 noT) //.
  - by move: h8; clear; lia.
  - by move=> c /hp; case: c => //= o i a tf tr [_ -> ->].
apply: (C72_honest_accepted_partial H name setBytes marshal K se ho oV); last by rewrite (pl_sums k1) big_nil.
by move=> d c hc'; have := hok c hc'; have := hp c hc'; case: c {hc'}.
Qed.
End Accept.
End Ex.
