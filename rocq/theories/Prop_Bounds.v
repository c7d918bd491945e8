(** Which bounds the norm constraints can take.  Property C121. *)
From Coq Require Import ZArith Lia.
From mathcomp Require Import all_ssreflect all_algebra zify.
From Verif Require Import UintModel BigpolyModel RingProofs NormModel NormProofs BucklerModel DefineModel FillProofs
  ContextProofs ProtocolModel.
Set Implicit Arguments. Unset Strict Implicit. Unset Printing Implicit Defensive.
Delimit Scope Z_scope with Z.

(** * The digits of a bound *)
Lemma base_none B : decomposeBase B = None <-> B = 0%Z \/ B = 1%Z.
Proof.
split; last by case=> ->.
case: B => [|p|p]; first by left.
- case: (Z_lt_ge_dec 1 (Z.pos p)) => h; last by move=> _; right; lia.
  by have [|base [-> _ _ _]] := @decomposeBaseP (Z.pos p); first lia.
- rewrite /decomposeBase /bitLen /=.
  have hs : (0 <= Z.shiftl 1 (ptz p))%Z by apply/Z.shiftl_nonneg.
  have -> : (Z.shiftl 1 (ptz p) =? Z.neg p)%Z = false by apply/Z.eqb_neq; lia.
  have hl := Z.log2_nonneg (Z.pos p).
  by have -> : (Z.log2 (Z.pos p) + 1 - 0 <=? 0)%Z = false by apply/Z.leb_gt; lia.
Qed.

(** a bound of at least 2 has as many digits as bits are needed to count up to it *)
Lemma base_size B : (2 <= B)%Z -> exists base, decomposeBase B = Some base /\ Z.of_nat (size base) = Z.log2_up B.
Proof.
move=> hB; have [base [e _ _ s]] := decomposeBaseP hB; exists base; split=> //; rewrite s.
rewrite /bitLen; have -> : (B =? 0)%Z = false by apply/Z.eqb_neq; lia.
rewrite Z.abs_eq; last lia.
have hp := isPow2P (x := B).
case E: (_ =? B)%Z.
  have [k [k0 ek]] : pow2 B by apply/hp; [lia|].
  by rewrite ek Z.log2_pow2 // Z.log2_up_pow2 //; lia.
have h : Z.log2 B <> Z.log2_up B.
  move=> h; have : pow2 B; last by move/hp; rewrite E => /(_ ltac:(lia)).
  have [b eb] := proj1 (Z.log2_log2_up_exact B ltac:(lia)) h; exists b; split=> //.
  by case: (Z_lt_ge_dec b 0) => [hb|]; [move: eb; rewrite Z.pow_neg_r //; lia|lia].
have := Z.le_log2_log2_up B; have := Z.le_log2_up_succ_log2 B; lia.
Qed.

Section Props.
Variables (F : fieldType) (U : uint F).

Lemma run1_rank x c y : run1 U x c = Some y -> crank y = crank x.
Proof.
case: c => [c|c s|o i a tf tr|w B|w B|w B] /=; try by move=> [<-].
  rewrite /AddInfNormConstraintBig; do 3 (case: ifP => _; first by move=> [<-]).
  by case: (decomposeBase B) => [base|] // [<-]; rewrite fold_arithE.
by rewrite /AddApproxInfNormConstraintBig; case: (decomposeBase _) => [base|] // [<-].
Qed.

Lemma define_rank x cs y : define U x cs = Some y -> crank y = crank x.
Proof.
elim: cs x => [|c cs IH] x /=; first by move=> [<-].
by case E: (run1 U x c) => [z|] // /IH ->; rewrite (run1_rank E).
Qed.

Lemma run1_none x c : run1 U x c = None <->
  exists w B, c = CApprox w B /\ (Z.of_nat (crank x) * B = 0 \/ Z.of_nat (crank x) * B = 1)%Z.
Proof.
split.
  case: c => [c|c s|o i a tf tr|w B|w B|w B] //=.
    rewrite /AddInfNormConstraintBig; case: ifP => // _; case: ifP => // h0; case: ifP => // h1.
    case E: (decomposeBase B) => [base|] //.
    by move/base_none: E => [e|e]; move: h0 h1; rewrite e.
  rewrite /AddApproxInfNormConstraintBig; case E: (decomposeBase _) => [base|] // _.
  by exists w, B; split=> //; exact/base_none.
by case=> w [B [-> /base_none e]]; rewrite /= /AddApproxInfNormConstraintBig /= e.
Qed.

(** * C121, definition.  Define panics exactly if some approximate bound times the rank is 0
    or 1 - that is, for ranks from 2 on, if some approximate bound is 0.  Exact infinity-norm
    and squared-norm constraints are accepted for every bound. *)
Theorem C121_define_panics N p0 n0 (cs : seq (cmd F)) :
  define U (newContext F N p0 n0) cs = None <->
  exists w B, List.In (CApprox w B) cs /\ (Z.of_nat N * B = 0 \/ Z.of_nat N * B = 1)%Z.
Proof.
have e0 : crank (newContext F N p0 n0) = N by [].
elim: cs (newContext _ _ _ _) e0 => [|c cs IH] x e0 /=; first by split=> // -[w [B [[]]]].
case E: (run1 U x c) => [y|].
  rewrite IH ?(run1_rank E) //; split=> -[w [B [h1 h2]]]; exists w, B; split=> //; first by right.
  case: h1 => // ec; suff : run1 U x c = None by rewrite E.
  by apply/run1_none; exists w, B; rewrite e0.
split=> // _; move/run1_none: E => [w [B [ec h]]]; exists w, B; rewrite -e0; split=> //; by left.
Qed.

(** * C121, squared norms *)
Definition isTwo (w : nat) (c : cmd F) : bool := if c is CTwo w' _ then w' == w else false.

Lemma define_cat x cs1 cs2 : define U x (cs1 ++ cs2) = obind (fun y => define U y cs2) (define U x cs1).
Proof. by elim: cs1 x => [|c cs IH] x //=; case: (run1 U x c). Qed.

Lemma run1_two x c y w : run1 U x c = Some y -> ~~ isTwo w c -> aget (ctwo y) w = aget (ctwo x) w.
Proof.
case: c => [c|c s|o i a tf tr|v B|v B|v B] /=; try by move=> [<-].
- rewrite /AddInfNormConstraintBig; do 3 (case: ifP => _; first by move=> [<-]).
  by case: (decomposeBase B) => [base|] // [<-]; rewrite fold_arithE.
- by move=> [<-] /= ne; rewrite aget_aset eq_sym (negbTE ne).
- by rewrite /AddApproxInfNormConstraintBig; case: (decomposeBase _) => [base|] // [<-].
Qed.

(** the last squared-norm bound of a witness is the one that is recorded *)
Lemma define_two x cs1 w B cs2 y : define U x (cs1 ++ CTwo w B :: cs2) = Some y ->
  ~~ has (isTwo w) cs2 -> exists pb pm wd, aget (ctwo y) w = Some (B, pb, pm, wd).
Proof.
rewrite define_cat; case: (define U x cs1) => [z|] //= h.
have [pb [pm [wd e]]] : exists pb pm wd, aget (ctwo (AddSqNormConstraintBig U z w B)) w = Some (B, pb, pm, wd).
  by do 3 eexists; rewrite /= aget_aset eqxx.
elim: cs2 (AddSqNormConstraintBig U z w B) h e => [|c cs IH] v /=; first by move=> [<-] e _; exists pb, pm, wd.
case E: (run1 U v c) => [v'|] // h e; rewrite negb_or => /andP[h1 h2].
by apply: IH h _ h2; rewrite (run1_two E h1).
Qed.

Lemma fillPw1_none N pw B pb pm wd : (0 <= B)%Z -> ~ (2 <= B <= 2 ^ Z.of_nat N)%Z ->
  fillPw1 U N pw (B, pb, pm, wd) = None.
Proof.
move=> h0 h; rewrite /fillPw1; case E: (decomposeBase B) => [base|] //.
have hB : (2 <= B)%Z.
  have : B <> 0%Z /\ B <> 1%Z by split=> e; move: E; rewrite e.
  lia.
have [base' [e s]] := base_size hB; move: e; rewrite E => -[eb]; rewrite -eb in s.
case: ifP => // hN; case: h; split=> //.
have hp : (0 < B)%Z by lia.
by apply/Z.log2_up_le_pow2 => //; lia.
Qed.

Section Run.
Variables (P : pcs F) (H : bytes -> bytes) (name : nat -> bytes).
Variables (setBytes : bytes -> F) (marshal : F -> bytes).
Variable xofProj : nat -> bytes -> seq (seq bool).
Variables (T TE : transformer F) (x : context F).
Local Notation Prove := (Prove (P := P) U H name setBytes marshal xofProj T TE x).
Local Notation Verify := (Verify (P := P) U H name setBytes marshal xofProj T TE x).

Lemma fillPw_none N m ord pw w B pb pm wd : aget m w = Some (B, pb, pm, wd) -> w \in ord ->
  (0 <= B)%Z -> ~ (2 <= B <= 2 ^ Z.of_nat N)%Z -> fillPw U N m ord pw = None.
Proof.
move=> e + h0 h; elim: ord pw => [|id ord IH] pw //=; rewrite inE; case: eqP => [<- _|_ /= hi].
  by rewrite e fillPw1_none.
by case: (aget m id) => [e'|]; [case: (fillPw1 _ _ _ _) => // pw'|]; rewrite IH.
Qed.

Lemma fillTwo_none N m ord s pw v w B pb pm wd : aget m w = Some (B, pb, pm, wd) -> w \in ord ->
  (0 <= B)%Z -> ~ (2 <= B <= 2 ^ Z.of_nat N)%Z -> fillTwo U N m ord s pw v = None.
Proof.
move=> e + h0 h; elim: ord s pw v => [|id ord IH] s pw v //=; rewrite inE; case: eqP => [<- _|_ /= hi].
  by rewrite e /fillTwo1 fillPw1_none //; case: (decomposeBase B).
by case: (aget m id) => [e'|]; [case: (fillTwo1 _ _ _ _ _ _ _) => [[[s' pw'] v']|] //|]; rewrite IH.
Qed.

(** A circuit whose last squared-norm bound on some witness is 0, 1 or above 2^rank is accepted
    by Define, but every Prove and every Verify of it panics, for all witnesses and proofs.
    (A Go map iteration visits every key, so [w] is in the orders.) *)
Theorem C121_sq_norm_panics N p0 n0 cs1 w B cs2 :
  define U (newContext F N p0 n0) (cs1 ++ CTwo w B :: cs2) = Some x -> ~~ has (isTwo w) cs2 ->
  (0 <= B)%Z -> ~ (2 <= B <= 2 ^ Z.of_nat N)%Z ->
  (forall (k : coins P) pw0 w0, w \in ordTwo k -> Prove k pw0 w0 = None) /\
  (forall ordT pw0 (pf : proof P), w \in ordT -> Verify ordT pw0 pf = None).
Proof.
move=> hd hl h0 h; have [pb [pm [wd e]]] := define_two hd hl.
have eN : crank x = N by rewrite (define_rank hd).
split=> [k pw0 w0|ordT pw0 pf] hw.
  rewrite /ProtocolModel.Prove /ProveC; case: ifP => // _.
  case: (fillInf _ _ _ _ _) => // v.
  by rewrite (fillTwo_none _ _ _ e) ?eN.
by rewrite /ProtocolModel.Verify /VerifyC; case: ifP => // _; rewrite (fillPw_none _ e) ?eN.
Qed.

(** * C121, approximate norms.  128 projections of log2_up(rank * bound) digits each have to
    fit into one vector of rank entries. *)
Lemma fillProjD_none N m ord v id s wD : aget m id = Some (s, wD) -> id \in ord ->
  (2 <= s)%Z -> (Z.of_nat N < 128 * Z.log2_up s)%Z -> fillProjD U N m ord v = None.
Proof.
move=> e + h2 h; elim: ord v => [|i ord IH] v; first by rewrite in_nil.
rewrite inE fillProjD_cons => /orP[/eqP <-|hi].
  rewrite e; have [base [-> sb]] := base_size h2.
  by have -> : (N < 128 * size base)%N by lia.
case: (aget m i) => [[s' wD']|]; last exact: IH.
by case: (decomposeBase s') => [base|//]; case: ifP => [//|_]; exact: IH.
Qed.

Lemma run1_proj y c z id e : run1 U y c = Some z -> aget (cprojD y) id = Some e -> (id < cwCnt y)%N -> chasProj y ->
  [/\ aget (cprojD z) id = Some e, (id < cwCnt z)%N & chasProj z].
Proof.
case: c => [c|c s|o i a tf tr|v B|v B|v B] /=; try by move=> [<-].
- rewrite /AddInfNormConstraintBig; do 3 (case: ifP => _; first by move=> [<-]).
  by case: (decomposeBase B) => [base|] // [<-]; rewrite fold_arithE /= => *; split=> //; rewrite ltn_addr.
- by move=> [<-] /= h1 h2 h3; split=> //; rewrite ltnS ltnW.
- rewrite /AddApproxInfNormConstraintBig; case: (decomposeBase _) => [base|] // [<-] /= h1 h2 h3.
  by rewrite aget_aset (ltn_eqF h2); split=> //; rewrite ltn_addr.
Qed.

(** Define accepts an approximate bound although its digits do not fit; every Prove panics. *)
Theorem C121_approx_panics N p0 n0 cs w B :
  define U (newContext F N p0 n0) cs = Some x -> List.In (CApprox w B) cs ->
  (0 <= B)%Z -> (Z.of_nat N < 128 * Z.log2_up (Z.of_nat N * B))%Z ->
  forall (k : coins P) pw0 w0, {subset akeys (cprojD x) <= ordProjD k} -> Prove k pw0 w0 = None.
Proof.
move=> hd hin h0 h k pw0 w0 hk.
have eN : crank x = N by rewrite (define_rank hd).
have [id [wD [e hp]]] : exists id wD, aget (cprojD x) id = Some ((Z.of_nat N * B)%Z, wD) /\ chasProj x.
  have := List.in_split _ _ hin => -[cs1 [cs2 ec]]; move: hd; rewrite ec -[(_ ++ _)%list]/(cs1 ++ CApprox w B :: cs2).
  rewrite define_cat; case E1: (define _ _ cs1) => [y|] //=.
  have ey : crank y = N by rewrite (define_rank E1).
  case E: (AddApproxInfNormConstraintBig U y w B) => [z|] //.
  have : [/\ aget (cprojD z) (cwCnt y) = Some ((Z.of_nat N * B)%Z, (cwCnt y).+1), (cwCnt y < cwCnt z)%N & chasProj z].
    move: E; rewrite /AddApproxInfNormConstraintBig /= ey; case: (decomposeBase _) => [base|] // [<-] /=.
    by rewrite aget_aset eqxx; split=> //; rewrite addn2 ltnS leqnSn.
  elim: cs2 z {ec E} => [|c cs2 IH] z /=; first by move=> [e1 _ e2] [<-]; exists (cwCnt y), (cwCnt y).+1.
  move=> [e1 e2 e3]; case E: (run1 U z c) => [z'|] //; apply: IH; exact: run1_proj E e1 e2 e3.
have h2 : (2 <= Z.of_nat N * B)%Z.
  have [h1|] := Z.le_gt_cases (Z.of_nat N * B) 1; last lia.
  by move: h; rewrite Z.log2_up_eqn0 //; lia.
have hid : id \in ordProjD k.
  by apply: hk; elim: (cprojD x) e => [|[a b] m IH] //=; rewrite inE; case: eqP => [->|_ /IH ->]; rewrite ?eqxx ?orbT.
rewrite /ProtocolModel.Prove /ProveC; case: ifP => // _.
case: (fillInf _ _ _ _ _) => // v; case: (fillTwo _ _ _ _ _ _ _) => // -[pw' v'].
case: (ComputeChallenge _ _ _ _) => // -[pc st]; rewrite hp eN; case: ifP => // _.
by rewrite (fillProjD_none _ e hid h2 h).
Qed.
End Run.
End Props.

(** bounds 0, 1 and 257 on a rank-8 witness, after and before other constraints: Define succeeds and
    the bound is out of range; 256 is in range *)
Example ex_sq (F : fieldType) (U : uint F) B : (B = 0 \/ B = 1 \/ B = 257)%Z -> exists x,
  [/\ define U (newContext F 8 0 2) ([:: CInf 0%N 1%Z] ++ CTwo 0%N B :: [:: CTwo 1%N 256%Z]) = Some x,
      ~~ has (isTwo (F := F) 0) [:: CTwo 1%N 256%Z], (0 <= B)%Z, ~ (2 <= B <= 2 ^ Z.of_nat 8)%Z &
      (2 <= 256 <= 2 ^ Z.of_nat 8)%Z].
Proof.
move=> hB; eexists; split; [reflexivity|by []| | |by []].
all: by case: hB => [|[]] -> //; case.
Qed.

(** rank 2048: bound 1 gives 11 digits and fits, bound 64 gives 17 digits and does not *)
Example ex_approx : (128 * Z.log2_up (2048 * 1) <= 2048 < 128 * Z.log2_up (2048 * 64))%Z.
Proof. by vm_compute; split. Qed.

Example ex_approx_define (F : fieldType) (U : uint F) N : Z.of_nat N = 2048%Z -> exists x,
  [/\ define U (newContext F N 0 1) [:: CApprox 0%N 64%Z] = Some x,
      List.In (CApprox 0%N 64%Z) [:: @CApprox F 0%N 64%Z] & (Z.of_nat N < 128 * Z.log2_up (Z.of_nat N * 64))%Z].
Proof.
move=> eN; case E: (define U (newContext F N 0 1) _) => [x|].
  by exists x; split=> //; [left|rewrite eN; vm_compute].
by move/C121_define_panics: E => [w [B [[[_ <-]|[]]]]]; rewrite eN => -[].
Qed.

(** approximate bound 0 is refused by Define at once *)
Example ex_approx_zero (F : fieldType) (U : uint F) :
  define U (newContext F 8 0 1) [:: CTwo 0%N 5%Z; CApprox 0%N 0%Z] = None.
Proof. by apply/C121_define_panics; exists 0%N, 0%Z; split; [right; left|left]. Qed.

Print Assumptions C121_define_panics.
Print Assumptions C121_sq_norm_panics.
Print Assumptions C121_approx_panics.
