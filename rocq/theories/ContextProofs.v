(** Invariants of every context a Define can build. *)
From Coq Require Import ZArith Lia.
From mathcomp Require Import all_ssreflect all_algebra zify.
From Verif Require Import RingTac Spec UintModel BigpolyModel UintProofs RingProofs NormModel NormProofs
  BucklerModel DefineModel BucklerSpec FillProofs NormSound.
Set Implicit Arguments. Unset Strict Implicit. Unset Printing Implicit Defensive.
Import GRing.Theory.
Local Open Scope ring_scope.
Delimit Scope Z_scope with Z.

Section Ctx.
Variables (F : fieldType) (U : uint F).
Implicit Types (x y : context F) (T : nat -> nat * nat).

(** identifiers mentioned by a constraint *)
Definition termIn (p n : nat) (t : term F) : bool :=
  (if tpw t is Some j then (j < p)%N else true) && all (fun j => (j < n)%N) (twit t).
Definition consIn (p n : nat) (c : constraint F) : bool := all (termIn p n) c.

(** a call uses only placeholders that the walk created *)
Definition cmdIn (p n : nat) (c : cmd F) : bool :=
  match c with
  | CArith c => consIn p n c
  | CSum c _ => consIn p n c
  | CLin o i _ _ _ => (o < n)%N && (i < n)%N
  | CInf w _ => (w < n)%N
  | CTwo w _ => (w < n)%N
  | CApprox w _ => (w < n)%N
  end.

Record wf (p0 n0 : nat) T x : Prop := Wf {
  wf_p : (p0 <= cpwCnt x)%N;
  wf_n : (n0 <= cwCnt x)%N;
  wf_inf : forall id e, aget (cinf x) id = Some e ->
    [/\ (id < n0)%N, uniq e.1, all (fun a => (n0 <= a < cwCnt x)%N && (T a == (1, id)%N)) e.1, (2 <= e.2)%Z &
      exists base, decomposeBase e.2 = Some base /\ size base = size e.1];
  wf_two : forall id B pb pm wd, aget (ctwo x) id = Some (B, pb, pm, wd) ->
    [/\ (id < n0)%N, (p0 <= pb < cpwCnt x)%N, (p0 <= pm < cpwCnt x)%N, pb != pm &
       (n0 <= wd < cwCnt x)%N && (T wd == (2, id)%N)];
  wf_two2 : forall id id' B pb pm wd B' pb' pm' wd',
    aget (ctwo x) id = Some (B, pb, pm, wd) -> aget (ctwo x) id' = Some (B', pb', pm', wd') -> id != id' ->
    [/\ pb != pb', pb != pm', pm != pb' & pm != pm'];
  wf_proj : forall id wp, aget (cproj x) id = Some wp ->
    (id < n0)%N /\ (n0 <= wp < cwCnt x)%N && (T wp == (3, id)%N);
  wf_projD : forall wp B wD, aget (cprojD x) wp = Some (B, wD) ->
    [/\ (n0 <= wp < cwCnt x)%N && ((T wp).1 == 3%N), (n0 <= wD < cwCnt x)%N && (T wD == (4, wp)%N) &
      exists base, decomposeBase B = Some base];
  wf_keys : [/\ uniq (akeys (cinf x)), uniq (akeys (ctwo x)), uniq (akeys (cproj x)) & uniq (akeys (cprojD x))];
  wf_sec : uniq (cwSecond x) /\
    forall a, (a \in cwSecond x) = (n0 <= a < cwCnt x)%N && ((T a).1 \in [:: 3; 4]%N);
  wf_np : ~~ chasProj x -> cproj x = [::] /\ cprojD x = [::]
}.

Lemma fold_arithE x (D : seq nat) (f : nat -> constraint F) :
  foldl (fun x d => AddArithmeticConstraint x (f d)) x D =
  Ctx (crank x) (cpwCnt x) (cwCnt x) (cwSecond x)
    (foldl maxn (carithMax x) [seq maxRank (crank x) (f d) | d <- D]) (csumMax x)
    (carith x ++ map f D) (csum x) (csums x) (clinChk x) (clin x) (cinf x) (ctwo x)
    (chasProj x) (cproj x) (cprojD x).
Proof.
elim: D x => [|d D IH] x /=; first by rewrite cats0; case: x.
by rewrite IH /= cat_rcons.
Qed.

Lemma wf_new N p0 n0 : wf p0 n0 (fun _ => (0, 0)%N) (newContext F N p0 n0).
Proof. by split=> //=; split=> // a; rewrite in_nil andbF. Qed.

(** steps that leave the auxiliary structure alone *)
Lemma wf_same p0 n0 T x y : wf p0 n0 T x ->
  cpwCnt y = cpwCnt x -> cwCnt y = cwCnt x -> cwSecond y = cwSecond x -> cinf y = cinf x -> ctwo y = ctwo x ->
  chasProj y = chasProj x -> cproj y = cproj x -> cprojD y = cprojD x -> wf p0 n0 T y.
Proof.
case=> h1 h2 h3 h4 h5 h6 h7 h8 h9 h10 e1 e2 e3 e4 e5 e6 e7 e8.
by split; rewrite ?e1 ?e2 ?e3 ?e4 ?e5 ?e6 ?e7 ?e8 //.
Qed.

Lemma wf_run1 p0 n0 T x y c : wf p0 n0 T x -> cmdIn p0 n0 c -> run1 U x c = Some y ->
  exists T', wf p0 n0 T' y /\ forall a, (a < cwCnt x)%N -> T' a = T a.
Proof.
case: c => [c|c s|o i a tf tr|w B|w B|w B] hw hc /=.
- by move=> [<-]; exists T; split=> //; apply: wf_same hw _ _ _ _ _ _ _ _.
- by move=> [<-]; exists T; split=> //; apply: wf_same hw _ _ _ _ _ _ _ _.
- by move=> [<-]; exists T; split=> //; apply: wf_same hw _ _ _ _ _ _ _ _.
- rewrite /AddInfNormConstraintBig; case: ifP => [_|/Z.ltb_ge b0]; first by move=> [<-]; exists T.
  case: ifP => [_|/Z.eqb_neq b1]; first by move=> [<-]; exists T; split=> //; apply: wf_same hw _ _ _ _ _ _ _ _.
  case: ifP => [_|/Z.eqb_neq b2]; first by move=> [<-]; exists T; split=> //; apply: wf_same hw _ _ _ _ _ _ _ _.
  case E: (decomposeBase B) => [base|] // [<-].
  case: hw => h1 h2 h3 h4 h5 h6 h7 [k1 k2 k3 k4] [h9 h9'] h10.
  exists (fun a => if (cwCnt x <= a)%N then (1, w)%N else T a); split; last first.
    by move=> a ha; rewrite leqNgt ha.
  rewrite fold_arithE; split=> //=.
  + lia.
  + move=> id e; rewrite aget_aset; case: eqP => [->|_].
      move=> [<-] /=; split=> //; [exact: iota_uniq| |lia|by exists base; rewrite size_iota].
      by apply/allP => a; rewrite mem_iota => /andP[ha1 ha2]; rewrite ha1 eqxx; lia.
    move=> /h3[g1 g2 g3 g4 g5]; split=> //; apply/allP => a /(allP g3) /andP[/andP[x1 x2] x3].
    by rewrite (leqNgt (cwCnt x) a) x2 /= x3 andbT; lia.
  + move=> id B' pb pm wd /h4[g1 g2 g3 g4 /andP[/andP[x1 x2] x3]]; split=> //.
    by rewrite (leqNgt (cwCnt x) wd) x2 /= x3; lia.
  + by move=> id wp /h6[g1 /andP[/andP[x1 x2] x3]]; split=> //; rewrite (leqNgt (cwCnt x) wp) x2 /= x3; lia.
  + move=> wp B' wD /h7[/andP[/andP[x1 x2] x3] /andP[/andP[y1 y2] y3] g3]; split=> //.
      by rewrite (leqNgt (cwCnt x) wp) x2 /= x3; lia.
    by rewrite (leqNgt (cwCnt x) wD) y2 /= y3; lia.
  + by split=> //; apply: akeys_uniq.
  + split=> // a; rewrite h9'; case: (leqP (cwCnt x) a) => ha; last by rewrite (ltn_addr _ ha).
    by rewrite !andbF.
- move=> [<-]; case: hw => h1 h2 h3 h4 h5 h6 h7 [k1 k2 k3 k4] [h9 h9'] h10.
  exists (fun a => if (cwCnt x <= a)%N then (2, w)%N else T a); split; last first.
    by move=> a ha; rewrite leqNgt ha.
  split=> //=.
  + lia.
  + lia.
  + move=> id e /h3[g1 g2 g3 g4 g5]; split=> //; apply/allP => a /(allP g3) /andP[/andP[x1 x2] x3].
    by rewrite (leqNgt (cwCnt x) a) x2 /= x3 andbT; lia.
  + move=> id B' pb pm wd; rewrite aget_aset; case: eqP => [->|_].
      by move=> [_ <- <- <-]; split; rewrite ?leqnn ?eqxx //; lia.
    move=> /h4[g1 g2 g3 g4 /andP[/andP[x1 x2] x3]]; split=> //; try lia.
    by rewrite (leqNgt (cwCnt x) wd) x2 /= x3; lia.
  + move=> id id' B1 pb pm wd B2 pb' pm' wd'; rewrite !aget_aset; case: eqP => [->|ne1]; case: eqP => [->|ne2].
    * by rewrite eqxx.
    * by move=> [_ <- <- _] /h4[g1 /andP[g2 g3] /andP[g4 g5] _ _] _; split; apply/eqP; lia.
    * by move=> /h4[g1 /andP[g2 g3] /andP[g4 g5] _ _] [_ <- <- _] _; split; apply/eqP; lia.
    * exact: h5.
  + by move=> id wp /h6[g1 /andP[/andP[x1 x2] x3]]; split=> //; rewrite (leqNgt (cwCnt x) wp) x2 /= x3; lia.
  + move=> wp B' wD /h7[/andP[/andP[x1 x2] x3] /andP[/andP[y1 y2] y3] g3]; split=> //.
      by rewrite (leqNgt (cwCnt x) wp) x2 /= x3; lia.
    by rewrite (leqNgt (cwCnt x) wD) y2 /= y3; lia.
  + by split=> //; apply: akeys_uniq.
  + split=> // a; rewrite h9'; case: (leqP (cwCnt x) a) => ha; last by rewrite (leqW ha).
    by rewrite !andbF.
- rewrite /AddApproxInfNormConstraintBig; case E: (decomposeBase _) => [base|] // [<-].
  case: hw => h1 h2 h3 h4 h5 h6 h7 [k1 k2 k3 k4] [h9 h9'] h10.
  exists (fun a => if (cwCnt x <= a)%N then (if a == cwCnt x then (3, w) else (4, cwCnt x))%N else T a); split; last first.
    by move=> a ha; rewrite leqNgt ha.
  split=> //=.
  + lia.
  + move=> id e /h3[g1 g2 g3 g4 g5]; split=> //; apply/allP => a /(allP g3) /andP[/andP[x1 x2] x3].
    by rewrite (leqNgt (cwCnt x) a) x2 /= x3 andbT; lia.
  + move=> id B' pb pm wd /h4[g1 g2 g3 g4 /andP[/andP[x1 x2] x3]]; split=> //.
    by rewrite (leqNgt (cwCnt x) wd) x2 /= x3; lia.
  + move=> id wp; rewrite aget_aset; case: eqP => [->|_].
      by move=> [<-]; rewrite leqnn !eqxx; split=> //; lia.
    by move=> /h6[g1 /andP[/andP[x1 x2] x3]]; split=> //; rewrite (leqNgt (cwCnt x) wp) x2 /= x3; lia.
  + move=> wp B' wD; rewrite aget_aset; case: eqP => [->|_].
      move=> [<- <-]; split; [rewrite leqnn eqxx /=; lia| |by exists base].
      rewrite leqnSn (gtn_eqF (ltnSn _)) eqxx; lia.
    move=> /h7[/andP[/andP[x1 x2] x3] /andP[/andP[y1 y2] y3] g3]; split=> //.
      by rewrite (leqNgt (cwCnt x) wp) x2 /= x3; lia.
    by rewrite (leqNgt (cwCnt x) wD) y2 /= y3; lia.
  + by split=> //; apply: akeys_uniq.
  + split.
      rewrite cat_uniq h9 /= orbF negb_or inE h9' h9' !inE.
      have -> : (n0 <= cwCnt x < cwCnt x)%N = false by lia.
      have -> : (n0 <= (cwCnt x).+1 < cwCnt x)%N = false by lia.
      by rewrite /= (ltn_eqF (ltnSn _)).
    move=> a; rewrite mem_cat h9' !inE; case: (leqP (cwCnt x) a) => ha.
      rewrite andbF; case: (altP (a =P cwCnt x)) => [->|ne] /=; first by lia.
      have -> : (n0 <= a < cwCnt x + 2)%N = (a < cwCnt x + 2)%N by lia.
      rewrite andbT; apply/eqP/idP; lia.
    have -> : (a < cwCnt x + 2)%N by lia.
    by rewrite (ltn_eqF ha) (ltn_eqF (leqW ha)) !orbF.
Qed.

Lemma wf_define p0 n0 T x y cs : wf p0 n0 T x -> all (cmdIn p0 n0) cs -> define U x cs = Some y ->
  exists T', wf p0 n0 T' y /\ forall a, (a < cwCnt x)%N -> T' a = T a.
Proof.
elim: cs T x => [|c cs IH] T x hw /=; first by move=> _ [<-]; exists T.
move=> /andP[h1 h2]; case E: (run1 U x c) => [x1|] // hd.
have [T1 [w1 e1]] := wf_run1 hw h1 E.
have [T2 [w2 e2]] := IH _ _ w1 h2 hd.
exists T2; split=> // a ha; rewrite e2 ?e1 //.
exact: leq_trans ha (gr_w (grows_run1 E)).
Qed.

Lemma wf_infWF p0 n0 T x : wf p0 n0 T x -> infWF n0 (cwCnt x) (cinf x).
Proof.
move=> h; split.
  move=> id e /(wf_inf h)[g1 g2 g3 g4 g5]; split=> //.
  by apply/allP => a /(allP g3) /andP[].
move=> id id' e e' a /(wf_inf h)[_ _ g3 _ _] /(wf_inf h)[_ _ g3' _ _] /(allP g3)/andP[_ /eqP e1].
by move=> /(allP g3')/andP[_ /eqP e2]; rewrite e1 in e2; case: e2.
Qed.

Lemma wf_twoWF p0 n0 T x : wf p0 n0 T x -> twoWF p0 n0 (cpwCnt x) (cwCnt x) (crank x) (ctwo x).
Proof.
move=> h; split.
  by move=> id B pb pm wd /(wf_two h)[g1 g2 g3 g4 /andP[g5 _]].
move=> id id' B pb pm wd B' pb' pm' wd' h1 h2 ne.
have [x1 x2 x3 x4] := wf_two2 h h1 h2 ne; split=> //.
have [_ _ _ _ /andP[_ /eqP e1]] := wf_two h h1.
have [_ _ _ _ /andP[_ /eqP e2]] := wf_two h h2.
by apply/eqP => e; rewrite e e2 in e1; case: e1 => ee; rewrite ee eqxx in ne.
Qed.

Lemma wf_projWF p0 n0 T x : wf p0 n0 T x -> projWF n0 (cwCnt x) (cproj x).
Proof.
move=> h; split.
  by move=> id wp /(wf_proj h)[g1 /andP[/andP[g2 g3] _]]; split=> //; rewrite g1 g2.
move=> id id' wp /(wf_proj h)[_ /andP[_ /eqP e1]] /(wf_proj h)[_ /andP[_ /eqP e2]].
by rewrite e1 in e2; case: e2.
Qed.
End Ctx.
