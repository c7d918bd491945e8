(** Lemmas: maps, in-place updates, and the auxiliary witnesses of prover.go 54-111. *)
From Coq Require Import ZArith Lia.
From mathcomp Require Import all_ssreflect all_algebra zify.
From Verif Require Import RingTac Spec UintModel BigpolyModel UintProofs RingProofs NormModel NormProofs
  BucklerModel DefineModel BucklerSpec.
Set Implicit Arguments. Unset Strict Implicit. Unset Printing Implicit Defensive.
Import GRing.Theory.
Local Open Scope ring_scope.
Delimit Scope Z_scope with Z.

Section Assoc.
Variables (K : eqType) (A : Type).
Implicit Types (m : seq (K * A)) (k : K).

Lemma aget_aset m k x k' : aget (aset m k x) k' = if k' == k then Some x else aget m k'.
Proof.
elim: m => [|[k0 y] m IH] /=.
  by rewrite eq_sym; case: eqP.
case: (altP (k0 =P k)) => [->|ne] /=.
  by rewrite (eq_sym k k'); case: (k' == k).
rewrite IH; case: (altP (k0 =P k')) => [<-|//]; by rewrite (negbTE ne).
Qed.

Lemma akeys_aset m k x : akeys (aset m k x) = if k \in akeys m then akeys m else rcons (akeys m) k.
Proof.
elim: m => [|[k0 y] m IH] //=; rewrite inE (eq_sym k k0).
case: (altP (k0 =P k)) => [->|ne] //=; rewrite /akeys /= in IH *; rewrite IH; by case: ifP.
Qed.

Lemma akeys_uniq m k x : uniq (akeys m) -> uniq (akeys (aset m k x)).
Proof. by move=> h; rewrite akeys_aset; case: ifP => // /negbT e; rewrite rcons_uniq e. Qed.

Lemma mem_akeys m k : (k \in akeys m) = isSome (aget m k).
Proof.
by elim: m => [|[k0 y] m IH] //=; rewrite inE eq_sym; case: eqP.
Qed.
End Assoc.

Section Set2.
Variable F : fieldType.
Implicit Types (w : seq (seq F)).

Lemma size_set2 w id i (x : F) : (id < size w)%N -> size (set2 w id i x) = size w.
Proof. by move=> h; rewrite size_set_nth; lia. Qed.

Lemma nth_set2_ne w id i (x : F) a : a != id -> nth [::] (set2 w id i x) a = nth [::] w a.
Proof. by move=> h; rewrite nth_set_nth /= (negbTE h). Qed.

Lemma slot_set2 w id i (x : F) a k : slot (set2 w id i x) a k =
  if (a == id) && (k == i) then x else slot w a k.
Proof.
rewrite /slot /set2 nth_set_nth /=; case: eqP => [->|] //=.
by rewrite nth_set_nth.
Qed.

Lemma rowsize_set2 w id i (x : F) a N : size (nth [::] w id) = N -> (i < N)%N ->
  size (nth [::] w a) = N -> size (nth [::] (set2 w id i x) a) = N.
Proof.
move=> h hi ha; rewrite nth_set_nth /=; case: eqP => // _; rewrite size_set_nth h; lia.
Qed.

(** [goodw N w]: all vectors have length N *)
Definition goodw N w := forall a, (a < size w)%N -> size (nth [::] w a) = N.

Lemma goodw_set2 N w id i (x : F) : goodw N w -> (id < size w)%N -> (i < N)%N -> goodw N (set2 w id i x).
Proof.
move=> h hid hi a; rewrite size_set2 // => ha; apply: rowsize_set2; auto.
Qed.
End Set2.

Section FillInf.
Variables (F : fieldType) (U : uint F).
Implicit Types (w : seq (seq F)).
Local Notation sb := (setBigInt U).
Local Notation bi := (bigInt U).

Lemma inner_write w (D : seq nat) i (v : nat -> F) m N : uniq D -> all (fun d => d < size w)%N D ->
  (m <= size D)%N -> goodw N w -> (i < N)%N ->
  let w' := foldl (fun w j => set2 w (nth 0%N D j) i (v j)) w (iota 0 m) in
  [/\ size w' = size w, goodw N w', (forall a, a \notin D -> nth [::] w' a = nth [::] w a)
    & forall a k, slot w' a k = if (k == i) && (a \in take m D) then v (index a D) else slot w a k].
Proof.
move=> uD hD hm hg hi; elim: m hm => [|m IH] hm.
  by split=> // a k; rewrite take0 in_nil andbF.
have {IH}[s1 g1 n1 e1] := IH (ltnW hm).
rewrite -addn1 iotaD foldl_cat add0n /=.
set w1 := foldl _ _ _ in s1 g1 n1 e1 *.
have hd : (nth 0%N D m < size w1)%N by rewrite s1; apply: (allP hD); apply: mem_nth.
split.
- by rewrite size_set2.
- exact: goodw_set2.
- move=> a ha; rewrite nth_set2_ne ?n1 //; apply/eqP => e; move: ha; rewrite e mem_nth //.
- move=> a k; rewrite slot_set2 e1 addn1 (take_nth 0%N) // mem_rcons inE.
  case: (altP (k =P i)) => [->|]; last by rewrite andbF.
  rewrite andbT /=; case: (altP (a =P _)) => [->|] //=.
  by rewrite index_uniq.
Qed.

Lemma outer_write w (D : seq nat) id (v : F -> nat -> F) n N : uniq D -> all (fun d => d < size w)%N D ->
  id \notin D -> goodw N w -> (n <= N)%N ->
  let w' := foldl (fun w i => let x := get2 w id i in
    foldl (fun w j => set2 w (nth 0%N D j) i (v x j)) w (iota 0 (size D)))
    w (iota 0 n) in
  [/\ size w' = size w, goodw N w', (forall a, a \notin D -> nth [::] w' a = nth [::] w a)
    & forall a k, slot w' a k = if (k < n)%N && (a \in D) then v (slot w id k) (index a D) else slot w a k].
Proof.
move=> uD hD hid hg; elim: n => [|n IH] hn; first by split.
have {IH}[s1 g1 n1 e1] := IH (ltnW hn).
rewrite -addn1 iotaD foldl_cat add0n; set w1 := foldl _ _ _ in s1 g1 n1 e1 *.
rewrite [foldl _ w1 _]/=.
have -> : get2 w1 id n = slot w id n by rewrite /get2 -/(slot w1 id n) e1 ltnn.
have hD1 : all (fun d => d < size w1)%N D by rewrite s1.
have [s2 g2 n2 e2] := inner_write (fun j => v (slot w id n) j) uD hD1 (leqnn _) g1 hn.
split.
- by rewrite s2.
- exact: g2.
- by move=> a ha; rewrite n2 // n1.
- move=> a k; rewrite e2 take_size addn1 ltnS e1.
  case: (ltngtP k n) => [|_|->] //=.
Qed.

Definition infDigit (base : seq Z) (x : F) (j : nat) : F :=
  sb (nth 0%Z (decomposeBig (bi x) base (modOf U)) j).

Lemma fillInf1P N w id e base : decomposeBase e.2 = Some base -> uniq e.1 ->
  all (fun d => d < size w)%N e.1 -> id \notin e.1 -> goodw N w ->
  exists w', [/\ fillInf1 U N w id e = Some w', size w' = size w, goodw N w',
    (forall a, a \notin e.1 -> nth [::] w' a = nth [::] w a)
    & forall a k, (k < N)%N -> a \in e.1 -> slot w' a k = infDigit base (slot w id k) (index a e.1)].
Proof.
move=> hb u1 h1 hid hg; rewrite /fillInf1 hb.
have [s g n ee] := outer_write (fun x j => infDigit base x j) u1 h1 hid hg (leqnn N).
eexists; split; first reflexivity; [exact: s|exact: g|exact: n|].
by move=> a k hk ha; rewrite ee hk ha.
Qed.

(** entries of the map are well formed: successful base, fresh pairwise disjoint targets *)
Definition infWF (n0 cnt : nat) (m : seq (nat * (seq nat * Z))) : Prop :=
  (forall id e, aget m id = Some e ->
    [/\ (id < n0)%N, uniq e.1, all (fun d => (n0 <= d < cnt)%N) e.1 &
       exists base, decomposeBase e.2 = Some base /\ size base = size e.1]) /\
  (forall id id' e e' a, aget m id = Some e -> aget m id' = Some e' -> a \in e.1 -> a \in e'.1 -> id = id').

Lemma fillInfP n0 cnt N m ord w : infWF n0 cnt m -> uniq ord -> (cnt <= size w)%N -> goodw N w ->
  exists w', [/\ fillInf U N m ord w = Some w', size w' = size w, goodw N w',
    (forall a, (forall id e, id \in ord -> aget m id = Some e -> a \notin e.1) -> nth [::] w' a = nth [::] w a)
    & forall id e base a k, id \in ord -> aget m id = Some e -> decomposeBase e.2 = Some base ->
        (k < N)%N -> a \in e.1 -> slot w' a k = infDigit base (slot w id k) (index a e.1)].
Proof.
move=> [wf1 wf2]; elim: ord w => [|id ord IH] w /=; first by exists w; split.
move=> /andP[hid uo] hc hg; case E: (aget m id) => [e|]; last first.
  have [w' [e1 s1 g1 n1 d1]] := IH w uo hc hg; exists w'; split=> //.
    move=> a ha; apply: n1 => id' e' h1 h2; apply: (ha id' e') => //; by rewrite inE h1 orbT.
  move=> id' e' base a k; rewrite inE => /orP[/eqP ->|h1]; [by rewrite E|exact: d1].
have [i1 u1 a1 [base [eb sbase]]] := wf1 _ _ E.
have hD : all (fun d => d < size w)%N e.1.
  by apply/allP => d /(allP a1) /andP[_ h]; lia.
have hni : id \notin e.1 by apply/negP => /(allP a1) /andP[h _]; lia.
have [w1 [-> s1 g1 n1 d1]] := fillInf1P eb u1 hD hni hg.
have [||w' [-> s2 g2 n2 d2]] := IH w1 uo; [by rewrite s1|exact: g1|].
exists w'; split=> //; first by rewrite s2.
- move=> a ha; rewrite n2 ?n1 //; first by apply: (ha id e) => //; rewrite inE eqxx.
  by move=> id' e' h1 h2; apply: (ha id' e') => //; rewrite inE h1 orbT.
- move=> id' e' base' a k; rewrite inE => /orP[/eqP ->|h1].
    rewrite E => -[<-]; rewrite eb => -[<-] hk ha.
    rewrite /slot n2; first by apply: d1.
    move=> id2 e2 h2 E2; apply/negP => ha2.
    by have ee := wf2 _ _ _ _ _ E E2 ha ha2; rewrite ee h2 in hid.
  move=> h2 hb hk ha; rewrite (d2 id' e' base') //; congr infDigit.
  rewrite /slot n1 //; apply/negP => /(allP a1) /andP[h _].
  by have [h3 _ _ _] := wf1 _ _ h2; lia.
Qed.
End FillInf.

Section FillTwo.
Variables (F : fieldType) (U : uint F).
Implicit Types (w pw : seq (seq F)).
Local Notation sb := (setBigInt U).
Local Notation bi := (bigInt U).

(** row write: positions [off, off+m) of vector [d] *)
Lemma row_write w d (v : nat -> F) off m N : (d < size w)%N -> (off + m <= N)%N -> goodw N w ->
  let w' := foldl (fun w j => set2 w d (off + j)%N (v j)) w (iota 0 m) in
  [/\ size w' = size w, goodw N w', (forall a, a != d -> nth [::] w' a = nth [::] w a)
    & forall k, slot w' d k = if (off <= k < off + m)%N then v (k - off)%N else slot w d k].
Proof.
move=> hd hm hg; elim: m hm => [|m IH] hm.
  by split=> // k; case: ifP => //; lia.
have [|s1 g1 n1 e1] := IH; first lia.
rewrite -addn1 iotaD foldl_cat add0n [foldl _ _ [:: m]]/=.
set w1 := foldl _ _ _ in s1 g1 n1 e1 *.
have hd1 : (d < size w1)%N by rewrite s1.
split.
- by rewrite size_set2.
- by apply: goodw_set2 => //; lia.
- by move=> a ha; rewrite nth_set2_ne ?n1.
- move=> k; rewrite slot_set2 eqxx /= e1; case: eqP => [->|ne].
    have -> : (off <= off + m < off + (m + 1))%N by lia.
    by congr v; lia.
  have -> : (off <= k < off + (m + 1))%N = (off <= k < off + m)%N by lia.
  by [].
Qed.

Lemma row_write0 w d (v : nat -> F) m N : (d < size w)%N -> (m <= N)%N -> goodw N w ->
  let w' := foldl (fun w j => set2 w d j (v j)) w (iota 0 m) in
  [/\ size w' = size w, goodw N w', (forall a, a != d -> nth [::] w' a = nth [::] w a)
    & forall k, slot w' d k = if (k < m)%N then v k else slot w d k].
Proof.
move=> hd hm hg; have [s g n e] := @row_write w d v 0 m N hd hm hg.
by split=> // k; rewrite e subn0.
Qed.

Lemma fillPw1P N pw B pb pm wd base : decomposeBase B = Some base -> (size base <= N)%N -> pb != pm ->
  (pb < size pw)%N -> (pm < size pw)%N -> goodw N pw ->
  exists pw', [/\ fillPw1 U N pw (B, pb, pm, wd) = Some pw', size pw' = size pw, goodw N pw',
    (forall a, a != pb -> a != pm -> nth [::] pw' a = nth [::] pw a) &
    (forall k, slot pw' pb k = if (k < size base)%N then sb (nth 0%Z base k) else slot pw pb k) /\
    (forall k, slot pw' pm k = if (k < size base)%N then sb 1 else slot pw pm k)].
Proof.
move=> hb hN hne h1 h2 hg; rewrite /fillPw1 hb ltnNge hN /=.
eexists; split; first reflexivity.
all: have : [/\ size (foldl (fun pw i => set2 (set2 pw pb i (sb (nth 0%Z base i))) pm i (sb 1)) pw (iota 0 (size base))) = size pw,
   goodw N (foldl (fun pw i => set2 (set2 pw pb i (sb (nth 0%Z base i))) pm i (sb 1)) pw (iota 0 (size base))),
   (forall a, a != pb -> a != pm -> nth [::] (foldl (fun pw i => set2 (set2 pw pb i (sb (nth 0%Z base i))) pm i (sb 1)) pw (iota 0 (size base))) a = nth [::] pw a)
   & (forall k, slot (foldl (fun pw i => set2 (set2 pw pb i (sb (nth 0%Z base i))) pm i (sb 1)) pw (iota 0 (size base))) pb k = if (k < size base)%N then sb (nth 0%Z base k) else slot pw pb k) /\
    (forall k, slot (foldl (fun pw i => set2 (set2 pw pb i (sb (nth 0%Z base i))) pm i (sb 1)) pw (iota 0 (size base))) pm k = if (k < size base)%N then sb 1 else slot pw pm k)]; last by case.
all: elim: (size base) hN => [|m IH] hm; first by split.
all: have [|s1 g1 n1 [e1 e2]] := IH; first lia.
all: rewrite -addn1 iotaD foldl_cat add0n [foldl _ _ [:: m]]/=.
all: set w1 := foldl _ _ _ in s1 g1 n1 e1 e2 *.
all: have hb1 : (pb < size w1)%N by rewrite s1.
all: have hm1 : (pm < size w1)%N by rewrite s1.
all: split; first by rewrite !size_set2 ?size_set2.
all: try by apply: goodw_set2; [apply: goodw_set2| rewrite size_set2|] => //; lia.
all: try by move=> a ha hc; rewrite !nth_set2_ne ?n1.
all: split=> k; rewrite !slot_set2 eqxx ?(negbTE hne) ?(eq_sym pm pb) ?(negbTE hne) /= ?e1 ?e2.
all: case: (ltngtP k m) => [h|h|->]; rewrite ?addn1 //; case: ifP => //; lia.
Qed.

Definition auxTwo (e : Z * nat * nat * nat) := e.2.
Definition twoWF (p0 n0 pcnt cnt N : nat) (m : seq (nat * (Z * nat * nat * nat))) : Prop :=
  (forall id B pb pm wd, aget m id = Some (B, pb, pm, wd) ->
    [/\ (id < n0)%N, (p0 <= pb < pcnt)%N, (p0 <= pm < pcnt)%N, pb != pm & (n0 <= wd < cnt)%N]) /\
  (forall id id' B pb pm wd B' pb' pm' wd',
    aget m id = Some (B, pb, pm, wd) -> aget m id' = Some (B', pb', pm', wd') -> id != id' ->
    [/\ pb != pb', pb != pm', pm != pb', pm != pm' & wd != wd']).
(** the bases exist and fit *)
Definition twoFits (N : nat) (m : seq (nat * (Z * nat * nat * nat))) : Prop :=
  forall id B pb pm wd, aget m id = Some (B, pb, pm, wd) ->
    exists base, decomposeBase B = Some base /\ (size base <= N)%N.

Lemma fillPwP p0 n0 pcnt cnt N m ord pw : twoWF p0 n0 pcnt cnt N m -> twoFits N m -> uniq ord ->
  (pcnt <= size pw)%N -> goodw N pw ->
  exists pw', [/\ fillPw U N m ord pw = Some pw', size pw' = size pw, goodw N pw',
    (forall a, (forall id B pb pm wd, id \in ord -> aget m id = Some (B, pb, pm, wd) -> (a != pb) && (a != pm)) ->
      nth [::] pw' a = nth [::] pw a)
    & forall id B pb pm wd base, id \in ord -> aget m id = Some (B, pb, pm, wd) -> decomposeBase B = Some base ->
     (forall k, slot pw' pb k = if (k < size base)%N then sb (nth 0%Z base k) else slot pw pb k) /\
     (forall k, slot pw' pm k = if (k < size base)%N then sb 1 else slot pw pm k)].
Proof.
move=> [wf1 wf2] fit; elim: ord pw => [|id ord IH] pw /=; first by exists pw; split.
move=> /andP[hid uo] hc hg; case E: (aget m id) => [[[[B pb] pm] wd]|]; last first.
  have [w' [e1 s1 g1 n1 d1]] := IH pw uo hc hg; exists w'; split=> //.
    move=> a ha; apply: n1 => id' B pb pm wd h1 h2; apply: (ha id' B pb pm wd) => //; by rewrite inE h1 orbT.
  move=> id' B pb pm wd base; rewrite inE => /orP[/eqP ->|h1]; [by rewrite E|exact: d1].
have [i1 hpb hpm hne hwd] := wf1 _ _ _ _ _ E.
have [base [eb sbase]] := fit _ _ _ _ _ E.
have [||w1 [-> s1 g1 n1 [d1 d2]]] := @fillPw1P N pw B pb pm wd base eb sbase hne _ _ hg; [lia|lia|].
have [||w' [-> s2 g2 n2 d3]] := IH w1 uo; [by rewrite s1|exact: g1|].
exists w'; split=> //; first by rewrite s2.
- move=> a ha; rewrite n2; last first.
    by move=> id' B' pb' pm' wd' h1 h2; apply: (ha id' B' pb' pm' wd') => //; rewrite inE h1 orbT.
  have /andP[h1 h2] : (a != pb) && (a != pm) by apply: (ha id B pb pm wd) => //; rewrite inE eqxx.
  exact: n1.
- move=> id' B' pb' pm' wd' base'; rewrite inE => /orP[/eqP ->|h1].
    rewrite E => -[<- <- <- _]; rewrite eb => -[<-].
    have hx a : (a == pb) || (a == pm) -> nth [::] w' a = nth [::] w1 a.
      move=> ha; apply: n2 => id2 B2 pb2 pm2 wd2 h2 E2.
      have ne : id != id2 by apply: contraNneq hid => ->.
      have [x1 x2 x3 x4 _] := wf2 _ _ _ _ _ _ _ _ _ _ E E2 ne.
      by case/orP: ha => /eqP ->; rewrite ?x1 ?x2 ?x3 ?x4.
    split=> k; [move: (d1 k)|move: (d2 k)]; rewrite /slot hx ?eqxx ?orbT //.
  move=> E2 hb; have [x1 x2] := d3 _ _ _ _ _ _ h1 E2 hb.
  have ne : id' != id by apply: contraNneq hid => <-.
  have [y1 y2 y3 y4 _] := wf2 _ _ _ _ _ _ _ _ _ _ E2 E ne.
  split=> k; rewrite ?x1 ?x2; case: ifP => // _; by rewrite /slot n1.
Qed.

Definition sqSum (N : nat) (w : seq (seq F)) (id : nat) : Z :=
  zsum N (fun i => (bi (slot w id i) * bi (slot w id i))%Z).

Lemma foldl_zsum (f : nat -> Z) s l : (foldl (fun s i => s + f i) s l = s + foldr (fun i a => f i + a) 0 l)%Z.
Proof.
elim: l s => [|i l IH] s /=; first lia.
by rewrite IH; lia.
Qed.

Lemma fillTwo1P N s w pw id B pb pm wd base pw' : decomposeBase B = Some base -> (size base <= N)%N ->
  (wd < size w)%N -> goodw N w -> fillPw1 U N pw (B, pb, pm, wd) = Some pw' ->
  exists w', let s' := ((s + sqSum N w id) mod modOf U)%Z in
   [/\ fillTwo1 U N s pw w id (B, pb, pm, wd) = Some (s', pw', w'), size w' = size w, goodw N w',
    (forall a, a != wd -> nth [::] w' a = nth [::] w a)
    & forall k, slot w' wd k = if (k < size base)%N then sb (nth 0%Z (decomposeBig s' base (modOf U)) k) else slot w wd k].
Proof.
move=> hb hN hwd hg hp; rewrite /fillTwo1 hb hp.
have -> : foldl (fun s0 i => let b := bi (get2 w id i) in (s0 + b * b)%Z) s (iota 0 N) = (s + sqSum N w id)%Z.
  by rewrite (foldl_zsum (fun i => bi (get2 w id i) * bi (get2 w id i))%Z).
set s' := (_ mod _)%Z; set dc := decomposeBig _ _ _.
have sdc : size dc = size base.
  rewrite /dc /decomposeBig; elim: base {hb hN dc} (if _ then _ else _) => [|b base IH] z //=.
  by case: ifP => _ /=; rewrite ?IH //; case: ifP => _ /=; rewrite IH.
have [s1 g1 n1 d1] := row_write0 (fun i => sb (nth 0%Z dc i)) hwd (leq_trans (eq_leq sdc) hN) hg.
eexists; split; first reflexivity; [exact: s1|exact: g1|exact: n1|].
by move=> k; rewrite d1 sdc.
Qed.
End FillTwo.

Section FillTwo2.
Variables (F : fieldType) (U : uint F).
Implicit Types (w pw : seq (seq F)).
Local Notation sb := (setBigInt U).
Local Notation bi := (bigInt U).

Lemma fillTwoP p0 n0 pcnt cnt N m ord s pw w pw' : twoWF p0 n0 pcnt cnt N m -> twoFits N m -> uniq ord ->
  (cnt <= size w)%N -> goodw N w -> fillPw U N m ord pw = Some pw' ->
  exists w', [/\ fillTwo U N m ord s pw w = Some (pw', w'), size w' = size w, goodw N w',
    (forall a, (forall id B pb pm wd, id \in ord -> aget m id = Some (B, pb, pm, wd) -> a != wd) ->
      nth [::] w' a = nth [::] w a)
    & forall id l B pb pm wd base, ord = id :: l -> aget m id = Some (B, pb, pm, wd) -> decomposeBase B = Some base ->
     (forall k, slot w' wd k = if (k < size base)%N
        then sb (nth 0%Z (decomposeBig ((s + sqSum U N w id) mod modOf U)%Z base (modOf U)) k) else slot w wd k)].
Proof.
move=> [wf1 wf2] fit; elim: ord s pw w => [|id ord IH] s pw w /=.
  by move=> _ hc hg [<-]; exists w; split.
move=> /andP[hid uo] hc hg; case E: (aget m id) => [[[[B pb] pm] wd]|]; last first.
  move=> hp; have [w' [e1 s1 g1 n1 d1]] := IH s pw w uo hc hg hp; exists w'; split=> //.
    move=> a ha; apply: n1 => id' B pb pm wd h1 h2; apply: (ha id' B pb pm wd) => //; by rewrite inE h1 orbT.
  by move=> id' l B pb pm wd base [<- _]; rewrite E.
have [i1 hpb hpm hne hwd] := wf1 _ _ _ _ _ E.
have [base [eb sbase]] := fit _ _ _ _ _ E.
case Ep: (fillPw1 _ _ _ _) => [pw1|] // hp.
have [|w1 [-> s1 g1 n1 d1]] := @fillTwo1P F U N s w pw id B pb pm wd base pw1 eb sbase _ hg Ep; first lia.
have [|w' [-> s2 g2 n2 _]] := IH ((s + sqSum U N w id) mod modOf U)%Z pw1 w1 uo _ g1 hp; first by rewrite s1.
exists w'; split=> //; first by rewrite s2.
- move=> a ha; rewrite n2; last first.
    by move=> id' B' pb' pm' wd' h1 h2; apply: (ha id' B' pb' pm' wd') => //; rewrite inE h1 orbT.
  by apply: n1; apply: (ha id B pb pm wd) => //; rewrite inE eqxx.
- move=> id' l B' pb' pm' wd' base' [<- _]; rewrite E => -[<- _ _ <-]; rewrite eb => -[<-] k.
  rewrite -d1 /slot n2 //.
  move=> id2 B2 pb2 pm2 wd2 h2 E2.
  have ne : id != id2 by apply: contraNneq hid => ->.
  by have [] := wf2 _ _ _ _ _ _ _ _ _ _ E E2 ne.
Qed.

(** projected witnesses *)
Lemma foldl_set_const (f : nat -> F) v n : (n <= size v)%N ->
  let v' := foldl (fun o i => set_nth 0 o i (f i)) v (iota 0 n) in
  size v' = size v /\ forall k, v'`_k = if (k < n)%N then f k else v`_k.
Proof.
elim: n => [|n IH] hn //; have [|s1 e1] := IH; first lia.
rewrite -addn1 iotaD foldl_cat add0n [foldl _ _ [:: n]]/=; split; first by rewrite size_set_nth s1; lia.
move=> k; rewrite nth_set_nth /= e1; case: (ltngtP k n) => [h|h|->].
- by have -> : (k < n + 1)%N by lia.
- by have -> : (k < n + 1)%N = false by lia.
- by have -> : (n < n + 1)%N by lia.
Qed.

Lemma proj_transformP proj (vOut v : seq F) : (size proj <= size vOut)%N ->
  size (proj_transform proj vOut v) = size vOut /\
  forall k, (k < size vOut)%N -> (proj_transform proj vOut v)`_k = if (k < size proj)%N then proj_row (nth [::] proj k) v else 0.
Proof.
move=> h; rewrite /proj_transform.
have -> : maxn (size proj) (size vOut) = size vOut by lia.
have [s e] := @foldl_set_const (fun i => if (i < size proj)%N then proj_row (nth [::] proj i) v else 0) vOut (size vOut) (leqnn _).
by split=> // k hk; rewrite e hk.
Qed.

Definition projWF (n0 cnt : nat) (m : seq (nat * nat)) : Prop :=
  (forall id wp, aget m id = Some wp -> (id < n0 <= wp)%N /\ (wp < cnt)%N) /\
  (forall id id' wp, aget m id = Some wp -> aget m id' = Some wp -> id = id').

Lemma fillProjP n0 cnt N m ord proj w : projWF n0 cnt m -> uniq ord -> (cnt <= size w)%N -> goodw N w ->
  (size proj <= N)%N ->
  let w' := fillProj proj m ord w in
  [/\ size w' = size w, goodw N w',
    (forall a, (forall id wp, id \in ord -> aget m id = Some wp -> a != wp) -> nth [::] w' a = nth [::] w a)
    & forall id wp, id \in ord -> aget m id = Some wp ->
       nth [::] w' wp = proj_transform proj (nth [::] w wp) (nth [::] w id)].
Proof.
move=> [wf1 wf2] + + + hN; rewrite /fillProj; elim: ord w => [|id ord IH] w /=; first by split.
move=> /andP[hid uo] hc hg; case E: (aget m id) => [wp|]; last first.
  have [s1 g1 n1 d1] := IH w uo hc hg; split=> //.
    move=> a ha; apply: n1 => id' wp h1 h2; apply: (ha id' wp) => //; by rewrite inE h1 orbT.
  by move=> id' wp; rewrite inE => /orP[/eqP ->|h1]; [rewrite E|exact: d1].
have [/andP[h1 h2] h3] := wf1 _ _ E.
set w1 := set_nth _ _ _ _.
have s1 : size w1 = size w by rewrite size_set_nth; lia.
have g1 : goodw N w1.
  move=> a; rewrite s1 => ha; rewrite nth_set_nth /=; case: eqP => [_|_]; last exact: hg.
  have sw : size (nth [::] w wp) = N by apply: hg; lia.
  by have [-> _] := proj_transformP (nth [::] w id) (leq_trans hN (eq_leq (esym sw))).
have [|s2 g2 n2 d2] := IH w1 uo _ g1; first by rewrite s1.
split=> //; first by rewrite s2.
- move=> a ha; rewrite n2; last first.
    by move=> id' wp' h4 h5; apply: (ha id' wp') => //; rewrite inE h4 orbT.
  have hne : a != wp by apply: (ha id wp) => //; rewrite inE eqxx.
  by rewrite nth_set_nth /= (negbTE hne).
- move=> id' wp'; rewrite inE => /orP[/eqP ->|h4].
    rewrite E => -[<-]; rewrite n2; first by rewrite nth_set_nth /= eqxx.
    move=> id2 wp2 h5 E2; apply/eqP => e; rewrite -e in E2.
    by have ee := wf2 _ _ _ E E2; rewrite ee h5 in hid.
  move=> E2; have [/andP[h5 h6] h7] := wf1 _ _ E2.
  have ne : wp' != wp.
    by apply/eqP => e; rewrite e in E2; have ee := wf2 _ _ _ E E2; rewrite ee h4 in hid.
  rewrite (d2 id') // !nth_set_nth /= (negbTE ne); case: eqP => // e; lia.
Qed.

Definition projDWF (cnt N : nat) (m : seq (nat * (Z * nat))) : Prop :=
  (forall id B wD, aget m id = Some (B, wD) -> (wD < cnt)%N /\
     exists base, decomposeBase B = Some base /\ (128 * size base <= N)%N) /\
  (forall id id' B B' wD wD', aget m id = Some (B, wD) -> aget m id' = Some (B', wD') ->
     (id != wD') && ((id != id') ==> (wD != wD'))).

Lemma projD_loop w id wD base N n : (wD < size w)%N -> (id != wD) -> (n * size base <= N)%N -> goodw N w ->
  let w' := foldl (fun w i =>
          let dcmp := decomposeBig (bi (get2 w id i)) base (modOf U) in
          foldl (fun w j => set2 w wD (i * size base + j)%N (sb (nth 0%Z dcmp j)))
            w (iota 0 (size base))) w (iota 0 n) in
  [/\ size w' = size w, goodw N w', (forall a, a != wD -> nth [::] w' a = nth [::] w a)
    & forall k, slot w' wD k = if (k < n * size base)%N
       then infDigit U base (slot w id (k %/ size base)) (k %% size base) else slot w wD k].
Proof.
move=> hd hne hn hg; elim: n hn => [|n IH] hn; first by split.
have [|s1 g1 n1 e1] := IH; first lia.
rewrite -addn1 iotaD foldl_cat add0n [foldl _ _ [:: n]]/=.
set w1 := foldl _ _ _ in s1 g1 n1 e1 *.
have ev : get2 w1 id n = slot w id n by rewrite /get2 /slot n1.
rewrite ev.
have [|||s2 g2 n2 e2] := @row_write F w1 wD (fun j => infDigit U base (slot w id n) j) (n * size base) (size base) N.
- by rewrite s1.
- by move: hn; rewrite mulSn addnC.
- exact: g1.
split.
- by rewrite s2.
- exact: g2.
- by move=> a ha; rewrite n2 ?n1.
- move=> k; rewrite e2 addn1 mulSn [(size base + _)%N]addnC; case: (ltnP k (n * size base)) => h.
    by rewrite /= e1 h; have -> : (k < n * size base + size base)%N by lia.
  rewrite /=; case: ifP => h2; last by rewrite e1 ltnNge h.
  congr infDigit; [congr slot|].
  + have e : k = (n * size base + (k - n * size base))%N by lia.
    rewrite e divnMDl; [rewrite divn_small; lia|lia].
  + have e : k = (n * size base + (k - n * size base))%N by lia.
    by rewrite {2}e modnMDl modn_small; lia.
Qed.

Lemma fillProjD_cons N m id ord w : fillProjD U N m (id :: ord) w =
  if aget m id is Some (bound, wD) then
      if decomposeBase bound is Some base then
        if (N < 128 * size base)%N then None else
        fillProjD U N m ord (foldl (fun w i =>
          let dcmp := decomposeBig (bi (get2 w id i)) base (modOf U) in
          foldl (fun w j => set2 w wD (i * size base + j)%N (sb (nth 0%Z dcmp j)))
            w (iota 0 (size base))) w (iota 0 128))
      else None
    else fillProjD U N m ord w.
Proof. by []. Qed.
Opaque iota.

Lemma fillProjDP cnt N m ord w : projDWF cnt N m -> uniq ord -> (cnt <= size w)%N -> goodw N w ->
  exists w', [/\ fillProjD U N m ord w = Some w', size w' = size w, goodw N w',
    (forall a, (forall id B wD, id \in ord -> aget m id = Some (B, wD) -> a != wD) -> nth [::] w' a = nth [::] w a)
    & forall id B wD base, id \in ord -> aget m id = Some (B, wD) -> decomposeBase B = Some base ->
       forall k, slot w' wD k = if (k < 128 * size base)%N
        then infDigit U base (slot w id (k %/ size base)) (k %% size base) else slot w wD k].
Proof.
move=> [wf1 wf2]; elim: ord w => [|id ord IH] w; first by exists w; split.
rewrite cons_uniq fillProjD_cons => /andP[hid uo] hc hg; case E: (aget m id) => [[B wD]|]; last first.
  have [w' [e1 s1 g1 n1 d1]] := IH w uo hc hg; exists w'; split=> //.
    move=> a ha; apply: n1 => id' B wD h1 h2; apply: (ha id' B wD) => //; by rewrite inE h1 orbT.
  by move=> id' B wD base; rewrite inE => /orP[/eqP ->|h1]; [rewrite E|exact: d1].
have [h1 [base [eb hb]]] := wf1 _ _ _ E.
rewrite eb ltnNge hb [~~ _]/=.
have /andP[hne _] := wf2 _ _ _ _ _ _ E E.
have [||||s1 g1 n1 d1] := @projD_loop w id wD base N 128; [lia|exact: hne|exact: hb|exact: hg|].
set w1 := foldl _ _ _ in s1 g1 n1 d1 *.
have [|w' [-> s2 g2 n2 d2]] := IH w1 uo _ g1; first by rewrite s1.
exists w'; split=> //; first by rewrite s2.
- move=> a ha; rewrite n2; last first.
    by move=> id' B' wD' h4 h5; apply: (ha id' B' wD') => //; rewrite inE h4 orbT.
  by apply: n1; apply: (ha id B wD) => //; rewrite inE eqxx.
- move=> id' B' wD' base'; rewrite inE => /orP[/eqP ->|h4].
    rewrite E => -[<- <-]; rewrite eb => -[<-] k; rewrite /slot n2; first by apply: d1.
    move=> id2 B2 wD2 h5 E2; have /andP[_] := wf2 _ _ _ _ _ _ E E2.
    have -> : id != id2 by apply: contraNneq hid => ->.
    by [].
  move=> E2 eb2 k; rewrite (d2 id' B' wD' base') //.
  have /andP[x1 _] := wf2 _ _ _ _ _ _ E2 E.
  have /andP[_ x2] := wf2 _ _ _ _ _ _ E2 E.
  have hx : id' != id by apply: contraNneq hid => <-.
  rewrite hx /= in x2; by rewrite /slot !n1.
Qed.
Transparent iota.
End FillTwo2.
