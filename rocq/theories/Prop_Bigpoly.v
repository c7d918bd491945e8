(** Properties C01-C16 (math/bigpoly, math/bignum), each with a concrete case. *)
From Coq Require Import ZArith Lia Zpow_facts.
From mathcomp Require Import all_ssreflect all_algebra zify.
From Verif Require Import Spec UintModel BigpolyModel BitrevProofs RingTac NttProofs NttCore
  UintProofs NttTables PolyProofs RingProofs UintFp VecModel VecProofs.
Set Implicit Arguments. Unset Strict Implicit. Unset Printing Implicit Defensive.
Import GRing.Theory.
Local Open Scope ring_scope.
Delimit Scope Z_scope with Z.

Section Props.
Variables (F : fieldType) (U : uint F).
Implicit Types (T : transformer F) (v : seq F).

Lemma pow8 rank n : rank = (2 ^ n)%N -> (8 <= rank)%N -> (8 %| rank)%N /\ (0 < n)%N.
Proof.
move=> -> h; have h3 : (3 <= n)%N by move: h; rewrite -[8%N]/(2 ^ 3)%N leq_exp2l.
by split; [exact: dvd8|lia].
Qed.

Lemma FwdNTTTo_ok T vOut v : size vOut = size v -> (8 %| size v)%N ->
  FwdNTTTo T vOut v = Some (fwdNTT T v).
Proof. by move=> s d; rewrite /FwdNTTTo copy8_ok. Qed.

Lemma InvNTTTo_ok T vOut v : size vOut = size v -> (8 %| size v)%N ->
  InvNTTTo T vOut v = Some (invNTT T v).
Proof. by move=> s d; rewrite /InvNTTTo copy8_ok. Qed.

(** C01.  For every rank >= 8 the constructor accepts, InvNTTTo and FwdNTTTo undo each
    other, whatever the output slices contained.  (Ranks 2 and 4: see C14.) *)
Theorem C01_cyclic_roundtrip rank T v vOut vOut' :
  NewCyclicTransformer U rank = Some T -> (8 <= rank)%N ->
  size v = rank -> size vOut = rank -> size vOut' = rank ->
  (exists w, [/\ FwdNTTTo T vOut v = Some w, size w = rank & InvNTTTo T vOut' w = Some v]) /\
  (exists w, [/\ InvNTTTo T vOut v = Some w, size w = rank & FwdNTTTo T vOut' w = Some v]).
Proof.
move=> /NewCyclic_good[n [g [hr G]]] h8 sv so so'; have [d hn] := pow8 hr h8.
have sv2 : size v = (2 ^ n)%N by rewrite sv.
split.
  exists (fwdNTT T v); have sw := size_fwdNTT T sv2.
  rewrite FwdNTTTo_ok ?sv // InvNTTTo_ok ?sw -?hr // (inv_fwd_cyc G) //; split=> //; by rewrite sw.
exists (invNTT T v); have sw := size_invNTT T sv2.
rewrite InvNTTTo_ok ?sv // FwdNTTTo_ok ?sw -?hr // (fwd_inv_cyc G) //; split=> //; by rewrite sw.
Qed.

(** For ranks 2 and 4 the block copies leave the slice (C14); the transforms proper, run on
    the copied data, still undo each other at every rank the constructors accept. *)
Theorem C01_cyclic_core_roundtrip rank T v :
  NewCyclicTransformer U rank = Some T -> size v = rank ->
  invNTT T (fwdNTT T v) = v /\ fwdNTT T (invNTT T v) = v.
Proof.
move=> /NewCyclic_good[n [g [hr G]]] sv; rewrite hr in sv.
by rewrite (inv_fwd_cyc G) // (fwd_inv_cyc G).
Qed.
Theorem C02_cyclotomic_core_roundtrip rank T v :
  NewCyclotomicTransformer U rank = Some T -> size v = rank ->
  invNTT T (fwdNTT T v) = v /\ fwdNTT T (invNTT T v) = v.
Proof.
move=> /NewCyclotomic_good[n [g [hr G]]] sv; rewrite hr in sv.
by rewrite (inv_fwd_cyclo G) // (fwd_inv_cyclo G).
Qed.

(** C02.  The same for the cyclotomic transformer. *)
Theorem C02_cyclotomic_roundtrip rank T v vOut vOut' :
  NewCyclotomicTransformer U rank = Some T -> (8 <= rank)%N ->
  size v = rank -> size vOut = rank -> size vOut' = rank ->
  (exists w, [/\ FwdNTTTo T vOut v = Some w, size w = rank & InvNTTTo T vOut' w = Some v]) /\
  (exists w, [/\ InvNTTTo T vOut v = Some w, size w = rank & FwdNTTTo T vOut' w = Some v]).
Proof.
move=> /NewCyclotomic_good[n [g [hr G]]] h8 sv so so'; have [d hn] := pow8 hr h8.
have sv2 : size v = (2 ^ n)%N by rewrite sv.
split.
  exists (fwdNTT T v); have sw := size_fwdNTT T sv2.
  rewrite FwdNTTTo_ok ?sv // InvNTTTo_ok ?sw -?hr // (inv_fwd_cyclo G) //; split=> //; by rewrite sw.
exists (invNTT T v); have sw := size_invNTT T sv2.
rewrite InvNTTTo_ok ?sv // FwdNTTTo_ok ?sw -?hr // (fwd_inv_cyclo G) //; split=> //; by rewrite sw.
Qed.

Lemma two_nz_T rank (T : transformer F) n g : NewCyclotomicTransformer U rank = Some T ->
  good_cyclotomic T n g -> 2%:R != 0 :> F.
Proof.
rewrite /NewCyclotomicTransformer.
case: ifP => // /negbFE/isPowerOfTwoP[m hm]; case: ifP => // /negbFE/Z.eqb_eq e _ _.
apply: (@two_nz F U); rewrite -pNegOneE.
have [k hk] : (Z.of_nat (2 * rank) | pNegOne U)%Z.
  by apply/Z.mod_divide => //; have := expn_gt0 2 m; rewrite hm; lia.
by exists (k * Z.of_nat rank)%Z; rewrite hk; lia.
Qed.

(** C03.  FwdNTTTo writes the evaluations of the input at the powers of one root of
    unity of exact order rank (cyclic) or 2*rank (cyclotomic), in bit-reversed order. *)
Theorem C03_cyclic_evaluations rank T :
  NewCyclicTransformer U rank = Some T ->
  exists n g, [/\ rank = (2 ^ n)%N, has_order g rank &
    forall v vOut w, size v = rank -> size vOut = rank -> FwdNTTTo T vOut v = Some w ->
    forall i, (i < rank)%N -> w`_i = peval v (g ^+ brv n i)].
Proof.
move=> /NewCyclic_good[n [g [hr G]]]; exists n, g; split=> //.
  have [_ hn gN _ _ _ hz] := G.
  by have := order_of_neg1 (two_nz_rank hn hz) gN; rewrite prednK // hr.
move=> v vOut w sv so hw i hi.
have d : (8 %| rank)%N.
  by case E: (8 %| rank)%N => //; move: hw; rewrite /FwdNTTTo copy8_fault // so E.
move: hw; rewrite FwdNTTTo_ok ?sv // => -[<-].
by apply: (fwd_cyc_nth G); rewrite ?sv -hr.
Qed.

Theorem C03_cyclotomic_evaluations rank T :
  NewCyclotomicTransformer U rank = Some T ->
  exists n psi, [/\ rank = (2 ^ n)%N, has_order psi (2 * rank) &
    forall v vOut w, size v = rank -> size vOut = rank -> FwdNTTTo T vOut v = Some w ->
    forall i, (i < rank)%N -> w`_i = peval v (psi ^+ (2 * brv n i + 1))].
Proof.
move=> hT; have [n [g [hr G]]] := NewCyclotomic_good hT; exists n, g; split=> //.
  have [_ gN _ _ _ hz] := G.
  by have := order_of_neg1 (two_nz_T hT G) gN; rewrite expnS -hr.
move=> v vOut w sv so hw i hi.
have d : (8 %| rank)%N.
  by case E: (8 %| rank)%N => //; move: hw; rewrite /FwdNTTTo copy8_fault // so E.
move: hw; rewrite FwdNTTTo_ok ?sv // => -[<-].
by rewrite addn1 mul2n; apply: (fwd_cyclo_nth G); rewrite ?sv -hr.
Qed.

(** C04.  NTT, then MulTo (pointer-level model, VecModel.v), then InvNTT is
    multiplication modulo X^N - 1, resp. X^N + 1. *)
Definition contents (h : heap F) (s : slice) : seq F := [seq h a | a <- s].

(** The aliasing the API promises: an input is the output itself, or disjoint from it. *)
Definition same_or_disjoint (x out : slice) := x = out \/ forall a, a \in x -> a \notin out.

Lemma sod_aligned x out : uniq out -> size x = size out -> same_or_disjoint x out -> aligned out x.
Proof. by move=> u s [->|d]; [exact: aligned_refl|apply: aligned_disjoint]. Qed.

Lemma MulTo_contents rank h pOut p0 p1 h' b : uniq (pc pOut) ->
  same_or_disjoint (pc p0) (pc pOut) -> same_or_disjoint (pc p1) (pc pOut) ->
  MulTo rank h pOut p0 p1 = Some (h', b) ->
  [/\ size (pc pOut) = rank, size (pc p0) = rank, size (pc p1) = rank &
      contents h' (pc pOut) = mulv (contents h (pc p0)) (contents h (pc p1))].
Proof.
move=> u s0 s1; rewrite /MulTo; case: ifP => // /negbFE/and4P[/eqP z /eqP z0 /eqP z1 _].
case: ifP => // _ [<- _].
have a0 : aligned (pc pOut) (pc p0) by apply: sod_aligned; rewrite ?z ?z0.
have a1 : aligned (pc pOut) (pc p1) by apply: sod_aligned; rewrite ?z ?z1.
have [r1 _] := binVecToP (fun a b => a * b) h u a0 a1.
split=> //; apply: (@eq_from_nth _ 0); first by rewrite size_mulv !size_map ?z ?z0 ?z1.
move=> i; rewrite size_map => hi.
rewrite nth_mulv ?size_map ?z0 ?z1 // !(nth_map 0%N) ?z0 ?z1 -?z //.
exact: r1.
Qed.

Theorem C04_cyclic_mul rank T a b o1 o2 o3 na nb h h' pOut p0 p1 flag :
  NewCyclicTransformer U rank = Some T -> (8 <= rank)%N ->
  size a = rank -> size b = rank -> size o1 = rank -> size o2 = rank -> size o3 = rank ->
  FwdNTTTo T o1 a = Some na -> FwdNTTTo T o2 b = Some nb ->
  contents h (pc p0) = na -> contents h (pc p1) = nb ->
  uniq (pc pOut) -> same_or_disjoint (pc p0) (pc pOut) -> same_or_disjoint (pc p1) (pc pOut) ->
  MulTo rank h pOut p0 p1 = Some (h', flag) ->
  exists c, [/\ InvNTTTo T o3 (contents h' (pc pOut)) = Some c, size c = rank
              & Poly c = (Poly a * Poly b) %% ('X^rank - 1)].
Proof.
move=> /NewCyclic_good[n [g [hr G]]] h8 sa sb s1 s2 s3; have [d hn] := pow8 hr h8.
rewrite !FwdNTTTo_ok ?sa ?sb // => -[<-] [<-] e0 e1 u d0 d1 hm.
have [z z0 z1 ->] := MulTo_contents u d0 d1 hm; rewrite e0 e1.
have sfa : size (fwdNTT T a) = rank by rewrite hr; apply: size_fwdNTT; rewrite sa.
have sfb : size (fwdNTT T b) = rank by rewrite hr; apply: size_fwdNTT; rewrite sb.
have sm : size (mulv (fwdNTT T a) (fwdNTT T b)) = rank by rewrite size_mulv ?sfa ?sfb.
exists (invNTT T (mulv (fwdNTT T a) (fwdNTT T b))); split.
- by rewrite InvNTTTo_ok // sm.
- by rewrite hr; apply: size_invNTT; rewrite sm.
- by rewrite [in RHS]hr; apply: (mul_cyc G); rewrite ?sa ?sb.
Qed.

Theorem C04_cyclotomic_mul rank T a b o1 o2 o3 na nb h h' pOut p0 p1 flag :
  NewCyclotomicTransformer U rank = Some T -> (8 <= rank)%N ->
  size a = rank -> size b = rank -> size o1 = rank -> size o2 = rank -> size o3 = rank ->
  FwdNTTTo T o1 a = Some na -> FwdNTTTo T o2 b = Some nb ->
  contents h (pc p0) = na -> contents h (pc p1) = nb ->
  uniq (pc pOut) -> same_or_disjoint (pc p0) (pc pOut) -> same_or_disjoint (pc p1) (pc pOut) ->
  MulTo rank h pOut p0 p1 = Some (h', flag) ->
  exists c, [/\ InvNTTTo T o3 (contents h' (pc pOut)) = Some c, size c = rank
              & Poly c = (Poly a * Poly b) %% ('X^rank + 1)].
Proof.
move=> /NewCyclotomic_good[n [g [hr G]]] h8 sa sb s1 s2 s3; have [d hn] := pow8 hr h8.
rewrite !FwdNTTTo_ok ?sa ?sb // => -[<-] [<-] e0 e1 u d0 d1 hm.
have [z z0 z1 ->] := MulTo_contents u d0 d1 hm; rewrite e0 e1.
have sfa : size (fwdNTT T a) = rank by rewrite hr; apply: size_fwdNTT; rewrite sa.
have sfb : size (fwdNTT T b) = rank by rewrite hr; apply: size_fwdNTT; rewrite sb.
have sm : size (mulv (fwdNTT T a) (fwdNTT T b)) = rank by rewrite size_mulv ?sfa ?sfb.
exists (invNTT T (mulv (fwdNTT T a) (fwdNTT T b))); split.
- by rewrite InvNTTTo_ok // sm.
- by rewrite hr; apply: size_invNTT; rewrite sm.
- by rewrite [in RHS]hr; apply: (mul_cyclo G); rewrite ?sa ?sb.
Qed.

(** C05.  Every operation computes the coefficient-wise field operation into pOut and
    changes nothing else (except the pooled buffer), for every length, every content of
    the buffer, and with inputs equal to the output. *)
Section C05.
Variables (rank : nat) (h : heap F) (buf : slice) (pOut p0 p1 : pobj) (c : nat).
Hypotheses (uo : uniq (pc pOut)).
Hypotheses (d0 : same_or_disjoint (pc p0) (pc pOut)) (d1 : same_or_disjoint (pc p1) (pc pOut)).
(** The pooled polynomial is private: distinct elements, shared with nothing. *)
Hypotheses (ub : uniq buf) (sb : size buf = rank).
Hypotheses (b_out : forall a, a \in buf -> a \notin pc pOut)
           (b_0 : forall a, a \in pc p0 -> a \notin buf)
           (b_1 : forall a, a \in pc p1 -> a \notin buf).
(** The scalar is not one of the elements being written. *)
Hypotheses (c_out : c \notin pc pOut) (c_buf : c \notin buf).

Definition computes (r : option (heap F * bool)) (flag : bool) (f : nat -> F) :=
  exists h', r = Some (h', flag) /\
    (forall i, (i < rank)%N -> h' (nth 0%N (pc pOut) i) = f i) /\
    (forall a, a \notin pc pOut -> a \notin buf -> h' a = h a).

Local Notation o i := (h (nth 0%N (pc pOut) i)).
Local Notation x i := (h (nth 0%N (pc p0) i)).
Local Notation y i := (h (nth 0%N (pc p1) i)).

Let bin := binaryOperable rank pOut p0 p1.
Let un := unaryOperable rank pOut p0.

Lemma binP : bin -> [/\ size (pc pOut) = rank, aligned (pc pOut) (pc p0), aligned (pc pOut) (pc p1),
  size (pc p0) = rank & size (pc p1) = rank].
Proof.
move=> /and4P[/eqP z /eqP z0 /eqP z1 _].
by split=> //; apply: sod_aligned; rewrite ?z ?z0 ?z1.
Qed.
Lemma unP : un -> [/\ size (pc pOut) = rank, aligned (pc pOut) (pc p0) & size (pc p0) = rank].
Proof.
move=> /andP[/eqP z /eqP z0].
by split=> //; apply: sod_aligned; rewrite ?z ?z0.
Qed.

Theorem C05_Add : bin -> computes (AddTo rank h pOut p0 p1) (pntt p0) (fun i => x i + y i).
Proof.
move=> hb; have [z a0 a1 _ _] := binP hb; rewrite /AddTo -/bin hb.
have [r1 r2] := binVecToP (fun a b => a + b) h uo a0 a1.
by eexists; split; first reflexivity; split=> [i hi|a ha _]; [apply: r1; rewrite z|exact: r2].
Qed.
Theorem C05_Sub : bin -> computes (SubTo rank h pOut p0 p1) (pntt p0) (fun i => x i - y i).
Proof.
move=> hb; have [z a0 a1 _ _] := binP hb; rewrite /SubTo -/bin hb.
have [r1 r2] := binVecToP (fun a b => a - b) h uo a0 a1.
by eexists; split; first reflexivity; split=> [i hi|a ha _]; [apply: r1; rewrite z|exact: r2].
Qed.
Theorem C05_Neg : un -> computes (NegTo rank h pOut p0) (pntt p0) (fun i => - x i).
Proof.
move=> hb; have [z a0 _] := unP hb; rewrite /NegTo -/un hb.
have [r1 r2] := negVecToP h uo a0.
by eexists; split; first reflexivity; split=> [i hi|a ha _]; [apply: r1; rewrite z|exact: r2].
Qed.
Theorem C05_ScalarMul : un -> computes (ScalarMulTo rank h pOut p0 c) (pntt p0) (fun i => x i * h c).
Proof.
move=> hb; have [z a0 _] := unP hb; rewrite /ScalarMulTo -/un hb.
have [r1 r2] := scalarMulVecToP h uo a0 c_out.
by eexists; split; first reflexivity; split=> [i hi|a ha _]; [apply: r1; rewrite z|exact: r2].
Qed.

Lemma buf_aligned (s : slice) : size s = rank -> (forall a, a \in s -> a \notin buf) -> aligned buf s.
Proof. by move=> ss hd; apply: aligned_disjoint => //; rewrite ss sb. Qed.
Lemma out_buf_aligned : size (pc pOut) = rank -> aligned (pc pOut) buf.
Proof. by move=> z; apply: aligned_disjoint => //; rewrite z sb. Qed.
Lemma out_notin i : size (pc pOut) = rank -> (i < rank)%N -> nth 0%N (pc pOut) i \notin buf.
Proof.
move=> z hi; apply/negP => /b_out; rewrite mem_nth // z //.
Qed.

(** What the second step [pOut = f pOut buf] does after the buffer was filled. *)
Lemma fused f g (h1 : heap F) : size (pc pOut) = rank ->
  (forall i, (i < size buf)%N -> h1 (nth 0%N buf i) = g i) ->
  (forall a, a \notin buf -> h1 a = h a) ->
  let h2 := binVecTo f h1 (pc pOut) (pc pOut) buf in
  (forall i, (i < rank)%N -> h2 (nth 0%N (pc pOut) i) = f (o i) (g i)) /\
  (forall a, a \notin pc pOut -> a \notin buf -> h2 a = h a).
Proof.
move=> z e1 e2; have [r1 r2] := binVecToP f h1 uo (aligned_refl uo) (out_buf_aligned z).
split=> [i hi|a ha hab]; last by rewrite r2 // e2.
by rewrite r1 ?z // e1 ?sb // e2 // out_notin.
Qed.

Theorem C05_ScalarMulAdd : un ->
  computes (ScalarMulAddTo rank h buf pOut p0 c) (pntt p0) (fun i => o i + x i * h c).
Proof.
move=> hb; have [z a0 z0] := unP hb; rewrite /ScalarMulAddTo -/un hb.
have [r1 r2] := scalarMulVecToP h ub (buf_aligned z0 b_0) c_buf.
by eexists; split; first reflexivity; apply: (fused (fun a b => a + b) z r1 r2).
Qed.
Theorem C05_ScalarMulSub : un ->
  computes (ScalarMulSubTo rank h buf pOut p0 c) (pntt p0) (fun i => o i - x i * h c).
Proof.
move=> hb; have [z a0 z0] := unP hb; rewrite /ScalarMulSubTo -/un hb.
have [r1 r2] := scalarMulVecToP h ub (buf_aligned z0 b_0) c_buf.
by eexists; split; first reflexivity; apply: (fused (fun a b => a - b) z r1 r2).
Qed.
Theorem C05_Mul : bin -> pntt p0 -> pntt p1 ->
  computes (MulTo rank h pOut p0 p1) true (fun i => x i * y i).
Proof.
move=> hb n0 n1; have [z a0 a1 _ _] := binP hb; rewrite /MulTo -/bin hb n0 n1 /=.
have [r1 r2] := binVecToP (fun a b => a * b) h uo a0 a1.
by eexists; split; first reflexivity; split=> [i hi|a ha _]; [apply: r1; rewrite z|exact: r2].
Qed.
Theorem C05_MulAdd : bin -> pntt p0 -> pntt p1 ->
  computes (MulAddTo rank h buf pOut p0 p1) true (fun i => o i + x i * y i).
Proof.
move=> hb n0 n1; have [z a0 a1 z0 z1] := binP hb; rewrite /MulAddTo -/bin hb n0 n1 /=.
have [r1 r2] := binVecToP (fun a b => a * b) h ub (buf_aligned z0 b_0) (buf_aligned z1 b_1).
by eexists; split; first reflexivity; apply: (fused (fun a b => a + b) z r1 r2).
Qed.
Theorem C05_MulSub : bin -> pntt p0 -> pntt p1 ->
  computes (MulSubTo rank h buf pOut p0 p1) true (fun i => o i - x i * y i).
Proof.
move=> hb n0 n1; have [z a0 a1 z0 z1] := binP hb; rewrite /MulSubTo -/bin hb n0 n1 /=.
have [r1 r2] := binVecToP (fun a b => a * b) h ub (buf_aligned z0 b_0) (buf_aligned z1 b_1).
by eexists; split; first reflexivity; apply: (fused (fun a b => a - b) z r1 r2).
Qed.
End C05.

(** C06.  Construction succeeds exactly for power-of-two ranks (at least 2 in the cyclic
    case) with 2*rank dividing p - 1; the root found has the exact order needed, and the
    tables hold its powers. *)
Theorem C06_cyclic_constructor rank :
  (exists T, NewCyclicTransformer U rank = Some T) <->
  (exists n, rank = 2 ^ n)%N /\ (2 <= rank)%N /\ (Z.of_nat (2 * rank) | modulus U - 1)%Z.
Proof.
split=> [[T]|[[n hn] [h2 hd]]].
  rewrite /NewCyclicTransformer.
  case: ifP => // /negbFE/isPowerOfTwoP[n hn]; case: ifP => // /negbFE/Z.eqb_eq e.
  case: ifP => // h2 _; split; first by exists n.
  split; first by lia.
  rewrite -pNegOneE; apply/Z.mod_divide => //.
  by have := expn_gt0 2 n; rewrite hn; lia.
have hr : ntt_rank U rank by exists n.
by have [T [m [g [-> _ _]]]] := NewCyclicP hr h2; exists T.
Qed.

Theorem C06_cyclotomic_constructor rank :
  (exists T, NewCyclotomicTransformer U rank = Some T) <->
  (exists n, rank = 2 ^ n)%N /\ (Z.of_nat (2 * rank) | modulus U - 1)%Z.
Proof.
split=> [[T]|[[n hn] hd]].
  rewrite /NewCyclotomicTransformer.
  case: ifP => // /negbFE/isPowerOfTwoP[n hn]; case: ifP => // /negbFE/Z.eqb_eq e _.
  split; first by exists n.
  rewrite -pNegOneE; apply/Z.mod_divide => //.
  by have := expn_gt0 2 n; rewrite hn; lia.
have hr : ntt_rank U rank by exists n.
by have [T [m [g [-> _ _]]]] := NewCyclotomicP hr; exists T.
Qed.

Theorem C06_cyclotomic_root rank T : NewCyclotomicTransformer U rank = Some T ->
  exists psi, [/\ has_order psi (2 * rank), (ttw T)`_0 = 1 & (rank > 1)%N -> (ttw T)`_(rank./2) = psi].
Proof.
move=> hT; have [n [g [hr G]]] := NewCyclotomic_good hT; exists g.
have [_ gN ht _ _ hz] := G; split.
- by have := order_of_neg1 (two_nz_T hT G) gN; rewrite expnS -hr.
- by rewrite ht ?expn_gt0 // brv_zero expr0.
- move=> h1; case: n hr ht {G gN hz} => [|n] hr ht; first by move: h1; rewrite hr.
  rewrite hr half_pow ht ?ltn_exp2l //.
  by rewrite -[(2 ^ n)%N]addn0 brv_top ?expn_gt0 // brv_zero expr1.
Qed.

Theorem C06_cyclic_root rank T : NewCyclicTransformer U rank = Some T ->
  exists g, has_order g rank /\ forall s i, (2 ^ s + i < rank)%N -> (i < 2 ^ s)%N ->
     exists e, (ttw T)`_(2 ^ s + i) = g ^+ e /\ (ttwInv T)`_(2 ^ s + i) = (g ^+ e)^-1.
Proof.
move=> /NewCyclic_good[n [g [hr G]]]; exists g; have [_ hn gN ht hti _ hz] := G; split.
  by have := order_of_neg1 (two_nz_rank hn hz) gN; rewrite prednK // hr.
move=> s i h hi; have hs : (s < n)%N.
  by rewrite -(ltn_exp2l _ _ (isT : 1 < 2)%N) -hr; apply: leq_ltn_trans h; rewrite leq_addr.
by exists (brv n.-1 i); rewrite ht // hti // exprVn.
Qed.

(** C07.  Unrolled and reference loops agree on any data and any table. *)
Theorem C07_unroll_fwd (v tw : seq F) n : size v = (2 ^ n)%N -> (5 <= n)%N ->
  nttInPlaceUnroll v tw = nttInPlaceRef v tw.
Proof. by move=> s h; rewrite (nttUnrollE _ s) ?(nttRefE _ s) //; lia. Qed.
Theorem C07_unroll_inv (v tw : seq F) n : size v = (2 ^ n)%N -> (5 <= n)%N ->
  inttInPlaceUnroll v tw = inttInPlaceRef v tw.
Proof. by move=> s h; rewrite (inttUnrollE _ s) ?(inttRefE _ s) //; lia. Qed.

Lemma of_nat_modn a b : (0 < b)%N -> Z.of_nat (a %% b)%N = (Z.of_nat a mod Z.of_nat b)%Z.
Proof.
move=> hb; apply: (Z.mod_unique_pos _ _ (Z.of_nat (a %/ b))); first by have := ltn_pmod a hb; lia.
by have := divn_eq a b; lia.
Qed.

(** C08.  Aut in coefficient form is the substitution X -> X^idx modulo X^N + 1.  The
    exponent is any natural number congruent to idx modulo 2N (X^(2N) = 1 there, so this
    also gives the meaning of negative idx). *)
Theorem C08_aut_substitution n rank buf pOut p idx (k : nat) :
  rank = (2 ^ n)%N -> (8 <= rank)%N -> size buf = rank ->
  size (coeffs pOut) = rank -> size (coeffs p) = rank -> isNTT p = false ->
  Z.odd idx -> (Z.of_nat k mod Z.of_nat (2 * rank) = idx mod Z.of_nat (2 * rank))%Z ->
  exists q, [/\ AutTo rank buf pOut p idx = Some q, isNTT q = false, size (coeffs q) = rank &
    Poly (coeffs q : seq F) = (Poly (coeffs p) \Po 'X^k) %% ('X^rank + 1)].
Proof.
move=> hr h8 sb so sp np oi hk; have [d hn] := pow8 hr h8.
have r0 : (0 < rank)%N by lia.
have hodd : odd (normIdx rank idx).
  have := normIdx_mod idx r0 => e.
  have h2 := Z.div_mod idx (Z.of_nat (2 * rank)).
  have [m hm] : exists m, idx = (2 * m + 1)%Z by apply/Z.odd_spec.
  lia.
rewrite /AutTo so sp !eqxx /= np.
have -> : (Z.rem idx 2 =? 0)%Z = false.
  apply/Z.eqb_neq => h; have [m hm] : exists m, idx = (2 * m + 1)%Z by apply/Z.odd_spec.
  have := Z.quot_rem idx 2; lia.
have sa := autTo_size hr hodd (coeffs p) sb.
rewrite copy8_ok ?sa //.
exists (Poly_t (autTo rank buf (coeffs p) (normIdx rank idx)) false); split=> //=.
rewrite (autTo_subst hr hodd) //; apply: comp_red => //.
have e := normIdx_mod idx r0; rewrite -hk in e.
have lt := normIdx_lt idx r0.
by rewrite modn_small //; apply: Nat2Z.inj; rewrite e of_nat_modn //; lia.
Qed.

(** Even indices panic. *)
Theorem C08_aut_even_panics rank buf pOut (p : poly_t F) idx :
  Z.even idx -> AutTo rank buf pOut p idx = None.
Proof.
move=> /Z.even_spec[m hm]; rewrite /AutTo; case: ifP => // _.
have -> : (Z.rem idx 2 =? 0)%Z => //.
by apply/Z.eqb_eq; rewrite hm Z.mul_comm Z.rem_mul.
Qed.

Lemma normIdx_odd rank idx : (0 < rank)%N -> Z.odd idx -> odd (normIdx rank idx).
Proof.
move=> r0 /Z.odd_spec[m hm]; have e := normIdx_mod idx r0.
by have h2 := Z.div_mod idx (Z.of_nat (2 * rank)); lia.
Qed.

Lemma odd_rem idx : Z.odd idx -> (Z.rem idx 2 =? 0)%Z = false.
Proof. by move=> /Z.odd_spec[m hm]; apply/Z.eqb_neq; have := Z.quot_rem idx 2; lia. Qed.

Section AutNTT.
Variables (rank n : nat) (hr : rank = (2 ^ n)%N).

Definition nttSrc (k i : nat) := brv n ((((2 * brv n i + 1) * k) %% (2 * rank)).-1)./2.

Lemma nttSrc_lt k i : (nttSrc k i < rank)%N.
Proof. by rewrite hr /nttSrc brv_lt. Qed.

Lemma autNTTTo_nth (out buf : seq F) k : size out = rank -> size buf = rank ->
  size (autNTTTo rank out buf k) = rank /\
  forall i, (i < rank)%N -> (autNTTTo rank out buf k)`_i = buf`_(nttSrc k i).
Proof.
move=> so sb; rewrite /autNTTTo.
set f := fun i => (bitReverseInPlace 0 buf)`_((((2 * i + 1) * k) %% (2 * rank) - 1)./2).
have := @foldl_write _ f (iota 0 rank) out.
rewrite -/f /=; set w := foldl _ out _.
case; first by apply/allP => i; rewrite mem_iota so.
move=> sw hw; have sw2 : size w = (2 ^ n)%N by rewrite sw so.
have sb2 : size buf = (2 ^ n)%N by rewrite sb.
split=> [|i hi]; first by rewrite (bitReverse_size _ sw2) -hr.
have hi2 : (i < 2 ^ n)%N by rewrite -hr.
rewrite (bitReverse_nth _ sw2) // hw mem_iota /= add0n {1}hr brv_lt /f.
have r0 : (0 < rank)%N by rewrite hr expn_gt0.
have r2 : (0 < 2 * rank)%N by lia.
have lt := ltn_pmod ((2 * brv n i + 1) * k) r2.
rewrite (bitReverse_nth _ sb2) /nttSrc ?subn1 // -hr.
set z := (_ %% _)%N in lt *; lia.
Qed.

(** The point a source index stands for. *)
Lemma nttSrc_point (psi : F) k i : (0 < n)%N -> psi ^+ (2 ^ n) = -1 -> odd k -> (i < rank)%N ->
  psi ^+ (brv n (nttSrc k i)).*2.+1 = (psi ^+ (brv n i).*2.+1) ^+ k.
Proof.
move=> hn hp ok hi; rewrite /nttSrc.
have r0 : (0 < rank)%N by rewrite hr expn_gt0.
set e := ((2 * brv n i + 1) * k)%N; set z := (e %% (2 * rank))%N.
have lt : (z < 2 * rank)%N by rewrite ltn_mod; lia.
have oz : odd z.
  rewrite /z odd_mod; last by rewrite oddM.
  by rewrite /e oddM ok; lia.
rewrite brvK; last by rewrite -hr; lia.
have -> : (z.-1)./2.*2.+1 = z by lia.
have p1 : psi ^+ (2 * rank) = 1 by rewrite mulnC exprM hr hp sqrrN expr1n.
by rewrite /z expr_mod // /e mul2n addn1 exprM.
Qed.
End AutNTT.

(** C09.  Aut on NTT form is NTT of Aut on coefficient form. *)
Theorem C09_aut_ntt rank T w v o1 o2 b1 b2 (a1 a2 : seq F) f1 f2 idx :
  NewCyclotomicTransformer U rank = Some T -> (8 <= rank)%N -> Z.odd idx ->
  size w = rank -> size o1 = rank -> size o2 = rank -> size b1 = rank -> size b2 = rank ->
  size a1 = rank -> size a2 = rank ->
  InvNTTTo T o1 w = Some v ->
  exists q r, [/\ AutTo rank b1 (Poly_t a1 f1) (Poly_t v false) idx = Some q,
    FwdNTTTo T o2 (coeffs q) = Some r &
    AutTo rank b2 (Poly_t a2 f2) (Poly_t w true) idx = Some (Poly_t r true)].
Proof.
move=> /NewCyclotomic_good[n [g [hr G]]] h8 oi sw s1 s2 sb1 sb2 sa1 sa2.
have [d hn] := pow8 hr h8.
have r0 : (0 < rank)%N by lia.
have ok := normIdx_odd r0 oi.
rewrite InvNTTTo_ok ?sw // => -[ev].
have sw2 : size w = (2 ^ n)%N by rewrite sw.
have sv : size v = rank by rewrite -ev (size_invNTT T sw2).
have sv2 : size v = (2 ^ n)%N by rewrite sv.
have wv : w = fwdNTT T v by rewrite -ev (fwd_inv_cyclo G).
set k := normIdx rank idx in ok.
have sA := autTo_size hr ok v sb1.
have sA2 : size (autTo rank b1 v k) = (2 ^ n)%N by rewrite sA.
exists (Poly_t (autTo rank b1 v k) false), (fwdNTT T (autTo rank b1 v k)); split.
- by rewrite /AutTo /= sa1 sv eqxx /= odd_rem //= -/k copy8_ok ?sA ?sa1.
- by rewrite FwdNTTTo_ok //= sA.
rewrite /AutTo /= sa2 sw eqxx /= odd_rem //= copy8_ok ?sw ?sb2 // -/k.
congr (Some (Poly_t _ _)).
have [sN hN] := autNTTTo_nth hr k sa2 sw.
apply: (@eq_from_nth _ 0) => [|i]; rewrite sN; first by rewrite (size_fwdNTT T sA2).
move=> hi; rewrite hN // {1}wv.
have [_ gN _ _ _ hz] := G.
rewrite !(fwd_cyclo_nth G) -?hr ?nttSrc_lt // (nttSrc_point hr) //.
set x := g ^+ _.
rewrite !pevalE (autTo_subst hr ok) // -/k.
have hx : ('X^rank + 1 : {poly F}).[x] = 0.
  rewrite !hornerE hornerXn /x -exprM mulnC exprM hr gN -signr_odd /= odd_double /=.
  by rewrite expr1 addNr.
rewrite [in RHS](_ : _ %% _ = (Poly v \Po 'X^k) - (Poly v \Po 'X^k) %/ ('X^rank + 1) * ('X^rank + 1)).
  by rewrite hornerD hornerN hornerM hx mulr0 subr0 horner_comp hornerXn.
by rewrite {2}[Poly v \Po 'X^k](divp_eq _ ('X^rank + 1)) addrAC subrr add0r.
Qed.

Section C10.
Variables (rank n : nat) (hr : rank = (2 ^ n)%N) (h8 : (8 <= rank)%N).

Definition autRes buf (pOut p : poly_t F) idx :=
  if isNTT p then autNTTTo rank (coeffs pOut) (coeffs p) (normIdx rank idx)
  else autTo rank buf (coeffs p) (normIdx rank idx).

Lemma AutToE buf pOut p idx : Z.odd idx -> size buf = rank ->
  size (coeffs pOut) = rank -> size (coeffs p) = rank ->
  AutTo rank buf pOut p idx = Some (Poly_t (autRes buf pOut p idx) (isNTT p)) /\
  size (autRes buf pOut p idx) = rank.
Proof.
move=> oi sb so sp; have [d hn] := pow8 hr h8.
have r0 : (0 < rank)%N by lia.
have ok := normIdx_odd r0 oi.
rewrite /AutTo so sp eqxx /= odd_rem // /autRes; case: (isNTT p).
  by rewrite copy8_ok ?sb ?sp //; have [-> _] := autNTTTo_nth hr (normIdx rank idx) so sp.
have sA := autTo_size hr ok (coeffs p) sb.
by rewrite copy8_ok ?sA ?so.
Qed.

Lemma normIdx_mul i j : (normIdx rank (i * j) = normIdx rank i * normIdx rank j %[mod 2 * rank])%N.
Proof.
have r0 : (0 < rank)%N by lia.
apply: Nat2Z.inj; rewrite !of_nat_modn; try lia.
rewrite (Nat2Z.inj_mul (normIdx rank i)) !normIdx_mod // Z.mod_mod; last lia.
by rewrite -Z.mul_mod //; lia.
Qed.

Lemma nttSrc_comp ki kj k x : odd ki -> odd kj -> (k = ki * kj %[mod 2 * rank])%N -> (x < rank)%N ->
  nttSrc rank n ki (nttSrc rank n kj x) = nttSrc rank n k x.
Proof.
move=> oi oj hk hx; rewrite /nttSrc.
have r2 : (0 < 2 * rank)%N by lia.
set u := (2 * brv n x + 1)%N.
have ou : odd u by rewrite /u; lia.
have lt := ltn_pmod (u * kj) r2.
have oz : odd ((u * kj) %% (2 * rank)) by rewrite odd_mod ?oddM ?ou ?oj.
rewrite brvK; last by rewrite -hr; lia.
have -> : (2 * ((u * kj) %% (2 * rank)).-1./2 + 1 = (u * kj) %% (2 * rank))%N by lia.
by rewrite modnMml -mulnA [(kj * ki)%N]mulnC -modnMmr -hk modnMmr.
Qed.

(** C10.  Composition, in either representation. *)
Theorem C10_aut_compose b1 b2 b3 o1 o2 o3 (p q r : poly_t F) i j :
  Z.odd i -> Z.odd j -> size b1 = rank -> size b2 = rank -> size b3 = rank ->
  size (coeffs o1) = rank -> size (coeffs o2) = rank -> size (coeffs o3) = rank ->
  size (coeffs p) = rank ->
  AutTo rank b1 o1 p i = Some q -> AutTo rank b2 o2 q j = Some r ->
  AutTo rank b3 o3 p (i * j) = Some r.
Proof.
move=> oi oj s1 s2 s3 t1 t2 t3 sp.
have [-> sq] := AutToE oi s1 t1 sp => -[<-].
have [//|-> sr] := AutToE (p := Poly_t (autRes b1 o1 p i) (isNTT p)) oj s2 t2 => -[<-].
have oij : Z.odd (i * j) by rewrite Z.odd_mul oi oj.
have [-> ss] := AutToE oij s3 t3 sp.
congr (Some (Poly_t _ _)).
have r0 : (0 < rank)%N by lia.
have ki := normIdx_odd r0 oi; have kj := normIdx_odd r0 oj; have kij := normIdx_odd r0 oij.
have hm := normIdx_mul i j.
move: sq sr ss; rewrite /autRes /=; case: (isNTT p) => sq sr ss.
  apply: (@eq_from_nth _ 0) => [|x]; rewrite ss ?sr // => hx.
  have [_ ->] := autNTTTo_nth hr (normIdx rank (i * j)) t3 sp => //.
  have [_ ->] := autNTTTo_nth hr (normIdx rank j) t2 sq => //.
  have [_ ->] := autNTTTo_nth hr (normIdx rank i) t1 sp; last exact: nttSrc_lt hr _ _.
  by rewrite (@nttSrc_comp _ _ (normIdx rank (i * j))) // hm.
apply: Poly_inj_size; first by rewrite sr ss.
rewrite (autTo_subst hr kij) // (autTo_subst hr kj) // (autTo_subst hr ki) //.
rewrite comp_modp // -comp_polyA (rmorphX (comp_poly_rmorphism _)) /= comp_polyX -exprM; apply: comp_red => //.
by rewrite hm mulnC.
Qed.

Theorem C10_aut_inverse b1 b2 o1 o2 (p q r : poly_t F) i j :
  Z.odd i -> Z.odd j -> size b1 = rank -> size b2 = rank ->
  size (coeffs o1) = rank -> size (coeffs o2) = rank -> size (coeffs p) = rank ->
  ((i * j) mod Z.of_nat (2 * rank) = 1)%Z ->
  AutTo rank b1 o1 p i = Some q -> AutTo rank b2 o2 q j = Some r -> r = p.
Proof.
move=> oi oj s1 s2 t1 t2 sp hij e1 e2.
have := C10_aut_compose oi oj s1 s2 s2 t1 t2 t2 sp e1 e2.
have oij : Z.odd (i * j) by rewrite Z.odd_mul oi oj.
have [-> ss] := AutToE oij s2 t2 sp; move=> -[<-].
have r0 : (0 < rank)%N by lia.
have k1 : normIdx rank (i * j) = 1%N by apply: Nat2Z.inj; rewrite normIdx_mod.
have kij := normIdx_odd r0 oij.
move: ss; rewrite /autRes; case: p {e1 e2} sp => c [] /= sc ss; congr Poly_t.
  apply: (@eq_from_nth _ 0) => [|x]; rewrite ss ?sc // => hx.
  have [_ ->] := autNTTTo_nth hr (normIdx rank (i * j)) t2 sc => //.
  rewrite k1 /nttSrc muln1 modn_small; last by have := brv_lt n x; rewrite -hr; lia.
  have -> : (2 * brv n x + 1).-1./2 = brv n x by lia.
  by rewrite brvK // -hr.
apply: Poly_inj_size; first by rewrite ss sc.
rewrite (autTo_subst hr kij) // k1 expr1 comp_polyXr modp_small // size_XnD1 //.
by rewrite ltnS -sc size_Poly_le.
Qed.

(** Aut distributes over the coefficient-wise sum, in either representation, and over
    the coefficient-wise product in NTT form. *)
Definition addv (a b : seq F) := [seq x.1 + x.2 | x <- zip a b].

Lemma nth_addv a b i : size a = size b -> (addv a b)`_i = a`_i + b`_i.
Proof.
move=> s; case: (ltnP i (size a)) => h.
  by rewrite /addv (nth_map (0, 0)) ?size_zip -?s ?minnn // nth_zip.
by rewrite !nth_default ?size_map ?size_zip -?s ?minnn // addr0.
Qed.
Lemma size_addv a b : size a = size b -> size (addv a b) = size a.
Proof. by move=> s; rewrite size_map size_zip -s minnn. Qed.

Theorem C10_aut_additive b1 b2 b3 o1 o2 o3 f (p0 p1 : seq F) q0 q1 i :
  Z.odd i -> size b1 = rank -> size b2 = rank -> size b3 = rank ->
  size (coeffs o1) = rank -> size (coeffs o2) = rank -> size (coeffs o3) = rank ->
  size p0 = rank -> size p1 = rank ->
  AutTo rank b1 o1 (Poly_t p0 f) i = Some q0 -> AutTo rank b2 o2 (Poly_t p1 f) i = Some q1 ->
  AutTo rank b3 o3 (Poly_t (addv p0 p1) f) i = Some (Poly_t (addv (coeffs q0) (coeffs q1)) f).
Proof.
move=> oi s1 s2 s3 t1 t2 t3 z0 z1.
have [//|-> r1] := @AutToE b1 o1 (Poly_t p0 f) i oi s1 t1 => -[<-].
have [//|-> r2] := @AutToE b2 o2 (Poly_t p1 f) i oi s2 t2 => -[<-].
have sz : size (addv p0 p1) = rank by rewrite size_addv z0 ?z1.
have [//|-> r3] := @AutToE b3 o3 (Poly_t (addv p0 p1) f) i oi s3 t3.
congr (Some (Poly_t _ _)).
have r0 : (0 < rank)%N by lia.
have ki := normIdx_odd r0 oi.
have sq : size (addv (autRes b1 o1 (Poly_t p0 f) i) (autRes b2 o2 (Poly_t p1 f) i)) = rank.
  by rewrite size_addv r1 ?r2.
move: r1 r2 r3 sq; rewrite /autRes /=; case: f => r1 r2 r3 sq /=.
  apply: (@eq_from_nth _ 0) => [|x]; rewrite r3 ?sq // => hx.
  have [_ ->] := autNTTTo_nth hr (normIdx rank i) t3 sz => //.
  rewrite !nth_addv ?z0 ?z1 ?r1 ?r2 //.
  have [_ ->] := autNTTTo_nth hr (normIdx rank i) t1 z0 => //.
  by have [_ ->] := autNTTTo_nth hr (normIdx rank i) t2 z1.
apply: Poly_inj_size; first by rewrite r3 sq.
have P a b : size a = size b -> Poly (addv a b) = Poly a + Poly b.
  by move=> s; apply/polyP => x; rewrite coefD !coef_Poly nth_addv.
rewrite P ?r1 ?r2 // !(autTo_subst hr ki) // P ?z0 ?z1 //.
by rewrite comp_polyD modpD.
Qed.

Theorem C10_aut_multiplicative b1 b2 b3 o1 o2 o3 (p0 p1 c : seq F) q0 q1 q i :
  Z.odd i -> size b1 = rank -> size b2 = rank -> size b3 = rank ->
  size (coeffs o1) = rank -> size (coeffs o2) = rank -> size (coeffs o3) = rank ->
  size p0 = rank -> size p1 = rank -> size c = rank ->
  Poly c = (Poly p0 * Poly p1) %% ('X^rank + 1) ->
  AutTo rank b1 o1 (Poly_t p0 false) i = Some q0 -> AutTo rank b2 o2 (Poly_t p1 false) i = Some q1 ->
  AutTo rank b3 o3 (Poly_t c false) i = Some q ->
  Poly (coeffs q) = (Poly (coeffs q0) * Poly (coeffs q1)) %% ('X^rank + 1).
Proof.
move=> oi s1 s2 s3 t1 t2 t3 z0 z1 z2 hc.
have [//|-> r1] := @AutToE b1 o1 (Poly_t p0 false) i oi s1 t1 => -[<-].
have [//|-> r2] := @AutToE b2 o2 (Poly_t p1 false) i oi s2 t2 => -[<-].
have [//|-> r3] := @AutToE b3 o3 (Poly_t c false) i oi s3 t3 => -[<-] /=.
have r0 : (0 < rank)%N by lia.
have ki := normIdx_odd r0 oi.
rewrite /autRes /= !(autTo_subst hr ki) // hc comp_modp // modp_mulr2 comp_polyM //.
Qed.

Theorem C10_aut_multiplicative_ntt b1 b2 b3 o1 o2 o3 (p0 p1 : seq F) q0 q1 i :
  Z.odd i -> size b1 = rank -> size b2 = rank -> size b3 = rank ->
  size (coeffs o1) = rank -> size (coeffs o2) = rank -> size (coeffs o3) = rank ->
  size p0 = rank -> size p1 = rank ->
  AutTo rank b1 o1 (Poly_t p0 true) i = Some q0 -> AutTo rank b2 o2 (Poly_t p1 true) i = Some q1 ->
  AutTo rank b3 o3 (Poly_t (mulv p0 p1) true) i = Some (Poly_t (mulv (coeffs q0) (coeffs q1)) true).
Proof.
move=> oi s1 s2 s3 t1 t2 t3 z0 z1.
have [//|-> r1] := @AutToE b1 o1 (Poly_t p0 true) i oi s1 t1 => -[<-].
have [//|-> r2] := @AutToE b2 o2 (Poly_t p1 true) i oi s2 t2 => -[<-].
have sz : size (mulv p0 p1) = rank by rewrite size_mulv z0 ?z1.
have [//|-> r3] := @AutToE b3 o3 (Poly_t (mulv p0 p1) true) i oi s3 t3.
congr (Some (Poly_t _ _)).
move: r1 r2 r3; rewrite /autRes /= => r1 r2 r3.
apply: (@eq_from_nth _ 0) => [|x]; rewrite r3; first by rewrite size_mulv r1 ?r2.
move=> hx; have [_ ->] := autNTTTo_nth hr (normIdx rank i) t3 sz => //.
have hs := nttSrc_lt hr (normIdx rank i) x.
rewrite !nth_mulv ?z0 ?z1 ?r1 ?r2 //.
have [_ ->] := autNTTTo_nth hr (normIdx rank i) t1 z0 => //.
by have [_ ->] := autNTTTo_nth hr (normIdx rank i) t2 z1.
Qed.
End C10.

(** C11.  QuoRemByVanishing is Euclidean division by X^N - 1. *)
Theorem C11_quorem rank (p : poly_t F) N :
  (8 %| rank)%N -> (0 < N)%N -> size (coeffs p) = rank -> isNTT p = false ->
  exists quo rem, [/\ QuoRemByVanishing rank p N = Some (quo, rem),
    size quo = rank, size rem = rank,
    Poly (coeffs p) = Poly quo * ('X^N - 1) + Poly rem &
    forall i, (N <= i)%N -> rem`_i = 0].
Proof.
move=> d hN sp np; rewrite /QuoRemByVanishing sp eqxx /= np copy8_ok ?size_nseq ?sp //.
have := quoremP sp hN; set st := foldl _ _ _.
case: st => quo rem /= [s1 s2 hz e1 e2]; exists quo, rem; split=> //; rewrite e1 e2.
exact: divp_eq.
Qed.

(** ... and the pair is unique. *)
Theorem C11_quorem_unique N (a q r : {poly F}) : (0 < N)%N -> (size r <= N)%N ->
  a = q * ('X^N - 1) + r -> q = a %/ ('X^N - 1) /\ r = a %% ('X^N - 1).
Proof.
move=> hN hs ->.
have sM : size ('X^N - 1 : {poly F}) = N.+1 by rewrite size_Xn_sub_1.
have M0 : ('X^N - 1 : {poly F}) != 0 by rewrite -size_poly_eq0 sM.
have lt : (size r < size ('X^N - 1 : {poly F})%R)%N by rewrite sM.
by rewrite divp_addl_mul_small // modp_addl_mul_small.
Qed.

(** C12.  ModSwitchTo rounds pBig[i] * q / Q to a nearest integer. *)
Theorem C12_modswitch rank pBig Q : size pBig = rank -> (0 < Q)%Z ->
  exists q, [/\ ModSwitchTo U rank pBig Q = Some q, size (coeffs q) = rank, isNTT q = false &
    forall i, (i < rank)%N -> exists z : Z, (coeffs q)`_i = setBigInt U z /\
      (2 * Z.abs (z * Q - nth 0%Z pBig i * modulus U) <= Q)%Z].
Proof.
move=> sp hQ; rewrite /ModSwitchTo sp eqxx /=.
have hm : (bigInt U (setBigInt U (-1)) + 1 = modulus U)%Z.
  have := modulus_gt1 U => h1; rewrite bigInt_setBigInt.
  by rewrite -(Z.mod_unique (-1) (modulus U) (-1) (modulus U - 1)); lia.
eexists; split; first reflexivity; rewrite /= ?size_map // => i hi.
rewrite (nth_map 0%Z) ?sp // hm.
have hp := modulus_pos U.
have [z [-> hz]] := modSwitchCoeffP (nth 0%Z pBig i) hp hQ.
by exists z; split=> //; rewrite sb_mod.
Qed.

(** C13 *)
Theorem C13_evaluate (p : poly_t F) x :
  Evaluate p x = if isNTT p then None else Some (peval (coeffs p) x).
Proof. by rewrite /Evaluate evalSliceE. Qed.

(** C14.  The 8-at-a-time copies stay inside the slices exactly when 8 divides the
    length, i.e. for constructed transformers exactly when the rank is at least 8. *)
Theorem C14_copy_in_bounds_iff (vOut v : seq F) : size vOut = size v ->
  (exists w, copy8 vOut v = Some w) <-> (8 %| size vOut)%N.
Proof.
move=> s; split=> [[w]|d]; last by exists v; apply: copy8_ok; rewrite -?s.
by case E: (8 %| size vOut)%N => //; rewrite copy8_fault // E.
Qed.

Theorem C14_transform_in_bounds rank T vOut v :
  NewCyclicTransformer U rank = Some T \/ NewCyclotomicTransformer U rank = Some T ->
  size vOut = rank -> size v = rank ->
  ((exists w, FwdNTTTo T vOut v = Some w) <-> (8 <= rank)%N) /\
  ((exists w, InvNTTTo T vOut v = Some w) <-> (8 <= rank)%N).
Proof.
move=> hT so sv.
have [n hr] : exists n, rank = (2 ^ n)%N.
  case: hT => [/NewCyclic_good[n [g [hr _]]]|/NewCyclotomic_good[n [g [hr _]]]]; by exists n.
have hd : (8 %| rank)%N <-> (8 <= rank)%N.
  split=> [|h]; last by have [] := pow8 hr h.
  by move/dvdn_leq; apply; rewrite hr expn_gt0.
have s : size vOut = size v by rewrite so sv.
split; rewrite -hd -so.
  split=> [[w]|d].
    by case E: (8 %| size vOut)%N => //; rewrite /FwdNTTTo copy8_fault // E.
  by exists (fwdNTT T v); rewrite FwdNTTTo_ok // -s.
split=> [[w]|d].
  by case E: (8 %| size vOut)%N => //; rewrite /InvNTTTo copy8_fault // E.
by exists (invNTT T v); rewrite InvNTTTo_ok // -s.
Qed.

(** C15 *)
Theorem C15_bitreverse (A : Type) (x0 : A) (v : seq A) n : size v = (2 ^ n)%N ->
  [/\ size (bitReverseInPlace x0 v) = size v,
      forall i, (i < 2 ^ n)%N -> nth x0 (bitReverseInPlace x0 v) (brv n i) = nth x0 v i &
      bitReverseInPlace x0 (bitReverseInPlace x0 v) = v].
Proof.
move=> s; split; first by rewrite (bitReverse_size x0 s) s.
- by move=> i hi; rewrite (bitReverse_nth _ s) ?brv_lt // brvK.
- exact: bitReverseK s.
Qed.

(** C16.  (Elements are values in the model; [Exp] multiplies into fresh r and t only,
    bignum.go 35-37, so x is not written.) *)
Theorem C16_exp (x : F) e : (0 <= e < 2 ^ 64)%Z -> Exp x e = x ^+ Z.to_nat e.
Proof. by move=> h; rewrite /Exp exp_loopE // mul1r. Qed.
End Props.

(** * Concrete cases, over F_17 with rank 8 *)
Section Examples.
Local Open Scope nat_scope.
Definition tov (s : seq nat) : seq F17 := [seq n17 x | x <- s].
Definition fromv (s : seq F17) : seq nat := [seq nat_of_ord x | x <- s].
Definition v8 := tov [:: 3; 1; 4; 1; 5; 9; 2; 6].
Definition w8 := tov [:: 2; 7; 1; 8; 2; 8; 1; 8].
Definition junk := tov [:: 9; 9; 9; 9; 9; 9; 9; 9].

Definition obnd (A B : Type) (f : A -> option B) (x : option A) := if x is Some a then f a else None.

(* C01-C03, C06: the constructors succeed, the transforms are not the identity *)
Example ex_cyclic_ntt :
  obnd (fun T => omap fromv (FwdNTTTo T junk v8)) (NewCyclicTransformer U17 8)
  = Some [:: 14; 14; 7; 14; 13; 1; 11; 1].
Proof. by vm_compute. Qed.
Example ex_cyclotomic_ntt :
  obnd (fun T => omap fromv (FwdNTTTo T junk v8)) (NewCyclotomicTransformer U17 8)
  = Some [:: 3; 10; 12; 9; 5; 10; 1; 8].
Proof. by vm_compute. Qed.
(* C06: 2*16 does not divide 16 *)
Example ex_ctor_refuses : isSome (NewCyclicTransformer U17 16) = false /\
  isSome (NewCyclotomicTransformer U17 16) = false /\ isSome (NewCyclotomicTransformer U17 8) = true.
Proof. by vm_compute. Qed.
(* C08: 3 + X + 4X^2 + ... under X -> X^-3; C09/C10: the permutation in NTT form *)
Example ex_aut : omap (fun q => fromv (coeffs q))
    (AutTo 8 junk (Poly_t junk false) (Poly_t v8 false) (-3)%Z)
  = Some [:: 3; 9; 13; 11; 5; 16; 15; 1].
Proof. by vm_compute. Qed.
Example ex_aut_ntt : omap (fun q => fromv (coeffs q))
    (AutTo 8 junk (Poly_t junk false) (Poly_t v8 true) (-3)%Z)
  = Some [:: 1; 4; 3; 1; 2; 6; 9; 5].
Proof. by vm_compute. Qed.
(* C10: -3 * 5 = 1 modulo 16 *)
Example ex_aut_inverse : obnd (fun q => omap (fun r => fromv (coeffs r))
      (AutTo 8 junk (Poly_t junk false) q 5%Z))
    (AutTo 8 junk (Poly_t junk false) (Poly_t v8 false) (-3)%Z) = Some (fromv v8).
Proof. by vm_compute. Qed.
(* C11: with N = 3 *)
Example ex_quorem : omap (fun q => (fromv q.1, fromv q.2)) (QuoRemByVanishing 8 (Poly_t v8 false) 3)
  = Some ([:: 3; 11; 9; 2; 6; 0; 0; 0], [:: 6; 12; 13; 0; 0; 0; 0; 0]).
Proof. by vm_compute. Qed.
(* C12: 5*17/41 = 2.07, -7*17/41 = -2.90, 1000*17/41 = 414.6 = 7 mod 17 *)
Example ex_modswitch : omap (fun q => fromv (coeffs q)) (ModSwitchTo U17 3 [:: 5; -7; 1000]%Z 41)
  = Some [:: 2; 14; 7].
Proof. by vm_compute. Qed.
(* C13: at x = 2 *)
Example ex_evaluate : omap (@nat_of_ord _) (Evaluate (Poly_t v8 false) (n17 2)) = Some 1.
Proof. by vm_compute. Qed.
(* C15 *)
Example ex_bitrev : fromv (bitReverseInPlace (n17 0) v8) = [:: 3; 5; 4; 2; 1; 9; 1; 6].
Proof. by vm_compute. Qed.
(* C16 *)
Example ex_exp : nat_of_ord (Exp (n17 3) 1000003) = 10.
Proof. by vm_compute. Qed.
(* C07: length 32 with an arbitrary table *)
Example ex_unroll : let v := tov (iota 0 32) in let tw := tov (iota 1 32) in
  fromv (nttInPlaceUnroll v tw) = fromv (nttInPlaceRef v tw) /\
  fromv (nttInPlaceUnroll v tw) != fromv v.
Proof. by vm_compute. Qed.

(* C04, C05: output equal to the first operand, length 11, arbitrary buffer *)
Definition hp17 : heap [fieldType of F17] := fun a => n17 (a * a + 3).
Definition oA := Pobj (iota 0 11) true.
Definition oB := Pobj (iota 11 11) true.
Definition bufA := iota 22 11.
Lemma sod_ex : same_or_disjoint (pc oB) (pc oA).
Proof. by right=> a; rewrite !mem_iota; lia. Qed.
Example ex_muladd : computes 11 hp17 bufA oA (MulAddTo 11 hp17 bufA oA oA oB) true
  (fun i => (hp17 i + hp17 i * hp17 (11 + i)%N)%R).
Proof.
have d a : a \in bufA -> a \notin pc oA by rewrite !mem_iota; lia.
have d0 a : a \in pc oA -> a \notin bufA by rewrite !mem_iota; lia.
have d1 a : a \in pc oB -> a \notin bufA by rewrite !mem_iota; lia.
have ub : uniq bufA by exact: iota_uniq.
have uo : uniq (pc oA) by exact: iota_uniq.
have s0 : same_or_disjoint (pc oA) (pc oA) by left.
have sb : size bufA = 11 by [].
have [h' [e [e1 e2]]] := @C05_MulAdd _ 11 hp17 bufA oA oA oB uo s0 sod_ex ub sb d d0 d1 isT isT isT.
exists h'; split=> //; split=> // i hi; rewrite e1 //.
by rewrite !nth_iota.
Qed.
End Examples.

(** C14, refuted as stated: rank 4 (and 2) is accepted by both constructors, and the
    block copy then leaves the slices.  First for any field where rank 4 is accepted. *)
Lemma small_rank (F : fieldType) (U : uint F) : (Z.of_nat (2 * 4) | modulus U - 1)%Z ->
  exists (T1 T2 : transformer F) v vOut,
  [/\ NewCyclicTransformer U 4 = Some T1, NewCyclotomicTransformer U 4 = Some T2,
      size v = 4%N /\ size vOut = 4%N, FwdNTTTo T1 vOut v = None /\ FwdNTTTo T2 vOut v = None &
      InvNTTTo T1 vOut v = None /\ InvNTTTo T2 vOut v = None].
Proof.
move=> d; have p4 : (exists n, 4 = 2 ^ n)%N by exists 2%N.
have [T1 h1] : exists T, NewCyclicTransformer U 4 = Some T by apply/C06_cyclic_constructor.
have [T2 h2] : exists T, NewCyclotomicTransformer U 4 = Some T by apply/C06_cyclotomic_constructor.
exists T1, T2, (nseq 4 0), (nseq 4 0).
have f T : FwdNTTTo T (nseq 4 0) (nseq 4 (0 : F)) = None by rewrite /FwdNTTTo copy8_fault.
have i T : InvNTTTo T (nseq 4 0) (nseq 4 (0 : F)) = None by rewrite /InvNTTTo copy8_fault.
by split; [exact: h1|exact: h2| |split; apply: f|split; apply: i].
Qed.

Theorem C14_small_rank_refuted : exists (F : fieldType) (U : uint F) (T1 T2 : transformer F) v vOut,
  [/\ NewCyclicTransformer U 4 = Some T1, NewCyclotomicTransformer U 4 = Some T2,
      size v = 4%N /\ size vOut = 4%N, FwdNTTTo T1 vOut v = None /\ FwdNTTTo T2 vOut v = None &
      InvNTTTo T1 vOut v = None /\ InvNTTTo T2 vOut v = None].
Proof. by exists [fieldType of F17], U17; apply: small_rank; exists 2%Z. Qed.

(** C77, refuted: the scalar c is a pointer; when it points at an element of the output,
    the elements written after it are multiplied by the new value. *)
Theorem C77_scalar_alias_refuted : exists (F : fieldType) (h : heap F) (pOut : pobj) (c : nat) h' b i,
  [/\ uniq (pc pOut), c \in pc pOut, ScalarMulTo (size (pc pOut)) h pOut pOut c = Some (h', b),
      (i < size (pc pOut))%N &
      h' (nth 0%N (pc pOut) i) <> h (nth 0%N (pc pOut) i) * h c].
Proof.
exists [fieldType of F17], (fun a => n17 (a + 2)), (Pobj [:: 0; 1]%N true), 0%N.
eexists; eexists; exists 1%N; split; [by []|by []|reflexivity|by []|].
by move/(congr1 (@nat_of_ord _)); vm_compute.
Qed.

Print Assumptions C01_cyclic_roundtrip.
Print Assumptions C02_cyclotomic_roundtrip.
Print Assumptions C03_cyclic_evaluations.
Print Assumptions C03_cyclotomic_evaluations.
Print Assumptions C04_cyclic_mul.
Print Assumptions C04_cyclotomic_mul.
Print Assumptions C05_MulAdd.
Print Assumptions C05_ScalarMulSub.
Print Assumptions C06_cyclic_constructor.
Print Assumptions C06_cyclotomic_constructor.
Print Assumptions C06_cyclotomic_root.
Print Assumptions C07_unroll_fwd.
Print Assumptions C07_unroll_inv.
Print Assumptions C08_aut_substitution.
Print Assumptions C09_aut_ntt.
Print Assumptions C10_aut_compose.
Print Assumptions C10_aut_inverse.
Print Assumptions C10_aut_additive.
Print Assumptions C10_aut_multiplicative.
Print Assumptions C11_quorem.
Print Assumptions C12_modswitch.
Print Assumptions C13_evaluate.
Print Assumptions C14_transform_in_bounds.
Print Assumptions C14_small_rank_refuted.
Print Assumptions C15_bitreverse.
Print Assumptions C16_exp.
Print Assumptions C77_scalar_alias_refuted.
