(** C122: programs of cyclotomic evaluator calls, automorphisms included, compute in F[X]/(X^N + 1). *)
From Coq Require Import ZArith Lia.
From mathcomp Require Import all_ssreflect all_algebra zify.
From Verif Require Import Spec UintModel BigpolyModel BitrevProofs NttProofs NttCore UintProofs NttTables
  PolyProofs RingProofs UintFp VecModel VecProofs EvalModel Prop_Bigpoly Prop_Eval.
Set Implicit Arguments. Unset Strict Implicit. Unset Printing Implicit Defensive.
Import GRing.Theory.
Local Open Scope ring_scope.
Delimit Scope Z_scope with Z.

(** * Specification: as in Prop_Eval, and the automorphism substitutes X^idx for X *)
Section Spec.
Variables (F : fieldType) (rank : nat) (sl : nat -> slice).
Definition clegal (fl : nat -> bool) (i : ccall) : bool :=
  match i with
  | CBase i => legal rank sl fl i
  | CAut o a idx => [&& size (sl o) == rank, size (sl a) == rank & Z.odd idx]
  end.
Definition cforms (fl : nat -> bool) (i : ccall) : nat -> bool :=
  match i with CBase i => forms fl i | CAut o a _ => fun v => if v == o then fl a else fl v end.
Fixpoint clegalRun (fl : nat -> bool) (p : seq ccall) : bool :=
  if p is i :: p' then clegal fl i && clegalRun (cforms fl i) p' else true.
(** X has order 2 * rank in the ring, so a negative index has a non-negative representative *)
Definition expo (idx : Z) : nat := Z.to_nat (idx mod Z.of_nat (2 * rank)).
Definition cringStep (sc : nat -> F) (e : nat -> {poly F}) (i : ccall) : nat -> {poly F} :=
  match i with
  | CBase i => ringStep ('X^rank + 1) sc e i
  | CAut o a idx => fun v => if v == o then (e a \Po 'X^(expo idx)) %% ('X^rank + 1) else e v
  end.
Definition cringRun (sc : nat -> F) (e : nat -> {poly F}) (p : seq ccall) := foldl (cringStep sc) e p.
Definition cunmixed (fl : nat -> bool) (e : nat -> {poly F}) (i : ccall) : Prop :=
  if i is CBase i then unmixed fl e i else True.
Fixpoint cunmixedRun (sc : nat -> F) (fl : nat -> bool) (e : nat -> {poly F}) (p : seq ccall) : Prop :=
  if p is i :: p' then cunmixed fl e i /\ cunmixedRun sc (cforms fl i) (cringStep sc e i) p' else True.
End Spec.

Section Proof.
Variables (F : fieldType) (U : uint F) (rank : nat) (T : transformer F).
Variables (sl : nat -> slice) (sp : nat -> nat) (buf : slice).
Hypothesis (L : layout rank sl sp buf) (h8 : (8 <= rank)%N) (hT : NewCyclotomicTransformer U rank = Some T).
Variables (n : nat) (g : F).
Hypothesis (hr : rank = (2 ^ n)%N) (G : good_cyclotomic T n g).
Let pt i := g ^+ (2 * brv n i + 1).

Lemma pte i : pt i = g ^+ (brv n i).*2.+1. Proof. by rewrite /pt addn1 mul2n. Qed.
Lemma fwd_at v : size v = rank -> size (fwdNTT T v) = rank /\ forall i, (i < rank)%N -> (fwdNTT T v)`_i = peval v (pt i).
Proof.
move=> sv; split; first by rewrite hr; apply: size_fwdNTT; rewrite sv.
move=> i hi; rewrite pte; apply: (fwd_cyclo_nth G).
all: by rewrite ?sv -?hr.
Qed.
Lemma pts_uniq : uniq [seq pt i | i <- iota 0 rank].
Proof.
have [_ gN _ _ _ hz] := G; have [_ hn] := pow8 hr h8; rewrite (eq_map pte) hr.
by apply: cyclo_pts_uniq => //; lia.
Qed.

Lemma aut_computes (h : heap F) fl e o a idx : holds rank sl pt (h, fl) e ->
  size (sl o) = rank -> size (sl a) = rank -> Z.odd idx ->
  let P := (e a \Po 'X^(expo rank idx)) %% ('X^rank + 1) in
  computes rank h buf (Pobj (sl o) (fl o)) (AutObj rank buf h (Pobj (sl o) (fl o)) (Pobj (sl a) (fl a)) idx) (fl a)
    (fun i => if fl a then P.[pt i] else P`_i).
Proof.
move=> H so sa oi P; have [d8 hn] := pow8 hr h8.
have [zA hA] := H a sa; rewrite [(h, fl).1]/= [(h, fl).2]/= in hA.
have sr : size (reads h (sl a)) = rank by rewrite size_reads.
have sro : size (reads h (sl o)) = rank by rewrite size_reads.
have srb : size (reads h buf) = rank by rewrite size_reads (lay_sbuf L).
have r0 : (0 < rank)%N by lia.
have hk : (Z.of_nat (expo rank idx) mod Z.of_nat (2 * rank) = idx mod Z.of_nat (2 * rank))%Z.
  by rewrite /expo Z2Nat.id ?Z.mod_mod //; [lia|apply: (proj1 (Z.mod_pos_bound _ _ _)); lia].
have fin (q : poly_t F) b' : AutTo rank (reads h buf) (Poly_t (reads h (sl o)) (fl o)) (Poly_t (reads h (sl a)) (fl a)) idx = Some q ->
    isNTT q = fl a -> size (coeffs q) = rank -> b' = (if fl a then bitReverseInPlace 0 (reads h (sl a)) else autTo rank (reads h buf) (reads h (sl a)) (normIdx rank idx)) ->
    (forall i, (i < rank)%N -> (coeffs q)`_i = if fl a then P.[pt i] else P`_i) ->
    computes rank h buf (Pobj (sl o) (fl o)) (AutObj rank buf h (Pobj (sl o) (fl o)) (Pobj (sl a) (fl a)) idx) (fl a)
      (fun i => if fl a then P.[pt i] else P`_i).
  move=> eq fq sq eb hq; rewrite /AutObj /= eq -eb fq; eexists; split; first reflexivity; split=> [i hi|x hx hb].
    by rewrite writes_in ?hq ?so //; exact: (lay_uniq L).
  by rewrite writes_out // writes_out.
have [E|E] : fl a = true \/ fl a = false by case: (fl a); [left|right].
all: swap 1 2.
- have [q [eq fq sq Pq]] := C08_aut_substitution hr h8 srb sro sr (p := Poly_t (reads h (sl a)) false) (pOut := Poly_t (reads h (sl o)) (fl o)) erefl oi hk.
  have EP : Poly (reads h (sl a)) = e a.
    apply/polyP => i; rewrite coef_Poly; case: (ltnP i rank) => hi; first by rewrite nth_reads ?sa // hA // E.
    by rewrite !nth_default ?sr //; apply: leq_trans zA hi.
  apply: (fin q _ _ _ sq erefl); rewrite ?E // => i hi; rewrite ?E.
  by rewrite -[LHS](coef_Poly (coeffs q) i) Pq /= EP.
have [_ gN _ _ _ hz] := G.
have siv : size (invNTT T (reads h (sl a))) = rank by rewrite hr; apply: size_invNTT; rewrite sr.
have ev : InvNTTTo T (reads h (sl o)) (reads h (sl a)) = Some (invNTT T (reads h (sl a))).
  by rewrite InvNTTTo_ok ?sro ?sr.
have [q [r [e1 e2 e3]]] := C09_aut_ntt (fl o) (fl o) hT h8 oi sr sro sro srb srb sro sro ev.
have EP : Poly (invNTT T (reads h (sl a))) = e a.
  apply: (eq_pts pts_uniq) => //; first by rewrite -siv size_Poly.
  move=> j hj; rewrite -pevalE; have [_ <-] // := fwd_at siv.
  by rewrite (fwd_inv_cyclo G) -?hr // nth_reads ?sa // hA // E.
have [q' [eq' _ sq Pq]] := C08_aut_substitution hr h8 srb sro siv (p := Poly_t (invNTT T (reads h (sl a))) false) (pOut := Poly_t (reads h (sl o)) (fl o)) erefl oi hk.
move: eq'; rewrite e1 => -[eq']; rewrite -{}eq' in sq Pq.
move: e2; rewrite FwdNTTTo_ok ?sq ?sro // => -[er].
have [s1 s2] := fwd_at sq; rewrite er in s1 s2.
apply: (fin (Poly_t r true) _ _ _ s1 erefl); rewrite ?E // => i hi; rewrite ?E.
by rewrite s2 // pevalE Pq [coeffs _]/= EP.
Qed.

Lemma cstep_ok (sc : nat -> F) (h : heap F) fl e i : (forall c, h (sp c) = sc c) -> holds rank sl pt (h, fl) e ->
  clegal rank sl fl i -> cunmixed fl e i ->
  exists h', [/\ cstep T rank sl sp buf (h, fl) i = Some (h', cforms fl i), forall c, h' (sp c) = h (sp c) &
    holds rank sl pt (h', cforms fl i) (cringStep rank sc e i)].
Proof.
have [d8 hn] := pow8 hr h8; have [_ gN _ _ _ hz] := G => hsc H.
case: i => [i|o a idx] /=.
  apply: (@step_ok F T rank sl sp buf _ pt L pts_uniq _ _ d8 fwd_at) => //.
  - move=> j hj; move/allP: (@cyclo_pts_root F g n gN); rewrite -hr.
    by apply; apply/mapP; exists j; rewrite ?pte // mem_iota add0n -hr.
  - by rewrite hr; apply: size_XnD1; rewrite expn_gt0.
  - move=> w sw; split; first by rewrite hr; apply: size_invNTT; rewrite sw.
    by apply: (fwd_inv_cyclo G); rewrite sw.
move=> /and3P[/eqP so /eqP sa oi] _.
have sP : (size ((e a \Po 'X^(expo rank idx)) %% ('X^rank + 1))%R <= rank)%N.
  have hs : size ('X^rank + 1 : {poly F}) = rank.+1 by rewrite hr; apply: size_XnD1; rewrite expn_gt0.
  by rewrite -ltnS -hs ltn_modp -size_poly_eq0 hs.
by have := comp_step L H so sP (aut_computes H so sa oi) (fun _ _ => erefl).
Qed.

Local Arguments cstep : simpl never.
Lemma crun_ok (sc : nat -> F) p (h : heap F) fl e : (forall c, h (sp c) = sc c) -> holds rank sl pt (h, fl) e ->
  clegalRun rank sl fl p -> cunmixedRun rank sc fl e p ->
  exists h', crun T rank sl sp buf p (h, fl) = Some (h', foldl cforms fl p) /\
    holds rank sl pt (h', foldl cforms fl p) (cringRun rank sc e p).
Proof.
elim: p h fl e => [|i p IH] h fl e hsc H; first by exists h.
move=> /= /andP[l1 l2] [u1 u2]; have [h1 [-> e1 H1]] := cstep_ok hsc H l1 u1.
by apply: IH => // c; rewrite e1.
Qed.
End Proof.

(** * C122 *)
Section Final.
Variables (F : fieldType) (U : uint F) (rank : nat) (T : transformer F).
Variables (sl : nat -> slice) (sp : nat -> nat) (buf : slice).
Hypothesis (L : layout rank sl sp buf) (h8 : (8 <= rank)%N) (hT : NewCyclotomicTransformer U rank = Some T).
(** a program that panics nowhere and mixes no forms computes in the ring *)
Theorem C122_computes : exists n psi, [/\ rank = (2 ^ n)%N, has_order psi (2 * rank) &
  forall p h fl e, let pt i := psi ^+ (2 * brv n i + 1) in let sc c := h (sp c) in
    holds rank sl pt (h, fl) e -> clegalRun rank sl fl p -> cunmixedRun rank sc fl e p ->
    exists h', crun T rank sl sp buf p (h, fl) = Some (h', foldl cforms fl p) /\
      holds rank sl pt (h', foldl cforms fl p) (cringRun rank sc e p)].
Proof.
have [n [g [hr G]]] := NewCyclotomic_good hT; exists n, g.
have [_ gN _ _ _ hz] := G; split=> //; first by have := order_of_neg1 (two_nz_T hT G) gN; rewrite expnS -hr.
by move=> p h fl e pt sc H; exact: (crun_ok L h8 hT hr G).
Qed.

Lemma aut_panics (h : heap F) o a fo fa idx :
  ~~ [&& size (sl o) == rank, size (sl a) == rank & Z.odd idx] ->
  AutObj rank buf h (Pobj (sl o) fo) (Pobj (sl a) fa) idx = None.
Proof.
move=> hl; rewrite /AutObj [pc _]/= [pntt _]/=; case oi: (Z.odd idx); last first.
  by rewrite C08_aut_even_panics //= -Z.negb_odd oi.
by move: hl; rewrite oi andbT /AutTo /= !size_reads; case: eqP => //=; case: eqP.
Qed.
Lemma aut_runs (h : heap F) o a fo fa idx :
  [&& size (sl o) == rank, size (sl a) == rank & Z.odd idx] ->
  exists h', AutObj rank buf h (Pobj (sl o) fo) (Pobj (sl a) fa) idx = Some (h', fa).
Proof.
move=> /and3P[/eqP so /eqP sa oi]; have [n [g [hr G]]] := NewCyclotomic_good hT; have [d8 hn] := pow8 hr h8.
rewrite /AutObj /AutTo /= !size_reads so sa !eqxx /= odd_rem //; case: fa.
  by rewrite copy8_ok ?size_reads ?sa ?(lay_sbuf L) //; eexists.
have ok := normIdx_odd (idx := idx) (rank := rank) ltac:(lia) oi.
have sb : size (reads h buf) = rank by rewrite size_reads (lay_sbuf L).
by rewrite copy8_ok ?size_reads ?so ?(autTo_size hr ok) //; eexists.
Qed.
Local Arguments cstep : simpl never.
(** the forms, lengths and the parity of the indices alone decide about panics *)
Theorem C122_panics p h fl : crun T rank sl sp buf p (h, fl) = None <-> ~~ clegalRun rank sl fl p.
Proof.
have [n [g [hr G]]] := NewCyclotomic_good hT; have [d8 hn] := pow8 hr h8.
elim: p h fl => [|i p IH] h fl //.
rewrite [clegalRun _ _ _ _]/= [crun _ _ _ _ _ _ _]/=; case: i => [i|o a idx]; rewrite /cstep.
  rewrite [clegal _ _ _ _]/= [cforms _ _]/=; case E: (legal rank sl fl i); last by rewrite step_panics ?E.
  by have [h' ->] := step_flags T sp buf d8 h E; exact: IH.
rewrite [clegal _ _ _ _]/= [cforms _ _]/=; case E: [&& _, _ & _]; last by rewrite aut_panics ?E.
by have [h' ->] := aut_runs h (fl o) (fl a) E; exact: IH.
Qed.
End Final.

(** a = NTT a; a = Aut_3 a in place; a = InvNTT a; b = Aut_{-13} a: 3 * 3 = 9 modulo 16 *)
Definition exAut := [:: CBase (CNTT 0 0); CAut 0 0 3; CBase (CInvNTT 0 0); CAut 1 0 (-13)%Z].
Example ex_aut_legal : clegalRun 8 exSl (fun=> false) exAut /\ ~~ clegalRun 8 exSl (fun=> false) [:: CAut 1 0 2%Z].
Proof. by vm_compute. Qed.
Example ex_aut_unmixed (F : fieldType) sc (e : nat -> {poly F}) : cunmixedRun 8 sc (fun=> false) e exAut.
Proof. by []. Qed.
(** X^9 = - X in the odd exponents: b is a with the odd coefficients negated *)
Example ex_aut_run : obnd (fun T => omap (fun s => (fromv (reads s.1 (exSl 1)), s.2 1%N))
    (crun T 8 exSl exSp (iota 16 8) exAut (exHeap, fun=> false))) (NewCyclotomicTransformer U17 8)
  = Some ([seq (if odd i then (17 - nth 0 (fromv v8) i) %% 17 else nth 0 (fromv v8) i) | i <- iota 0 8]%N, false).
Proof. by vm_compute. Qed.
Print Assumptions C122_computes.
Print Assumptions C122_panics.
