(** C120: programs of evaluator calls compute in the ring F[X]/(X^N + 1), resp. F[X]/(X^N - 1). *)
From Coq Require Import ZArith Lia.
From mathcomp Require Import all_ssreflect all_algebra zify.
From Verif Require Import Spec UintModel BigpolyModel BitrevProofs NttProofs NttCore UintProofs NttTables
  PolyProofs RingProofs UintFp VecModel VecProofs EvalModel Prop_Bigpoly.
Set Implicit Arguments. Unset Strict Implicit. Unset Printing Implicit Defensive.
Import GRing.Theory.
Local Open Scope ring_scope.
Delimit Scope Z_scope with Z.

(** * Specification *)
(** every object has its own elements, no scalar is one of them, the pooled polynomial is private *)
Record layout (rank : nat) (sl : nat -> slice) (sp : nat -> nat) (buf : slice) : Prop := Layout {
  lay_uniq : forall v, uniq (sl v);
  lay_disj : forall u v a, a \in sl u -> a \in sl v -> u = v;
  lay_buf : forall v a, a \in sl v -> a \notin buf;
  lay_ubuf : uniq buf;
  lay_sbuf : size buf = rank;
  lay_sp : forall c v, sp c \notin sl v;
  lay_spbuf : forall c, sp c \notin buf }.

Section Spec.
Variables (F : fieldType) (rank : nat) (sl : nat -> slice) (sp : nat -> nat).
(** the calls that do not panic, given the flags and the lengths of the objects *)
Definition legal (fl : nat -> bool) (i : call) : bool :=
  let len v := size (sl v) == rank in
  match i with
  | CAdd o a b | CSub o a b => [&& len o, len a, len b & fl a == fl b]
  | CNeg o a | CScal o a _ | CScalAdd o a _ | CScalSub o a _ => len o && len a
  | CMul o a b | CMulAdd o a b | CMulSub o a b => [&& len o, len a, len b, fl a & fl b]
  | CNTT o a => [&& len o, len a & ~~ fl a]
  | CInvNTT o a => [&& len o, len a & fl a]
  end.
(** the form of the output *)
Definition outForm (fl : nat -> bool) (i : call) : nat * bool :=
  match i with
  | CAdd o a _ | CSub o a _ | CNeg o a | CScal o a _ | CScalAdd o a _ | CScalSub o a _ => (o, fl a)
  | CMul o _ _ | CMulAdd o _ _ | CMulSub o _ _ | CNTT o _ => (o, true)
  | CInvNTT o _ => (o, false)
  end.
Definition forms (fl : nat -> bool) (i : call) : nat -> bool :=
  fun v => if v == (outForm fl i).1 then (outForm fl i).2 else fl v.
Fixpoint legalRun (fl : nat -> bool) (p : seq call) : bool :=
  if p is i :: p' then legal fl i && legalRun (forms fl i) p' else true.
(** the polynomial written: the transforms keep the polynomial, Mul multiplies modulo M *)
Variable M : {poly F}.
Definition ringOp (sc : nat -> F) (e : nat -> {poly F}) (i : call) : nat * {poly F} :=
  match i with
  | CAdd o a b => (o, e a + e b) | CSub o a b => (o, e a - e b) | CNeg o a => (o, - e a)
  | CScal o a c => (o, sc c *: e a) | CScalAdd o a c => (o, e o + sc c *: e a) | CScalSub o a c => (o, e o - sc c *: e a)
  | CMul o a b => (o, (e a * e b) %% M) | CMulAdd o a b => (o, e o + (e a * e b) %% M)
  | CMulSub o a b => (o, e o - (e a * e b) %% M)
  | CNTT o a | CInvNTT o a => (o, e a)
  end.
Definition ringStep (sc : nat -> F) (e : nat -> {poly F}) (i : call) : nat -> {poly F} :=
  fun v => if v == (ringOp sc e i).1 then (ringOp sc e i).2 else e v.
Definition ringRun (sc : nat -> F) (e : nat -> {poly F}) (p : seq call) := foldl (ringStep sc) e p.
(** what the code does not check: an accumulating call adds to a polynomial of the form of the summand, or to zero *)
Definition unmixed (fl : nat -> bool) (e : nat -> {poly F}) (i : call) : Prop :=
  match i with
  | CScalAdd o a _ | CScalSub o a _ => fl o = fl a \/ e o = 0
  | CMulAdd o _ _ | CMulSub o _ _ => fl o = true \/ e o = 0
  | _ => True
  end.
Fixpoint unmixedRun (sc : nat -> F) (fl : nat -> bool) (e : nat -> {poly F}) (p : seq call) : Prop :=
  if p is i :: p' then unmixed fl e i /\ unmixedRun sc (forms fl i) (ringStep sc e i) p' else True.
(** the state holds the polynomials e: coefficients, or values at the points *)
Variable pt : nat -> F.
Definition holds (s : state F) (e : nat -> {poly F}) : Prop :=
  forall v, size (sl v) = rank -> (size (e v) <= rank)%N /\
    forall i, (i < rank)%N -> s.1 (nth 0%N (sl v) i) = if s.2 v then (e v).[pt i] else (e v)`_i.
End Spec.

(** * Proof *)
Section Abs.
Variables (F : fieldType) (T : transformer F) (rank : nat) (sl : nat -> slice) (sp : nat -> nat) (buf : slice).
Variables (M : {poly F}) (pt : nat -> F).
Hypothesis L : layout rank sl sp buf.
Hypothesis (pu : uniq [seq pt i | i <- iota 0 rank]) (pr : forall i, (i < rank)%N -> root M (pt i)).
Hypothesis (sM : size M = rank.+1) (d8 : (8 %| rank)%N).
Hypothesis hfwd : forall v, size v = rank -> size (fwdNTT T v) = rank /\ forall i, (i < rank)%N -> (fwdNTT T v)`_i = peval v (pt i).
Hypothesis hinv : forall w, size w = rank -> size (invNTT T w) = rank /\ fwdNTT T (invNTT T w) = w.
Local Notation holds := (holds rank sl pt).

Lemma eq_pts (P Q : {poly F}) : (size P <= rank)%N -> (size Q <= rank)%N ->
  (forall i, (i < rank)%N -> P.[pt i] = Q.[pt i]) -> P = Q.
Proof.
move=> sP sQ h; apply/eqP; rewrite -subr_eq0; apply/negPn/negP => nz.
have ar : all (root (P - Q)) [seq pt i | i <- iota 0 rank].
  by apply/allP => x /mapP[i]; rewrite mem_iota => /andP[_ hi] ->; rewrite rootE !hornerE h ?subrr // -(add0n rank).
have := max_poly_roots nz ar pu; rewrite size_map size_iota ltnNge => /negP; apply.
by apply: leq_trans (size_add _ _) _; rewrite size_opp geq_max sP sQ.
Qed.
Lemma mod_at (P : {poly F}) i : (i < rank)%N -> (P %% M).[pt i] = P.[pt i].
Proof. by move=> hi; rewrite {2}(divp_eq P M) hornerD hornerM (rootP (pr hi)) mulr0 add0r. Qed.
Lemma size_mod (P : {poly F}) : (size (P %% M)%R <= rank)%N.
Proof. by rewrite -ltnS -sM ltn_modp -size_poly_eq0 sM. Qed.
Lemma peval_pad (w : seq F) (P : {poly F}) x : size w = rank -> (size P <= rank)%N -> (forall i, (i < rank)%N -> w`_i = P`_i) -> peval w x = P.[x].
Proof.
move=> sw sP h; rewrite (horner_coef_wide _ sP) /peval sw.
by apply: eq_bigr => i _; rewrite h.
Qed.
Lemma notin_other u v i : u <> v -> (i < size (sl v))%N -> nth 0%N (sl v) i \notin sl u.
Proof. by move=> h hi; apply/negP => h'; apply: h; apply: (lay_disj L h'); rewrite mem_nth. Qed.
Lemma sod u v : same_or_disjoint (sl u) (sl v).
Proof.
case: (u =P v) => [->|h]; first by left.
by right=> a ha; apply/negP => hv; exact: h (lay_disj L ha hv).
Qed.
(** a call that writes f into object o writes the polynomial P *)
Lemma comp_holds h fl e o (r : option (heap F * bool)) flag f (P : {poly F}) :
  holds (h, fl) e -> size (sl o) = rank -> (size P <= rank)%N ->
  computes rank h buf (Pobj (sl o) (fl o)) r flag f ->
  (forall i, (i < rank)%N -> f i = if flag then P.[pt i] else P`_i) ->
  exists2 h', r = Some (h', flag) & (forall c, h' (sp c) = h (sp c)) /\
    holds (h', setf fl o flag) (fun v => if v == o then P else e v).
Proof.
move=> H so sP [h' [-> [h1 h2]]] hf; exists h' => //; split.
  by move=> c; apply: h2; [exact: (lay_sp L)|exact: (lay_spbuf L)].
move=> v sv; rewrite /= /setf; case: eqP => [->|nv]; first by split=> // i hi; rewrite h1 // hf.
have [g1 g2] := H v sv; split=> // i hi; rewrite h2; first exact: g2.
  by apply: (@notin_other o v) => [e'|]; [apply: nv|rewrite sv].
by apply: (lay_buf L (v := v)); rewrite mem_nth ?sv.
Qed.
Lemma writes_out s w (h : heap F) a : a \notin s -> writes h s w a = h a.
Proof.
elim: s w h => [|x s IH] [|y w] h //=; rewrite inE negb_or => /andP[/negbTE ax as_].
by rewrite /writes /= -/(writes _ s w) IH // /store ax.
Qed.
Lemma writes_in s w (h : heap F) i : uniq s -> size w = size s -> (i < size s)%N -> writes h s w (nth 0%N s i) = w`_i.
Proof.
elim: s w h i => [|x s IH] [|y w] h [|i] //= /andP[nx us] [sw] hi; rewrite /writes /= -/(writes _ s w).
  by rewrite writes_out // /store eqxx.
exact: IH.
Qed.
Lemma size_reads (h : heap F) s : size (reads h s) = size s. Proof. exact: size_map. Qed.
Lemma nth_reads (h : heap F) s i : (i < size s)%N -> (reads h s)`_i = h (nth 0%N s i).
Proof. by move=> hi; rewrite (nth_map 0%N). Qed.

Definition upd (fl : nat -> bool) (o : nat) (r : option (heap F * bool)) : option (state F) :=
  if r is Some hb then Some (hb.1, setf fl o hb.2) else None.
Lemma comp_step h fl e o r flag f (P : {poly F}) :
  holds (h, fl) e -> size (sl o) = rank -> (size P <= rank)%N ->
  computes rank h buf (Pobj (sl o) (fl o)) r flag f ->
  (forall i, (i < rank)%N -> f i = if flag then P.[pt i] else P`_i) ->
  exists h', [/\ upd fl o r = Some (h', setf fl o flag), forall c, h' (sp c) = h (sp c) &
    holds (h', setf fl o flag) (fun v => if v == o then P else e v)].
Proof.
by move=> H so sP hc hf; have [h' -> [h1 h2]] := comp_holds H so sP hc hf; exists h'.
Qed.
Lemma trans_computes (h : heap F) (fl : nat -> bool) o (w : seq F) flag : size (sl o) = rank -> size w = rank ->
  computes rank h buf (Pobj (sl o) (fl o)) (Some (writes h (sl o) w, flag)) flag (fun i => w`_i).
Proof.
move=> so sw; eexists; split; first reflexivity; split=> [i hi|a ha _]; last exact: writes_out.
by apply: writes_in; rewrite ?so ?sw //; exact: (lay_uniq L).
Qed.

Lemma step_ok (sc : nat -> F) (h : heap F) fl e i : (forall c, h (sp c) = sc c) -> holds (h, fl) e -> legal rank sl fl i -> unmixed fl e i ->
  exists h', [/\ step T rank sl sp buf (h, fl) i = Some (h', forms fl i), forall c, h' (sp c) = h (sp c) &
    holds (h', forms fl i) (ringStep M sc e i)].
Proof.
move=> hsc H.
have H' : forall v, size (sl v) = rank -> (size (e v) <= rank)%N /\
    forall i, (i < rank)%N -> h (nth 0%N (sl v) i) = if fl v then (e v).[pt i] else (e v)`_i := H.
have out o a flag : size (sl o) = rank -> size (sl a) = rank -> (fl o = fl a \/ e o = 0) -> flag = fl a ->
    forall i, (i < rank)%N -> h (nth 0%N (sl o) i) = if flag then (e o).[pt i] else (e o)`_i.
  move=> so sa hm -> k hk; have [_ ->] := H' o so => //=; case: hm => [->|->] //.
  by rewrite horner0 coef0 !if_same.
have bO o a : a \in buf -> a \notin pc (Pobj (sl o) (fl o)) by move=> ha; apply/negP => /(lay_buf L); rewrite ha.
have bA v a : a \in pc (Pobj (sl v) (fl v)) -> a \notin buf by exact: (lay_buf L).
have uB := lay_ubuf L; have sB := lay_sbuf L.
have uo v : uniq (pc (Pobj (sl v) (fl v))) := lay_uniq L v.
have sod u v : same_or_disjoint (pc (Pobj (sl u) (fl u))) (pc (Pobj (sl v) (fl v))) := sod u v.
have lsp c o : sp c \notin pc (Pobj (sl o) (fl o)) := lay_sp L c o.
have szD (P Q : {poly F}) : (size P <= rank -> size Q <= rank -> size (P + Q)%R <= rank)%N.
  by move=> sP sQ; apply: leq_trans (size_add _ _) _; rewrite geq_max sP sQ.
have szZ c (P : {poly F}) : (size P <= rank -> size (c *: P)%R <= rank)%N by move=> sP; apply: leq_trans (size_scale_leq _ _) sP.
have szN (P : {poly F}) : (size P <= rank -> size (- P)%R <= rank)%N by rewrite size_opp.
have szM := size_mod.
have un o a : size (sl o) = rank -> size (sl a) = rank -> unaryOperable rank (Pobj (sl o) (fl o)) (Pobj (sl a) (fl a)).
  by move=> so sa; rewrite /unaryOperable /= so sa eqxx.
have bin o a b : size (sl o) = rank -> size (sl a) = rank -> size (sl b) = rank -> fl a = fl b ->
    binaryOperable rank (Pobj (sl o) (fl o)) (Pobj (sl a) (fl a)) (Pobj (sl b) (fl b)).
  by move=> so sa sb fab; rewrite /binaryOperable /= so sa sb fab !eqxx.
case: i => [o a b|o a b|o a|o a c|o a c|o a c|o a b|o a b|o a b|o a|o a]; rewrite /legal /unmixed.
- move=> /and4P[/eqP so /eqP sa /eqP sb /eqP fab] _; have [zA hA] := H' a sa; have [zB hB] := H' b sb.
  apply: (comp_step (P := e a + e b) H so _ (C05_Add h buf (uo o) (sod a o) (sod b o) (bin _ _ _ so sa sb fab))); first exact: szD.
  by move=> k hk; rewrite /= hA ?hB //= -fab; case: (fl a); rewrite ?hornerD ?coefD.
- move=> /and4P[/eqP so /eqP sa /eqP sb /eqP fab] _; have [zA hA] := H' a sa; have [zB hB] := H' b sb.
  apply: (comp_step (P := e a - e b) H so _ (C05_Sub h buf (uo o) (sod a o) (sod b o) (bin _ _ _ so sa sb fab))); first exact: szD (szN _ _).
  by move=> k hk; rewrite /= hA ?hB //= -fab; case: (fl a); rewrite ?hornerD ?hornerN ?coefB.
- move=> /andP[/eqP so /eqP sa] _; have [zA hA] := H' a sa.
  apply: (comp_step (P := - e a) H so _ (C05_Neg h buf (uo o) (sod a o) (un _ _ so sa))); first exact: szN.
  by move=> k hk; rewrite /= hA //=; case: (fl a); rewrite ?hornerN ?coefN.
- move=> /andP[/eqP so /eqP sa] _; have [zA hA] := H' a sa.
  apply: (comp_step (P := sc c *: e a) H so _ (C05_ScalarMul h buf (uo o) (sod a o) (lsp c o) (un _ _ so sa))); first exact: szZ.
  by move=> k hk; rewrite /= hA //= hsc mulrC; case: (fl a); rewrite ?hornerZ ?coefZ.
- move=> /andP[/eqP so /eqP sa] hm; have [zA hA] := H' a sa; have [zO _] := H' o so.
  apply: (comp_step (P := e o + sc c *: e a) H so _ (C05_ScalarMulAdd h (uo o) (sod a o) uB sB (bO o) (bA a) (lay_spbuf L c) (un _ _ so sa))).
    exact: szD (szZ _ _ _).
  by move=> k hk; rewrite /= hA //= (out _ _ _ so sa hm erefl) // hsc mulrC; case: (fl a); rewrite ?hornerD ?hornerZ ?coefD ?coefZ.
- move=> /andP[/eqP so /eqP sa] hm; have [zA hA] := H' a sa; have [zO _] := H' o so.
  apply: (comp_step (P := e o - sc c *: e a) H so _ (C05_ScalarMulSub h (uo o) (sod a o) uB sB (bO o) (bA a) (lay_spbuf L c) (un _ _ so sa))).
    exact: szD (szN _ (szZ _ _ _)).
  by move=> k hk; rewrite /= hA //= (out _ _ _ so sa hm erefl) // hsc mulrC; case: (fl a); rewrite ?hornerD ?hornerN ?hornerZ ?coefB ?coefZ.
- move=> /and5P[/eqP so /eqP sa /eqP sb fa fb] _; have [zA hA] := H' a sa; have [zB hB] := H' b sb.
  have fab : fl a = fl b by rewrite fa fb.
  apply: (comp_step (P := (e a * e b) %% M) H so _ (C05_Mul h buf (uo o) (sod a o) (sod b o) (bin _ _ _ so sa sb fab) fa fb)) => //.
  by move=> k hk; rewrite /= hA ?hB //= fa fb mod_at // hornerM.
- move=> /and5P[/eqP so /eqP sa /eqP sb fa fb] hm; have [zA hA] := H' a sa; have [zB hB] := H' b sb; have [zO _] := H' o so.
  have fab : fl a = fl b by rewrite fa fb.
  apply: (comp_step (P := e o + (e a * e b) %% M) H so _ (C05_MulAdd h (uo o) (sod a o) (sod b o) uB sB (bO o) (bA a) (bA b) (bin _ _ _ so sa sb fab) fa fb)); first exact: szD.
  by move=> k hk; rewrite /= hA ?hB //= (out o a true so sa) ?fa // fb hornerD mod_at // hornerM.
- move=> /and5P[/eqP so /eqP sa /eqP sb fa fb] hm; have [zA hA] := H' a sa; have [zB hB] := H' b sb; have [zO _] := H' o so.
  have fab : fl a = fl b by rewrite fa fb.
  apply: (comp_step (P := e o - (e a * e b) %% M) H so _ (C05_MulSub h (uo o) (sod a o) (sod b o) uB sB (bO o) (bA a) (bA b) (bin _ _ _ so sa sb fab) fa fb)); first exact: szD (szN _ _).
  by move=> k hk; rewrite /= hA ?hB //= (out o a true so sa) ?fa // fb hornerD hornerN mod_at // hornerM.
- move=> /and3P[/eqP so /eqP sa fa] _; have [zA hA] := H' a sa.
  have sr : size (reads h (sl a)) = rank by rewrite size_reads.
  have E : NTTObj T rank h (Pobj (sl o) (fl o)) (Pobj (sl a) (fl a)) = Some (writes h (sl o) (fwdNTT T (reads h (sl a))), true).
    by rewrite /NTTObj un //= (negbTE fa) FwdNTTTo_ok ?size_reads ?so ?sa.
  have [s1 s2] := hfwd sr.
  have hc := trans_computes h fl true so s1; rewrite -E in hc; apply: (comp_step (P := e a) H so zA hc).
  by move=> k hk /=; rewrite s2 //; apply: peval_pad => // j hj; rewrite nth_reads ?sa // hA //= (negbTE fa).
- move=> /and3P[/eqP so /eqP sa fa] _; have [zA hA] := H' a sa.
  have sr : size (reads h (sl a)) = rank by rewrite size_reads.
  have E : InvNTTObj T rank h (Pobj (sl o) (fl o)) (Pobj (sl a) (fl a)) = Some (writes h (sl o) (invNTT T (reads h (sl a))), false).
    by rewrite /InvNTTObj un //= fa /= InvNTTTo_ok ?size_reads ?so ?sa.
  have [s1 s2] := hinv sr.
  have hc := trans_computes h fl false so s1; rewrite -E in hc; apply: (comp_step (P := e a) H so zA hc).
  have EP : Poly (invNTT T (reads h (sl a))) = e a.
    apply: eq_pts => //; first by rewrite -s1 size_Poly.
    move=> j hj; rewrite -pevalE; have [_ <-] // := hfwd s1.
    by rewrite s2 nth_reads ?sa // hA //= fa.
  by move=> k hk /=; rewrite -EP coef_Poly.
Qed.
Lemma step_panics (h : heap F) fl i : ~~ legal rank sl fl i -> step T rank sl sp buf (h, fl) i = None.
Proof.
case: i => [o a b|o a b|o a|o a c|o a c|o a c|o a b|o a b|o a b|o a|o a]; rewrite /legal /step
  /AddTo /SubTo /NegTo /ScalarMulTo /ScalarMulAddTo /ScalarMulSubTo /MulTo /MulAddTo /MulSubTo /NTTObj /InvNTTObj
  /unaryOperable /binaryOperable /=; 
  case: (size (sl o) == rank) => //=; case: (size (sl a) == rank) => //=; try (case: (size (sl b) == rank) => //=);
  case: (fl a) => //=; try by case: (fl b).
Qed.
Local Arguments step : simpl never.
Lemma run_ok (sc : nat -> F) p (h : heap F) fl e : (forall c, h (sp c) = sc c) -> holds (h, fl) e -> legalRun rank sl fl p -> unmixedRun M sc fl e p ->
  exists h', run T rank sl sp buf p (h, fl) = Some (h', foldl forms fl p) /\
    holds (h', foldl forms fl p) (ringRun M sc e p).
Proof.
elim: p h fl e => [|i p IH] h fl e hsc H; first by exists h.
move=> /= /andP[l1 l2] [u1 u2]; have [h1 [-> e1 H1]] := step_ok hsc H l1 u1.
by apply: IH => // c; rewrite e1.
Qed.
(** the flags alone decide about panics, whatever the memory *)
Lemma step_flags (h : heap F) fl i : legal rank sl fl i -> exists h', step T rank sl sp buf (h, fl) i = Some (h', forms fl i).
Proof.
pose e v := if fl v then 0 else Poly (reads h (sl v)).
case: i => [o a b|o a b|o a|o a c|o a c|o a c|o a b|o a b|o a b|o a|o a]; rewrite /legal /step
  /AddTo /SubTo /NegTo /ScalarMulTo /ScalarMulAddTo /ScalarMulSubTo /MulTo /MulAddTo /MulSubTo /NTTObj /InvNTTObj
  /unaryOperable /binaryOperable /=.
- by move=> /and4P[-> -> -> ->] /=; eexists.
- by move=> /and4P[-> -> -> ->] /=; eexists.
- by move=> /andP[-> ->] /=; eexists.
- by move=> /andP[-> ->] /=; eexists.
- by move=> /andP[-> ->] /=; eexists.
- by move=> /andP[-> ->] /=; eexists.
- by move=> /and5P[-> -> -> -> ->] /=; eexists.
- by move=> /and5P[-> -> -> -> ->] /=; eexists.
- by move=> /and5P[-> -> -> -> ->] /=; eexists.
- move=> /and3P[/eqP so /eqP sa /negbTE ->] /=; rewrite so sa eqxx /= FwdNTTTo_ok ?size_reads ?so ?sa //; by eexists.
- move=> /and3P[/eqP so /eqP sa ->] /=; rewrite so sa eqxx /= InvNTTTo_ok ?size_reads ?so ?sa //; by eexists.
Qed.
Lemma run_panics p (h : heap F) fl : run T rank sl sp buf p (h, fl) = None <-> ~~ legalRun rank sl fl p.
Proof.
elim: p h fl => [|i p IH] h fl //.
rewrite [legalRun _ _ _ _]/= [run _ _ _ _ _ _ _]/=; case E: (legal rank sl fl i); last by rewrite step_panics ?E.
by have [h' ->] := step_flags h E; exact: IH.
Qed.
End Abs.

(** * C120 *)
Section Final.
Variables (F : fieldType) (U : uint F) (rank : nat) (T : transformer F).
Variables (sl : nat -> slice) (sp : nat -> nat) (buf : slice).
Hypothesis (L : layout rank sl sp buf) (h8 : (8 <= rank)%N).
(** a program panics exactly when its forms and lengths do not fit, whatever the coefficients *)
Theorem C120_panics p h fl : NewCyclotomicTransformer U rank = Some T \/ NewCyclicTransformer U rank = Some T ->
  run T rank sl sp buf p (h, fl) = None <-> ~~ legalRun rank sl fl p.
Proof.
move=> hT; apply: run_panics.
by case: hT => [/NewCyclotomic_good|/NewCyclic_good] [n [g [hr _]]]; have [] := pow8 hr h8.
Qed.
(** any program that does not panic and mixes no forms computes in F[X]/(X^N + 1) *)
Theorem C120_cyclotomic_partial : NewCyclotomicTransformer U rank = Some T ->
  exists n psi, [/\ rank = (2 ^ n)%N, has_order psi (2 * rank) &
  forall p h fl e, let pt i := psi ^+ (2 * brv n i + 1) in let sc c := h (sp c) in
    holds rank sl pt (h, fl) e -> legalRun rank sl fl p -> unmixedRun ('X^rank + 1) sc fl e p ->
    exists h', run T rank sl sp buf p (h, fl) = Some (h', foldl forms fl p) /\
      holds rank sl pt (h', foldl forms fl p) (ringRun ('X^rank + 1) sc e p)].
Proof.
move=> hT; have [n [g [hr G]]] := NewCyclotomic_good hT; have [d8 hn] := pow8 hr h8; exists n, g.
have [_ gN _ _ _ hz] := G; split=> //; first by have := order_of_neg1 (two_nz_T hT G) gN; rewrite expnS -hr.
move=> p h fl e pt sc H.
have pe i : pt i = g ^+ (brv n i).*2.+1 by rewrite /pt addn1 mul2n.
apply: (@run_ok F T rank sl sp buf _ pt L _ _ _ d8) => //.
- rewrite (eq_map pe) hr; exact: cyclo_pts_uniq.
- move=> i hi; move/allP: (@cyclo_pts_root F g n gN); rewrite -hr.
  by apply; apply/mapP; exists i; rewrite ?pe // mem_iota add0n -hr.
- by rewrite hr; apply: size_XnD1; rewrite expn_gt0.
- move=> v sv; split; first by rewrite hr; apply: size_fwdNTT; rewrite sv.
  by move=> i hi; rewrite pe; apply: (fwd_cyclo_nth G); rewrite ?sv -hr.
- move=> w sw; split; first by rewrite hr; apply: size_invNTT; rewrite sw.
  by apply: (fwd_inv_cyclo G); rewrite sw.
Qed.
Theorem C120_cyclic_partial : NewCyclicTransformer U rank = Some T ->
  exists n g, [/\ rank = (2 ^ n)%N, has_order g rank &
  forall p h fl e, let pt i := g ^+ brv n i in let sc c := h (sp c) in
    holds rank sl pt (h, fl) e -> legalRun rank sl fl p -> unmixedRun ('X^rank - 1) sc fl e p ->
    exists h', run T rank sl sp buf p (h, fl) = Some (h', foldl forms fl p) /\
      holds rank sl pt (h', foldl forms fl p) (ringRun ('X^rank - 1) sc e p)].
Proof.
move=> hT; have [n [g [hr G]]] := NewCyclic_good hT; have [d8 _] := pow8 hr h8; exists n, g.
have [_ hn gN _ _ _ hz] := G; split=> //; first by have := order_of_neg1 (two_nz_rank hn hz) gN; rewrite prednK // hr.
move=> p h fl e pt sc H.
apply: (@run_ok F T rank sl sp buf _ pt L _ _ _ d8) => //.
- rewrite hr; exact: cyc_pts_uniq.
- move=> i hi; move/allP: (@cyc_pts_root F g n hn gN); rewrite -hr.
  by apply; apply/mapP; exists i => //; rewrite mem_iota add0n -hr.
- by rewrite hr; apply: size_Xn_sub_1; rewrite expn_gt0.
- move=> v sv; split; first by rewrite hr; apply: size_fwdNTT; rewrite sv.
  by move=> i hi; apply: (fwd_cyc_nth G); rewrite ?sv -hr.
- move=> w sw; split; first by rewrite hr; apply: size_invNTT; rewrite sw.
  by apply: (fwd_inv_cyc G); rewrite sw.
Qed.
End Final.

(** * Concrete cases and the refutation *)
(** two objects of rank 8 at 0 and 8, the pooled polynomial at 16, scalars from 24 on *)
Definition exSl (v : nat) : slice := if (v < 2)%N then iota (8 * v) 8 else [::].
Definition exSp (c : nat) : nat := (24 + c)%N.
Lemma exSl_in v a : a \in exSl v -> (v < 2)%N /\ (8 * v <= a < 8 * v + 8)%N.
Proof. by rewrite /exSl; case: ifP => //; rewrite mem_iota. Qed.
Example ex_layout : layout 8 exSl exSp (iota 16 8).
Proof.
split=> [v|u v a /exSl_in h1 /exSl_in h2|v a /exSl_in h|||c v|c]; rewrite ?iota_uniq ?size_iota //.
- by rewrite /exSl; case: ifP => // _; exact: iota_uniq.
- lia.
- by rewrite mem_iota; lia.
- by apply/negP => /exSl_in; rewrite /exSp; lia.
Qed.
Definition exHeap (a : nat) : F17 := nth (n17 2) (v8 ++ w8) a.
(** b = NTT b; a = NTT a; b += a * b; a = 2 a; a = InvNTT a; b = InvNTT b *)
Definition exProg := [:: CNTT 1 1; CNTT 0 0; CMulAdd 1 0 1; CScal 0 0 5; CInvNTT 0 0; CInvNTT 1 1].
Example ex_legal : legalRun 8 exSl (fun=> false) exProg /\ ~~ legalRun 8 exSl (fun=> false) [:: CNTT 0 0; CAdd 1 0 1].
Proof. by vm_compute. Qed.
Example ex_unmixed (F : fieldType) (M : {poly F}) sc e : unmixedRun M sc (fun=> false) e exProg.
Proof. by do ?split; left. Qed.
(** the product modulo X^8 + 1 is 13 12 0 12 15 5 0 15 *)
Example ex_run : obnd (fun T => omap (fun s => (fromv (reads s.1 (exSl 0)), fromv (reads s.1 (exSl 1)), s.2 0%N))
    (run T 8 exSl exSp (iota 16 8) exProg (exHeap, fun=> false))) (NewCyclotomicTransformer U17 8)
  = Some ([seq (2 * x) %% 17 | x <- fromv v8]%N, [seq (x.1 + x.2) %% 17 | x <- zip (fromv w8) [:: 13; 12; 0; 12; 15; 5; 0; 15]]%N, false).
Proof. by vm_compute. Qed.

(** false without the restriction on accumulating calls: X in coefficient form plus 2 times 0 in NTT form *)
Definition mixH (a : nat) : F17 := if a == 1%N then n17 1 else n17 0.
Definition mixE (v : nat) : {poly [fieldType of F17]} := if v == 0%N then 'X else 0.
Theorem C120_mixed_refuted : exists (F : fieldType) (U : uint F) rank T sl sp buf p h fl e h',
  [/\ NewCyclotomicTransformer U rank = Some T /\ (8 <= rank)%N, layout rank sl sp buf, legalRun rank sl fl p,
      run T rank sl sp buf p (h, fl) = Some (h', foldl forms fl p) &
  forall n psi, rank = (2 ^ n)%N -> has_order psi (2 * rank) -> let pt i := psi ^+ (2 * brv n i + 1) in
    holds rank sl pt (h, fl) e /\ ~ holds rank sl pt (h', foldl forms fl p) (ringRun ('X^rank + 1) (fun c => h (sp c)) e p)].
Proof.
have [T hT] : exists T, NewCyclotomicTransformer U17 8 = Some T.
  move: ex_ctor_refuses; move: (NewCyclotomicTransformer U17 8) => [T|] h; first by exists T.
  by case: h => _ [_].
exists [fieldType of F17], U17, 8%N, T, exSl, exSp, (iota 16 8), [:: CScalAdd 0 1 0], mixH, (fun v => v == 1%N), mixE.
eexists; split; [exact: conj hT isT|exact: ex_layout|exact: isT|reflexivity|]; clear hT.
move=> n psi _ [_ [h1 _]] pt; split.
  move=> v; rewrite /exSl /mixE; case: v => [|[|v]] // _ /=.
    rewrite size_polyX; split=> // i hi; rewrite coefX -[nth _ _ _]/(nth 0%N (iota 0 8) i) nth_iota // add0n /mixH.
    by case: eqP.
  rewrite size_poly0; split=> // i hi; rewrite -[nth _ _ _]/(nth 0%N (iota 8 8) i) nth_iota // horner0 /mixH.
  by case: eqP => //; lia.
move=> /(_ 0%N erefl) [_ /(_ 0%N isT)] /=; rewrite /ringStep /= /mixE /= scaler0 addr0 hornerX.
move=> e0; have : pt 0%N = 0 by rewrite -e0; apply: val_inj; vm_compute.
move/eqP; rewrite expf_eq0 => /andP[_ /eqP z]; move: h1; rewrite z expr0n /= => /eqP.
by rewrite eq_sym oner_eq0.
Qed.

Print Assumptions C120_panics.
Print Assumptions C120_cyclotomic_partial.
Print Assumptions C120_cyclic_partial.
Print Assumptions C120_mixed_refuted.
