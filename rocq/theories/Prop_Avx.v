(** The vector methods of the amd64 build with their AVX512 programs: C113 (Add, Sub), C114 (Sum),
    C115 (InnerProduct), C116 (empty vectors).  As in Prop_Asm.v the machine at the call is arbitrary. *)
From Coq Require Import ZArith Lia.
From mathcomp Require Import all_ssreflect zify ssrZ.
From Verif Require Import JindoIntModel ZpModel ZpConst ZpProofs ZpField ZpConv Prop_Zp VectorModel Prop_Vector
  AsmModel AsmEntry AsmProofs Prop_Asm AvxModel AvxText AvxEntry AvxProofs AvxSum AvxDot AvxInner.
Set Implicit Arguments. Unset Strict Implicit. Unset Printing Implicit Defensive.
Delimit Scope Z_scope with Z.
Local Arguments Z.mul : simpl never. Local Arguments Z.add : simpl never. Local Arguments Z.sub : simpl never.
Local Arguments Z.modulo : simpl never. Local Arguments Z.pow : simpl never. Local Arguments Z.of_nat : simpl never.

(** * Specification *)
(** the packages with AVX512 programs *)
Definition avxPackages : seq (gen * Z) := [:: (jindoZp, jindoZp_modulus); (bfvZp, bfvZp_modulus)].
(** the address of element i of a vector; a vector within the address space *)
Definition addr (v : vec) (i : nat) : Z := (v.1 + 32 * Z.of_nat i)%Z.
Definition inSpace (v : vec) : Prop := (0 <= v.1)%Z /\ (v.1 + 32 * Z.of_nat v.2 < 2 ^ 64)%Z.
Definition eltsAt (g : gen) (p : Z) (m : Z -> seq Z) (v : vec) : Prop :=
  forall i, (i < v.2)%N -> elt (Limbs g) p (m (addr v i)).
(** m' comes from m by writing, for i from 0, an r with P x y r over element i of res, x and y being
    what element i of a and of b then are *)
Definition byTurns (P : seq Z -> seq Z -> seq Z -> Prop) (m m' : Z -> seq Z) (res a b : vec) : Prop :=
  exists ms : nat -> Z -> seq Z, [/\ forall q, ms 0%N q = m q, forall q, ms res.2 q = m' q &
    forall i, (i < res.2)%N -> exists r, setTo (ms i) (ms i.+1) (addr res i) r /\ P (ms i (addr a i)) (ms i (addr b i)) r].
(** no element of v is written before it is read *)
Definition readFirst (res v : vec) : Prop := forall i j, (i < j < res.2)%N -> addr res i <> addr v j.
(** the list of elements from address [base] on *)
Definition loaded (m : Z -> seq Z) (base : Z) (arena : seq (seq Z)) : Prop :=
  forall i, (i < size arena)%N -> m (base + 32 * Z.of_nat i)%Z = nth [::] arena i.
Definition vecAt (base : Z) (v : nat * nat) : vec := ((base + 32 * Z.of_nat v.1)%Z, v.2).

(** * Proofs *)
Lemma avx_amd g p : List.In (g, p) avxPackages -> List.In (g, p) amdPackages.
Proof. rewrite /avxPackages /amdPackages /=; tauto. Qed.
Definition avxOk (gp : gen * Z) : bool :=
  let: (g, p) := gp in
  [&& size (qs g) == 4%N, ~~ addCarry g, (2 ^ 224 <? p)%Z, (mu g * p <=? 2 ^ 288)%Z & (2 ^ 288 <? (mu g + 1) * p)%Z].
Lemma avx_ok : all avxOk avxPackages. Proof. by vm_compute. Qed.
Section Pkg.
Variables (g : gen) (p : Z).
Hypothesis hg : List.In (g, p) avxPackages.
Let hp : List.In (g, p) packages := amd_sub (avx_amd hg).
Lemma avxP : exists q0 q1 q2 q3, [/\ qs g = [:: q0; q1; q2; q3], addCarry g = false, (2 ^ 224 < wordsVal (qs g))%Z &
  (mu g * wordsVal (qs g) <= 2 ^ 288 < (mu g + 1) * wordsVal (qs g))%Z].
Proof.
have [_ ->] := pkg_ok hp.
have /and5P[/eqP h1 /negbTE h2 /Z.ltb_lt h3 /Z.leb_le h4 /Z.ltb_lt h5] := In_all avx_ok hg.
move: h1; case: (qs g) => [|q0 [|q1 [|q2 [|q3 [|]]]]] // _.
by exists q0, q1, q2, q3.
Qed.
Lemma n4 : Limbs g = 4%N. Proof. by have [q0 [q1 [q2 [q3 [h _ _ _]]]]] := avxP; rewrite /Limbs h. Qed.
Lemma elt_limbs x : elt (Limbs g) p x -> limbs g x.
Proof. by have [ok e] := pkg_ok hp; move/(eltE _ e); case. Qed.
Variables (junk : Z -> Z -> Z -> Z) (s : vst).
Lemma head3 res a b n hd : hd = addVec_head \/ hd = subVec_head ->
  let e := callEnv g junk [:: res; a; b; n] in
  exists c z k, [/\ vexec e hd s = VSt c z k, mem c = mem (sc s), [/\ ax c = a, dx c = b, cx c = res & bx c = n] &
    hd = subVec_head -> si c = 0%Z].
Proof.
case: s => c z k; case: c => vax vbx vcx vdx vsi vdi vbp vr8 vr9 vr10 vr11 vr12 vr13 vr14 vr15 vcf vof vs0 vs1 vs2 vs3 vs4 vs5 vs6 vs7 vs8 vm.
case=> -> e; rewrite /addVec_head /subVec_head.
- by do 4 (vsx ltac:(idtac)); rewrite vexec_nil; do 3 eexists; split; [reflexivity|by []|by []|].
by do 5 (vsx ltac:(rewrite ?Z.lxor_nilpotent)); rewrite vexec_nil; do 3 eexists; split; [reflexivity|by []|by []|by []].
Qed.
Lemma limbs_Add x y : limbs g x -> limbs g y -> limbs g (Add g x y).
Proof.
move=> [sx wx] [sy wy]; have [ok _] := pkg_ok hp; rewrite /Add /addWith.
case E: (addChain x y 0) => [z c]; have [|h1 h2 _] := addChain_val _ E; first by rewrite sx.
have hz : limbs g z by split=> //; rewrite h1.
by have [h3 _] := sub_q ok hz; rewrite /reduce; do 2 case: ifP => _ //.
Qed.
Lemma limbs_Sub x y : limbs g x -> limbs g y -> limbs g (Sub g x y).
Proof.
move=> [sx wx] [sy wy]; have [ok _] := pkg_ok hp; rewrite /Sub.
case E: (subChain x y 0) => [z c]; have [||h1 h2 _ _] := subChain_val _ wx wy _ E; [by rewrite sx|by []|].
case: ifP => _; last by split=> //; rewrite h1.
case E': (addChain z (qs g) 0) => [z' c']; have [|h3 h4 _] := addChain_val _ E'; first by rewrite h1 sx.
by split=> //; rewrite h3 h1.
Qed.
Lemma callq args : eq_ (callEnv g junk args) = qs g. Proof. by []. Qed.
Lemma calli args : eqi (callEnv g junk args) = qInvNeg g. Proof. by []. Qed.
Lemma asm_vec hd body op (res a b : vec) :
  hd = addVec_head /\ op = Add g /\ body = addVec_body \/ hd = subVec_head /\ op = Sub g /\ body = subVec_body ->
  a.2 = res.2 -> b.2 = res.2 -> inSpace res -> inSpace a -> inSpace b ->
  eltsAt g p (mem (sc s)) a -> eltsAt g p (mem (sc s)) b -> (forall i, (i < res.2)%N -> size (mem (sc s) (addr res i)) = 4%N) ->
  let e := callEnv g junk [:: res.1; a.1; b.1; Z.of_nat a.2] in
  exists2 s', loop e (Z.to_nat (Z.of_nat a.2)) BX body (vexec e hd s) = Some s' &
    mem (sc s') =1 vecLoop op res.2 (mem (sc s)) res.1 a.1 b.1.
Proof.
move=> hh ea eb [r0 r1] [a0 a1] [b0 b1] la lb lr e; rewrite ea eb in a1 b1.
have [ok _] := pkg_ok hp; have [q0 [q1 [q2 [q3 [hq hc _ _]]]]] := avxP.
have hd' : hd = addVec_head \/ hd = subVec_head by case: hh => -[-> _]; [left|right].
have [c [z [k [e1 m1 [x1 x2 x3 x4] s1]]]] := head3 res.1 a.1 b.1 (Z.of_nat a.2) hd'.
rewrite -/e in e1; rewrite e1 Nat2Z.id ea.
pose J' (c : st) := op = Sub g /\ body = subVec_body -> si c = 0%Z.
have [|||||||||||||c' [h1 h2]] := @vec_loop g hc e op body J' _ _ _ res.2 c z k; rewrite ?m1 ?x1 ?x2 ?x3 ?x4 ?ea //.
- by case: hh => -[_ [-> _]]; [exact: limbs_Add|exact: limbs_Sub].
- by move=> c0 h /h; case: (c0).
- move=> c0 z0 k0 i1 i2 i3 i4; case: hh => -[_ [E1 E2]]; subst op body.
    have [c' [j1 j2 _]] := addVec_turn ok hq hc (callq [:: res.1; a.1; b.1; Z.of_nat a.2]) z0 k0 i1 i2 i3.
    exists c'; split=> //; case=> _ h; by discriminate h.
  have [c' [j1 j2 j3]] := subVec_turn hq (callq [:: res.1; a.1; b.1; Z.of_nat a.2]) z0 k0 i1 i2 i3 (i4 (conj erefl erefl)).
  by exists c'; split.
- move=> [h1 h2]; apply: s1; case: hh => -[-> [_ h3]] //.
  by move: h2; rewrite h3.
- by move: r0 r1; clear; rewrite /W; lia.
- by move=> i hi; split; [apply: elt_limbs; apply: la; rewrite ea|apply: elt_limbs; apply: lb; rewrite eb|rewrite n4; exact: lr].
rewrite m1 x1 x2 x3 in h2; exists (VSt c' z k); [exact: h1|exact: h2].
Qed.
Lemma sum_val m v : eltsAt g p m v ->
  esum m v.1 v.2 = (\big[Z.add/0%Z]_(i < v.2) wordsVal (m (addr v i)))%Z.
Proof.
move=> _; rewrite /addr; case: v => a n /=.
elim: n a => [|n IH] a; first by rewrite big_ord0.
rewrite big_ord_recl /= IH Z.mul_0_r Z.add_0_r; congr (_ + _)%Z; apply: eq_bigr => i _.
by rewrite /bump /=; congr (wordsVal (m _)); lia.
Qed.
End Pkg.

Lemma vecLoopS op n m d a b : vecLoop op n.+1 m d a b =
  put (vecLoop op n m d a b) (d + 32 * Z.of_nat n) (op (vecLoop op n m d a b (a + 32 * Z.of_nat n)%Z) (vecLoop op n m d a b (b + 32 * Z.of_nat n)%Z)).
Proof.
elim: n m d a b => [|n IH] m d a b; first by rewrite /= !Z.mul_0_r !Z.add_0_r.
rewrite -[LHS]/(vecLoop op n.+1 (put m d (op (m a) (m b))) (d + 32) (a + 32) (b + 32)) IH.
have hp x : (x + 32 + 32 * Z.of_nat n = x + 32 * Z.of_nat n.+1)%Z by lia.
by rewrite !hp.
Qed.
Lemma vecLoop_elt g p op n m d a b : 
  (forall x y, elt (Limbs g) p x -> elt (Limbs g) p y -> elt (Limbs g) p (op x y)) ->
  (forall i, (i < n)%N -> elt (Limbs g) p (m (a + 32 * Z.of_nat i)%Z)) -> (forall i, (i < n)%N -> elt (Limbs g) p (m (b + 32 * Z.of_nat i)%Z)) ->
  forall q, elt (Limbs g) p (m q) -> elt (Limbs g) p (vecLoop op n m d a b q).
Proof.
move=> hop; elim: n => [|n IH] ha hb q hq //.
have {}IH q' : elt (Limbs g) p (m q') -> elt (Limbs g) p (vecLoop op n m d a b q').
  by apply: IH => i hi; [apply: ha|apply: hb]; apply: ltnW.
rewrite vecLoopS /put; case: ifP => _; last exact: IH.
by apply: hop; apply: IH; [apply: ha|apply: hb].
Qed.
Lemma turns g p op (P : seq Z -> seq Z -> seq Z -> Prop) m (res a b : vec) :
  (forall x y, elt (Limbs g) p x -> elt (Limbs g) p y -> elt (Limbs g) p (op x y) /\ P x y (op x y)) ->
  a.2 = res.2 -> b.2 = res.2 -> eltsAt g p m a -> eltsAt g p m b ->
  byTurns P m (vecLoop op res.2 m res.1 a.1 b.1) res a b.
Proof.
move=> hop ea eb ha hb; exists (fun i => vecLoop op i m res.1 a.1 b.1); split=> // i hi.
eexists; split; first by apply: setToE; rewrite vecLoopS; move=> q; reflexivity.
have hop' x y : elt (Limbs g) p x -> elt (Limbs g) p y -> elt (Limbs g) p (op x y) by move=> h1 h2; have [] := hop x y h1 h2.
have hE q : elt (Limbs g) p (m q) -> elt (Limbs g) p (vecLoop op i m res.1 a.1 b.1 q).
  by apply: vecLoop_elt => // j hj; [apply: ha; rewrite ea|apply: hb; rewrite eb]; apply: ltn_trans hi.
by have [] := hop _ _ (hE _ (ha i (etrans (congr1 (leq i.+1) ea) hi))) (hE _ (hb i (etrans (congr1 (leq i.+1) eb) hi))).
Qed.
Lemma arena_loop op m base arena (res a b : nat * nat) n : loaded m base arena ->
  (res.1 + n <= size arena)%N -> (a.1 + n <= size arena)%N -> (b.1 + n <= size arena)%N ->
  let arena' := foldl (fun mem i => put_ mem res i (op (at_ mem a i) (at_ mem b i))) arena (iota 0 n) in
  size arena' = size arena /\ loaded (vecLoop op n m (vecAt base res).1 (vecAt base a).1 (vecAt base b).1) base arena'.
Proof.
move=> hl; elim: n => [|n IH] h1 h2 h3 //; cbv zeta.
have {IH} [|||] := IH; [lia|lia|lia|]; cbv zeta.
have -> : iota 0 n.+1 = iota 0 n ++ [:: n] by rewrite -addn1 iotaD add0n.
rewrite foldl_cat [foldl _ _ [:: n]]/=; set A := foldl _ _ _; move=> sA lA.
have sA' : size (put_ A res n (op (at_ A a n) (at_ A b n))) = size arena by rewrite /put_ size_set_nth sA; lia.
split=> // i; rewrite sA' vecLoopS /put /put_ nth_set_nth /= => hi.
have ad x : (base + 32 * Z.of_nat x + 32 * Z.of_nat n = base + 32 * Z.of_nat (x + n))%Z by lia.
rewrite !ad; case: Z.eqb_spec => h.
  have -> : i = (res.1 + n)%N by lia.
  by rewrite eqxx /at_ !lA // sA; lia.
by case: eqP => [h'|_]; [case: h; rewrite h'|rewrite lA // sA].
Qed.
(** what the turns leave when nothing is overwritten before it is read *)
Lemma turns_first P m m' (res a b : vec) : byTurns P m m' res a b -> readFirst res a -> readFirst res b ->
  (forall i, (i < res.2)%N -> P (m (addr a i)) (m (addr b i)) (m' (addr res i))) /\
  (forall q, (forall i, (i < res.2)%N -> q <> addr res i) -> m' q = m q).
Proof.
move=> [ms [h0 hn hs]] ra rb.
have keep k q : (k <= res.2)%N -> (forall i, (i < k)%N -> q <> addr res i) -> ms k q = m q.
  elim: k => [|k IH] hk hq //.
  have [r [[_ h] _]] := hs k hk; rewrite h; last exact: hq.
  by apply: IH => [|i hi]; [exact: ltnW|apply: hq; exact: ltnW].
have later k i : (i < k <= res.2)%N -> ms k (addr res i) = ms i.+1 (addr res i).
  elim: k => [|k IH] // /andP[h1 h2]; case: (ltnP i k) => h.
    have [r [[_ h'] _]] := hs k h2; rewrite h'; last by rewrite /addr; lia.
    by apply: IH; rewrite h ltnW.
  by have -> : i = k by lia.
split; last by move=> q hq; rewrite -hn; apply: keep.
move=> i hi; have [r [[h1 h2] h3]] := hs i hi.
rewrite -hn later ?hi ?leqnn // h1.
rewrite -(keep i (addr a i)) ?(ltnW hi) // => [|j hj]; last by move/esym; apply: ra; rewrite hj.
by rewrite -(keep i (addr b i)) ?(ltnW hi) // => j hj /esym; apply: rb; rewrite hj.
Qed.
Definition isAdd (g : gen) (p : Z) (x y r : seq Z) : Prop :=
  elt (Limbs g) p r /\ BigInt g r = ((BigInt g x + BigInt g y) mod p)%Z.
Definition isSub (g : gen) (p : Z) (x y r : seq Z) : Prop :=
  elt (Limbs g) p r /\ BigInt g r = ((BigInt g x - BigInt g y) mod p)%Z.

(** * C113: Vector.Add and Vector.Sub *)
Section C113.
Variables (g : gen) (p : Z) (junk : Z -> Z -> Z -> Z) (s : vst) (res a b : vec).
(** a call that does not panic *)
Definition callable : Prop :=
  [/\ (0 < res.2)%N, a.2 = res.2 /\ b.2 = res.2, [/\ inSpace res, inSpace a & inSpace b],
      eltsAt g p (mem (sc s)) a /\ eltsAt g p (mem (sc s)) b & forall i, (i < res.2)%N -> size (mem (sc s) (addr res i)) = 4%N].
Lemma amd_AddE : List.In (g, p) avxPackages -> callable ->
  exists2 m', amd_Add g junk s res a b = Some m' & m' =1 vecLoop (Add g) res.2 (mem (sc s)) res.1 a.1 b.1.
Proof.
move=> hg [h0 [ea eb] [ir ia ib] [la lb] lr]; rewrite /amd_Add ea eb eqxx /=; case: eqP => h; first by rewrite h in h0.
have [|s' h1 h2] := @asm_vec g p hg junk s addVec_head addVec_body (Add g) res a b _ ea eb ir ia ib la lb lr; first by left.
by rewrite ea in h1; rewrite /asm_addVec h1; exists (mem (sc s')).
Qed.
Lemma amd_SubE : List.In (g, p) avxPackages -> callable ->
  exists2 m', amd_Sub g junk s res a b = Some m' & m' =1 vecLoop (Sub g) res.2 (mem (sc s)) res.1 a.1 b.1.
Proof.
move=> hg [h0 [ea eb] [ir ia ib] [la lb] lr]; rewrite /amd_Sub ea eb eqxx /=; case: eqP => h; first by rewrite h in h0.
have [|s' h1 h2] := @asm_vec g p hg junk s subVec_head subVec_body (Sub g) res a b _ ea eb ir ia ib la lb lr; first by right.
by rewrite ea in h1; rewrite /asm_subVec h1; exists (mem (sc s')).
Qed.
End C113.
Lemma turns_ext P m m1 m2 res a b : m1 =1 m2 -> byTurns P m m2 res a b -> byTurns P m m1 res a b.
Proof. by move=> h [ms [h0 hn hs]]; exists ms; split=> // q; rewrite hn h. Qed.
(** for any overlap the elements are computed one after the other *)
Theorem C113_Add g p junk s res a b : List.In (g, p) avxPackages -> callable g p s res a b ->
  exists2 m', amd_Add g junk s res a b = Some m' & byTurns (isAdd g p) (mem (sc s)) m' res a b.
Proof.
move=> hg hc; have [m' h1 h2] := amd_AddE junk hg hc; exists m' => //; apply: turns_ext h2 _.
case: hc => _ [ea eb] _ [la lb] _; apply: turns ea eb la lb => x y hx hy.
by have [h3 h4] := C68_Add (amd_sub (avx_amd hg)) hx hy.
Qed.
Theorem C113_Sub g p junk s res a b : List.In (g, p) avxPackages -> callable g p s res a b ->
  exists2 m', amd_Sub g junk s res a b = Some m' & byTurns (isSub g p) (mem (sc s)) m' res a b.
Proof.
move=> hg hc; have [m' h1 h2] := amd_SubE junk hg hc; exists m' => //; apply: turns_ext h2 _.
case: hc => _ [ea eb] _ [la lb] _; apply: turns ea eb la lb => x y hx hy.
by have [h3 h4] := C68_Sub (amd_sub (avx_amd hg)) hx hy.
Qed.
(** without overlap, or with res in the place of an argument, the sums and differences of the arguments,
    and nothing else changes *)
Theorem C113_elementwise g p junk s res a b : List.In (g, p) avxPackages -> callable g p s res a b ->
  readFirst res a -> readFirst res b ->
  exists m1 m2, [/\ amd_Add g junk s res a b = Some m1, amd_Sub g junk s res a b = Some m2,
    forall i, (i < res.2)%N -> isAdd g p (mem (sc s) (addr a i)) (mem (sc s) (addr b i)) (m1 (addr res i)) /\
                               isSub g p (mem (sc s) (addr a i)) (mem (sc s) (addr b i)) (m2 (addr res i)) &
    forall q, (forall i, (i < res.2)%N -> q <> addr res i) -> m1 q = mem (sc s) q /\ m2 q = mem (sc s) q].
Proof.
move=> hg hc ra rb; have [m1 e1 t1] := C113_Add junk hg hc; have [m2 e2 t2] := C113_Sub junk hg hc.
have [h1 h2] := turns_first t1 ra rb; have [h3 h4] := turns_first t2 ra rb.
exists m1, m2; split=> // [i hi|q hq]; first by split; [exact: h1|exact: h3].
by rewrite h2 // h4.
Qed.
(** both builds leave the same elements *)
Theorem C113_purego g p junk s base arena res a b : List.In (g, p) avxPackages ->
  loaded (mem (sc s)) base arena -> within (size arena) res -> within (size arena) a -> within (size arena) b ->
  callable g p s (vecAt base res) (vecAt base a) (vecAt base b) ->
  exists m1 m2 arena1 arena2, [/\ amd_Add g junk s (vecAt base res) (vecAt base a) (vecAt base b) = Some m1,
    amd_Sub g junk s (vecAt base res) (vecAt base a) (vecAt base b) = Some m2,
    addVec g arena res a b = Some arena1 /\ subVec g arena res a b = Some arena2,
    size arena1 = size arena /\ size arena2 = size arena & loaded m1 base arena1 /\ loaded m2 base arena2].
Proof.
move=> hg hl wr wa wb hc; have [m1 e1 h1] := amd_AddE junk hg hc; have [m2 e2 h2] := amd_SubE junk hg hc.
case: hc => _ [/= ea eb] _ _ _; rewrite /within ?ea ?eb in wr wa wb.
have [s1 l1] := arena_loop (Add g) hl wr wa wb; have [s2 l2] := arena_loop (Sub g) hl wr wa wb.
rewrite /addVec /subVec /vecOp2 ea eb eqxx /=; do 4 eexists; split; [exact: e1|exact: e2|by split|by split|].
by split=> i hi; [rewrite h1; apply: l1|rewrite h2; apply: l2].
Qed.
(** unequal lengths and empty vectors panic, and nothing else *)
Theorem C113_panics g junk s res a b : (a.2 <> b.2 \/ a.2 <> res.2 \/ res.2 = 0%N) ->
  amd_Add g junk s res a b = None /\ amd_Sub g junk s res a b = None.
Proof.
move=> h; rewrite /amd_Add /amd_Sub; case: eqP => //= h1; case: eqP => //= h2; case: eqP => //= h3.
by case: h => [|[|]].
Qed.

(** * C114: Vector.Sum *)
Theorem C114_Sum g p junk s avx512 res v : List.In (g, p) avxPackages ->
  inSpace v -> eltsAt g p (mem (sc s)) v -> size (mem (sc s) res) = 4%N ->
  exists2 r, amd_Sum g junk s avx512 res v = Some r &
    [/\ elt (Limbs g) p r, BigInt g r = ((\big[Z.add/0%Z]_(i < v.2) BigInt g (mem (sc s) (addr v i))) mod p)%Z &
        r = sumVec g (elems (mem (sc s)) v)].
Proof.
move=> hg [a0 a1] hv hr; have hp := amd_sub (avx_amd hg); have [ok e] := pkg_ok hp.
have [q0 [q1 [q2 [q3 [hq hc Ql hm]]]]] := avxP hg.
have he : elts g p (elems (mem (sc s)) v).
  by move=> i; rewrite size_mkseq => hi; rewrite nth_mkseq //; apply: hv.
have [h1 h2] := C103_Sum hp he.
have {}h2 : BigInt g (sumVec g (elems (mem (sc s)) v)) = ((\big[Z.add/0%Z]_(i < v.2) BigInt g (mem (sc s) (addr v i))) mod p)%Z.
  rewrite h2 /elems size_mkseq; congr (_ mod _)%Z; apply: eq_bigr => i _; by rewrite nth_mkseq.
have fin r : r = sumVec g (elems (mem (sc s)) v) -> exists2 r', Some r = Some r' & 
  [/\ elt (Limbs g) p r', BigInt g r' = ((\big[Z.add/0%Z]_(i < v.2) BigInt g (mem (sc s) (addr v i))) mod p)%Z &
        r' = sumVec g (elems (mem (sc s)) v)] by move=> hE; exists r => //; rewrite hE.
rewrite /amd_Sum; case: eqP => h0; first by apply: fin; rewrite /elems h0.
case: ifP => hb; first by apply: fin.
have hn : (Z.of_nat v.2 < 2 ^ 32)%Z by move: hb => /negbT /norP[_] /negbTE /Z.leb_gt; lia.
have [s' [r [E M R V]]] := sum_asm ok hq (callq g junk [:: res; v.1; Z.of_nat v.2]) Ql hm
  (fun i hi => elt_limbs hg (hv i hi)) erefl hr hn a0 a1.
rewrite /asm_sumVec E /=; rewrite M /put Z.eqb_refl; apply: fin.
apply: (ev_inj ok R (proj1 (eltE _ e) h1)); rewrite -[RHS]/(BigInt g _) h2 -e; apply: evE => //; first by case: R.
apply: eqq_trans V _; rewrite (sum_val hv).
have hB : forall k, (k <= v.2)%N -> eqq g (\big[Z.add/0%Z]_(i < k) wordsVal (mem (sc s) (addr v i)))
  (B (Limbs g) * \big[Z.add/0%Z]_(i < k) BigInt g (mem (sc s) (addr v i))).
  elim=> [|k IH] hk; first by rewrite !big_ord0 Z.mul_0_r; exact: eqq_refl.
  rewrite !big_ord_recr /= Z.mul_add_distr_l; apply: eqq_add; first by apply: IH; exact: ltnW.
  by apply: eqq_sym; apply: (ev_val ok); apply: (elt_limbs hg); exact: hv.
exact: hB.
Qed.

(** nothing but the result is written *)
Theorem C114_memory g p junk s res v : List.In (g, p) avxPackages ->
  inSpace v -> eltsAt g p (mem (sc s)) v -> size (mem (sc s) res) = 4%N -> (Z.of_nat v.2 < 2 ^ 32)%Z ->
  exists2 s', asm_sumVec g junk s res v.1 (Z.of_nat v.2) = Some s' & forall q, q <> res -> mem (sc s') q = mem (sc s) q.
Proof.
move=> hg [a0 a1] hv hr hn; have hp := amd_sub (avx_amd hg); have [ok e] := pkg_ok hp.
have [q0 [q1 [q2 [q3 [hq hc Ql hm]]]]] := avxP hg.
have [s' [r [E M R V]]] := sum_asm ok hq (callq g junk [:: res; v.1; Z.of_nat v.2]) Ql hm
  (fun i hi => elt_limbs hg (hv i hi)) erefl hr hn a0 a1.
exists s'; first by rewrite /asm_sumVec E.
by move=> q /Z.eqb_neq hq'; rewrite M /put hq'.
Qed.

(** * C115 *)
Lemma dot_val (m : Z -> seq Z) (v w : vec) : v.2 = w.2 ->
  edot m v.1 w.1 v.2 = (\big[Z.add/0%Z]_(i < v.2) (wordsVal (m (addr v i)) * wordsVal (m (addr w i))))%Z.
Proof.
rewrite /addr; case: v w => a n [b k] /= _; clear k.
elim: n a b => [|n IH] a b; first by rewrite big_ord0.
rewrite big_ord_recl /= IH !Z.mul_0_r !Z.add_0_r; congr (_ + _)%Z; apply: eq_bigr => i _.
have hb x : (x + 32 + 32 * Z.of_nat i = x + 32 * Z.of_nat (bump 0 i))%Z by rewrite /bump /=; lia.
by rewrite !hb.
Qed.
Definition dotSpec (g : gen) (p : Z) (m : Z -> seq Z) (v w : vec) : Z :=
  ((\big[Z.add/0%Z]_(i < v.2) (BigInt g (m (addr v i)) * BigInt g (m (addr w i)))%Z) mod p)%Z.
Theorem C115_InnerProduct g p junk s avx512 res v w : List.In (g, p) avxPackages -> v.2 = w.2 ->
  inSpace v -> inSpace w -> eltsAt g p (mem (sc s)) v -> eltsAt g p (mem (sc s)) w -> size (mem (sc s) res) = 4%N ->
  exists2 r, amd_InnerProduct g junk s avx512 res v w = Some r &
    [/\ elt (Limbs g) p r, BigInt g r = dotSpec g p (mem (sc s)) v w &
        innerProductVec g (elems (mem (sc s)) v) (elems (mem (sc s)) w) = Some r].
Proof.
move=> hg hvw [a0 a1] [b0 b1] hv hw hr; have hp := amd_sub (avx_amd hg); have [ok e] := pkg_ok hp.
have [q0 [q1 [q2 [q3 [hq hc Ql hm]]]]] := avxP hg.
have he u : eltsAt g p (mem (sc s)) u -> elts g p (elems (mem (sc s)) u).
  by move=> hu i; rewrite size_mkseq => hi; rewrite nth_mkseq //; apply: hu.
have := C103_InnerProduct hp (he _ hv) (he _ hw); rewrite !size_mkseq -hvw eqxx => -[z hz [h1 h2]].
have {}h2 : BigInt g z = dotSpec g p (mem (sc s)) v w.
  rewrite h2; congr (_ mod _)%Z; apply: eq_bigr => i _; by rewrite !nth_mkseq -?hvw.
have fin r : r = z -> exists2 r', Some r = Some r' & [/\ elt (Limbs g) p r', BigInt g r' = dotSpec g p (mem (sc s)) v w &
  innerProductVec g (elems (mem (sc s)) v) (elems (mem (sc s)) w) = Some r'] by move=> hE; exists r => //; rewrite hE.
rewrite /amd_InnerProduct; case: eqP => h0.
  by apply: fin; move: hz; rewrite /elems -hvw h0 /innerProductVec /= => -[].
have -> : (v.2 != w.2) = false by rewrite hvw eqxx.
case: ifP => hb; first by exists z; [exact: hz|split].
have hn : (Z.of_nat v.2 < 2 ^ 32 - 1)%Z by move: hb => /negbT /norP[_] /negbTE /Z.leb_gt.
have n0 : (0 < v.2)%N by rewrite lt0n; apply/eqP.
rewrite -hvw in b1.
have hl i : (i < v.2)%N -> limbs g (mem (sc s) (v.1 + 32 * Z.of_nat i)%Z) /\ limbs g (mem (sc s) (w.1 + 32 * Z.of_nat i)%Z).
  by move=> hi; split; apply: (elt_limbs hg); [apply: hv|apply: hw; rewrite -hvw].
have [s' [r [E M R V]]] := inner_asm ok hq (callq g junk [:: res; v.1; w.1; Z.of_nat v.2])
  (calli g junk [:: res; v.1; w.1; Z.of_nat v.2]) Ql hm hl erefl hr n0 hn a0 a1 b0 b1.
have -> : asm_innerProdVec g junk s res v.1 w.1 (Z.of_nat v.2) = Some s' by exact: E.
rewrite /omap /obind /oapp M /put Z.eqb_refl; apply: fin.
apply: (ev_inj ok R (proj1 (eltE _ e) h1)); rewrite -[RHS]/(BigInt g _) h2 /dotSpec -e; apply: evE => //; first by case: R.
apply: (B_cancel ok (k := Limbs g)); rewrite -(n4 hg) in V; apply: eqq_trans V _; rewrite (dot_val _ hvw).
have hB : forall k, (k <= v.2)%N -> eqq g (\big[Z.add/0%Z]_(i < k) (wordsVal (mem (sc s) (addr v i)) * wordsVal (mem (sc s) (addr w i)))%Z)
  (B (Limbs g) * (B (Limbs g) * \big[Z.add/0%Z]_(i < k) (BigInt g (mem (sc s) (addr v i)) * BigInt g (mem (sc s) (addr w i)))%Z)).
  elim=> [|k IH] hk; first by rewrite !big_ord0 !Z.mul_0_r; exact: eqq_refl.
  rewrite !big_ord_recr /= !Z.mul_add_distr_l; apply: eqq_add; first by apply: IH; exact: ltnW.
  have [l1 l2] := hl k hk.
  have -> x y : (B (Limbs g) * (B (Limbs g) * (x * y)) = (B (Limbs g) * x) * (B (Limbs g) * y))%Z by ring.
  by apply: eqq_mul; apply: eqq_sym; apply: (ev_val ok).
exact: hB.
Qed.
Theorem C115_panics g junk s avx512 res v w : v.2 <> w.2 -> v.2 <> 0%N -> amd_InnerProduct g junk s avx512 res v w = None.
Proof. by move=> /eqP h /eqP h0; rewrite /amd_InnerProduct (negbTE h0) h. Qed.
Theorem C115_memory g p junk s res v w : List.In (g, p) avxPackages -> v.2 = w.2 ->
  inSpace v -> inSpace w -> eltsAt g p (mem (sc s)) v -> eltsAt g p (mem (sc s)) w -> size (mem (sc s) res) = 4%N ->
  (0 < v.2)%N -> (Z.of_nat v.2 < 2 ^ 32 - 1)%Z ->
  exists2 s', asm_innerProdVec g junk s res v.1 w.1 (Z.of_nat v.2) = Some s' & forall q, q <> res -> mem (sc s') q = mem (sc s) q.
Proof.
move=> hg hvw [a0 a1] [b0 b1] hv hw hr n0 hn; have hp := amd_sub (avx_amd hg); have [ok e] := pkg_ok hp.
have [q0 [q1 [q2 [q3 [hq hc Ql hm]]]]] := avxP hg; rewrite -hvw in b1.
have hl i : (i < v.2)%N -> limbs g (mem (sc s) (v.1 + 32 * Z.of_nat i)%Z) /\ limbs g (mem (sc s) (w.1 + 32 * Z.of_nat i)%Z).
  by move=> hi; split; apply: (elt_limbs hg); [apply: hv|apply: hw; rewrite -hvw].
have [s' [r [E M R V]]] := inner_asm ok hq (callq g junk [:: res; v.1; w.1; Z.of_nat v.2])
  (calli g junk [:: res; v.1; w.1; Z.of_nat v.2]) Ql hm hl erefl hr n0 hn a0 a1 b0 b1.
exists s'; first exact: E.
by move=> q /Z.eqb_neq hq'; rewrite M /put hq'.
Qed.

(** * C116: empty vectors *)
(** the claim that both builds panic on the same calls *)
Definition builds_agree_Add : Prop := forall g p junk s base arena res a b, List.In (g, p) avxPackages ->
  loaded (mem (sc s)) base arena -> 
  (amd_Add g junk s (vecAt base res) (vecAt base a) (vecAt base b) = None <-> addVec g arena res a b = None).
Theorem C116_Add_refuted : ~ builds_agree_Add.
Proof.
move=> h; pose m : memory := fun _ => [:: 1; 0; 0; 0]%Z.
have hg : List.In (jindoZp, jindoZp_modulus) avxPackages by left.
have [] := h _ _ (fun _ _ _ => 0%Z) (VSt (regs0 m) (fun _ _ => 0%Z) (fun=> 0%Z)) 0%Z [:: [:: 1; 0; 0; 0]%Z] (0, 0)%N (0, 0)%N (1, 0)%N hg.
  by case.
by move=> h1 _; have := h1 erefl.
Qed.
Definition builds_agree_InnerProduct : Prop := forall g p junk s avx512 res v w, List.In (g, p) avxPackages ->
  (amd_InnerProduct g junk s avx512 res v w = None <-> innerProductVec g (elems (mem (sc s)) v) (elems (mem (sc s)) w) = None).
Theorem C116_InnerProduct_refuted : ~ builds_agree_InnerProduct.
Proof.
move=> h; pose m : memory := fun _ => [:: 1; 0; 0; 0]%Z.
have hg : List.In (jindoZp, jindoZp_modulus) avxPackages by left.
have [_ ] := h _ _ (fun _ _ _ => 0%Z) (VSt (regs0 m) (fun _ _ => 0%Z) (fun=> 0%Z)) true 0%Z (0%Z, 0%N) (32%Z, 1%N) hg.
by move=> h1; have := h1 erefl.
Qed.

(** * Examples: runs of the programs *)
(** element i of the vectors at 0 has the limbs i+1, 0, 0, 0 *)
Definition mem32 : memory := fun q => [:: q / 32 + 1; 0; 0; 0]%Z.
Definition avx0 (m : memory) : vst := VSt (regs0 m) (fun i j => Z.of_nat (i + j)) (fun i => Z.of_nat i).
Example ex_hyps (s := avx0 mem32) (res := (32%Z, 3%N)) (a := (0%Z, 3%N)) (b := (32%Z, 3%N)) :
  callable jindoZp jindoZp_modulus s res a b /\ readFirst res b.
Proof.
have hE i : (i < 4)%N -> elt (Limbs jindoZp) jindoZp_modulus (mem32 (32 * Z.of_nat i)%Z).
  by case: i => [|[|[|[|]]]] // _; apply/(@eltE jindoZp).
split; last by move=> i j /andP[h1 h2]; rewrite /addr /=; lia.
split=> //; split=> i hi.
- by apply: hE; move: hi => /=; lia.
- have -> : addr (32%Z, 3%N) i = (32 * Z.of_nat i.+1)%Z by rewrite /addr /=; lia.
  by apply: hE; move: hi => /=; lia.
Qed.
(** the loop runs from the front: res = v[1:4], a = v[0:3], b = v[1:4] make running sums *)
Example ex_add : omap (fun m => [seq head 0%Z (m (32 * Z.of_nat i)%Z) | i <- iota 0 5])
    (amd_Add jindoZp junk7 (avx0 mem32) (32%Z, 3%N) (0%Z, 3%N) (32%Z, 3%N)) = Some [:: 1; 3; 6; 10; 5]%Z.
Proof. by vm_compute. Qed.
Example ex_sub : omap (fun m => [seq wordsVal (m (32 * Z.of_nat i)%Z) | i <- iota 0 3])
    (amd_Sub bfvZp junk7 (avx0 mem32) (0%Z, 2%N) (0%Z, 2%N) (32%Z, 2%N)) = Some [:: bfvZp_modulus - 1; bfvZp_modulus - 1; 3]%Z.
Proof. by vm_compute. Qed.
(** nine elements: one turn of each loop; elements q-1 need the second subtraction *)
Example ex_sum : omap (fun s => mem (sc s) 320%Z) (asm_sumVec jindoZp junk7 (avx0 mem32) 320 0 9) = Some [:: 45; 0; 0; 0]%Z.
Proof. by vm_compute. Qed.
Definition memQ (g : gen) : memory := fun q => (subChain (qs g) [:: 1; 0; 0; 0]%Z 0).1.
Example ex_sum2 : omap (fun s => wordsVal (mem (sc s) 0%Z)) (asm_sumVec bfvZp junk7 (avx0 (memQ bfvZp)) 0 0 9) = Some (bfvZp_modulus - 9)%Z.
Proof. by vm_compute. Qed.
(** the vector program, through C115: 1*2 + 2*3 + 3*4 on the limbs *)
Example ex_inner : exists2 r, amd_InnerProduct jindoZp junk7 (avx0 mem32) true 320 (0%Z, 3%N) (32%Z, 3%N) = Some r &
  (B 4 * wordsVal r mod jindoZp_modulus = 20)%Z.
Proof.
have hE i : (i < 4)%N -> elt (Limbs jindoZp) jindoZp_modulus (mem32 (32 * Z.of_nat i)%Z).
  by case: i => [|[|[|[|]]]] // _; apply/(@eltE jindoZp).
have hg : List.In (jindoZp, jindoZp_modulus) avxPackages by left.
have h1 : eltsAt jindoZp jindoZp_modulus mem32 (0%Z, 3%N) by move=> i hi; apply: hE; move: hi => /=; lia.
have h2 : eltsAt jindoZp jindoZp_modulus mem32 (32%Z, 3%N).
  move=> i hi; have -> : addr (32%Z, 3%N) i = (32 * Z.of_nat i.+1)%Z by rewrite /addr /=; lia.
  by apply: hE; move: hi => /=; lia.
have s1 : inSpace (0%Z, 3%N) by []. have s2 : inSpace (32%Z, 3%N) by [].
have [r e1 [_ _ e3]] := C115_InnerProduct junk7 (s := avx0 mem32) true (res := 320%Z) hg (erefl : (0%Z, 3%N).2 = (32%Z, 3%N).2) s1 s2 h1 h2 erefl.
exists r; first exact: e1.
clear e1; have e4 : innerProductVec jindoZp (elems mem32 (0%Z, 3%N)) (elems mem32 (32%Z, 3%N)) =
  Some [:: 4123644788731977705; 5811481453721420052; 17759944180318491932; 455606108190284700]%Z by vm_compute.
by have [<-] := etrans (esym e4) e3; vm_compute.
Qed.
Print Assumptions C113_Add.
Print Assumptions C113_Sub.
Print Assumptions C113_elementwise.
Print Assumptions C113_purego.
Print Assumptions C113_panics.
Print Assumptions C114_Sum.
Print Assumptions C114_memory.
Print Assumptions C115_InnerProduct.
Print Assumptions C115_panics.
Print Assumptions C115_memory.
Print Assumptions C116_Add_refuted.
Print Assumptions C116_InnerProduct_refuted.
