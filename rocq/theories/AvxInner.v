(** innerProdVec after the accumulation, and the whole function. *)
From Coq Require Import ZArith Lia.
From mathcomp Require Import all_ssreflect zify ssrZ.
From Verif Require Import JindoIntModel JindoIntProofs ZpModel ZpProofs ZpField AsmModel AsmProofs AvxModel AvxText
  AsmEntry AvxEntry AvxProofs AvxSum AvxDot.
Set Implicit Arguments. Unset Strict Implicit. Unset Printing Implicit Defensive.
Delimit Scope Z_scope with Z.
Local Arguments Z.mul : simpl never. Local Arguments Z.add : simpl never. Local Arguments Z.sub : simpl never.
Local Arguments Z.pow : simpl never. Local Arguments Z.of_nat : simpl never. Local Arguments Z.land : simpl never.
Local Arguments Z.div : simpl never. Local Arguments Z.modulo : simpl never.

(** * the accumulators hold the inner product *)
(** the sum of the products of the k elements at a, a+32, ... and b, b+32, ... *)
Fixpoint edot (m : memory) (a b : Z) (k : nat) : Z :=
  if k is k'.+1 then (val (m a) * val (m b) + edot m (a + 32) (b + 32) k')%Z else 0%Z.
Lemma total_ext z z' : (forall i j, (i < 16)%N -> (j < 8)%N -> z (16 + i)%N j = z' (16 + i)%N j) -> total z = total z'.
Proof.
move=> h; have hE i : (i < 16)%N -> horner (z (16 + i)%N) = horner (z' (16 + i)%N).
  by move=> hi; apply: horner_ext => j hj; apply: h.
rewrite /total; have := hE 0%N isT; have := hE 1%N isT; have := hE 2%N isT; have := hE 3%N isT; have := hE 4%N isT.
have := hE 5%N isT; have := hE 6%N isT; have := hE 7%N isT; have := hE 8%N isT; have := hE 9%N isT; have := hE 10%N isT.
have := hE 11%N isT; have := hE 12%N isT; have := hE 13%N isT; have := hE 14%N isT; have := hE 15%N isT.
by cbv [addn addn_rec Nat.add]; do 16 (move=> ->).
Qed.
Definition psums (m : memory) (a b : Z) (k : nat) : nat -> lane :=
  fun r => if (r < 24)%N then psum lo32 m a b k (r - 16) else psum hi32 m a b k (r - 24).
Lemma totalD z1 z2 : total (fun r j => z1 r j + z2 r j)%Z = (total z1 + total z2)%Z.
Proof. by rewrite /total !hornerD; ring. Qed.
Lemma total_prod x y (z : nat -> lane) : (forall i j, (i < 8)%N -> (j < 8)%N ->
   (z (16 + i)%N j + D * z (24 + i)%N j = digit x i * digit y j)%Z) -> total z = (horner (digit x) * horner (digit y))%Z.
Proof.
move=> h.
have hE i : (i < 8)%N -> (horner (z (16 + i)%N) + D * horner (z (24 + i)%N) = digit x i * horner (digit y))%Z.
  move=> hi; have -> : (D * horner (z (24 + i)%N) = horner (fun j => D * z (24 + i)%N j))%Z by rewrite /horner; ring.
  by rewrite -hornerD (horner_ext (f' := fun j => digit x i * digit y j)%Z) => [|j hj]; [rewrite /horner; ring|exact: h].
have := hE 0%N isT; have := hE 1%N isT; have := hE 2%N isT; have := hE 3%N isT; have := hE 4%N isT.
have := hE 5%N isT; have := hE 6%N isT; have := hE 7%N isT; rewrite /total; cbv [addn addn_rec Nat.add].
move=> e7 e6 e5 e4 e3 e2 e1 e0.
have -> : (horner (digit x) * horner (digit y) = digit x 0 * horner (digit y) + D * (digit x 1 * horner (digit y)) +
   W * (digit x 2 * horner (digit y) + D * (digit x 3 * horner (digit y)) + W * (digit x 4 * horner (digit y) + D * (digit x 5 * horner (digit y)) +
   W * (digit x 6 * horner (digit y) + D * (digit x 7 * horner (digit y))))))%Z by rewrite [horner (digit x)]/horner; ring.
rewrite -e0 -e1 -e2 -e3 -e4 -e5 -e6 -e7; have -> : W = (D * D)%Z by [].
ring.
Qed.
Section Dot.
Variables (g : gen) (q0 q1 q2 q3 : Z).
Hypothesis hq : qs g = [:: q0; q1; q2; q3].
Lemma psum_edot m a b k : (forall i, (i < k)%N -> limbs g (m (a + 32 * Z.of_nat i)%Z) /\ limbs g (m (b + 32 * Z.of_nat i)%Z)) ->
  total (psums m a b k) = edot m a b k /\
  forall i j, (0 <= psum lo32 m a b k i j <= Z.of_nat k * (D - 1))%Z /\ (0 <= psum hi32 m a b k i j <= Z.of_nat k * (D - 1))%Z.
Proof.
elim: k a b => [|k IH] a b h; first by split=> [|i j]; rewrite ?/total ?/horner /psums /=; lia.
have := h 0%N isT; rewrite !Z.mul_0_r !Z.add_0_r => -[[sa wa] [sb wb]].
have [|h1 h2] := IH (a + 32)%Z (b + 32)%Z.
  move=> i hi; have := h i.+1 hi; have hp x : (x + 32 * Z.of_nat i.+1 = x + 32 + 32 * Z.of_nat i)%Z by lia.
  by rewrite !hp.
pose P := fun r j => if (r < 24)%N then lo32 (digit (m a) (r - 16) * digit (m b) j) else hi32 (digit (m a) (r - 24) * digit (m b) j).
split.
  have -> : total (psums m a b k.+1) = total (fun r j => P r j + psums m (a + 32) (b + 32) k r j)%Z.
    by apply: total_ext => i j _ _; rewrite /psums /P; case: ifP.
  rewrite totalD h1 [edot _ _ _ _]/=; congr (_ + _)%Z.
  rewrite (total_prod (x := m a) (y := m b)) ?digit_val ?sa ?sb ?(nE hq) // => i j hi hj.
  rewrite /P; have -> : (16 + i < 24)%N by lia.
  have -> : (24 + i < 24)%N = false by lia.
  by rewrite !addKn -lohi.
move=> i j; have := h2 i j; have ha := digit_range i wa; have hb := digit_range j wb.
have hp : (0 <= digit (m a) i * digit (m b) j < W)%Z.
  by have -> : W = (D * D)%Z by []; split; [apply: Z.mul_nonneg_nonneg; lia|apply: Z.mul_lt_mono_nonneg; lia].
have := lo32_range (digit (m a) i * digit (m b) j); have := hi32_range hp.
rewrite /= Nat2Z.inj_succ Z.mul_succ_l; move: (psum lo32 _ _ _ _ _ _) (psum hi32 _ _ _ _ _ _) (Z.of_nat k * _)%Z => A1 A2 Y; clear; lia.
Qed.
Lemma edot_range m a b k : (forall i, (i < k)%N -> limbs g (m (a + 32 * Z.of_nat i)%Z) /\ limbs g (m (b + 32 * Z.of_nat i)%Z)) ->
  (0 <= edot m a b k <= Z.of_nat k * (2 ^ 256 * 2 ^ 256))%Z.
Proof.
elim: k a b => [|k IH] a b h; first by rewrite /=; lia.
have := h 0%N isT; rewrite !Z.mul_0_r !Z.add_0_r => -[ha hb].
have [|h1 h2] := IH (a + 32)%Z (b + 32)%Z.
  move=> i hi; have := h i.+1 hi; have hp x : (x + 32 * Z.of_nat i.+1 = x + 32 + 32 * Z.of_nat i)%Z by lia.
  by rewrite !hp.
have ra := limbs_range ha; have rb := limbs_range hb; rewrite (nE hq) -[B 4]/(2 ^ 256)%Z in ra rb.
rewrite /= Nat2Z.inj_succ Z.mul_succ_l.
have : (0 <= val (m a) * val (m b) < 2 ^ 256 * 2 ^ 256)%Z.
  by split; [apply: Z.mul_nonneg_nonneg; lia|apply: Z.mul_lt_mono_nonneg; lia].
by move: h1 h2; clear; lia.
Qed.
End Dot.

(** * the reduction *)
Lemma Add64_ge a b c z c' : word a -> word b -> (0 <= c)%Z -> Add64 a b c = (z, c') -> (0 <= c')%Z.
Proof. by move=> /wordP ha /wordP hb hc /Add64_eq [h1 /wordP h2]; move: h1 h2 ha hb hc; rewrite /W; clear; lia. Qed.
Ltac opstepG := lazymatch goal with
  | |- context [Add64 ?a ?b ?c] =>
    let z := fresh "z" in let c' := fresh "c" in let E := fresh "E" in let w := fresh "w" in
    destruct (Add64 a b c) as [z c'] eqn:E; cbv beta iota; destruct (Add64_eq E) as [? w];
    let Ha := fresh in let Hb := fresh in let Hc := fresh in
    assert (Ha : is_true (word a)) by first [assumption|reflexivity];
    assert (Hb : is_true (word b)) by first [assumption|reflexivity];
    assert (Hc : (0 <= c)%Z) by first [assumption|clear; lia];
    let G := fresh "G" in pose proof (Add64_ge Ha Hb Hc E) as G; clear Ha Hb Hc
  | _ => opstepS
  end.
Ltac vsg norm := match goal with
  | |- context [vexec ?e (?i :: ?p) (VSt ?c ?z ?k)] =>
    rewrite (vexec_cons e i p (VSt c z k)); vfields; norm; opstepG; vfields
  end.
Section Tail.
Variables (g : gen) (ok : okGen g) (q0 q1 q2 q3 : Z).
Hypothesis hq : qs g = [:: q0; q1; q2; q3].
Variable e : env.
Hypothesis he : eq_ e = qs g.
Hypothesis hi : eqi e = qInvNeg g.
Local Notation Q := (val (qs g)).
Ltac nq := idtac; rewrite ?hi ?(qE0 hq he) ?(qE1 hq he) ?(qE2 hq he) ?(qE3 hq he).
(** one Montgomery round on five words, the last zero *)
Lemma round_val x y mm K : all word x -> size x = 4%N -> all word y -> size y = 5%N -> word mm -> (0 <= K)%Z ->
  (W * val y + B 5 * K = val x + mm * Q)%Z -> (W * val y = val x + mm * Q)%Z /\ (val y < B 4)%Z.
Proof.
move=> hx sx hy sy /wordP hm hK h; have := val_range hx; have := val_range hy; rewrite sx sy => ry rx.
have hQ := Q_lt ok hq; have q0' := q_gt0 ok.
have hs : (val x + mm * Q < B 5)%Z.
  have : (mm * Q <= (W - 1) * Q)%Z by apply: Z.mul_le_mono_nonneg_r; lia.
  rewrite -[B 5]/(2 ^ 64 * 2 ^ 256)%Z; rewrite -[B 4]/(2 ^ 256)%Z in rx; move: rx hQ; rewrite /W; clear; lia.
have K0 : K = 0%Z.
  have : (0 <= W * val y)%Z by apply: Z.mul_nonneg_nonneg; rewrite /W; lia.
  by move: h hs hK; rewrite -[B 5]/(2 ^ 320)%Z; clear; lia.
rewrite K0 Z.mul_0_r Z.add_0_r in h; split=> //.
by move: h hs; rewrite -[B 5]/(W * B 4)%Z; move: (B 4) => X; rewrite /W; clear; lia.
Qed.
Definition roundSpec (p : seq vinstr) (x0 x1 x2 x3 x4 : st -> Z) : Prop := forall c z k,
  all word [:: x0 c; x1 c; x2 c; x3 c] -> x4 c = 0%Z ->
  exists c' mm, [/\ vexec e p (VSt c z k) = VSt c' z k, mem c' = mem c,
    all word [:: x1 c'; x2 c'; x3 c'; x4 c'], x0 c' = 0%Z &
    word mm /\ (W * val [:: x1 c'; x2 c'; x3 c'; x4 c'] = val [:: x0 c; x1 c; x2 c; x3 c] + mm * Q)%Z].
Lemma top0 a b c d f : all word [:: a; b; c; d; f] -> (val [:: a; b; c; d; f] < B 4)%Z ->
  f = 0%Z /\ val [:: a; b; c; d; f] = val [:: a; b; c; d].
Proof.
move/all5 => [/wordP ha /wordP hb /wordP hc /wordP hd /wordP hf]; rewrite !val_cons val_nil -[B 4]/(W * (W * (W * W)))%Z => h.
have f0 : f = 0%Z by move: h ha hb hc hd hf; rewrite /W; clear; lia.
by rewrite f0; split=> //; ring.
Qed.
Lemma all4 a b c d : all word [:: a; b; c; d] -> [/\ word a, word b, word c & word d].
Proof. by rewrite /= => /andP[-> /andP[-> /andP[-> /andP[-> _]]]]. Qed.
Lemma mk4 a b c d : word a -> word b -> word c -> word d -> all word [:: a; b; c; d].
Proof. by rewrite /= => -> -> -> ->. Qed.
Lemma low_word t mm hh h l u c : word t -> Mul64 (qInvNeg g) t = (hh, mm) -> Mul64 mm q0 = (h, l) -> Add64 t l 0 = (u, c) ->
  u = 0%Z /\ t = (W * c + W * h - mm * q0)%Z.
Proof.
move=> ht E1 E2; rewrite Add64C => E3; have [w0 _ _ _] := wq ok hq.
have zz : u = 0%Z by apply: (montLowX ok ht E1 _ E3); rewrite hq; exact: E2.
have [_ wm _] := Mul64_eq (ok_inv ok) ht E1.
by split=> //; have [e2 _] := Add64_eq E3; have [e1 _ _] := Mul64_eq wm w0 E2; move: zz e2 e1; clear; lia.
Qed.
Ltac round := move=> [vax vbx vcx vdx vsi vdi vbp vr8 vr9 vr10 vr11 vr12 vr13 vr14 vr15 vcf vof vs0 vs1 vs2 vs3 vs4 vs5 vs6 vs7 vs8 vm];
  move=> z k; cbn [si di r8 r9 bx mem]; let hw := fresh "hw" in move=> hw ->;
  let wq0 := fresh in let wq1 := fresh in let wq2 := fresh in let wq3 := fresh in have [wq0 wq1 wq2 wq3] := wq ok hq;
  let w0 := fresh "w0" in let w1 := fresh in let w2 := fresh in let w3 := fresh in have [w0 w1 w2 w3] := all4 hw;
  let wi := fresh in have wi := ok_inv ok;
  rewrite /innerProd_m0 /innerProd_m1 /innerProd_m2 /innerProd_m3; do 4 (vsg ltac:(nq));
  match goal with E1 : Mul64 (qInvNeg g) ?t = (_, ?m), E2 : Mul64 ?m q0 = (?h, ?l), E3 : Add64 ?t ?l 0 = (?u, ?c) |- _ =>
    let zz := fresh in let el := fresh in have [zz el] := low_word w0 E1 E2 E3;
    rewrite zz; clear E3; do 12 (vsg ltac:(nq)); rewrite vexec_nil;
    idtac
  end.
Lemma round_end x0 x1 x2 x3 y0 y1 y2 y3 y4 mm a b : all word [:: x0; x1; x2; x3] ->
  word y0 -> word y1 -> word y2 -> word y3 -> word y4 -> word mm -> (0 <= a)%Z -> (0 <= b)%Z ->
  (W * val [:: y0; y1; y2; y3; y4] + B 5 * (a + W * b) = val [:: x0; x1; x2; x3] + mm * Q)%Z ->
  y4 = 0%Z /\ (W * val [:: y0; y1; y2; y3] = val [:: x0; x1; x2; x3] + mm * Q)%Z.
Proof.
move=> hx h0 h1 h2 h3 h4 hm ha hb h; have hy := mk5 h0 h1 h2 h3 h4.
have hK : (0 <= a + W * b)%Z by move: ha hb; rewrite /W; clear; lia.
have [e1 e2] := round_val hx erefl hy erefl hm hK h.
by have [e3 e4] := top0 hy e2; rewrite -e4.
Qed.
Lemma round0 : roundSpec innerProd_m0 si di r8 r9 bx.
Proof.
round.
have key : (W * val [:: z5; z6; z7; z8; z9] + B 5 * (c3 + W * c8) = val [:: vsi; vdi; vr8; vr9] + l * Q)%Z.
  clear H9; by rewrite (qval hq) !val_cons val_nil !BS B0; lincomb; rewrite H19; ring.
have [h4 h5] := round_end hw w5 w6 w7 w8 w9 H10 G3 G8 key.
by eexists; exists l; split; [reflexivity|by []|exact: mk4|exact: h4|by split].
Qed.
Lemma round1 : roundSpec innerProd_m1 di r8 r9 bx si.
Proof.
round.
have key : (W * val [:: z5; z6; z7; z8; z9] + B 5 * (c3 + W * c8) = val [:: vdi; vr8; vr9; vbx] + l * Q)%Z.
  clear H9; by rewrite (qval hq) !val_cons val_nil !BS B0; lincomb; rewrite H19; ring.
have [h4 h5] := round_end hw w5 w6 w7 w8 w9 H10 G3 G8 key.
by eexists; exists l; split; [reflexivity|by []|exact: mk4|exact: h4|by split].
Qed.
Lemma round2 : roundSpec innerProd_m2 r8 r9 bx si di.
Proof.
round.
have key : (W * val [:: z5; z6; z7; z8; z9] + B 5 * (c3 + W * c8) = val [:: vr8; vr9; vbx; vsi] + l * Q)%Z.
  clear H9; by rewrite (qval hq) !val_cons val_nil !BS B0; lincomb; rewrite H19; ring.
have [h4 h5] := round_end hw w5 w6 w7 w8 w9 H10 G3 G8 key.
by eexists; exists l; split; [reflexivity|by []|exact: mk4|exact: h4|by split].
Qed.
Lemma round3 : roundSpec innerProd_m3 r9 bx si di r8.
Proof.
round.
have key : (W * val [:: z5; z6; z7; z8; z9] + B 5 * (c3 + W * c8) = val [:: vr9; vbx; vsi; vdi] + l * Q)%Z.
  clear H9; by rewrite (qval hq) !val_cons val_nil !BS B0; lincomb; rewrite H19; ring.
have [h4 h5] := round_end hw w5 w6 w7 w8 w9 H10 G3 G8 key.
by eexists; exists l; split; [reflexivity|by []|exact: mk4|exact: h4|by split].
Qed.
Ltac destr := case=> vax vbx vcx vdx vsi vdi vbp vr8 vr9 vr10 vr11 vr12 vr13 vr14 vr15 vcf vof vs0 vs1 vs2 vs3 vs4 vs5 vs6 vs7 vs8 vm.
Lemma low_spec c z k : exists c' z', [/\ vexec e innerProd_low (VSt c z k) = VSt c' z' k, mem c' = mem c,
  [:: si c'; di c'; r8 c'; r9 c'] = mkseq (z 0%N) 4, bx c' = 0%Z &
  [:: z' 0%N 0%N; z' 0%N 1%N; z' 0%N 2%N; z' 0%N 3%N; z' 0%N 4%N] = [:: z 0%N 4%N; z 0%N 5%N; z 0%N 6%N; z 0%N 7%N; z 1%N 0%N]].
Proof.
move: c; destr; rewrite /innerProd_low; do 9 (vsx ltac:(idtac)); rewrite vexec_nil.
by do 2 eexists; split; [reflexivity|by []|by []|exact: Z.lxor_nilpotent|by []].
Qed.
Lemma high_spec c z k : all word [:: bx c; si c; di c; r8 c] -> r9 c = 0%Z ->
  all word [:: z 0%N 0%N; z 0%N 1%N; z 0%N 2%N; z 0%N 3%N; z 0%N 4%N] ->
  exists c' z' K, [/\ vexec e innerProd_high (VSt c z k) = VSt c' z' k, mem c' = mem c,
    all word [:: bx c'; si c'; di c'; r8 c'; r9 c'], (0 <= K)%Z &
    (val [:: bx c'; si c'; di c'; r8 c'; r9 c'] + B 5 * K = val [:: bx c; si c; di c; r8 c] +
      val [:: z 0%N 0%N; z 0%N 1%N; z 0%N 2%N; z 0%N 3%N; z 0%N 4%N])%Z].
Proof.
move: c; destr; cbn [bx si di r8 r9 mem] => hw -> hz.
have [w0 w1 w2 w3] := all4 hw; have [y0 y1 y2 y3 y4] := all5 hz.
have vq (f : lane) j : (j < 7)%N -> valignq 1 f f j = f j.+1.
  by move=> h; rewrite /valignq /cat2 addn1 ltnS h.
rewrite /innerProd_high; do 14 (vsg ltac:(cbv beta iota delta [upd Nat.eqb]; rewrite ?vq //)); rewrite vexec_nil.
do 2 eexists; exists c3; split; [reflexivity|by []|by apply: mk5|by []|]; cbn [bx si di r8 r9].
by rewrite !val_cons val_nil !BS B0; lincomb; ring.
Qed.
Hypothesis Qlow : (2 ^ 224 < Q)%Z.
Variable m : Z.
Hypothesis hmu : (m * Q <= 2 ^ 288 < (m + 1) * Q)%Z.
Lemma dot_barrett c z k (U := val [:: bx c; si c; di c; r8 c; r9 c]) :
  all word [:: bx c; si c; di c; r8 c; r9 c] -> (U < 2 ^ 288)%Z ->
  exists c' h, [/\ vexec e (innerProd_barrett m) (VSt c z k) = VSt c' z k, mem c' = mem c,
    all word [:: bx c'; si c'; di c'; r8 c'; r9 c'],
    val [:: bx c'; si c'; di c'; r8 c'; r9 c'] = (U - h * Q)%Z & (0 <= U - h * Q < 3 * Q)%Z].
Proof.
move: @U; move: c; destr.
cbn [bx si di r8 r9 mem] => hw hU; have [wq0 wq1 wq2 wq3] := wq ok hq.
have [ht _] := shrd_val hw hU; have wm := mu_word Qlow hmu.
have [w0 w1 w2 w3 w4] := all5 hw.
rewrite /innerProd_barrett.
do 3 (vss ltac:(idtac)).
change (64 - 32)%Z with 32%Z; set t := (_ + (_ * _) mod W)%Z in ht *.
vss ltac:(idtac).
do 13 (vss ltac:(nq)); rewrite vexec_nil.
have hw' : all word [:: z0; z5; z6; z7; z8] by apply: mk5.
have [||e1 e2] := barrettU ok hq Qlow hmu (hh := h) (K := (- (c3 + c7))%Z) hw hw' hU; first by exists l.
  by rewrite (qval hq) !val_cons val_nil !BS B0; lincomb; ring.
by eexists; exists h; split; [reflexivity|by []|exact: hw'|exact: e1|exact: e2].
Qed.
(** the four words stored, then q subtracted *)
Lemma dot_sub2 c z k pr (V := val [:: bx c; si c; di c; r8 c; r9 c]) : r11 c = pr -> size (mem c pr) = 4%N ->
  all word [:: bx c; si c; di c; r8 c; r9 c] ->
  exists c', [/\ vexec e innerProd_sub2 (VSt c z k) = VSt c' z k, mem c' =1 put (mem c) pr [:: bx c; si c; di c; r8 c],
    r11 c' = pr, (0 <= cf c' <= 1)%Z &
    all word [:: bx c'; si c'; di c'; r8 c'; r9 c'] /\
    val [:: bx c'; si c'; di c'; r8 c'; r9 c'] = (V - Q + B 5 * cf c')%Z].
Proof.
move: @V; move: c; destr.
cbn [bx si di r8 r9 r11 mem] => hr hs hw; have [wq0 wq1 wq2 wq3] := wq ok hq.
have [w0 w1 w2 w3 w4] := all5 hw.
rewrite /innerProd_sub2; do 9 (vss ltac:(nq)); rewrite vexec_nil.
eexists; split; [reflexivity| |by []|by []|]; cbn [bx si di r8 r9 cf mem]; first by rewrite hr; apply: storesE.
split; first by apply: mk5.
by rewrite (qval hq) !val_cons val_nil !BS B0; lincomb; ring.
Qed.
Lemma dot_sub1 c z k pr : nth 0%Z (fp e) 0 = pr -> exists c', [/\ vexec e innerProd_sub1 (VSt c z k) = vexec e innerProd_sub2 (VSt c' z k),
  mem c' = mem c, r11 c' = pr & [:: bx c'; si c'; di c'; r8 c'; r9 c'] = [:: bx c; si c; di c; r8 c; r9 c]].
Proof.
move: c; destr => hfp; rewrite /innerProd_sub1; vss ltac:(rewrite ?hfp); eexists; split; [reflexivity|by []|by []|by []].
Qed.
Lemma dot_last c z k pr : r11 c = pr -> size (mem c pr) = 4%N ->
  exists c', vexec e innerProd_last (VSt c z k) = VSt c' z k /\ mem c' =1 put (mem c) pr [:: bx c; si c; di c; r8 c].
Proof.
move: c; destr; cbn [r11 mem] => hr hs.
rewrite /innerProd_last; do 4 (vss ltac:(idtac)); rewrite vexec_nil; eexists; split; [reflexivity|].
by cbn [mem bx si di r8]; rewrite hr; apply: storesE.
Qed.
Lemma put_put mm pr x y : put (put mm pr x) pr y =1 put mm pr y.
Proof. by move=> p; rewrite /put; case: Z.eqb. Qed.
Lemma put_ext m1 m2 pr x : m1 =1 m2 -> put m1 pr x =1 put m2 pr x.
Proof. by move=> h p; rewrite /put h. Qed.
Lemma dot_finish c z k pr (V := val [:: bx c; si c; di c; r8 c; r9 c]) : nth 0%Z (fp e) 0 = pr -> size (mem c pr) = 4%N ->
  all word [:: bx c; si c; di c; r8 c; r9 c] -> (V < 3 * Q)%Z ->
  exists c' r i, [/\ jcs (fun s => jcs (vexec e innerProd_last) (vexec e innerProd_sub2 s)) (vexec e innerProd_sub1 (VSt c z k)) = VSt c' z k,
    mem c' =1 put (mem c) pr r, red g r & val r = (V - i * Q)%Z].
Proof.
move=> hfp hs hw hV; have hQ := Q_lt ok hq; have h5 : B 5 = (2 ^ 320)%Z by [].
have [c0 [-> m0 r0 v0]] := dot_sub1 c z k hfp.
have hv0 : val [:: bx c0; si c0; di c0; r8 c0; r9 c0] = V by rewrite v0.
have hm0 : [:: bx c0; si c0; di c0; r8 c0] = [:: bx c; si c; di c; r8 c] by case: v0 => -> -> -> ->.
rewrite -v0 in hw; rewrite -m0 in hs.
have [c1 [-> m1 r1 f1 [w1 v1]]] := dot_sub2 z k r0 hs hw; rewrite hv0 in v1; rewrite hm0 m0 in m1.
have g1 := val5_range w1; have g0 := val5_range hw; rewrite hv0 in g0.
rewrite v0 in hw; rewrite /jcs; cbn [sc].
case: Z.eqb_spec => h.
  have [|h1 h2] := five ok hq hw; first by rewrite -/V; move: v1 g1; rewrite h h5; lia.
  by exists c1, [:: bx c; si c; di c; r8 c], 0%Z; split=> //; rewrite h2 -/V; lia.
have {}h : cf c1 = 0%Z by lia.
rewrite h Z.mul_0_r Z.add_0_r in v1.
have s1 : size (mem c1 pr) = 4%N by rewrite m1 /put Z.eqb_refl.
have [c2 [-> m2 r2 f2 [w2 v2]]] := dot_sub2 z k r1 s1 w1; rewrite v1 in v2.
have {}m2 p : mem c2 p = put (mem c) pr [:: bx c1; si c1; di c1; r8 c1] p by rewrite m2 (put_ext _ _ m1) put_put.
have g2 := val5_range w2; cbn [sc].
case: Z.eqb_spec => h'.
  have [|h1 h2] := five ok hq w1; first by rewrite v1; move: v2 g2; rewrite h' h5; lia.
  by exists c2, [:: bx c1; si c1; di c1; r8 c1], 1%Z; split=> //; rewrite h2 v1; lia.
have {}h' : cf c2 = 0%Z by lia.
rewrite h' Z.mul_0_r Z.add_0_r in v2.
have s2 : size (mem c2 pr) = 4%N by rewrite m2 /put Z.eqb_refl.
have [c3 [-> m3]] := dot_last z k r2 s2.
have [|h1 h2] := five ok hq w2; first by rewrite v2; lia.
exists c3, [:: bx c2; si c2; di c2; r8 c2], 2%Z; split=> //; last by rewrite h2 v2; lia.
by move=> p; rewrite m3 (put_ext _ _ m2) put_put.
Qed.
End Tail.

Section Inner.
Variables (g : gen) (ok : okGen g) (q0 q1 q2 q3 : Z).
Hypothesis hq : qs g = [:: q0; q1; q2; q3].
Variable e : env.
Hypothesis he : eq_ e = qs g.
Hypothesis hi : eqi e = qInvNeg g.
Hypothesis Qlow : (2 ^ 224 < val (qs g))%Z.
Hypothesis hmu : (mu g * val (qs g) <= 2 ^ 288 < (mu g + 1) * val (qs g))%Z.
Local Notation Q := (val (qs g)).
Lemma lane_word f j : lanes f -> (j < 8)%N -> word (f j).
Proof. by move=> h hj; apply/wordP; apply: h. Qed.
Lemma dot_tail c z k pr : nth 0%Z (fp e) 0 = pr -> size (mem c pr) = 4%N ->
  (forall j, (j < 8)%N -> z 5%N j = (D - 1)%Z) -> ranged z -> (0 <= total z < (2 ^ 32 - 1) * (2 ^ 256 * 2 ^ 256))%Z ->
  exists s' r i, [/\ innerProd_tail g e (VSt c z k) = s', mem (sc s') =1 put (mem c) pr r, red g r &
    (B 4 * val r = total z + i * Q)%Z].
Proof.
move=> hfp hs hmask hr hT; rewrite /innerProd_tail.
have [|c1 [z1 [k1 [-> m1 l1 t1 v1]]]] := acc_spec e c k hmask hr.
  by move: hT; rewrite /D; move: (total z) => T; clear; lia.
have [c2 [z2 [-> m2 a2 b2 d2]]] := low_spec e c1 z1 k1.
have wl : all word [:: si c2; di c2; r8 c2; r9 c2].
  by rewrite a2; apply: mk4; apply: lane_word.
have [c3 [x0 [-> m3 w3 n3 [wx0 v3]]]] := round0 ok hq he hi z2 k1 wl b2.
have [c4 [x1 [-> m4 w4 n4 [wx1 v4]]]] := round1 ok hq he hi z2 k1 w3 n3.
have [c5 [x2 [-> m5 w5 n5 [wx2 v5]]]] := round2 ok hq he hi z2 k1 w4 n4.
have [c6 [x3 [-> m6 w6 n6 [wx3 v6]]]] := round3 ok hq he hi z2 k1 w5 n5.
have wh : all word [:: z2 0%N 0%N; z2 0%N 1%N; z2 0%N 2%N; z2 0%N 3%N; z2 0%N 4%N].
  by rewrite d2; apply: mk5; try exact: lane_word; apply/wordP; move: t1; rewrite /D /W; clear; lia.
have [c7 [z7 [K [-> m7 w7 K7 v7]]]] := high_spec e k1 w6 n6 wh.
set U := val [:: bx c7; si c7; di c7; r8 c7; r9 c7] in v7.
set M := (x0 + W * (x1 + W * (x2 + W * x3)))%Z.
have hM : (0 <= M < B 4)%Z.
  move/wordP: wx0 => wx0; move/wordP: wx1 => wx1; move/wordP: wx2 => wx2; move/wordP: wx3 => wx3.
  by rewrite -[B 4]/(W * (W * (W * W)))%Z /M; move: wx0 wx1 wx2 wx3; rewrite /W; clear; lia.
have lowE : (B 4 * val [:: bx c6; si c6; di c6; r8 c6] = val [:: si c2; di c2; r8 c2; r9 c2] + M * Q)%Z.
  have -> : (M * Q = x0 * Q + W * (x1 * Q + W * (x2 * Q + W * (x3 * Q))))%Z by rewrite /M; ring.
  rewrite -[B 4]/(W * (W * (W * W)))%Z; move: v3 v4 v5 v6.
  by move: (x0 * Q)%Z (x1 * Q)%Z (x2 * Q)%Z (x3 * Q)%Z (val _) (val _) (val _) (val _) (val _); rewrite /W; clear; lia.
have big : (B 4 * (U + B 5 * K) = total z + M * Q)%Z.
  rewrite v7 Z.mul_add_distr_l lowE d2 a2 -v1 /word8 /mkseq [map _ _]/= !val_cons !val_nil -[B 8]/(W * (W * (W * (W * (W * (W * (W * W)))))))%Z -[B 4]/(W * (W * (W * W)))%Z; ring.
have hQ := Q_lt ok hq; have gU := val5_range w7; rewrite -/U in gU.
have hMQ : (0 <= M * Q <= 2 ^ 256 * 2 ^ 256)%Z.
  rewrite -[B 4]/(2 ^ 256)%Z in hM; split; first by apply: Z.mul_nonneg_nonneg; move: hM Qlow; clear; lia.
  by apply: Z.mul_le_mono_nonneg; move: hM hQ Qlow; clear; lia.
have hU : (U < 2 ^ 288)%Z.
  by rewrite -[B 4]/(2 ^ 256)%Z -[B 5]/(2 ^ 320)%Z in big; move: big hMQ hT K7 gU; move: (total z) (M * Q)%Z => T X; clear; lia.
have K0 : K = 0%Z.
  by rewrite -[B 4]/(2 ^ 256)%Z -[B 5]/(2 ^ 320)%Z in big gU; move: big hMQ hT K7 gU; move: (total z) (M * Q)%Z => T X; clear; lia.
rewrite K0 Z.mul_0_r Z.add_0_r in big.
have [c8 [h [-> m8 w8 v8 b8]]] := dot_barrett ok hq he Qlow hmu z7 k1 w7 hU.
rewrite -/U in v8 b8; rewrite -v8 in b8.
have [||c9 [r [i [-> h2 h3 h4]]]] := dot_finish ok hq he (c := c8) z7 k1 hfp _ w8; [by rewrite m8 m7 m6 m5 m4 m3 m2 m1|by case: b8|].
eexists; exists r, (M - B 4 * (h + i))%Z; split; [reflexivity| |by []|].
  by move=> p; cbn [sc]; rewrite h2 m8 m7 m6 m5 m4 m3 m2 m1.
by rewrite h4 v8 !Z.mul_sub_distr_l big; ring.
Qed.
Lemma inner_asm s pr a b n : (forall i, (i < n)%N -> limbs g (mem (sc s) (a + 32 * Z.of_nat i)%Z) /\ limbs g (mem (sc s) (b + 32 * Z.of_nat i)%Z)) ->
  fp e = [:: pr; a; b; Z.of_nat n] -> size (mem (sc s) pr) = 4%N -> (0 < n)%N -> (Z.of_nat n < 2 ^ 32 - 1)%Z ->
  (0 <= a)%Z -> (a + 32 * Z.of_nat n < W)%Z -> (0 <= b)%Z -> (b + 32 * Z.of_nat n < W)%Z ->
  exists s' r, [/\ (let s := testq (vexec e innerProd_head s) in
    if (getr (sc s) CX =? 0)%Z then Some s else
    if loop e (Z.to_nat (Z.of_nat n)) CX innerProd_body s is Some s then Some (innerProd_tail g e s) else None) = Some s',
    mem (sc s') =1 put (mem (sc s)) pr r, red g r & eqq g (B 4 * val r) (edot (mem (sc s)) a b n)].
Proof.
case: s => c z k; cbn [sc] => hm hfp hs n0 hn ha0 ha hb0 hb; rewrite Nat2Z.id.
have [c1 [z1 [-> m1 [p1 x1 y1] a1 b1]]] := dot_head c z k hfp.
cbn [testq onsc sc]; set c0 := setf c1 0 0.
have [e1 e2 e3 e4] : [/\ r13 c0 = a, r14 c0 = b, cx c0 = Z.of_nat n & mem c0 = mem c].
  by rewrite -p1 -x1 -y1 -m1 /c0; case: (c1).
have -> : (getr c0 CX =? 0)%Z = false by rewrite -[getr c0 CX]/(cx c0) e3; lia.
have r1 : ranged z1 by move=> i j hi' _; rewrite b1.
have hw i : (i < n)%N -> all word (mem c0 (r14 c0 + 32 * Z.of_nat i)%Z).
  by move=> hi'; rewrite e2 e4; have [_ []] := hm i hi'.
have nW : (Z.of_nat n < W)%Z by move: hn; rewrite /W; clear; lia.
have [||||c2 [z2 [-> m2 k2 r2 v2]]] := @dot_loop e n n c0 z1 k (leqnn n) e3 nW _ _ _ _ a1 r1 hw; rewrite ?e1 ?e2 //.
rewrite e1 e2 e4 in v2.
have [d1 d2] := psum_edot hq hm; have er := edot_range hq hm.
have tot : total z2 = edot (mem c) a b n.
  rewrite -d1; apply: total_ext => i j hi' hj; rewrite /psums.
  have small x : (0 <= x <= Z.of_nat n * (D - 1))%Z -> (x mod W = x)%Z.
    by move=> hx; apply: Z.mod_small; move: hx hn; rewrite /W /D; clear; nia.
  have zs := Z.mod_small _ _ (r2 i j hi' hj); rewrite -zs.
  case: ifP => h24.
    have h8 : (i < 8)%N by lia.
    have [-> _] := v2 i j h8 hj; rewrite b1 // Z.add_0_l addKn small //; by case: (d2 i j).
  have [i' ei hi8] : exists2 i', i = (8 + i')%N & (i' < 8)%N by exists (i - 8)%N; lia.
  have e24 : (16 + i = 24 + i')%N by rewrite ei addnA.
  have [_] := v2 i' j hi8 hj; rewrite e24 => ->.
  by rewrite -e24 b1 // Z.add_0_l e24 addKn small //; case: (d2 i' j).
have hf : nth 0%Z (fp e) 0 = pr by rewrite hfp.
have hs2 : size (mem c2 pr) = 4%N by rewrite m2 e4.
have hk2 j : (j < 8)%N -> z2 5%N j = (D - 1)%Z by rewrite k2; apply: a1.
have ht : (0 <= total z2 < (2 ^ 32 - 1) * (2 ^ 256 * 2 ^ 256))%Z by rewrite tot; move: er hn n0; clear; nia.
have [s' [r [i [e5 h2 h3 h4]]]] := dot_tail k hf hs2 hk2 r2 ht.
exists s', r; split; [by rewrite e5| |exact: h3|by exists i; rewrite h4 tot].
by move=> p; rewrite h2 m2 e4.
Qed.
End Inner.
