(** sumVec: the accumulation in AVX512 lanes, the propagation of carries and the Barrett reduction. *)
From Coq Require Import ZArith Lia.
From mathcomp Require Import all_ssreflect zify ssrZ.
From Verif Require Import JindoIntModel JindoIntProofs ZpModel ZpProofs ZpField AsmModel AsmProofs AvxModel AvxText
  AsmEntry AvxEntry AvxProofs.
Set Implicit Arguments. Unset Strict Implicit. Unset Printing Implicit Defensive.
Delimit Scope Z_scope with Z.
Local Arguments Z.mul : simpl never. Local Arguments Z.add : simpl never. Local Arguments Z.sub : simpl never.
Local Arguments Z.pow : simpl never. Local Arguments Z.of_nat : simpl never.

(** * arithmetic *)
Lemma Sub64_eq x y b z b' : word x -> word y -> (0 <= b <= 1)%Z -> Sub64 x y b = (z, b') ->
  [/\ (z = x - y - b - W * (- b'))%Z, word z & (0 <= b' <= 1)%Z].
Proof. by move=> hx hy hb /(Sub64_val hx hy hb) [h1 h2 h3]; split=> //; lia. Qed.
Ltac opstepS := lazymatch goal with
  | |- context [Sub64 ?a ?b ?c] =>
    let z := fresh "z" in let c' := fresh "c" in let E := fresh "E" in
    destruct (Sub64 a b c) as [z c'] eqn:E; cbv beta iota;
    let Ha := fresh in let Hb := fresh in let Hc := fresh in
    assert (Ha : is_true (word a)) by assumption;
    assert (Hb : is_true (word b)) by first [assumption|reflexivity];
    assert (Hc : (0 <= c <= 1)%Z) by first [assumption|clear; lia];
    destruct (Sub64_eq Ha Hb Hc E) as [? ? ?]; clear Ha Hb Hc
  | _ => opstep
  end.
Ltac vss norm := match goal with
  | |- context [vexec ?e (?i :: ?p) (VSt ?c ?z ?k)] =>
    rewrite (vexec_cons e i p (VSt c z k)); vfields; norm; opstepS; vfields
  end.

(** the quotient of the single word Barrett reduction is too small by two at most *)
Lemma barrett_bound Q m U t h : (2 ^ 224 <= Q)%Z -> (m * Q <= 2 ^ 288 < (m + 1) * Q)%Z -> (0 <= m)%Z ->
  (t * 2 ^ 224 <= U < (t + 1) * 2 ^ 224)%Z -> (0 <= t < 2 ^ 64)%Z ->
  (h * 2 ^ 64 <= t * m < (h + 1) * 2 ^ 64)%Z -> (0 <= U - h * Q < 3 * Q)%Z.
Proof.
move=> hQ [hm1 hm2] hm [ht1 ht2] ht [hh1 hh2].
have a1 : (h * 2 ^ 64 * Q <= t * m * Q)%Z by apply: Z.mul_le_mono_nonneg_r; lia.
have a2 : (t * (m * Q) <= t * 2 ^ 288)%Z by apply: Z.mul_le_mono_nonneg_l; lia.
have a3 : (t * m * Q < (h + 1) * 2 ^ 64 * Q)%Z by apply: (proj1 (Z.mul_lt_mono_pos_r _ _ _ _)); lia.
have a4 : (t * 2 ^ 288 <= t * ((m + 1) * Q))%Z by apply: Z.mul_le_mono_nonneg_l; lia.
have a5 : (t * Q <= 2 ^ 64 * Q)%Z by apply: Z.mul_le_mono_nonneg_r; lia.
lia.
Qed.

Section Tail.
Variables (g : gen) (ok : okGen g) (q0 q1 q2 q3 : Z).
Hypothesis hq : qs g = [:: q0; q1; q2; q3].
Variable e : env.
Hypothesis he : eq_ e = qs g.
Local Notation Q := (val (qs g)).
Ltac nq := idtac; rewrite ?(qE0 hq he) ?(qE1 hq he) ?(qE2 hq he) ?(qE3 hq he).

Lemma lo_shift a : ((Z.land a 4294967295 * 2 ^ 32) mod W = D * lo32 a)%Z.
Proof.
have -> : 4294967295%Z = Z.ones 32 by []; rewrite Z.land_ones; last by lia.
rewrite /lo32 /D Z.mod_small; first by lia.
have := Z.mod_pos_bound a (2 ^ 32) ltac:(lia); rewrite /W; lia.
Qed.
Lemma lohi a : (a = lo32 a + D * hi32 a)%Z.
Proof. by rewrite /lo32 /hi32 {1}(Z_div_mod_eq_full a D); lia. Qed.

Lemma carry_spec c z k :
  exists c' K, [/\ vexec e sumVec_carry (VSt c z k) = VSt c' z k, mem c' = mem c,
    all word [:: bx c'; di c'; r9 c'; r11 c'; r12 c'] &
    (val [:: bx c'; di c'; r9 c'; r11 c'; r12 c'] + B 5 * K =
     bx c + D * si c + W * (di c + D * r8 c + W * (r9 c + D * r10 c + W * (r11 c + D * r12 c))))%Z].
Proof.
case: c => vax vbx vcx vdx vsi vdi vbp vr8 vr9 vr10 vr11 vr12 vr13 vr14 vr15 vcf vof vs0 vs1 vs2 vs3 vs4 vs5 vs6 vs7 vs8 vm.
rewrite /sumVec_carry.
do 16 (vsx ltac:(idtac)).
rewrite !lo_shift.
do 10 (vsx ltac:(rewrite ?Z.lxor_nilpotent)); rewrite vexec_nil.
eexists; exists (c6 + c7)%Z; split; [reflexivity|by []| |]; cbn [bx di r9 r11 r12 si r8 r10 r9].
  by rewrite /= w w1 w3 w5 w7.
rewrite !val_cons val_nil !BS B0; lincomb.
have hs a : (D * a = D * lo32 a + W * (a / 2 ^ 32))%Z.
  by rewrite {1}(lohi a) /hi32; have -> : W = (D * D)%Z by []; rewrite -/D; ring.
by rewrite (hs vsi) (hs vr8) (hs vr10) (hs vr12); ring.
Qed.

Hypothesis Qlow : (2 ^ 224 < Q)%Z.
Variable m : Z.
Hypothesis hmu : (m * Q <= 2 ^ 288 < (m + 1) * Q)%Z.
Lemma mu_word : word m.
Proof.
have h0 : (0 <= m)%Z.
  by case: (Z_lt_le_dec m 0) => // h; have := Z.mul_le_mono_nonneg_r (m + 1) 0 Q; lia.
apply/wordP; split=> //; case: (Z_lt_le_dec m W) => // h.
by have := Z.mul_le_mono_nonneg_r W m Q; move: h hmu Qlow; rewrite /W; lia.
Qed.
Lemma Q_lt : (Q < 2 ^ 256)%Z. Proof. by have := q_lt ok; rewrite (nE hq) /B /W. Qed.
Lemma all5 a b c d f : all word [:: a; b; c; d; f] -> [/\ word a, word b, word c, word d & word f].
Proof. by rewrite /= => /andP[-> /andP[-> /andP[-> /andP[-> /andP[-> _]]]]]. Qed.
Lemma mk5 a b c d f : word a -> word b -> word c -> word d -> word f -> all word [:: a; b; c; d; f].
Proof. by rewrite /= => -> -> -> -> ->. Qed.
Lemma val5_range a b c d f : all word [:: a; b; c; d; f] -> (0 <= val [:: a; b; c; d; f] < B 5)%Z.
Proof. by move/val_range. Qed.
Lemma shrd_val a b c d f : all word [:: a; b; c; d; f] -> (val [:: a; b; c; d; f] < 2 ^ 288)%Z ->
  let t := (d / 2 ^ 32 + (f * 2 ^ 32) mod W)%Z in let U := val [:: a; b; c; d; f] in
  [/\ word t & (t * 2 ^ 224 <= U < (t + 1) * 2 ^ 224)%Z].
Proof.
move/all5 => [/wordP ha /wordP hb /wordP hc /wordP hd /wordP hf]; rewrite !val_cons val_nil => hU t U.
have hf' : (0 <= f < 2 ^ 32)%Z by move: hU ha hb hc hd hf; rewrite /W; clear; lia.
have hd0 := Z_div_mod_eq_full d (2 ^ 32); have hd1 := Z.mod_pos_bound d (2 ^ 32) ltac:(lia).
have hd2 : (0 <= d / 2 ^ 32 < 2 ^ 32)%Z by move: hd0 hd1 hd; rewrite /W; clear; lia.
have et : t = (d / 2 ^ 32 + f * 2 ^ 32)%Z by rewrite /t Z.mod_small //; move: hf'; rewrite /W; clear; lia.
rewrite et /U; split; first by apply/wordP; move: hd2 hf'; rewrite /W; clear; lia.
by move: hd0 hd1 ha hb hc; rewrite /W; clear; lia.
Qed.

(** the value after the first phase of the reduction *)
Lemma barrettU a b c d f a' b' c' d' f' hh K : all word [:: a; b; c; d; f] -> all word [:: a'; b'; c'; d'; f'] ->
  let U := val [:: a; b; c; d; f] in let t := (d / 2 ^ 32 + (f * 2 ^ 32) mod W)%Z in
  (U < 2 ^ 288)%Z -> (exists l, Mul64 t m = (hh, l)) ->
  (val [:: a'; b'; c'; d'; f'] + B 5 * K = U - hh * Q)%Z ->
  [/\ val [:: a'; b'; c'; d'; f'] = (U - hh * Q)%Z & (0 <= U - hh * Q < 3 * Q)%Z].
Proof.
move=> h h' U t hU [l hl] hv; have [ht1 ht2] := shrd_val h hU; rewrite -/t -/U in ht1 ht2.
have [hl1 /wordP hl2 /wordP hl3] := Mul64_eq ht1 mu_word hl.
have hb : (0 <= U - hh * Q < 3 * Q)%Z.
  apply: (@barrett_bound Q m U t hh) => //; [lia|by have /wordP[] := mu_word|by apply/wordP|].
  by move: hl1 hl2; rewrite /W; clear; lia.
have hr := val5_range h'; have hQ := Q_lt; split=> //.
have h5 : B 5 = (2 ^ 320)%Z by [].
by rewrite h5 in hv hr; move: hv hr hb hQ; clear; lia.
Qed.

Lemma barrett_spec c z k (U := val [:: bx c; di c; r9 c; r11 c; r12 c]) :
  all word [:: bx c; di c; r9 c; r11 c; r12 c] -> (U < 2 ^ 288)%Z ->
  exists c' h, [/\ vexec e (sumVec_barrett m) (VSt c z k) = VSt c' z k, mem c' = mem c,
    all word [:: bx c'; di c'; r9 c'; r11 c'; r12 c'],
    val [:: bx c'; di c'; r9 c'; r11 c'; r12 c'] = (U - h * Q)%Z & (0 <= U - h * Q < 3 * Q)%Z].
Proof.
move: @U.
case: c => vax vbx vcx vdx vsi vdi vbp vr8 vr9 vr10 vr11 vr12 vr13 vr14 vr15 vcf vof vs0 vs1 vs2 vs3 vs4 vs5 vs6 vs7 vs8 vm.
cbn [bx di r9 r11 r12 mem] => hw hU; have [wq0 wq1 wq2 wq3] := wq ok hq.
have [ht _] := shrd_val hw hU; have wm := mu_word.
have [w0 w1 w2 w3 w4] := all5 hw.
rewrite /sumVec_barrett.
do 3 (vss ltac:(idtac)).
change (64 - 32)%Z with 32%Z; set t := (_ + (_ * _) mod W)%Z in ht *.
vss ltac:(idtac).
do 13 (vss ltac:(nq)); rewrite vexec_nil.
have hw' : all word [:: z0; z5; z6; z7; z8] by apply: mk5.
have [||e1 e2] := barrettU (hh := h) (K := (- (c3 + c7))%Z) hw hw' hU; first by exists l.
  by rewrite (qval hq) !val_cons val_nil !BS B0; lincomb; ring.
by eexists; exists h; split; [reflexivity|by []|exact: hw'|exact: e1|exact: e2].
Qed.
Lemma sub1_spec c z k (V := val [:: bx c; di c; r9 c; r11 c; r12 c]) :
  all word [:: bx c; di c; r9 c; r11 c; r12 c] ->
  exists c', [/\ vexec e sumVec_sub1 (VSt c z k) = VSt c' z k, mem c' = mem c,
    [:: r8 c'; r10 c'; cx c'; r14 c'] = [:: bx c; di c; r9 c; r11 c], (0 <= cf c' <= 1)%Z &
    all word [:: bx c'; di c'; r9 c'; r11 c'; r12 c'] /\
    val [:: bx c'; di c'; r9 c'; r11 c'; r12 c'] = (V - Q + B 5 * cf c')%Z].
Proof.
move: @V.
case: c => vax vbx vcx vdx vsi vdi vbp vr8 vr9 vr10 vr11 vr12 vr13 vr14 vr15 vcf vof vs0 vs1 vs2 vs3 vs4 vs5 vs6 vs7 vs8 vm.
cbn [bx di r9 r11 r12 mem] => hw; have [wq0 wq1 wq2 wq3] := wq ok hq.
have [w0 w1 w2 w3 w4] := all5 hw.
rewrite /sumVec_sub1; do 9 (vss ltac:(nq)); rewrite vexec_nil.
eexists; split; [reflexivity|by []|by []|by []|]; cbn [bx di r9 r11 r12 cf]; split; first by apply: mk5.
by rewrite (qval hq) !val_cons val_nil !BS B0; lincomb; ring.
Qed.
Lemma last_spec c z k : exists c', [/\ vexec e sumVec_last (VSt c z k) = VSt c' z k, mem c' = mem c &
    [:: r8 c'; r10 c'; cx c'; r14 c'] = [:: bx c; di c; r9 c; r11 c]].
Proof.
case: c => vax vbx vcx vdx vsi vdi vbp vr8 vr9 vr10 vr11 vr12 vr13 vr14 vr15 vcf vof vs0 vs1 vs2 vs3 vs4 vs5 vs6 vs7 vs8 vm.
by rewrite /sumVec_last; do 4 (vss ltac:(idtac)); rewrite vexec_nil; eexists; split; [reflexivity|by []|by []].
Qed.
Lemma end_spec c z k pr : nth 0%Z (fp e) 0 = pr -> size (mem c pr) = 4%N ->
  exists c', vexec e sumVec_end (VSt c z k) = VSt c' z k /\ mem c' =1 put (mem c) pr [:: r8 c; r10 c; cx c; r14 c].
Proof.
case: c => vax vbx vcx vdx vsi vdi vbp vr8 vr9 vr10 vr11 vr12 vr13 vr14 vr15 vcf vof vs0 vs1 vs2 vs3 vs4 vs5 vs6 vs7 vs8 vm.
cbn [mem] => hfp hs.
rewrite /sumVec_end; do 5 (vss ltac:(rewrite ?hfp)); rewrite vexec_nil; eexists; split; [reflexivity|].
by cbn [mem r8 r10 cx r14]; apply: storesE.
Qed.

(** five words below q are four *)
Lemma five a b c d f : all word [:: a; b; c; d; f] -> (val [:: a; b; c; d; f] < Q)%Z ->
  red g [:: a; b; c; d] /\ val [:: a; b; c; d] = val [:: a; b; c; d; f].
Proof.
move=> /all5 [ha hb hc hd /wordP hf]; have hQ := Q_lt.
have [/wordP ha' /wordP hb' /wordP hc' /wordP hd'] := And4 ha hb hc hd.
rewrite !val_cons val_nil => h.
have f0 : f = 0%Z by move: h hQ ha' hb' hc' hd' hf; rewrite /W; clear; lia.
subst f; split; last by [].
by split; [apply: (limbsW hq)|rewrite !val_cons val_nil; move: h; clear; lia].
Qed.

(** the part after the accumulation *)
Lemma finish_spec c z k pr (V := val [:: bx c; di c; r9 c; r11 c; r12 c]) : nth 0%Z (fp e) 0 = pr -> size (mem c pr) = 4%N ->
  all word [:: bx c; di c; r9 c; r11 c; r12 c] -> (V < 3 * Q)%Z ->
  exists c' r i, [/\ vexec e sumVec_end
    (jcs (fun s => jcs (vexec e sumVec_last) (vexec e sumVec_sub2 s)) (vexec e sumVec_sub1 (VSt c z k))) = VSt c' z k,
    mem c' =1 put (mem c) pr r, red g r & val r = (V - i * Q)%Z].
Proof.
move=> hfp hs hw hV; have hQ := Q_lt; have h5 : B 5 = (2 ^ 320)%Z by [].
have [c1 [e1 m1 r1 f1 [w1 v1]]] := sub1_spec z k hw; rewrite -/V in v1.
have g1 := val5_range w1; have g0 := val5_range hw; rewrite -/V in g0.
have fin c' r i : mem c' = mem c -> [:: r8 c'; r10 c'; cx c'; r14 c'] = r -> red g r -> val r = (V - i * Q)%Z ->
   exists c'' r i, [/\ vexec e sumVec_end (VSt c' z k) = VSt c'' z k, mem c'' =1 put (mem c) pr r, red g r & val r = (V - i * Q)%Z].
  move=> hm hr h3 h4; rewrite -hm in hs; have [c'' [h1 h2]] := end_spec z k hfp hs.
  by exists c'', r, i; split=> // p; rewrite h2 hr hm.
rewrite e1 /jcs; cbn [sc].
case: Z.eqb_spec => h.
  have [|h1 h2] := five hw; first by rewrite -/V; move: v1 g1; rewrite h h5; lia.
  by apply: (fin c1 _ 0%Z m1 r1) => //; rewrite h2 -/V; lia.
have {}h : cf c1 = 0%Z by lia.
rewrite h Z.mul_0_r Z.add_0_r in v1.
have -> : sumVec_sub2 = sumVec_sub1 by [].
have [c2 [e2 m2 r2 f2 [w2 v2]]] := sub1_spec z k w1; rewrite v1 in v2.
have g2 := val5_range w2; rewrite e2; cbn [sc].
case: Z.eqb_spec => h'.
  have [|h1 h2] := five w1; first by rewrite v1; move: v2 g2; rewrite h' h5; lia.
  by apply: (fin c2 _ 1%Z _ r2) => //; rewrite ?m2 // h2 v1; lia.
have {}h' : cf c2 = 0%Z by lia.
rewrite h' Z.mul_0_r Z.add_0_r in v2.
have [c3 [e3 m3 r3]] := last_spec c2 z k; rewrite e3.
have [|h1 h2] := five w2; first by rewrite v2; lia.
by apply: (fin c3 _ 2%Z _ r3) => //; rewrite ?m3 ?m2 // h2 v2; lia.
Qed.
End Tail.

(** * the lanes *)
Definition acc (z : nat -> lane) (j : nat) : Z := (z 0%N j + z 1%N j + z 2%N j + z 3%N j + z 4%N j + z 5%N j + z 6%N j + z 7%N j)%Z.
Lemma gather_spec e c z k : exists c' z', [/\ vexec e sumVec_gather (VSt c z k) = VSt c' z' k, mem c' = mem c &
  [:: bx c'; si c'; di c'; r8 c'; r9 c'; r10 c'; r11 c'; r12 c'] = mkseq (fun j => acc z j mod W)%Z 8].
Proof.
case: c => vax vbx vcx vdx vsi vdi vbp vr8 vr9 vr10 vr11 vr12 vr13 vr14 vr15 vcf vof vs0 vs1 vs2 vs3 vs4 vs5 vs6 vs7 vs8 vm.
rewrite /sumVec_gather; do 7 (vsx ltac:(idtac)).
set z' := upd _ 0 _; set F : lane := fun j => (acc z j mod W)%Z.
have hF j : z' 0%N j = F j.
  rewrite /z' /F /acc; cbv beta iota delta [upd Nat.eqb].
  do 4 rewrite -?Z.add_assoc ?Zplus_mod_idemp_l.
  f_equal; ring.
clearbody z'.
do 15 (vsx ltac:(idtac)).
rewrite vexec_nil; do 2 eexists; split; [reflexivity|by []|]; cbn [bx si di r8 r9 r10 r11 r12].
have vq (f : lane) j : (j < 7)%N -> valignq 1 f f j = f j.+1.
  by move=> h; rewrite /valignq /cat2 addn1 ltnS h.
cbv beta iota delta [upd Nat.eqb].
rewrite !vq //.
by rewrite !hF.
Qed.

(** the sum of dword j of the k elements at p, p+32, ... *)
Fixpoint dsum (m : memory) (p : Z) (k : nat) (j : nat) : Z :=
  if k is k'.+1 then (digit (m p) j + dsum m (p + 32) k' j)%Z else 0%Z.
Lemma dsumD m p a b j : dsum m p (a + b) j = (dsum m p a j + dsum m (p + 32 * Z.of_nat a) b j)%Z.
Proof.
elim: a p => [|a IH] p; first by rewrite add0n /= Z.mul_0_r Z.add_0_r; lia.
rewrite addSn /= IH.
have -> : (p + 32 + 32 * Z.of_nat a = p + 32 * Z.of_nat a.+1)%Z by lia.
by lia.
Qed.

Section Loops.
Variable e : env.
Lemma one_spec c z k : exists c' z', [/\ vexec e sumVec_one (VSt c z k) = VSt c' z' k, mem c' = mem c,
    r13 c' = ((r13 c + 32) mod W)%Z /\ r14 c' = r14 c, cx c' = ((cx c - 1) mod W)%Z &
    forall j, (acc z' j mod W = (acc z j + digit (mem c (r13 c)) j) mod W)%Z].
Proof.
case: c => vax vbx vcx vdx vsi vdi vbp vr8 vr9 vr10 vr11 vr12 vr13 vr14 vr15 vcf vof vs0 vs1 vs2 vs3 vs4 vs5 vs6 vs7 vs8 vm.
rewrite /sumVec_one; do 4 (vsx ltac:(idtac)); rewrite vexec_nil; do 2 eexists; split; [reflexivity|by []| | |]; cbn [mem r13 r14 cx].
- by split=> //; rewrite -Add64_1 E.
- by move: E0; rewrite /Sub64 Z.sub_0_r => -[].
move=> j; rewrite /acc; cbv beta iota delta [upd Nat.eqb]; change (32 * Z.of_nat 0)%Z with 0%Z; rewrite Z.add_0_r.
by rewrite -!Z.add_assoc Zplus_mod_idemp_l; f_equal; ring.
Qed.
Lemma eight_spec c z k : exists c' z', [/\ vexec e sumVec_eight (VSt c z k) = VSt c' z' k, mem c' = mem c,
    r13 c' = ((r13 c + 256) mod W)%Z, r14 c' = ((r14 c - 1) mod W)%Z &
    forall j, (acc z' j mod W = (acc z j + dsum (mem c) (r13 c) 8 j) mod W)%Z].
Proof.
case: c => vax vbx vcx vdx vsi vdi vbp vr8 vr9 vr10 vr11 vr12 vr13 vr14 vr15 vcf vof vs0 vs1 vs2 vs3 vs4 vs5 vs6 vs7 vs8 vm.
rewrite /sumVec_eight; do 18 (vsx ltac:(idtac)); rewrite vexec_nil; do 2 eexists; split; [reflexivity|by []| | |]; cbn [mem r13 r14 cx].
- by rewrite -Add64_1 E.
- by move: E0; rewrite /Sub64 Z.sub_0_r => -[].
move=> j; rewrite /acc; cbv beta iota delta [upd Nat.eqb].
set a := (_ + 32 * Z.of_nat 0)%Z; set a1 := (_ + 32 * Z.of_nat 1)%Z; set a2 := (_ + 32 * Z.of_nat 2)%Z.
set a3 := (_ + 32 * Z.of_nat 3)%Z; set a4 := (_ + 32 * Z.of_nat 4)%Z; set a5 := (_ + 32 * Z.of_nat 5)%Z.
set a6 := (_ + 32 * Z.of_nat 6)%Z; set a7 := (_ + 32 * Z.of_nat 7)%Z.
have -> : dsum vm vr13 8 j = (digit (vm a) j + digit (vm a1) j + digit (vm a2) j + digit (vm a3) j + digit (vm a4) j +
   digit (vm a5) j + digit (vm a6) j + digit (vm a7) j)%Z.
  have da i : (vr13 + 32 * Z.of_nat i + 32 = vr13 + 32 * Z.of_nat i.+1)%Z by lia.
  cbn [dsum]; have -> : vr13 = a by rewrite /a; lia.
  by rewrite !da -/a1 -/a2 -/a3 -/a4 -/a5 -/a6 -/a7; ring.
have hm x y u : ((x mod W + y) mod W = u mod W -> (x + y) mod W = u mod W)%Z by rewrite Zplus_mod_idemp_l.
have mm x : exists t, (x mod W = x + W * t)%Z.
  by exists (- (x / W))%Z; have := Z_div_mod_eq_full x W; lia.
repeat match goal with |- context [((?x + z ?i j) mod W)%Z] =>
  let t := fresh "t" in let h := fresh "h" in have [t h] := mm (x + z i j)%Z; rewrite {}h end.
set lhs := (_ + _)%Z; set rhs := (_ + (_ + _))%Z.
have -> : lhs = (rhs + (t + t0 + t1 + t2 + t3 + t4 + t5 + t6) * W)%Z by rewrite /lhs /rhs; ring.
exact: Z_mod_plus_full.
Qed.
Lemma one_loop f k c z r : (k <= f)%N -> cx c = Z.of_nat k -> (0 <= r13 c)%Z -> (r13 c + 32 * Z.of_nat k < W)%Z -> (Z.of_nat k < W)%Z ->
  exists c' z', [/\ loop e f CX sumVec_one (VSt c z r) = Some (VSt c' z' r), mem c' = mem c, r14 c' = r14 c,
    r13 c' = (r13 c + 32 * Z.of_nat k)%Z & forall j, (acc z' j mod W = (acc z j + dsum (mem c) (r13 c) k j) mod W)%Z].
Proof.
elim: k f c z => [|k IH] f c z hf hb h0 h1 h2.
  exists (setf c 0 0), z; split; [|by case: (c)|by case: (c)|by case: (c) => *; cbn [r13 setf]; lia|by move=> j; rewrite Z.add_0_r].
  exact: loop_done.
case: f hf => // f hf; rewrite loopS; cbn [testq onsc sc].
set c1 := setf c 0 0.
have [e1 e2 e3 e4] : [/\ r13 c1 = r13 c, r14 c1 = r14 c, cx c1 = cx c & mem c1 = mem c] by rewrite /c1; case: (c).
have -> : (getr c1 CX =? 0)%Z = false by rewrite -[getr c1 CX]/(cx c1) e3 hb; lia.
have [c2 [z2 [-> m2 [p2 q2] n2 a2]]] := one_spec c1 z r.
rewrite e1 e2 e3 e4 in m2 p2 q2 n2 a2.
have {}p2 : r13 c2 = (r13 c + 32)%Z by rewrite p2 Z.mod_small //; move: h0 h1; clear; lia.
have {}n2 : cx c2 = Z.of_nat k by rewrite n2 hb Z.mod_small; move: h2; clear; lia.
have [|||||c3 [z3 [-> m3 q3 p3 a3]]] := IH f c2 z2; rewrite ?p2 //; try (move: h0 h1 h2; clear; lia).
exists c3, z3; split=> //; [by rewrite m3|by rewrite q3|by rewrite p3 p2; lia|].
move=> j; rewrite a3 m2 p2 -Zplus_mod_idemp_l a2 Zplus_mod_idemp_l.
by f_equal; rewrite [in RHS]/=; ring.
Qed.
Lemma eight_loop f k c z r : (k <= f)%N -> r14 c = Z.of_nat k -> (0 <= r13 c)%Z -> (r13 c + 256 * Z.of_nat k < W)%Z -> (Z.of_nat k < W)%Z ->
  exists c' z', [/\ loop e f R14 sumVec_eight (VSt c z r) = Some (VSt c' z' r), mem c' = mem c &
    forall j, (acc z' j mod W = (acc z j + dsum (mem c) (r13 c) (8 * k) j) mod W)%Z].
Proof.
elim: k f c z => [|k IH] f c z hf hb h0 h1 h2.
  exists (setf c 0 0), z; split; [|by case: (c)|by move=> j; rewrite Z.add_0_r].
  exact: loop_done.
case: f hf => // f hf; rewrite loopS; cbn [testq onsc sc].
set c1 := setf c 0 0.
have [e1 e2 e4] : [/\ r13 c1 = r13 c, r14 c1 = r14 c & mem c1 = mem c] by rewrite /c1; case: (c).
have -> : (getr c1 R14 =? 0)%Z = false by rewrite -[getr c1 R14]/(r14 c1) e2 hb; lia.
have [c2 [z2 [-> m2 p2 n2 a2]]] := eight_spec c1 z r.
rewrite e1 e2 e4 in m2 p2 n2 a2.
have {}p2 : r13 c2 = (r13 c + 256)%Z by rewrite p2 Z.mod_small //; move: h0 h1; clear; lia.
have {}n2 : r14 c2 = Z.of_nat k by rewrite n2 hb Z.mod_small; move: h2; clear; lia.
have [|||||c3 [z3 [-> m3 a3]]] := IH f c2 z2; rewrite ?p2 //; try (move: h0 h1 h2; clear; lia).
exists c3, z3; split=> //; first by rewrite m3.
move=> j; rewrite a3 m2 p2 -Zplus_mod_idemp_l a2 Zplus_mod_idemp_l mulnS dsumD.
by f_equal; change (32 * Z.of_nat 8)%Z with 256%Z; ring.
Qed.
End Loops.

(** * sumVec *)
(** the sum of the k elements at p, p+32, ... *)
Fixpoint esum (m : memory) (p : Z) (k : nat) : Z := if k is k'.+1 then (val (m p) + esum m (p + 32) k')%Z else 0%Z.
Definition horner (f : nat -> Z) : Z :=
  (f 0%N + D * f 1%N + W * (f 2%N + D * f 3%N + W * (f 4%N + D * f 5%N + W * (f 6%N + D * f 7%N))))%Z.
Lemma digit_range x j : all word x -> (0 <= digit x j < D)%Z.
Proof.
move=> hx; have /wordP : word (nth 0%Z x j./2).
  case: (ltnP j./2 (size x)) => h; last by rewrite nth_default.
  by move/all_nthP: hx; apply.
rewrite /digit /dword /hi32 /lo32; set a := nth _ _ _ => ha; case: ifP => _; last by apply: Z.mod_pos_bound.
have := Z_div_mod_eq_full a D; have := Z.mod_pos_bound a D ltac:(by []); move: ha; rewrite /W /D; lia.
Qed.
Lemma digit_val x : size x = 4%N -> horner (digit x) = val x.
Proof.
case: x => [|a [|b [|c [|d [|]]]]] // _; rewrite /horner /digit /dword /=.
by rewrite -!lohi; ring.
Qed.
Section Sum.
Variables (g : gen) (ok : okGen g) (q0 q1 q2 q3 : Z).
Hypothesis hq : qs g = [:: q0; q1; q2; q3].
Lemma dsum_horner m p k : (forall i, (i < k)%N -> limbs g (m (p + 32 * Z.of_nat i)%Z)) ->
  horner (dsum m p k) = esum m p k /\ forall j, (0 <= dsum m p k j <= Z.of_nat k * (D - 1))%Z.
Proof.
elim: k p => [|k IH] p h /=; first by split=> [|j]; rewrite /horner; lia.
have h0 := h 0%N isT; rewrite Z.mul_0_r Z.add_0_r in h0.
have [|h1 h2] := IH (p + 32)%Z.
  by move=> i hi; have := h i.+1 hi; have -> : (p + 32 * Z.of_nat i.+1 = p + 32 + 32 * Z.of_nat i)%Z by lia.
split.
  rewrite -h1 -digit_val; last by case: h0 => -> _; rewrite (nE hq).
  by rewrite /horner; ring.
move=> j; have := h2 j; have := digit_range j (proj2 h0); rewrite Nat2Z.inj_succ; lia.
Qed.
Lemma esum_range m p k : (forall i, (i < k)%N -> limbs g (m (p + 32 * Z.of_nat i)%Z)) ->
  (0 <= esum m p k <= Z.of_nat k * (2 ^ 256 - 1))%Z.
Proof.
elim: k p => [|k IH] p h /=; first by lia.
have h0 := h 0%N isT; rewrite Z.mul_0_r Z.add_0_r in h0.
have hr := limbs_range h0; rewrite (nE hq) in hr.
rewrite -[B 4]/(2 ^ 256)%Z in hr.
have := IH (p + 32)%Z; rewrite Nat2Z.inj_succ => {}IH.
have [|] := IH; last by lia.
by move=> i hi; have := h i.+1 hi; have -> : (p + 32 * Z.of_nat i.+1 = p + 32 + 32 * Z.of_nat i)%Z by lia.
Qed.

Variable e : env.
Hypothesis he : eq_ e = qs g.
Lemma head_spec c z k pr a n : fp e = [:: pr; a; n] -> exists c' z', [/\ vexec e sumVec_head (VSt c z k) = VSt c' z' k,
  mem c' = mem c, r13 c' = a /\ cx c' = Z.land n 7, r14 c' = (n / 2 ^ 3)%Z & forall j, acc z' j = 0%Z].
Proof.
move=> hfp.
case: c => vax vbx vcx vdx vsi vdi vbp vr8 vr9 vr10 vr11 vr12 vr13 vr14 vr15 vcf vof vs0 vs1 vs2 vs3 vs4 vs5 vs6 vs7 vs8 vm.
rewrite /sumVec_head; do 13 (vsx ltac:(rewrite ?hfp; cbn [nth])); rewrite vexec_nil.
do 2 eexists; split; [reflexivity|by []|by []|by []|].
by move=> j; rewrite /acc; cbv beta iota delta [upd Nat.eqb]; rewrite Z.lxor_nilpotent.
Qed.
Hypothesis Qlow : (2 ^ 224 < val (qs g))%Z.
Hypothesis hmu : (mu g * val (qs g) <= 2 ^ 288 < (mu g + 1) * val (qs g))%Z.
Lemma tail_spec c z k pr U : nth 0%Z (fp e) 0 = pr -> size (mem c pr) = 4%N ->
  horner (fun j => acc z j mod W)%Z = U -> (0 <= U < 2 ^ 288)%Z ->
  exists c' z' r i, [/\ sumVec_tail g e (VSt c z k) = VSt c' z' k, mem c' =1 put (mem c) pr r, red g r &
    val r = (U - i * val (qs g))%Z].
Proof.
move=> hfp hs hU hr; rewrite /sumVec_tail.
have [c1 [z1 [-> m1 r1]]] := gather_spec e c z k.
have [c2 [K [-> m2 w2 v2]]] := carry_spec e c1 z1 k.
have r1' : (bx c1 + D * si c1 + W * (di c1 + D * r8 c1 + W * (r9 c1 + D * r10 c1 + W * (r11 c1 + D * r12 c1))))%Z = U.
  by rewrite -hU /horner; case: r1 => -> -> -> -> -> -> -> ->.
rewrite r1' in v2; have g2 := val5_range w2.
have u2 : val [:: bx c2; di c2; r9 c2; r11 c2; r12 c2] = U.
  by rewrite -[B 5]/(2 ^ 320)%Z in v2 g2; move: v2 g2 hr; clear; lia.
have [|c3 [h [-> m3 w3 v3 b3]]] := barrett_spec ok hq he Qlow hmu z1 k w2; first by rewrite u2; case: hr.
rewrite u2 in v3 b3; rewrite -v3 in b3.
have [||c4 [r [i [h1 h2 h3 h4]]]] := finish_spec ok hq he (c := c3) z1 k hfp _ w3; [by rewrite m3 m2 m1|by case: b3|].
exists c4, z1, r, (h + i)%Z; split=> //; first by move=> p; rewrite h2 m3 m2 m1.
by rewrite h4 v3; ring.
Qed.
Lemma sum_asm s pr a n : (forall i, (i < n)%N -> limbs g (mem (sc s) (a + 32 * Z.of_nat i)%Z)) ->
  fp e = [:: pr; a; Z.of_nat n] -> size (mem (sc s) pr) = 4%N -> (Z.of_nat n < 2 ^ 32)%Z -> (0 <= a)%Z -> (a + 32 * Z.of_nat n < W)%Z ->
  exists s' r, [/\ (if loop e (Z.to_nat (Z.of_nat n)) CX sumVec_one (vexec e sumVec_head s) is Some s then
    if loop e (Z.to_nat (Z.of_nat n)) R14 sumVec_eight s is Some s then Some (sumVec_tail g e s) else None
  else None) = Some s', mem (sc s') =1 put (mem (sc s)) pr r, red g r &
    eqq g (val r) (esum (mem (sc s)) a n)].
Proof.
case: s => c z k; cbn [sc] => hm hfp hs hn ha0 ha; rewrite Nat2Z.id.
have [c1 [z1 [-> m1 [p1 x1] y1 a1]]] := head_spec c z k hfp.
have e7 : Z.land (Z.of_nat n) 7 = (Z.of_nat n mod 8)%Z by have -> : 7%Z = Z.ones 3 by []; rewrite Z.land_ones.
rewrite e7 in x1.
set k1 := Z.to_nat (Z.of_nat n mod 8); set k2 := Z.to_nat (Z.of_nat n / 8).
have hd := Z_div_mod_eq_full (Z.of_nat n) 8; have hd1 := Z.mod_pos_bound (Z.of_nat n) 8 ltac:(lia).
have hd2 : (0 <= Z.of_nat n / 8)%Z by apply: Z.div_pos; lia.
have k1E : Z.of_nat k1 = (Z.of_nat n mod 8)%Z by rewrite /k1 Z2Nat.id //; lia.
have k2E : Z.of_nat k2 = (Z.of_nat n / 8)%Z by rewrite /k2 Z2Nat.id.
have nE : n = (k1 + 8 * k2)%N by move: hd k1E k2E; clear; lia.
rewrite -k1E in x1; have {}y1 : r14 c1 = Z.of_nat k2 by rewrite y1 k2E.
have l1 : (k1 <= n)%N by rewrite nE leq_addr.
have l2 : (k2 <= n)%N by rewrite nE; lia.
have nEz : Z.of_nat n = (Z.of_nat k1 + 8 * Z.of_nat k2)%Z by rewrite nE; lia.
have [|||c2 [z2 [-> m2 y2 p2 a2]]] := @one_loop e n k1 c1 z1 k l1 x1; rewrite ?p1 //.
- by move: ha nEz; clear; lia.
- by move: hn nEz; rewrite /W; clear; lia.
rewrite p1 m1 in p2 a2; rewrite y1 in y2.
have [|||c3 [z3 [-> m3 a3]]] := @eight_loop e n k2 c2 z2 k l2 y2; rewrite ?p2.
- by move: ha0; clear; lia.
- by move: ha nEz; clear; lia.
- by move: hn nEz; rewrite /W; clear; lia.
have [d1 d2] := dsum_horner hm; have er := esum_range hm.
have fin j : (acc z3 j mod W = dsum (mem c) a n j)%Z.
  rewrite a3 m2 m1 p2 -Zplus_mod_idemp_l a2 a1 Zplus_mod_idemp_l Z.add_0_l -dsumD -nE Z.mod_small //.
  by have := d2 j; move: hn; rewrite /W /D; clear; nia.
have [||||c4 [z4 [r [i [-> h2 h3 h4]]]]] := @tail_spec c3 z3 k pr (esum (mem c) a n).
- by rewrite hfp.
- by rewrite m3 m2 m1.
- by rewrite -d1 /horner !fin.
- by move: er hn; clear; nia.
exists (VSt c4 z4 k), r; split=> //; first by move=> p; cbn [sc]; rewrite h2 m3 m2 m1.
by exists (- i)%Z; rewrite h4; ring.
Qed.
End Sum.
