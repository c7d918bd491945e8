(** innerProdVec: partial products of dwords in AVX512 lanes, their accumulation into 544 bits, four
    Montgomery rounds and the Barrett reduction. *)
From Coq Require Import ZArith Lia.
From mathcomp Require Import all_ssreflect zify ssrZ.
From Verif Require Import JindoIntModel JindoIntProofs ZpModel ZpProofs ZpField AsmModel AsmProofs AvxModel AvxText
  AsmEntry AvxEntry AvxProofs AvxSum.
Set Implicit Arguments. Unset Strict Implicit. Unset Printing Implicit Defensive.
Delimit Scope Z_scope with Z.
Local Arguments Z.mul : simpl never. Local Arguments Z.add : simpl never. Local Arguments Z.sub : simpl never.
Local Arguments Z.pow : simpl never. Local Arguments Z.of_nat : simpl never. Local Arguments Z.land : simpl never.
Local Arguments Z.div : simpl never. Local Arguments Z.modulo : simpl never.

(** * the loop *)
(** the sums of the low and of the high halves of the products of dword i of a and dword j of b *)
Fixpoint psum (h : Z -> Z) (m : memory) (a b : Z) (k i j : nat) : Z :=
  if k is k'.+1 then (h (digit (m a) i * digit (m b) j) + psum h m (a + 32) (b + 32) k' i j)%Z else 0%Z.
Lemma land_lo a b : a = (D - 1)%Z -> Z.land a b = lo32 b.
Proof. by move=> ->; rewrite Z.land_comm; have -> : (D - 1)%Z = Z.ones 32 by []; rewrite Z.land_ones. Qed.
Lemma lo32_small a : (0 <= a < D)%Z -> lo32 a = a. Proof. exact: Z.mod_small. Qed.
Lemma lo32_range a : (0 <= lo32 a < D)%Z. Proof. exact: Z.mod_pos_bound. Qed.
Lemma hi32_range a : (0 <= a < W)%Z -> (0 <= hi32 a < D)%Z.
Proof.
move=> h; have := Z_div_mod_eq_full a D; have := Z.mod_pos_bound a D ltac:(by []); rewrite /hi32; move: h; rewrite /W /D; lia.
Qed.

Section Loop.
Variable e : env.
Lemma dot_body c z k : (forall j, (j < 8)%N -> z 5%N j = (D - 1)%Z) -> all word (mem c (r14 c)) ->
  exists c' z', [/\ vexec e innerProd_body (VSt c z k) = VSt c' z' k, mem c' = mem c,
    [/\ r13 c' = ((r13 c + 32) mod W)%Z, r14 c' = ((r14 c + 32) mod W)%Z & cx c' = ((cx c - 1) mod W)%Z], z' 5%N = z 5%N &
    forall i j, (i < 8)%N -> (j < 8)%N -> 
      z' (16 + i)%N j = ((lo32 (digit (mem c (r13 c)) i * digit (mem c (r14 c)) j) + z (16 + i)%N j) mod W)%Z /\
      z' (24 + i)%N j = ((hi32 (digit (mem c (r13 c)) i * digit (mem c (r14 c)) j) + z (24 + i)%N j) mod W)%Z].
Proof.
move=> hmask.
case: c => vax vbx vcx vdx vsi vdi vbp vr8 vr9 vr10 vr11 vr12 vr13 vr14 vr15 vcf vof vs0 vs1 vs2 vs3 vs4 vs5 vs6 vs7 vs8 vm.
cbn [mem r13 r14 cx] => hb; rewrite /innerProd_body /innerProd_load /MAC; cbv [cat].
do 44 (vsx ltac:(idtac)).
rewrite vexec_nil; do 2 eexists; split; [reflexivity|by []| |by []|]; cbn [mem r13 r14 cx].
- split; [by rewrite -Add64_1 E0|by rewrite -Add64_1 E|by move: E1; rewrite /Sub64 Z.sub_0_r => -[]].
move=> i j hi hj; change (32 * Z.of_nat 0)%Z with 0%Z; rewrite Z.add_0_r.
do 8 (case: i hi => [|i] hi; first by cbv beta iota delta [upd Nat.eqb addn addn_rec Nat.add];
  rewrite land_lo ?hmask // (lo32_small (digit_range j hb))).
by [].
Qed.
(** the lanes of the accumulators are quadwords *)
Definition ranged (z : nat -> lane) : Prop := forall i j, (i < 16)%N -> (j < 8)%N -> (0 <= z (16 + i)%N j < W)%Z.
Lemma dot_loop f k c z r : (k <= f)%N -> cx c = Z.of_nat k -> (Z.of_nat k < W)%Z ->
  (0 <= r13 c)%Z -> (r13 c + 32 * Z.of_nat k < W)%Z -> (0 <= r14 c)%Z -> (r14 c + 32 * Z.of_nat k < W)%Z ->
  (forall j, (j < 8)%N -> z 5%N j = (D - 1)%Z) -> ranged z ->
  (forall i, (i < k)%N -> all word (mem c (r14 c + 32 * Z.of_nat i)%Z)) ->
  exists c' z', [/\ loop e f CX innerProd_body (VSt c z r) = Some (VSt c' z' r), mem c' = mem c,
    z' 5%N = z 5%N, ranged z' &
    forall i j, (i < 8)%N -> (j < 8)%N ->
      (z' (16 + i)%N j mod W = (z (16 + i)%N j + psum lo32 (mem c) (r13 c) (r14 c) k i j) mod W)%Z /\
      (z' (24 + i)%N j mod W = (z (24 + i)%N j + psum hi32 (mem c) (r13 c) (r14 c) k i j) mod W)%Z].
Proof.
elim: k f c z => [|k IH] f c z hf hb h2 h0 h1 g0 g1 hmask hr hw.
  exists (setf c 0 0), z; split=> //; [exact: loop_done|by case: (c)|by move=> i j _ _; rewrite !Z.add_0_r].
case: f hf => // f hf; rewrite loopS; cbn [testq onsc sc].
set c1 := setf c 0 0.
have [e1 e2 e3 e4] : [/\ r13 c1 = r13 c, r14 c1 = r14 c, cx c1 = cx c & mem c1 = mem c] by rewrite /c1; case: (c).
have -> : (getr c1 CX =? 0)%Z = false by rewrite -[getr c1 CX]/(cx c1) e3 hb; lia.
have hw0 := hw 0%N isT; rewrite Z.mul_0_r Z.add_0_r in hw0.
have [|c2 [z2 [-> m2 [p2 q2 n2] k2 a2]]] := @dot_body c1 z r hmask; first by rewrite e4 e2.
rewrite e1 e2 e3 e4 in m2 p2 q2 n2 a2.
have {}p2 : r13 c2 = (r13 c + 32)%Z by rewrite p2 Z.mod_small //; move: h0 h1; clear; lia.
have {}q2 : r14 c2 = (r14 c + 32)%Z by rewrite q2 Z.mod_small //; move: g0 g1; clear; lia.
have {}n2 : cx c2 = Z.of_nat k by rewrite n2 hb Z.mod_small; move: h2; clear; lia.
have [||||||||||c3 [z3 [-> m3 q3 r3 a3]]] := IH f c2 z2; rewrite ?p2 ?q2 ?m2 //; try (move: h0 h1 g0 g1 h2; clear; lia).
- by move=> j hj; rewrite k2 hmask.
- move=> i j hi hj; case: (ltnP i 8) => hi8.
    by have [-> _] := a2 i j hi8 hj; apply: Z.mod_pos_bound.
  have [|_] := a2 (i - 8)%N j _ hj; first by move: hi; lia.
  have -> : (24 + (i - 8) = 16 + i)%N by lia.
  by move=> ->; apply: Z.mod_pos_bound.
- by move=> i hi; have := hw i.+1 hi; have -> : (r14 c + 32 * Z.of_nat i.+1 = r14 c + 32 + 32 * Z.of_nat i)%Z by lia.
exists c3, z3; split=> //; [by rewrite m3|by rewrite q3|].
move=> i j hi hj; have [b1 b2] := a3 i j hi hj; have [d1 d2] := a2 i j hi hj.
by rewrite b1 b2 d1 d2 m2 p2 q2 !Zplus_mod_idemp_l; split; f_equal; rewrite [in RHS]/=; ring.
Qed.
Lemma dot_head c z k pr a b n : fp e = [:: pr; a; b; n] -> exists c' z', [/\ vexec e innerProd_head (VSt c z k) = VSt c' z' k,
  mem c' = mem c, [/\ r13 c' = a, r14 c' = b & cx c' = n], forall j, (j < 8)%N -> z' 5%N j = (D - 1)%Z &
  forall i j, (i < 16)%N -> z' (16 + i)%N j = 0%Z].
Proof.
move=> hfp.
case: c => vax vbx vcx vdx vsi vdi vbp vr8 vr9 vr10 vr11 vr12 vr13 vr14 vr15 vcf vof vs0 vs1 vs2 vs3 vs4 vs5 vs6 vs7 vs8 vm.
rewrite /innerProd_head; do 21 (vsx ltac:(rewrite ?hfp; cbn [nth])); rewrite vexec_nil.
do 2 eexists; split; [reflexivity|by []|by []| |].
  by case=> [|[|[|[|[|[|[|[|]]]]]]]] // _; vm_compute.
move=> i j; do 16 (case: i => [|i]; first by move=> _; cbv beta iota delta [upd Nat.eqb addn addn_rec Nat.add]; rewrite ?Z.lxor_nilpotent).
by [].
Qed.
End Loop.

(** * the accumulation *)
Lemma dword_of d i : (forall i, (i < 16)%N -> (0 <= d i < D)%Z) -> (i < 16)%N -> dword (ofDwords d) i = d i.
Proof.
move=> hd hi; rewrite /dword /ofDwords.
have h1 : ((i./2).*2 < 16)%N by have := odd_double_half i; lia.
have h2 : ((i./2).*2.+1 < 16)%N by move: h1; have := odd_double (i./2); lia.
have e1 := hd _ h1; have e2 := hd _ h2; have := odd_double_half i; rewrite /lo32 /hi32 [(D * _)%Z]Z.mul_comm.
case: (odd i) => /=; rewrite ?add1n ?add0n => hE.
  by rewrite Z.div_add //= Z.div_small // hE.
by rewrite Z_mod_plus_full Z.mod_small // hE.
Qed.
(** a lane with what the next one carries *)
Definition sh (f : lane) : lane := fun j => (hi32 (f j) + if (j < 7)%N then lo32 (f j.+1) else 0)%Z.
Lemma sh_horner f : (lo32 (f 0%N) + D * horner (sh f) = horner f)%Z.
Proof.
have -> : horner f = horner (fun j => lo32 (f j) + D * hi32 (f j))%Z by rewrite /horner -!lohi.
by rewrite /horner /sh /=; have -> : W = (D * D)%Z by []; ring.
Qed.
Definition lanes (f : lane) : Prop := forall j, (j < 8)%N -> (0 <= f j < W)%Z.
Definition dwords (f : lane) : Prop := forall i, (i < 16)%N -> (0 <= dword f i < D)%Z.
Lemma lanes_dwords f : lanes f -> dwords f.
Proof.
move=> h i hi; have h1 : (i./2 < 8)%N by have := odd_double_half i; lia.
by rewrite /dword; case: ifP => _; [apply: hi32_range; apply: h|apply: lo32_range].
Qed.
Lemma valign_sh f j : (j < 8)%N -> valignd 2 f f 5461 (fun=> 0%Z) j = if (j < 7)%N then lo32 (f j.+1) else 0%Z.
Proof.
by do 8 (case: j => [|j]; first by move=> _; rewrite /valignd /ofDwords /bit /= /cat2 /dword /= /lo32 /hi32 ?Z.div_0_l ?Z.mod_0_l //; lia).
Qed.

(** what a macro adds to the lanes: the high halves of [his], the low halves of [los] *)
Definition adds (his los : seq nat) (z : nat -> lane) : lane :=
  fun j => foldr (fun r t => hi32 (z r j) + t)%Z (foldr (fun r t => lo32 (z r j) + t)%Z 0%Z los) his.
Definition emits (n : nat) (add : lane) (z z' : nat -> lane) (k' : nat -> Z) : Prop :=
  [/\ forall j, (j < 8)%N -> z' 16%N j = (sh (z 16%N) j + add j)%Z, lanes (z' 16%N), dwords (z' 0%N),
      forall i, (i < 16)%N -> dword (z' 0%N) i = if i == n then lo32 (z' 16%N 0%N) else dword (z 0%N) i &
      k' 1%N = 5461%Z /\ k' 2%N = (2 ^ Z.of_nat n.+1 mod 2 ^ 16)%Z].
Section Acc.
Variable e : env.
Definition emitSpec (p : seq vinstr) (n : nat) (his los : seq nat) : Prop := forall c z k,
  (forall j, (j < 8)%N -> z 5%N j = (D - 1)%Z) -> lanes (z 16%N) -> (forall r, r \in his ++ los -> lanes (z r)) ->
  dwords (z 0%N) -> k 1%N = 5461%Z -> k 2%N = (2 ^ Z.of_nat n mod 2 ^ 16)%Z ->
  exists z' k', [/\ vexec e p (VSt c z k) = VSt c z' k', emits n (adds his los z) z z' k' &
    forall r, r \notin [:: 0; 2; 16]%N ++ his -> z' r = z r].
Lemma modW a b : ((a + b mod W) mod W = (a + b) mod W)%Z. Proof. exact: Zplus_mod_idemp_r. Qed.
Lemma adds_range his los z j : (j < 8)%N -> (forall r, r \in his ++ los -> lanes (z r)) ->
  (0 <= adds his los z j <= Z.of_nat (size his + size los) * (D - 1))%Z.
Proof.
move=> hj; rewrite /adds; elim: his => [|r his IH] h /=.
  elim: los h => [|r los IH] h /=; first by lia.
  have := lo32_range (z r j); have [|] := IH; first by move=> r' hr; apply: h; rewrite inE hr orbT.
  by rewrite !add0n Nat2Z.inj_succ Z.mul_succ_l; lia.
have := hi32_range (h r (mem_head _ _) j hj); have [|] := IH; first by move=> r' hr; apply: h; rewrite inE hr orbT.
move: (foldr _ _ his) => X; rewrite addSn Nat2Z.inj_succ Z.mul_succ_l; move: (Z.of_nat _ * _)%Z => Y; lia.
Qed.
Lemma bit_pow n i : (i < 16)%N -> (n < 16)%N -> bit (2 ^ Z.of_nat n mod 2 ^ 16) i = (i == n).
Proof.
move=> hi hn; rewrite /bit Z.mod_small.
  rewrite Z.pow2_bits_eqb; last by lia.
  by case: Z.eqb_spec; case: eqP => //; lia.
split; first by apply: Z.pow_nonneg.
by apply: Z.pow_lt_mono_r; lia.
Qed.
Lemma mk_emits n his los z z' k' F : (0 < n < 16)%N -> (size his + size los <= 4)%N -> lanes (z 16%N) -> dwords (z 0%N) ->
  (forall r, r \in his ++ los -> lanes (z r)) -> z' 16%N = F ->
  z' 0%N = valignd (16 - n) F F (2 ^ Z.of_nat n mod 2 ^ 16) (z 0%N) ->
  (forall j, (j < 8)%N -> F j = ((sh (z 16%N) j + adds his los z j) mod W)%Z) ->
  k' 1%N = 5461%Z -> k' 2%N = (2 ^ Z.of_nat n.+1 mod 2 ^ 16)%Z -> emits n (adds his los z) z z' k'.
Proof.
move=> hn hs h16 h0 hu e16 e0 hF k1 k2.
have hF' j : (j < 8)%N -> F j = (sh (z 16%N) j + adds his los z j)%Z.
  move=> hj; rewrite hF // Z.mod_small //; have := adds_range hj hu; have := hi32_range (h16 j hj).
  have := lo32_range (z 16%N j.+1).
  have : (Z.of_nat (size his + size los) * (D - 1) <= 4 * (D - 1))%Z by apply: Z.mul_le_mono_nonneg_r; rewrite /D; lia.
  rewrite /sh; case: ifP => _; rewrite /W /D; lia.
have lF : lanes F by move=> j hj; rewrite hF //; apply: Z.mod_pos_bound.
have hd : forall i, (i < 16)%N -> dword (z' 0%N) i = if i == n then lo32 (z' 16%N 0%N) else dword (z 0%N) i.
  move=> i hi; have hE i' : (i' < 16)%N -> (if bit (2 ^ Z.of_nat n mod 2 ^ 16) i' then
      cat2 16 (dword F) (dword F) (i' + (16 - n) %% 16) else dword (z 0%N) i') = if i' == n then lo32 (F 0%N) else dword (z 0%N) i'.
    move=> hi'; rewrite bit_pow //; last by case/andP: hn.
    case: eqP => // ->; rewrite modn_small; last by move: hn; lia.
    by rewrite subnKC /cat2 ?ltnn ?subnn //; move: hn; lia.
  rewrite e0 /valignd dword_of ?e16 ?hE // => i' hi'; rewrite hE //.
  by case: ifP => _; [apply: lo32_range|apply: h0].
split=> //; rewrite ?e16 // => i hi; rewrite hd //; case: ifP => _; [exact: lo32_range|exact: h0].
Qed.
Ltac emit hmask h16 hu h0 k1 k2 := rewrite /ADDPP /ADDPP2 /innerProd_acc8 /innerProd_acc9;
  cbv [subn subn_rec Nat.sub];
  repeat (vsx ltac:(idtac)); rewrite vexec_nil; do 2 eexists; split; [reflexivity| |];
  [ eapply mk_emits; [by []|by []|exact: h16|exact: h0|exact: hu|cbv beta iota delta [upd Nat.eqb]; reflexivity
     |by cbv beta iota delta [upd Nat.eqb]; rewrite k2
     |let j := fresh in let hj := fresh in move=> j hj; rewrite /sh /adds /= k1 valign_sh //; repeat (rewrite modW ?Z.add_assoc); rewrite ?land_lo ?hmask // /hi32 /D; f_equal; ring
     |by cbv beta iota delta [upd Nat.eqb]
     |by cbv beta iota delta [upd Nat.eqb]; rewrite k2]
  | let r := fresh in move=> r; rewrite !inE !negb_or;
    repeat (let h := fresh "h" in case/andP => h); try (let h := fresh "h" in move=> h);
    rewrite /upd; repeat (match goal with |- context [Nat.eqb ?r ?i] =>
      let h := fresh in have h : Nat.eqb r i = false by [apply/Nat.eqb_neq; apply/eqP]; rewrite h; clear h end); by [] ].
Ltac emit0 := let hmask := fresh in let h16 := fresh in let hu := fresh in let h0 := fresh in let k1 := fresh in let k2 := fresh in
  move=> [vax vbx vcx vdx vsi vdi vbp vr8 vr9 vr10 vr11 vr12 vr13 vr14 vr15 vcf vof vs0 vs1 vs2 vs3 vs4 vs5 vs6 vs7 vs8 vm];
  move=> z k hmask h16 hu h0 k1 k2; emit hmask h16 hu h0 k1 k2.
Lemma acc_2 : emitSpec (ADDPP 24 17 25 18 2) 2 [:: 24; 17]%N [:: 25; 18]%N. Proof. emit0. Qed.
Lemma acc_3 : emitSpec (ADDPP 25 18 26 19 3) 3 [:: 25; 18]%N [:: 26; 19]%N. Proof. emit0. Qed.
Lemma acc_4 : emitSpec (ADDPP 26 19 27 20 4) 4 [:: 26; 19]%N [:: 27; 20]%N. Proof. emit0. Qed.
Lemma acc_5 : emitSpec (ADDPP 27 20 28 21 5) 5 [:: 27; 20]%N [:: 28; 21]%N. Proof. emit0. Qed.
Lemma acc_6 : emitSpec (ADDPP 28 21 29 22 6) 6 [:: 28; 21]%N [:: 29; 22]%N. Proof. emit0. Qed.
Lemma acc_7 : emitSpec (ADDPP 29 22 30 23 7) 7 [:: 29; 22]%N [:: 30; 23]%N. Proof. emit0. Qed.
Lemma acc_8 : emitSpec innerProd_acc8 8 [:: 30; 23]%N [:: 31]%N. Proof. emit0. Qed.
Lemma acc_9 : emitSpec innerProd_acc9 9 [:: 31]%N [::]. Proof. emit0. Qed.
Lemma acc_10 : emitSpec (ADDPP2 10) 10 [::] [::]. Proof. emit0. Qed.
Lemma acc_11 : emitSpec (ADDPP2 11) 11 [::] [::]. Proof. emit0. Qed.
Lemma acc_12 : emitSpec (ADDPP2 12) 12 [::] [::]. Proof. emit0. Qed.
Lemma acc_13 : emitSpec (ADDPP2 13) 13 [::] [::]. Proof. emit0. Qed.
Lemma acc_14 : emitSpec (ADDPP2 14) 14 [::] [::]. Proof. emit0. Qed.
Lemma acc_15 : emitSpec (ADDPP2 15) 15 [::] [::]. Proof. emit0. Qed.
(** the two parts of acc0 *)
Definition acc0a : seq vinstr := [:: MOVI 5461 AX; KMOVD AX 1; MOVI 1 AX; KMOVD AX 2; VALIGNDZ 16 16 16 2 0; KSHIFTLW 1 2 2].
Definition acc0b : seq vinstr := drop 6 innerProd_acc0.
Lemma acc0E : innerProd_acc0 = acc0a ++ acc0b. Proof. by []. Qed.
Lemma acc_1 : emitSpec acc0b 1 [::] [:: 24; 17]%N. Proof. rewrite /acc0b /innerProd_acc0; cbn [drop]. emit0. Qed.

Fixpoint ds (f : nat -> Z) (n : nat) : Z := if n is n'.+1 then (ds f n' + D ^ Z.of_nat n' * f n')%Z else 0%Z.
Lemma dsS f n : ds f n.+1 = (ds f n + D ^ Z.of_nat n * f n)%Z. Proof. by []. Qed.
Lemma ds_ext f f' n : (forall i, (i < n)%N -> f i = f' i) -> ds f n = ds f' n.
Proof. by elim: n => //= n IH h; rewrite IH ?h // => i hi; apply: h; exact: ltnW. Qed.
(** after n dwords: V is what was emitted and what remains *)
Definition Inv (zi : nat -> lane) (n : nat) (V : Z) (z : nat -> lane) (k : nat -> Z) (dirty : seq nat) : Prop :=
  [/\ (ds (dword (z 0%N)) n + D ^ Z.of_nat n * horner (z 16%N) = V)%Z,
      dword (z 0%N) n = lo32 (z 16%N 0%N), lanes (z 16%N) /\ dwords (z 0%N),
      k 1%N = 5461%Z /\ k 2%N = (2 ^ Z.of_nat n.+1 mod 2 ^ 16)%Z & forall r, r \notin dirty -> z r = zi r].
Lemma horner_ext f f' : (forall j, (j < 8)%N -> f j = f' j) -> horner f = horner f'.
Proof. by move=> h; rewrite /horner !h. Qed.
Lemma hornerD f f' : horner (fun j => f j + f' j)%Z = (horner f + horner f')%Z.
Proof. by rewrite /horner; ring. Qed.
Lemma adds_ext his los z z' j : (forall r, r \in his ++ los -> z r = z' r) -> adds his los z j = adds his los z' j.
Proof.
rewrite /adds; elim: his => [|r his IH] h /=.
  by elim: los h => //= r los IH h; rewrite h ?mem_head // IH // => r' hr; apply: h; rewrite inE hr orbT.
by rewrite h ?mem_head // IH // => r' hr; apply: h; rewrite inE hr orbT.
Qed.
Lemma emit_step p n his los zi V z k dirty c : emitSpec p n.+1 his los -> (n.+1 < 16)%N ->
  (forall j, (j < 8)%N -> zi 5%N j = (D - 1)%Z) -> ranged zi ->
  all (fun r => (r \notin dirty) && (16 <= r < 32)%N) (his ++ los) -> 5%N \notin dirty -> Inv zi n V z k dirty ->
  exists z' k', vexec e p (VSt c z k) = VSt c z' k' /\
    Inv zi n.+1 (V + D ^ Z.of_nat n.+1 * horner (adds his los zi)) z' k' ([:: 0; 2; 16]%N ++ his ++ dirty).
Proof.
move=> hp hn hmask hr /allP hd h5 [hV hl [h16 h0] [k1 k2] hz].
have hz' r : r \in his ++ los -> z r = zi r by move/hd => /andP[h _]; apply: hz.
have [||||||z' [k' [e1 [e2 e3 e4 e5 e6] e7]]] := hp c z k => //.
  by move=> j hj; rewrite hz // hmask.
  move=> r hr'; rewrite hz' // => j hj; have /andP[_ /andP[h1 h2]] := hd r hr'.
  by have := hr (r - 16)%N j; rewrite subnKC //; apply=> //; rewrite ltn_subLR.
exists z', k'; split=> //; split=> //; first 2 last.
  move=> r; rewrite catA mem_cat negb_or => /andP[h1 h2]; rewrite e7 //; exact: hz.
  rewrite [ds _ _]/= (@ds_ext _ (dword (z 0%N))); last first.
    by move=> i hi; rewrite e5 ?ltn_eqF //; [exact: ltnW|lia].
  rewrite e5; last by lia.
  rewrite ltn_eqF // hl (horner_ext e2) hornerD -hV -(sh_horner (z 16%N)).
  have -> : horner (adds his los zi) = horner (adds his los z) by apply: horner_ext => j _; apply: adds_ext => r /hz'.
  by rewrite Nat2Z.inj_succ Z.pow_succ_r; [ring|lia].
by rewrite e5 // eqxx.
Qed.
Lemma acc_start c zi k : (forall j, (j < 8)%N -> zi 5%N j = (D - 1)%Z) -> ranged zi ->
  exists c' z' k', [/\ vexec e acc0a (VSt c zi k) = VSt c' z' k', mem c' = mem c & Inv zi 0 (horner (zi 16%N)) z' k' [:: 0]%N].
Proof.
move=> hmask hr.
case: c => vax vbx vcx vdx vsi vdi vbp vr8 vr9 vr10 vr11 vr12 vr13 vr14 vr15 vcf vof vs0 vs1 vs2 vs3 vs4 vs5 vs6 vs7 vs8 vm.
rewrite /acc0a; do 6 (vsx ltac:(idtac)); rewrite vexec_nil; do 3 eexists; split; [reflexivity|by []|].
have h16 : lanes (zi 16%N) by move=> j hj; apply: (hr 0%N).
have hw := lanes_dwords h16.
have hd i : (i < 16)%N -> dword (valignd 16 (zi 16%N) (zi 16%N) (1 mod 2 ^ 32) (fun=> 0%Z)) i = if i == 0%N then lo32 (zi 16%N 0%N) else 0%Z.
  have hE i' : (i' < 16)%N -> (if bit (1 mod 2 ^ 32) i' then cat2 16 (dword (zi 16%N)) (dword (zi 16%N)) (i' + 16 %% 16) else dword (fun=> 0%Z) i')
    = if i' == 0%N then lo32 (zi 16%N 0%N) else 0%Z.
    have -> : (1 mod 2 ^ 32 = 2 ^ Z.of_nat 0 mod 2 ^ 16)%Z by [].
    move=> hi'; rewrite bit_pow //; case: eqP => [->|_] //.
    by rewrite /dword /hi32 /lo32; case: ifP.
  move=> hi; rewrite /valignd dword_of ?hE // => i' hi'; rewrite hE //.
  by case: ifP => _; [exact: lo32_range|].
cbv beta iota delta [upd Nat.eqb]; split=> //.
- by rewrite /=; lia.
- by rewrite hd.
- by split=> // i hi; rewrite hd //; case: ifP => _; [exact: lo32_range|].
- by case=> [|r]; rewrite inE.
Qed.

(** the lanes in order of weight *)
Definition word8 (f : lane) : Z :=
  (f 0%N + W * (f 1%N + W * (f 2%N + W * (f 3%N + W * (f 4%N + W * (f 5%N + W * (f 6%N + W * f 7%N)))))))%Z.
Lemma ds16 f : ds (dword f) 16 = word8 f.
Proof.
rewrite /word8 (lohi (f 0%N)) (lohi (f 1%N)) (lohi (f 2%N)) (lohi (f 3%N)) (lohi (f 4%N)) (lohi (f 5%N)) (lohi (f 6%N)) (lohi (f 7%N)).
have -> : W = (D * D)%Z by [].
cbn [ds]; rewrite /dword /=.
have -> : Z.of_nat 0 = 0%Z by []. have -> : Z.of_nat 1 = 1%Z by []. have -> : Z.of_nat 2 = 2%Z by []. have -> : Z.of_nat 3 = 3%Z by [].
have -> : Z.of_nat 4 = 4%Z by []. have -> : Z.of_nat 5 = 5%Z by []. have -> : Z.of_nat 6 = 6%Z by []. have -> : Z.of_nat 7 = 7%Z by [].
have -> : Z.of_nat 8 = 8%Z by []. have -> : Z.of_nat 9 = 9%Z by []. have -> : Z.of_nat 10 = 10%Z by []. have -> : Z.of_nat 11 = 11%Z by [].
have -> : Z.of_nat 12 = 12%Z by []. have -> : Z.of_nat 13 = 13%Z by []. have -> : Z.of_nat 14 = 14%Z by []. have -> : Z.of_nat 15 = 15%Z by [].
ring.
Qed.
Lemma dwords_lanes f : dwords f -> lanes f.
Proof.
move=> h j hj; have := h j.*2.+1; rewrite /dword /= odd_double /= uphalf_double => h1.
have {h1} : (0 <= hi32 (f j) < D)%Z by apply: h1; rewrite -addnn; lia.
have := lo32_range (f j); have := lohi (f j); have -> : W = (D * D)%Z by []; move: (lo32 _) (hi32 _); rewrite /D; clear; lia.
Qed.
Lemma word8_ge f : lanes f -> (0 <= word8 f)%Z.
Proof.
move=> h; have := h 0%N isT; have := h 1%N isT; have := h 2%N isT; have := h 3%N isT; have := h 4%N isT.
have := h 5%N isT; have := h 6%N isT; have := h 7%N isT; rewrite /word8 /W; clear; lia.
Qed.
Lemma horner_small f : (forall j, (j < 8)%N -> (0 <= f j)%Z) -> (horner f < D)%Z -> f 0%N = horner f.
Proof.
move=> h; have := h 0%N isT; have := h 1%N isT; have := h 2%N isT; have := h 3%N isT; have := h 4%N isT.
have := h 5%N isT; have := h 6%N isT; have := h 7%N isT; rewrite /horner /W /D; clear; lia.
Qed.
Lemma acc_top zi V z k dirty c : Inv zi 15 V z k dirty -> (V < D ^ 17)%Z ->
  exists z', [/\ vexec e innerProd_top (VSt c z k) = VSt c z' k, lanes (z' 0%N), (0 <= z' 1%N 0%N < D)%Z &
    (word8 (z' 0%N) + B 8 * z' 1%N 0%N = V)%Z].
Proof.
move=> [hV hl [h16 h0] [k1 k2] _] hlt.
case: c => vax vbx vcx vdx vsi vdi vbp vr8 vr9 vr10 vr11 vr12 vr13 vr14 vr15 vcf vof vs0 vs1 vs2 vs3 vs4 vs5 vs6 vs7 vs8 vm.
rewrite /innerProd_top; do 4 (vsx ltac:(idtac)); rewrite vexec_nil; eexists; split; [reflexivity| | |]; cbv beta iota delta [upd Nat.eqb];
  first exact: dwords_lanes.
all: set f := fun j => ((z 16%N j / 2 ^ 32 + valignd 2 (z 16%N) (z 16%N) (k 1%N) (fun=> 0%Z) j) mod W)%Z.
all: have hf j : (j < 8)%N -> f j = sh (z 16%N) j by
  [move=> hj; rewrite /f k1 valign_sh // Z.mod_small //; have := hi32_range (h16 j hj); have := lo32_range (z 16%N j.+1);
   rewrite /sh -/D -/(hi32 (z 16%N j)); case: ifP => _; rewrite /W /D; lia].
all: rewrite -/(f 0%N) k1; change (bit 5461 0) with true; cbv iota.
all: have hf0 j : (j < 8)%N -> (0 <= f j)%Z by
  [move=> hj; rewrite hf // /sh; have := hi32_range (h16 j hj); have := lo32_range (z 16%N j.+1); case: ifP => _; lia].
all: have E : (word8 (z 0%N) + B 8 * horner f = V)%Z by
  [rewrite (horner_ext hf) -hV -(sh_horner (z 16%N)) -ds16 -hl (dsS _ 15); have -> : B 8 = (D ^ Z.of_nat 15 * D)%Z by [vm_compute]; move: (D ^ _)%Z (ds _ _) (horner _) => X Y T; ring].
all: have hw := word8_ge (dwords_lanes h0).
all: have hb : (horner f < D)%Z by [move: E hlt hw; have -> : B 8 = (D ^ 16)%Z by [vm_compute]; rewrite /D; clear; lia].
all: have e0 := horner_small hf0 hb.
  by have := hf0 0%N isT; rewrite e0; move: hb; clear; lia.
by rewrite e0.
Qed.
Definition hl (z : nat -> lane) (r : nat) : Z := horner (fun j => lo32 (z r j)).
Definition hh (z : nat -> lane) (r : nat) : Z := horner (fun j => hi32 (z r j)).
Lemma hlh z r : horner (z r) = (hl z r + D * hh z r)%Z.
Proof. by rewrite (horner_ext (f' := fun j => lo32 (z r j) + D * hi32 (z r j))%Z) => [|j _]; [rewrite hornerD /hl /hh /horner; ring|exact: lohi]. Qed.
Lemma horner_adds his los z : horner (adds his los z) =
  foldr (fun r t => hh z r + t)%Z (foldr (fun r t => hl z r + t)%Z 0%Z los) his.
Proof.
rewrite /adds; elim: his => [|r his IH] /=; last by rewrite -IH /hh -hornerD.
by elim: los => [|r los IH] /=; [|rewrite -IH /hl -hornerD].
Qed.
Definition total (z : nat -> lane) : Z :=
  (horner (z 16%N) + D * (horner (z 17%N) + horner (z 24%N) + D * (horner (z 18%N) + horner (z 25%N) +
   D * (horner (z 19%N) + horner (z 26%N) + D * (horner (z 20%N) + horner (z 27%N) + D * (horner (z 21%N) + horner (z 28%N) +
   D * (horner (z 22%N) + horner (z 29%N) + D * (horner (z 23%N) + horner (z 30%N) + D * horner (z 31%N)))))))))%Z.
Lemma acc_spec c zi k : (forall j, (j < 8)%N -> zi 5%N j = (D - 1)%Z) -> ranged zi -> (total zi < D ^ 17)%Z ->
  exists c' z' k', [/\ vexec e innerProd_acc (VSt c zi k) = VSt c' z' k', mem c' = mem c, lanes (z' 0%N), (0 <= z' 1%N 0%N < D)%Z &
    (word8 (z' 0%N) + B 8 * z' 1%N 0%N = total zi)%Z].
Proof.
move=> hmask hr hlt; rewrite /innerProd_acc acc0E -catA.
have [c0 [z0 [k0 [e0 m0 i0]]]] := acc_start c k hmask hr; rewrite vexec_cat e0.
have [|||z1 [k1 [e1 i1]]] := emit_step c0 acc_1 _ hmask hr _ _ i0 => //; rewrite vexec_cat e1.
have [|||z2 [k2 [e2 i2]]] := emit_step c0 acc_2 _ hmask hr _ _ i1 => //; rewrite vexec_cat e2.
have [|||z3 [k3 [e3 i3]]] := emit_step c0 acc_3 _ hmask hr _ _ i2 => //; rewrite vexec_cat e3.
have [|||z4 [k4 [e4 i4]]] := emit_step c0 acc_4 _ hmask hr _ _ i3 => //; rewrite vexec_cat e4.
have [|||z5 [k5 [e5 i5]]] := emit_step c0 acc_5 _ hmask hr _ _ i4 => //; rewrite vexec_cat e5.
have [|||z6 [k6 [e6 i6]]] := emit_step c0 acc_6 _ hmask hr _ _ i5 => //; rewrite vexec_cat e6.
have [|||z7 [k7 [e7 i7]]] := emit_step c0 acc_7 _ hmask hr _ _ i6 => //; rewrite vexec_cat e7.
have [|||z8 [k8 [e8 i8]]] := emit_step c0 acc_8 _ hmask hr _ _ i7 => //; rewrite vexec_cat e8.
have [|||z9 [k9 [e9 i9]]] := emit_step c0 acc_9 _ hmask hr _ _ i8 => //; rewrite vexec_cat e9.
have [|||z10 [k10 [e10 i10]]] := emit_step c0 acc_10 _ hmask hr _ _ i9 => //; rewrite vexec_cat e10.
have [|||z11 [k11 [e11 i11]]] := emit_step c0 acc_11 _ hmask hr _ _ i10 => //; rewrite vexec_cat e11.
have [|||z12 [k12 [e12 i12]]] := emit_step c0 acc_12 _ hmask hr _ _ i11 => //; rewrite vexec_cat e12.
have [|||z13 [k13 [e13 i13]]] := emit_step c0 acc_13 _ hmask hr _ _ i12 => //; rewrite vexec_cat e13.
have [|||z14 [k14 [e14 i14]]] := emit_step c0 acc_14 _ hmask hr _ _ i13 => //; rewrite vexec_cat e14.
have [|||z15 [k15 [e15 i15]]] := emit_step c0 acc_15 _ hmask hr _ _ i14 => //; rewrite vexec_cat e15.
move: i15; set V := (_ + _)%Z => i15.
have VE : V = total zi.
  rewrite /V !horner_adds /total; cbn [foldr]; rewrite !(hlh zi).
  have -> : Z.of_nat 1 = 1%Z by []. have -> : Z.of_nat 2 = 2%Z by []. have -> : Z.of_nat 3 = 3%Z by []. have -> : Z.of_nat 4 = 4%Z by []. have -> : Z.of_nat 5 = 5%Z by []. have -> : Z.of_nat 6 = 6%Z by []. have -> : Z.of_nat 7 = 7%Z by []. have -> : Z.of_nat 8 = 8%Z by []. have -> : Z.of_nat 9 = 9%Z by []. have -> : Z.of_nat 10 = 10%Z by []. have -> : Z.of_nat 11 = 11%Z by []. have -> : Z.of_nat 12 = 12%Z by []. have -> : Z.of_nat 13 = 13%Z by []. have -> : Z.of_nat 14 = 14%Z by []. have -> : Z.of_nat 15 = 15%Z by [].
  ring.
rewrite VE in i15; have [z' [h1 h2 h3 h4]] := acc_top c0 i15 hlt.
by exists c0, z', k15.
Qed.
End Acc.
