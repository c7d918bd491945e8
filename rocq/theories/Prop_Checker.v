(** Properties C23-C26: the linear checkers of buckler/linear.go.

    A LinearChecker is used by Prove and Verify through one law only: TransposeTo is the
    transpose of TransformTo. *)
From Coq Require Import ZArith Lia.
From mathcomp Require Import all_ssreflect all_algebra zify.
From Verif Require Import RingTac Spec UintModel BigpolyModel BitrevProofs NttProofs NttCore UintProofs NttTables UintFp
  PolyProofs VecModel VecProofs RingProofs Prop_Bigpoly NormModel NormProofs BucklerModel DefineModel
  BucklerSpec FillProofs CheckerModel CheckerProofs.
Set Implicit Arguments. Unset Strict Implicit. Unset Printing Implicit Defensive.
Import GRing.Theory.
Local Open Scope ring_scope.
Delimit Scope Z_scope with Z.

(** <a,b> over the first N entries *)
Definition ip (F : fieldType) (N : nat) (a b : seq F) : F := \sum_(i < N) a`_i * b`_i.

(** The law: for all inputs and all previous contents of the outputs both methods return
    vectors of length N and <M v, u> = <v, M^T u>. *)
Definition transposes (F : fieldType) (N : nat) (tf tr : seq F -> seq F -> option (seq F)) : Prop :=
  forall o1 o2 v u, size o1 = N -> size o2 = N -> size v = N -> size u = N ->
  exists a b, [/\ tf o1 v = Some a, tr o2 u = Some b, size a = N, size b = N & ip N a u = ip N v b].

Section Props.
Variables (F : fieldType) (U : uint F).

(** C23 *)
Theorem C23_ntt_transpose rank c : NewNTTChecker U rank = Some c -> (8 <= rank)%N ->
  transposes rank (nttTransformTo c) (nttTransposeTo c).
Proof.
rewrite /NewNTTChecker; case E: (NewCyclotomicTransformer U rank) => [T|] // -[<-] h8.
have [n [g [hr G]]] := NewCyclotomic_good E; have [d hn] := pow8 hr h8.
move=> o1 o2 v u s1 s2 sv su; rewrite /nttTransformTo /nttTransposeTo /=.
have eT : trank T = rank by rewrite (gc_rank G) hr.
rewrite eT.
have hle : (rank <= size o2)%N by rewrite s2.
have [so eo] := @foldl_set_const F (fun i => u`_(rank - 1 - i) * setBigInt U (Z.of_nat rank)) o2 rank hle.
set o := foldl _ _ _ in so eo *.
have oE : o = mkseq (fun i => u`_(2 ^ n - 1 - i) * (2 ^ n)%:R) (2 ^ n).
  apply: (@eq_from_nth _ 0); first by rewrite so s2 size_mkseq hr.
  rewrite so s2 => i hi; rewrite eo hi nth_mkseq -hr //; congr (_ * _); by rewrite sb_nat.
have so' : size o = rank by rewrite so.
exists (fwdNTT T v), (invNTT T o); split.
- by rewrite FwdNTTTo_ok ?s1 ?sv.
- by rewrite InvNTTTo_ok ?so'.
- by rewrite (size_fwdNTT T (n := n)) ?sv hr.
- by rewrite (size_invNTT T (n := n)) ?so' hr.
- by have := ntt_transpose G hn (v := v) (u := u); rewrite -hr => /(_ _ sv su erefl); rewrite oE -hr.
Qed.

(** C24.  idx is any odd Go int; rank is below 2^62 so that 2*rank is a uint64 with room. *)
Theorem C24_aut_transpose n rank idx b : rank = (2 ^ n)%N -> (8 <= rank)%N -> (n < 63)%N -> Z.odd idx ->
  exists c, NewAutChecker rank idx b = Some c /\
  forall buf1 buf2, size buf1 = rank -> size buf2 = rank ->
    transposes (F := F) rank (autTransformTo c buf1) (autTransposeTo c buf2).
Proof.
move=> hr h8 hn oi.
have e2 : Z.of_nat (2 * rank) = (2 ^ Z.of_nat n.+1)%Z.
  by rewrite hr -expnS -of_nat_pow2.
have hk : (0 < Z.of_nat n.+1 < 64)%Z by lia.
have hdv : (2 ^ Z.of_nat n.+1 | w64)%Z by apply: pow2_dvd_w64; lia.
have om : Z.odd (idx mod w64).
  have h := Z.div_mod idx w64; have : idx = (w64 * (idx / w64) + idx mod w64)%Z by apply: h.
  move=> e; move: oi; rewrite {1}e Z.odd_add Z.odd_mul.
  have -> : Z.odd w64 = false by [].
  by rewrite andFb Bool.xorb_false_l.
have om0 : (0 <= idx mod w64)%Z by apply: (proj1 (Z.mod_pos_bound _ _ _)).
have [y [ey ry hy]] := modInverseP hk om om0.
exists (AutChecker rank b idx y); split; first by rewrite /NewAutChecker e2 ey.
have hP : (2 ^ Z.of_nat n.+1 > 0)%Z by apply: Z.lt_gt; apply: Z.pow_pos_nonneg; lia.
have hiy : ((y * idx) mod Z.of_nat (2 * rank) = 1)%Z.
  rewrite e2 -hy Z.mul_comm -Z.mul_mod_idemp_l; last lia.
  rewrite -[in RHS]Z.mul_mod_idemp_l; last lia.
  congr ((_ * _) mod _)%Z; apply: Znumtheory.Zmod_div_mod => //; lia.
have oy : Z.odd y.
  have h := Z.div_mod (y * idx) (Z.of_nat (2 * rank)); rewrite hiy in h.
  have : Z.odd (y * idx).
    rewrite h; last lia.
    by rewrite Z.odd_add Z.odd_mul e2 Z.odd_pow; [|lia].
  by rewrite Z.odd_mul => /andP[].
move=> buf1 buf2 sb1 sb2 o1 o2 v u s1 s2 sv su; rewrite /autTransformTo /autTransposeTo /=.
have [e1 z1] := @AutToE F rank n hr h8 buf1 (Poly_t o1 false) (Poly_t v b) idx oi sb1 s1 sv.
have [e3 z3] := @AutToE F rank n hr h8 buf2 (Poly_t o2 false) (Poly_t u b) y oy sb2 s2 su.
rewrite e1 e3 /=; exists (autRes rank buf1 (Poly_t o1 false) (Poly_t v b) idx), (autRes rank buf2 (Poly_t o2 false) (Poly_t u b) y).
split=> //; set ut := autRes _ _ _ (Poly_t u b) _ in z3 e3 *.
have [e4 z4] := @AutToE F rank n hr h8 buf1 (Poly_t o1 false) (Poly_t ut b) idx oi sb1 s1 z3.
have eu : autRes rank buf1 (Poly_t o1 false) (Poly_t ut b) idx = u.
  have := C10_aut_inverse hr h8 oy oi sb2 sb1 (o1 := Poly_t o2 false) (o2 := Poly_t o1 false) (p := Poly_t u b) s2 s1 su hiy e3 e4.
  by case.
rewrite -{1}eu -!/(dot _ _ _).
have r0 : (0 < rank)%N by lia.
have ok := normIdx_odd r0 oi; have oky := normIdx_odd r0 oy.
move: ut z3 {e3 e4 eu z4} => ut z3; rewrite /autRes /=; case: b {e1 z1} => /=.
  apply: (aut_dot_ntt hr h8 ok oky) => //.
  apply: Nat2Z.inj; rewrite !of_nat_modn; try lia.
  rewrite Nat2Z.inj_mul !normIdx_mod // -Z.mul_mod; last lia.
  by rewrite hiy Z.mod_small; lia.
exact: (@aut_dot_coef F rank n hr buf1 buf1 v ut _ ok sb1 sb1).
Qed.

(** C25: the random projection, for every matrix, and the recomposition, for every base. *)
Theorem C25_proj_transpose proj N : (0 < size proj <= N)%N -> all (fun r => size r == N) proj ->
  transposes (F := F) N (fun o v => Some (proj_transform proj o v)) (fun o v => Some (proj_transpose proj o v)).
Proof.
move=> hp hr o1 o2 v u s1 s2 sv su.
exists (proj_transform proj o1 v), (proj_transpose proj o2 u); split=> //.
- have hle : (size proj <= size o1)%N by rewrite s1; lia.
  by have [-> _] := proj_transformP v hle.
- have h0 : (0 < size proj)%N by lia.
  by have [-> _] := proj_transposeP u h0 hr s2.
- exact: proj_dot.
Qed.

Theorem C25_recomp_transpose (base : seq F) N : (0 < size base)%N ->
  transposes N (fun o v => Some (recomp_transform base o v)) (fun o v => Some (recomp_transpose base o v)).
Proof.
move=> hb o1 o2 v u s1 s2 sv su.
exists (recomp_transform base o1 v), (recomp_transpose base o2 u); split=> //.
- by have [-> _] := recomp_transformP o1 v hb.
- by have [-> _] := recomp_transposeP o2 u hb.
- exact: recomp_dot.
Qed.
End Props.

(** C26, for the moduli 2^k (k < 64) that buckler uses, and every odd 64-bit x. *)
Theorem C26_modInverse x k : (0 < k < 64)%Z -> Z.odd x -> (0 <= x)%Z ->
  exists y, [/\ modInverse x (2 ^ k) = Some y, (0 <= y < 2 ^ k)%Z & (x * y mod 2 ^ k = 1)%Z].
Proof. exact: modInverseP. Qed.

(** The wrap-around makes it wrong for other moduli: 2 * 2 = 1 modulo 3. *)
Theorem C26_other_modulus_refuted : exists x m y, [/\ (1 < m)%Z, Z.gcd x m = 1%Z, modInverse x m = Some y &
  (x * y mod m <> 1)%Z].
Proof. by exists 2%Z, 3%Z, 0%Z; split. Qed.

(** * Concrete cases *)
Section Examples.
Local Open Scope nat_scope.
Example ex_ntt_checker : obnd (fun c => omap fromv (nttTransposeTo c junk v8)) (NewNTTChecker U17 8)
  = Some [:: 14; 5; 13; 13; 1; 5; 5; 3].
Proof. by vm_compute. Qed.
Example ex_aut_checker : exists c, NewAutChecker 8 (-3)%Z true = Some c /\ ackInv c = 5%Z /\
  omap fromv (autTransposeTo c junk junk v8) = Some [:: 4; 1; 1; 3; 6; 2; 5; 9].
Proof. by eexists; split; [vm_compute; reflexivity|split; [by []|by vm_compute]]. Qed.
Example ex_proj : let m := [:: [:: true; false; true]; [:: false; true; true]] in
  fromv (proj_transform m (tov [:: 9; 9; 9]) (tov [:: 1; 2; 3])) = [:: 4; 5; 0] /\
  fromv (proj_transpose m (tov [:: 9; 9; 9]) (tov [:: 1; 2; 3])) = [:: 1; 2; 3].
Proof. by vm_compute. Qed.
Example ex_recomp :
  fromv (recomp_transform (tov [:: 3; 1]) (tov [:: 9; 9; 9; 9; 9]) (tov [:: 1; 2; 3; 4; 5])) = [:: 5; 13; 0; 0; 0] /\
  fromv (recomp_transpose (tov [:: 3; 1]) (tov [:: 9; 9; 9; 9; 9]) (tov [:: 1; 2; 3; 4; 5])) = [:: 3; 1; 6; 2; 0].
Proof. by vm_compute. Qed.
Example ex_modinv : modInverse 12345 (2 ^ 20) = Some 310793%Z.
Proof. by vm_compute. Qed.
End Examples.

(** Beyond C23: with vOut and v the same slice the loop overwrites entries it still has to
    read.  The in-place call is then not the transpose.  (Prove and Verify never do this.) *)
Lemma seq8 (A : Type) (v : seq A) : size v = 8%N -> exists a b c d e f g h, v = [:: a; b; c; d; e; f; g; h].
Proof.
case: v => [|a [|b [|c [|d [|e [|f [|g [|h [|? ?]]]]]]]]] //.
by move=> _; exists a, b, c, d, e, f, g, h.
Qed.

Lemma ntt_inplace_differs (F : fieldType) (U : uint F) c v o w w' : NewNTTChecker U 8 = Some c ->
  nttTransposeTo c o v = Some w -> nttTransposeInPlace c v = Some w' -> size o = 8%N -> size v = 8%N ->
  v`_7 * setBigInt U 8 != v`_0 -> setBigInt U 8 != 0 -> w <> w'.
Proof.
rewrite /NewNTTChecker; case E: (NewCyclotomicTransformer U 8) => [T|] // -[<-].
have [n [g [hr G]]] := NewCyclotomic_good E; have [d hn] := pow8 hr (leqnn 8).
have eT : trank T = 8%N by rewrite (gc_rank G) -hr.
rewrite /nttTransposeTo /nttTransposeInPlace [nckNtt _]/= [nckScale _]/= eT.
set s := setBigInt U 8 => + + so sv.
have [v0 [v1 [v2 [v3 [v4 [v5 [v6 [v7 ->]]]]]]]] := seq8 sv.
have [a0 [a1 [a2 [a3 [a4 [a5 [a6 [a7 ->]]]]]]]] := seq8 so.
cbn [foldl iota set_nth nth ncons iter subn subn_rec Nat.sub].
rewrite InvNTTTo_ok; [|by []|by []]; rewrite InvNTTTo_ok; [|by []|by []].
move=> [<-] [<-] hv hs /(congr1 (fwdNTT T)).
rewrite (fwd_inv_cyclo G); [|by rewrite -hr]; rewrite (fwd_inv_cyclo G); [|by rewrite -hr].
move=> [_ _ _ /eqP].
rewrite -subr_eq0 -mulrBl mulf_eq0 (negbTE hs) orbF subr_eq0.
by rewrite eq_sym (negbTE hv).
Qed.

Lemma ntt_inplace_ex (F : fieldType) (U : uint F) : (Z.of_nat (2 * 8) | modulus U - 1)%Z -> setBigInt U 8 != 0 ->
  exists c v o w w',
  [/\ NewNTTChecker U 8 = Some c, size v = 8%N /\ size o = 8%N, nttTransposeTo c o v = Some w,
      nttTransposeInPlace c v = Some w' & w <> w'].
Proof.
move=> d h8; have p8 : (exists n, 8 = 2 ^ n)%N by exists 3%N.
have [T hT] : exists T, NewCyclotomicTransformer U 8 = Some T by apply/C06_cyclotomic_constructor.
have [n [g [hr G]]] := NewCyclotomic_good hT.
have eT : trank T = 8%N by rewrite (gc_rank G) -hr.
pose c := NttChecker T (setBigInt U 8).
have hc : NewNTTChecker U 8 = Some c by rewrite /NewNTTChecker hT.
pose v : seq F := [:: 0; 0; 0; 0; 0; 0; 0; 1]; pose o : seq F := nseq 8 0.
have h1 : exists w, nttTransposeTo c o v = Some w.
  by rewrite /nttTransposeTo [nckNtt _]/= eT; eexists; apply: InvNTTTo_ok.
have h2 : exists w, nttTransposeInPlace c v = Some w.
  by rewrite /nttTransposeInPlace [nckNtt _]/= eT; eexists; apply: InvNTTTo_ok.
have [w hw] := h1; have [w' hw'] := h2.
exists c, v, o, w, w'; split; [exact: hc|by []|exact: hw|exact: hw'|].
apply: (ntt_inplace_differs hc hw hw'); [by []|by []| |exact: h8].
by rewrite mul1r.
Qed.

Theorem C23_in_place_refuted : exists (F : fieldType) (U : uint F) c v o w w',
  [/\ NewNTTChecker U 8 = Some c, size v = 8%N /\ size o = 8%N, nttTransposeTo c o v = Some w,
      nttTransposeInPlace c v = Some w' & w <> w'].
Proof. by exists F17, U17; apply: ntt_inplace_ex; first by exists 1%Z. Qed.

Print Assumptions C23_ntt_transpose.
Print Assumptions C23_in_place_refuted.
Print Assumptions C24_aut_transpose.
Print Assumptions C25_proj_transpose.
Print Assumptions C25_recomp_transpose.
Print Assumptions C26_modInverse.
Print Assumptions C26_other_modulus_refuted.
