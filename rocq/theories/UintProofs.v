(** Consequences of the [Uint] contract: the prime field structure, Fermat, the root
    search of ntt.go 40-53 and 167-180. *)
From Coq Require Import ZArith Lia Zpow_facts.
From mathcomp Require Import all_ssreflect all_algebra zify.
From Verif Require Import Spec UintModel BigpolyModel.
Set Implicit Arguments. Unset Strict Implicit. Unset Printing Implicit Defensive.
Import GRing.Theory.
Local Open Scope ring_scope.
Delimit Scope Z_scope with Z.

Section U.
Variables (F : fieldType) (U : uint F).
Local Notation p := (modulus U).
Local Notation sb := (setBigInt U).
Local Notation bi := (bigInt U).

Lemma modulus_pos : (0 < p)%Z. Proof. have := modulus_gt1 U; lia. Qed.

Lemma sb_mod z : sb (z mod p)%Z = sb z.
Proof. by rewrite -bigInt_setBigInt setBigInt_bigInt. Qed.

Lemma sb0 : sb 0 = 0.
Proof.
have := setBigInt_add U 0 0; rewrite Z.add_0_l => e.
by apply: (@addrI _ (sb 0)); rewrite -e addr0.
Qed.

Lemma sbN z : sb (- z)%Z = - sb z.
Proof.
apply/eqP; rewrite -addr_eq0 -setBigInt_add.
have -> : (- z + z = 0)%Z by lia.
by rewrite sb0.
Qed.

Lemma sbB a b : sb (a - b)%Z = sb a - sb b.
Proof. by rewrite /Z.sub setBigInt_add sbN. Qed.

Lemma sb_inj_mod a b : sb a = sb b -> (a mod p = b mod p)%Z.
Proof. by move=> e; rewrite -!bigInt_setBigInt e. Qed.

Lemma sb_eq_mod a b : (a mod p = b mod p)%Z -> sb a = sb b.
Proof. by move=> e; rewrite -(sb_mod a) e sb_mod. Qed.

Lemma bi_inj : injective bi.
Proof. by move=> x y e; rewrite -(setBigInt_bigInt U x) e setBigInt_bigInt. Qed.

Lemma sb_nat n : sb (Z.of_nat n) = n%:R.
Proof.
elim: n => [|n IH]; first exact: sb0.
by rewrite Nat2Z.inj_succ -Z.add_1_r setBigInt_add IH setBigInt_one -addn1 natrD.
Qed.

Lemma sb_pow x e : (0 <= e)%Z -> sb (x ^ e)%Z = sb x ^+ Z.to_nat e.
Proof.
move=> he; rewrite -{1}(Z2Nat.id e he); elim: (Z.to_nat e) => [|n IH].
  by rewrite Z.pow_0_r setBigInt_one expr0.
by rewrite Nat2Z.inj_succ Z.pow_succ_r ?setBigInt_mul ?IH ?exprS //; lia.
Qed.

Lemma pNegOneE : pNegOne U = (p - 1)%Z.
Proof.
rewrite /pNegOne bigInt_setBigInt; have := modulus_gt1 U => h.
rewrite -(Z.mod_add (-1) 1 p); [|lia].
rewrite Z.mod_small; lia.
Qed.

Lemma sb_p : sb p = 0.
Proof. by rewrite -sb0; apply: sb_eq_mod; rewrite Z.mod_same ?Z.mod_0_l //; have := modulus_pos; lia. Qed.

(** The nonzero elements of the field. *)
Definition units : seq F := [seq sb (Z.of_nat i) | i <- iota 1 (Z.to_nat p).-1].

Lemma mem_units x : (x \in units) = (x != 0).
Proof.
have hp := modulus_gt1 U.
apply/mapP/idP => [[i hi ->]|hx].
  apply/eqP => e; move: hi; rewrite mem_iota => /andP[h1 h2].
  have := sb_inj_mod (etrans e (esym sb0)).
  have := leP h1; have := ltP h2; rewrite /addn /addn_rec => h3 h4.
  by rewrite Z.mod_0_l ?Z.mod_small; lia.
have [h0 h1] := bigInt_range U x.
have nz : bi x <> 0%Z.
  by move=> e; move: hx; rewrite -(setBigInt_bigInt U x) e sb0 eqxx.
exists (Z.to_nat (bi x)); last by rewrite Z2Nat.id ?setBigInt_bigInt.
by rewrite mem_iota; apply/andP; split; apply/ltP; rewrite /addn /addn_rec; lia.
Qed.

Lemma units_uniq : uniq units.
Proof.
have hp := modulus_gt1 U.
rewrite map_inj_in_uniq ?iota_uniq // => i j; rewrite !mem_iota => /andP[_ hi] /andP[_ hj] e.
have := sb_inj_mod e.
move/ltP: hi; move/ltP: hj; rewrite /addn /addn_rec => hi hj.
by rewrite !Z.mod_small; lia.
Qed.

Lemma size_units : size units = (Z.to_nat p).-1.
Proof. by rewrite size_map size_iota. Qed.

Lemma fermat (x : F) : x != 0 -> x ^+ (Z.to_nat p).-1 = 1.
Proof.
move=> hx.
have hperm : perm_eq [seq x * y | y <- units] units.
  apply: uniq_perm; [by rewrite map_inj_uniq ?units_uniq //; exact: (mulfI hx)|exact: units_uniq|].
  move=> y; apply/mapP/idP => [[z hz ->]|hy].
    by rewrite mem_units mulf_neq0 // -mem_units.
  exists (x^-1 * y); last by rewrite mulrA divff ?mul1r.
  by rewrite mem_units mulf_neq0 ?invr_neq0 // -mem_units.
have : \prod_(y <- [seq x * y | y <- units]) y = \prod_(y <- units) y by apply: perm_big.
rewrite big_map big_split /= big_const_seq count_predT iter_mulr_1 size_units => e.
have nz : \prod_(y <- units) y != 0.
  rewrite prodf_seq_neq0; apply/allP => y; by rewrite mem_units.
by apply: (mulIf nz); rewrite mul1r.
Qed.

(** Some element is not a square. *)
Lemma nonresidue h : (Z.to_nat p).-1 = h.*2 -> exists2 x : F, x != 0 & x ^+ h != 1.
Proof.
move=> hh; have hp := modulus_gt1 U.
have h0 : (0 < h)%N by case: h hh => // e; exfalso; move: e => /=; lia.
case E : (all (fun x => x ^+ h == 1) units); last first.
  move/negbT: E => /allPn[x hx hx2]; exists x => //; by rewrite -mem_units.
have nz : ('X^h - 1 : {poly F}) != 0 by rewrite -size_poly_eq0 size_Xn_sub_1.
have ar : all (root ('X^h - 1)) units.
  apply/allP => x /(allP E) /eqP e.
  by rewrite /root !hornerE hornerXn e subrr.
have := max_poly_roots nz ar units_uniq.
by rewrite size_units hh size_Xn_sub_1 // ltnS; lia.
Qed.

Lemma root_searchP fuel x t1 t2 : (0 <= t1)%Z -> (0 <= t2)%Z -> (2 <= x)%Z ->
  (p - x <= Z.of_nat fuel)%Z ->
  (exists y, (x <= y < p)%Z /\ (y ^ (t1 * t2) mod p <> 1)%Z) ->
  exists y, (x <= y < p)%Z /\ (y ^ (t1 * t2) mod p <> 1)%Z /\
     root_search fuel x p t1 t2 = (y ^ t1 mod p)%Z.
Proof.
move=> h1 h2; have hp := modulus_gt1 U.
elim: fuel x => [|f IH] x hx hf [y [hy hy2]]; first by lia.
have e z : ((z ^ t1 mod p) ^ t2 mod p = z ^ (t1 * t2) mod p)%Z.
  by rewrite -Zpower_mod ?Z.pow_mul_r; lia.
rewrite /=; case: Z.ltb_spec => hxp; last by lia.
rewrite e; case: Z.eqb_spec => hc.
  case: (IH (x + 1)%Z); [lia|lia| |move=> z [hz [hz2 ->]]].
    exists y; split=> //; have : x <> y by move=> exy; rewrite exy in hc.
    lia.
  by exists z; split; [lia|split].
by exists x; split; [lia|split].
Qed.

Lemma find_rootP t1 t2 : (0 <= t1)%Z -> (0 <= t2)%Z -> (2 * (t1 * t2) = p - 1)%Z ->
  find_root U t1 t2 ^+ Z.to_nat t2 = -1.
Proof.
move=> h1 h2 h12; have hp := modulus_gt1 U.
pose h := Z.to_nat (t1 * t2).
have hh : (Z.to_nat p).-1 = h.*2.
  by rewrite -mul2n /muln /muln_rec -subn1 /subn /subn_rec /h; lia.
have [x nx hx] := nonresidue hh.
rewrite /find_root pNegOneE.
have -> : (p - 1 + 1 = p)%Z by lia.
have [] := @root_searchP (Z.to_nat p) 2 t1 t2 h1 h2; [lia|lia| |].
  exists (bi x); have := bigInt_range U x => hr.
  have n0 : bi x <> 0%Z by move=> e; move: nx; rewrite -(setBigInt_bigInt U x) e sb0 eqxx.
  have e1 : sb (bi x ^ (t1 * t2))%Z = x ^+ h by rewrite sb_pow ?setBigInt_bigInt //; lia.
  have n1 : bi x <> 1%Z.
    move=> e; move: hx; rewrite -(setBigInt_bigInt U x) e setBigInt_one expr1n eqxx //.
  split; first lia.
  by move=> e; move: hx; rewrite -e1 -sb_mod e setBigInt_one eqxx.
move=> y [hy [hy2 ->]].
rewrite sb_mod -sb_pow // -Z.pow_mul_r //.
rewrite sb_pow; last lia.
set z := sb y ^+ _.
have zz : z ^+ 2 = 1.
  rewrite /z -exprM muln2 -/h -hh fermat //.
  apply/eqP => e; have := sb_inj_mod (etrans e (esym sb0)).
  by rewrite Z.mod_0_l ?Z.mod_small; lia.
have : (z - 1) * (z + 1) == 0 by rewrite -subr_sqr zz expr1n subrr.
rewrite mulf_eq0 => /orP[|].
  rewrite subr_eq0 => /eqP e; exfalso; apply: hy2.
  have : sb (y ^ (t1 * t2))%Z = sb 1 by rewrite sb_pow ?setBigInt_one -?e //; lia.
  by move/sb_inj_mod => ->; rewrite Z.mod_small; lia.
by rewrite addr_eq0 => /eqP.
Qed.
End U.
