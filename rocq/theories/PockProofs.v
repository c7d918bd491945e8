(** The criterion of Lucas, Pocklington and Lehmer for N - 1 fully factored. *)
From mathcomp Require Import all_ssreflect all_fingroup all_algebra all_field.
Set Implicit Arguments. Unset Strict Implicit. Unset Printing Implicit Defensive.
Import GRing.Theory.
Local Open Scope ring_scope.

Lemma Fp_eq p (a b : nat) : prime p -> a = b %[mod p] -> (a%:R : 'F_p) = b%:R.
Proof. by move=> hp h; rewrite -(Fp_nat_mod hp a) h Fp_nat_mod. Qed.

Lemma order_dvd (p q e : nat) (y : 'F_p) : prime p -> prime q -> (0 < e)%N ->
  y ^+ (q ^ e) = 1 -> y ^+ (q ^ e.-1) != 1 -> (q ^ e %| p.-1)%N.
Proof.
move=> hp hq he h1 h2.
have hqe : (0 < q ^ e)%N by rewrite expn_gt0 prime_gt0.
have [m hm hmd] := prim_order_exists hqe h1.
have /(dvdn_pfactor _ _ hq) [j hj em] := hmd.
have ej : j = e.
  apply/eqP; rewrite eqn_leq hj leqNgt; apply/negP=> hlt.
  case/negP: h2; rewrite -(prim_order_dvd hm) em dvdn_exp2l //.
  by case: e he hlt {hj h1 hqe hmd}.
rewrite -ej -em (prim_order_dvd hm).
have hy : y != 0.
  apply/negP=> /eqP hy; rewrite hy expr0n gtn_eqF // in h1.
apply/eqP; apply: (mulfI hy); rewrite -exprS prednK ?prime_gt0 // mulr1.
by have := expf_card y; rewrite card_Fp.
Qed.

Local Close Scope ring_scope.
Theorem pock (N : nat) : (1 < N)%N ->
  (forall q, prime q -> q %| N.-1 -> exists a, a ^ N.-1 = 1 %[mod N] /\ coprime N (a ^ (N.-1 %/ q) - 1)) -> prime N.
Proof.
move=> hN h; have hp := pdiv_prime hN; set p := pdiv N in hp; have hpN : p %| N by exact: pdiv_dvd.
have hN1 : (0 < N.-1)%N by rewrite -subn1 subn_gt0.
suff hd : N.-1 %| p.-1.
  have : (N.-1 <= p.-1)%N by apply: dvdn_leq => //; rewrite -subn1 subn_gt0 prime_gt1.
  have h1 := dvdn_leq (ltnW hN) hpN; have h2 := prime_gt0 hp => h3.
  suff -> : N = p by [].
  by apply/eqP; rewrite eqn_leq h1 andbT -(prednK (ltnW hN)) -(prednK h2) ltnS.
apply/dvdn_partP => // q hq; rewrite p_part.
move: hq; rewrite mem_primes => /and3P[hq _ hqd].
have [a [ha hc]] := h q hq hqd.
have he : (0 < logn q N.-1)%N by rewrite logn_gt0 mem_primes hq hN1.
set e := logn q N.-1 in he *.
have eN : N.-1 = (N.-1 %/ q ^ e * q ^ e)%N by rewrite divnK // pfactor_dvdnn.
apply: (@order_dvd p q e ((a ^ (N.-1 %/ q ^ e))%:R)%R) => //.
- rewrite -natrX -expnM -eN; apply: (@Fp_eq p _ 1) => //.
  by rewrite -(modn_dvdm _ hpN) ha modn_dvdm.
- rewrite -natrX -expnM.
  have -> : (N.-1 %/ q ^ e * q ^ e.-1 = N.-1 %/ q)%N.
    apply/eqP; rewrite -(eqn_pmul2r (prime_gt0 hq)) divnK // -mulnA -expnSr prednK //; exact/eqP.
  apply/negP=> /eqP h1.
  have hpos : (0 < a ^ (N.-1 %/ q))%N.
    rewrite lt0n; apply/negP=> /eqP h0; move: hc; rewrite h0 sub0n /coprime gcdn0 => /eqP h2.
    by rewrite h2 in hN.
  have : p %| (a ^ (N.-1 %/ q) - 1).
    rewrite -(eqn_mod_dvd _ hpos) -!(val_Fp_nat hp) h1; exact/eqP.
  move=> h2; have := dvdn_gcd p N (a ^ (N.-1 %/ q) - 1); rewrite hpN h2 (eqP hc) dvdn1 => /eqP h3.
  by rewrite h3 in hp.
Qed.
