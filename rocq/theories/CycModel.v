(** The polynomial rings of the commitment scheme.

    lattigo's ring.Ring of degree d with moduli q_0, ..., q_L stands for Z[X]/(Q, X^d+1), Q the
    product.  ring.Poly values are kept by jindo in NTT and Montgomery form; lattigo documents
    Add, Sub, MulCoeffsMontgomery* on that form as the ring operations, and (I)MForm, (I)NTT as
    changes of representation.  So a ring.Poly is an element of a ring given with its
    coefficients; [cyc d Q] lists what is used of it.  [cycQ] builds one. *)
From Coq Require Import ZArith.
From mathcomp Require Import all_ssreflect all_algebra ring_quotient generic_quotient zify ssrZ.
Set Implicit Arguments. Unset Strict Implicit. Unset Printing Implicit Defensive.
Import GRing.Theory Pdiv.Ring Pdiv.RingMonic.
Delimit Scope Z_scope with Z.
Local Open Scope ring_scope.

(** Z[X]/(Q, X^d+1): [pr] is the projection, [co] the coefficients in [0, Q) *)
Record cyc (d : nat) (Q : Z) : Type := Cyc {
  car :> comRingType;
  pr : {rmorphism {poly Z} -> car};
  co : car -> seq Z;
  co_size : forall r, size (co r) = d;
  pr_co : forall r, pr (Poly (co r)) = r;
  co_pr : forall (p : {poly Z}) i, (size p <= d)%N -> (i < d)%N -> nth 0%Z (co (pr p)) i = (p`_i mod Q)%Z;
  pr_X : pr ('X^d + 1) = 0
}.

Section Inst.
Variables (d : nat) (Q : Z).
Hypothesis hd : (0 < d)%N.
Hypothesis hQ : (1 < Q)%Z.

Definition cycP : {poly Z} := 'X^d + 1.
Lemma cycP_size : size cycP = d.+1.
Proof. by rewrite /cycP size_addl ?size_polyXn ?size_poly1 // ltnS. Qed.
Lemma cycP_monic : cycP \is monic.
Proof. by rewrite monicE lead_coefE cycP_size coefD coefXn eqxx coef1 eqn0Ngt hd addr0. Qed.
Lemma rmod_size p : (size (rmodp p cycP) <= d)%N.
Proof. by rewrite -ltnS -cycP_size ltn_rmodp -size_poly_eq0 cycP_size. Qed.

Definition cycI : {pred {poly Z}} := [pred p | all (fun i => Z.eqb ((rmodp p cycP)`_i mod Q) 0) (iota 0 d)].

Lemma cycIP p : reflect (exists u v, p = Q *: u + v * cycP) (p \in cycI).
Proof.
apply: (iffP allP) => [h|[u [v ->]] i _].
  pose r := rmodp p cycP; exists (\poly_(i < d) (r`_i / Q)%Z), (rdivp p cycP).
  rewrite addrC {1}(rdivp_eq cycP_monic p); congr (_ + _).
  apply/polyP => i; rewrite coefZ coef_poly; case: ltnP => hi.
    have := h i; rewrite mem_iota => /(_ hi)/Z.eqb_eq e.
    have := Z.div_mod r`_i Q; rewrite -/r e => e'.
    by rewrite -[RHS]/(Z.mul Q (Z.div r`_i Q)); lia.
  by rewrite mulr0 nth_default //; apply: leq_trans hi; exact: rmod_size.
apply/Z.eqb_eq; rewrite rmodpD ?cycP_monic // rmodp_mull ?cycP_monic // addr0.
have -> : rmodp (Q *: u) cycP = Q *: rmodp u cycP.
  rewrite {1}(rdivp_eq cycP_monic u) scalerDr scalerAl.
  rewrite rmodp_addl_mul_small ?cycP_monic //.
  by apply: leq_ltn_trans (size_scale_leq _ _) _; rewrite cycP_size ltnS rmod_size.
rewrite coefZ -[X in Z.modulo X _]/(Z.mul Q _) Z.mul_comm; apply: Z_mod_mult.
Qed.

Lemma cycI_key : pred_key cycI. Proof. by []. Qed.
Canonical cycI_keyed := KeyedPred cycI_key.
Lemma cycI_closed : idealr_closed cycI.
Proof.
split.
- by apply/cycIP; exists 0, 0; rewrite scaler0 mul0r addr0.
- apply/negP => /allP /(_ 0%N); rewrite mem_iota hd => /(_ isT) /Z.eqb_eq.
  rewrite rmodp_small ?cycP_size ?size_poly1 // coefC eqxx -[1]/1%Z Z.mod_small; [by []|].
  by split=> //; lia.
move=> a _ _ /cycIP[u [v ->]] /cycIP[u' [v' ->]]; apply/cycIP.
exists (a * u + u'), (a * v + v'); rewrite scalerDr mulrDr mulrDl -scalerAr mulrA.
by rewrite -!addrA; congr (_ + _); rewrite addrCA.
Qed.
Canonical cycI_addr := AddrPred cycI_closed.
Canonical cycI_zmod := ZmodPred cycI_closed.
Definition cycI_ideal := MkIdeal cycI_zmod cycI_closed.
Definition cycI_kid : keyed_pred cycI_ideal := KeyedPred cycI_key.

Definition cycT : comRingType := [comRingType of {ideal_quot cycI_kid}].
Definition cycpr (p : {poly Z}) : cycT := \pi_({ideal_quot cycI_kid})%qT p.
Lemma cycpr_morph : rmorphism cycpr.
Proof.
split; first by move=> p q; rewrite /cycpr !piE.
by split=> [p q|]; rewrite /cycpr !piE.
Qed.
Canonical cycpr_additive := Additive cycpr_morph.
Canonical cycpr_rmorphism := RMorphism cycpr_morph.

Lemma cycpr0 p : (cycpr p = 0) <-> (p \in cycI).
Proof.
rewrite /cycpr; split=> h.
  have : (p == 0 %[mod {ideal_quot cycI_kid}])%qT by apply/eqP; rewrite h; symmetry; exact: (rmorph0 cycpr_rmorphism).
  by rewrite -Quotient.idealrBE subr0.
have : (p == 0 %[mod {ideal_quot cycI_kid}])%qT by rewrite -Quotient.idealrBE subr0.
by move=> /eqP ->; exact: (rmorph0 cycpr_rmorphism).
Qed.

Definition cycco (r : cycT) : seq Z := mkseq (fun i => (rmodp (repr r) cycP)`_i mod Q)%Z d.

Lemma cycpr_rmod p : cycpr (rmodp p cycP) = cycpr p.
Proof.
rewrite {2}(rdivp_eq cycP_monic p) rmorphD /= (_ : cycpr (_ * cycP) = 0) ?add0r //.
by apply/cycpr0/cycIP; exists 0, (rdivp p cycP); rewrite scaler0 add0r.
Qed.
Lemma cyc_pr_co r : cycpr (Poly (cycco r)) = r.
Proof.
rewrite -{2}[r]reprK -/(cycpr (repr r)) -(cycpr_rmod (repr r)).
apply/eqP; rewrite -subr_eq0 -rmorphB; apply/eqP/cycpr0/cycIP.
set p := rmodp _ _; exists (\poly_(i < d) (- (p`_i / Q))%Z), 0; rewrite mul0r addr0.
apply/polyP => i; rewrite coefB coefZ coef_poly coef_Poly.
case: ltnP => hi.
  rewrite nth_mkseq // -/p.
  rewrite -[LHS]/(Z.sub (p`_i mod Q) p`_i) -[RHS]/(Z.mul Q (- (p`_i / Q))).
  have := Z.div_mod p`_i Q; lia.
rewrite !nth_default ?size_mkseq ?subrr ?mulr0 //.
exact: leq_trans (rmod_size _) hi.
Qed.
Lemma cyc_co_pr (p : {poly Z}) i : (size p <= d)%N -> (i < d)%N -> nth 0%Z (cycco (cycpr p)) i = (p`_i mod Q)%Z.
Proof.
move=> hp hi; rewrite nth_mkseq //; set r := repr _.
have : cycpr (r - p) = 0 by rewrite rmorphB /= /r /cycpr reprK subrr.
move=> /cycpr0 /allP /(_ i); rewrite mem_iota => /(_ hi) /Z.eqb_eq.
rewrite rmodpD ?cycP_monic // coefD.
have -> : rmodp (- p) cycP = - p by rewrite rmodp_small // size_opp cycP_size ltnS.
rewrite coefN -[X in Z.modulo X _]/(Z.sub _ _) => e.
have := Z.div_mod (Z.sub (rmodp r cycP)`_i p`_i) Q; rewrite e => e'.
have -> : (rmodp r cycP)`_i = (p`_i + (((rmodp r cycP)`_i - p`_i) / Q) * Q)%Z by lia.
by rewrite Z.mod_add //; lia.
Qed.
Lemma cyc_pr_X : cycpr ('X^d + 1) = 0.
Proof. by apply/cycpr0/cycIP; exists 0, 1; rewrite scaler0 add0r mul1r. Qed.

Definition cycQ : cyc d Q := @Cyc d Q cycT [rmorphism of cycpr] cycco
  (fun r => size_mkseq _ _) cyc_pr_co cyc_co_pr cyc_pr_X.
End Inst.
