(** A concrete instance of the [Uint] contract: the prime field 'F_p.  Used to show that
    the hypotheses of the theorems are met. *)
From Coq Require Import ZArith Lia.
From mathcomp Require Import all_ssreflect all_algebra zify.
From Verif Require Import UintModel BigpolyModel.
Set Implicit Arguments. Unset Strict Implicit. Unset Printing Implicit Defensive.
Import GRing.Theory.
Local Open Scope ring_scope.
Delimit Scope Z_scope with Z.

Lemma of_nat_modn a b : (0 < b)%N -> Z.of_nat (a %% b) = (Z.of_nat a mod Z.of_nat b)%Z.
Proof.
move=> hb; have h1 := divn_eq a b; have h2 := ltn_pmod a hb.
set q := (a %/ b)%N in h1; set r := (a %% b)%N in h1 h2 *.
by apply: (Z.mod_unique _ _ (Z.of_nat q)); nia.
Qed.

Section Fp.
Variables (p : nat) (pr : prime p).
Let F := [fieldType of 'F_p].

Definition fp_bigInt (x : F) : Z := Z.of_nat x.
Definition fp_setBigInt (z : Z) : F := (Z.to_nat (z mod Z.of_nat p))%:R.

Lemma fp_gt1 : (1 < Z.of_nat p)%Z.
Proof. by have := prime_gt1 pr; lia. Qed.

Lemma fp_range x : (0 <= fp_bigInt x < Z.of_nat p)%Z.
Proof. by have := ltn_ord x; rewrite {2}(Fp_cast pr) /fp_bigInt; lia. Qed.

Lemma fp_bs z : fp_bigInt (fp_setBigInt z) = (z mod Z.of_nat p)%Z.
Proof.
have h := Z.mod_pos_bound z (Z.of_nat p); have hp := fp_gt1.
rewrite /fp_bigInt /fp_setBigInt val_Fp_nat // modn_small ?Z2Nat.id //; lia.
Qed.

Lemma fp_sb x : fp_setBigInt (fp_bigInt x) = x.
Proof.
have h := fp_range x; rewrite /fp_setBigInt Z.mod_small // /fp_bigInt Nat2Z.id.
by rewrite natr_Zp.
Qed.

Lemma fp_natr_mod a b : (Z.of_nat a mod Z.of_nat p = Z.of_nat b mod Z.of_nat p)%Z ->
  a%:R = b%:R :> F.
Proof.
move=> h; apply: ord_inj; rewrite !val_Fp_nat //.
by apply: Nat2Z.inj; rewrite !of_nat_modn ?prime_gt0.
Qed.

Lemma fp_add a b : fp_setBigInt (a + b) = fp_setBigInt a + fp_setBigInt b.
Proof.
have hp := fp_gt1.
rewrite /fp_setBigInt -natrD; apply: fp_natr_mod.
have ha := Z.mod_pos_bound a (Z.of_nat p); have hb := Z.mod_pos_bound b (Z.of_nat p).
have hc := Z.mod_pos_bound (a + b) (Z.of_nat p).
rewrite -plusE Nat2Z.inj_add !Z2Nat.id; try lia.
by rewrite Z.mod_mod -?Z.add_mod; lia.
Qed.

Lemma fp_mul a b : fp_setBigInt (a * b) = fp_setBigInt a * fp_setBigInt b.
Proof.
have hp := fp_gt1.
rewrite /fp_setBigInt -natrM; apply: fp_natr_mod.
have ha := Z.mod_pos_bound a (Z.of_nat p); have hb := Z.mod_pos_bound b (Z.of_nat p).
have hc := Z.mod_pos_bound (a * b) (Z.of_nat p).
rewrite -multE Nat2Z.inj_mul !Z2Nat.id; try lia.
by rewrite Z.mod_mod -?Z.mul_mod; lia.
Qed.

Lemma fp_one : fp_setBigInt 1 = 1.
Proof. by have hp := fp_gt1; rewrite /fp_setBigInt Z.mod_small //; lia. Qed.

Definition uintFp : uint F :=
  Uint fp_gt1 fp_range fp_bs fp_sb fp_add fp_mul fp_one.
End Fp.

Definition F17 := [fieldType of 'F_17].
Definition U17 : uint F17 := @uintFp 17 isT.
Definition n17 (n : nat) : F17 := n%:R.

Definition F97 := [fieldType of 'F_97].
Definition U97 : uint F97 := @uintFp 97 isT.
