(** Tactics that execute both sides of an equation of straight line programs symbolically. *)
From Coq Require Import ZArith.
From mathcomp Require Import all_ssreflect.
From Verif Require Import JindoIntModel ZpModel.
Set Implicit Arguments. Unset Strict Implicit. Unset Printing Implicit Defensive.
Delimit Scope Z_scope with Z.

Lemma madd1C a b c : madd1 a b c = madd1 b a c.
Proof. by rewrite /madd1 /Mul64 Z.mul_comm. Qed.

(** names the result of every machine operation, on both sides at once *)
Ltac opcase e := match goal with
  | H : e = _ |- _ => rewrite H; cbv beta iota
  | _ => destruct e eqn:?
  end.
Ltac ops := repeat (match goal with
  | |- context [Mul64 ?a ?b] => opcase (Mul64 a b)
  | |- context [Add64 ?a ?b ?c] => opcase (Add64 a b c)
  | |- context [Sub64 ?a ?b ?c] => opcase (Sub64 a b c)
  | |- context [madd1 ?a ?b ?c] => opcase (madd1 a b c)
  | |- context [madd2 ?a ?b ?c ?d] => opcase (madd2 a b c d)
  end).
Ltac ifs := repeat (match goal with
  | |- context [negb ?c] => destruct c; cbn [negb]; cbv iota
  | |- context [if ?c then _ else _] => destruct c; cbv iota
  end).
Ltac unfolded := cbv -[Add64 Sub64 Mul64 madd0 madd1 madd2 Z.mul Z.add Z.sub Z.modulo Z.land Z.lxor Z.shiftr Z.shiftl Z.pow Z.eqb Z.lor W negb less].
Lemma shl0 : (Z.shiftl 0 63 mod W)%Z = 0%Z. Proof. by []. Qed.
Lemma shl1 : (Z.shiftl 1 63 mod W)%Z = (2 ^ 63)%Z. Proof. by []. Qed.
Ltac halving := unfolded; match goal with |- context [(Z.land ?a 1 =? 1)%Z] => destruct (Z.land a 1 =? 1)%Z end; cbv beta iota;
  rewrite ?Z.eqb_refl; cbn [negb]; cbv iota; ops; ifs; rewrite ?shl0 ?shl1 ?Z.lor_0_r; reflexivity.
