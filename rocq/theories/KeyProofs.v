(** NewCommitKey: shapes, ranges, fuel, attainable keys. *)
From Coq Require Import ZArith Lia.
From mathcomp Require Import all_ssreflect.
From mathcomp.zify Require Import zify.
From Verif Require Import JindoIntModel CsprngModel CsprngProofs.
Set Implicit Arguments. Unset Strict Implicit. Unset Printing Implicit Defensive.
Delimit Scope Z_scope with Z.

(** word j of the output of Sample *)
Definition wordAt (ks : nat -> Z) (j : nat) : Z := leWord (fun k => outByte ks (8 * j + k)).

Section Key.
Variable ks : nat -> Z.
Notation drawer A := (sampler -> option (A * sampler)).

Definition mono (A : Type) (F : nat -> drawer A) : Prop :=
  forall f g s r, (f <= g)%N -> F f s = Some r -> F g s = Some r.
Definition total (A : Type) (F : nat -> drawer A) : Prop :=
  forall s j, stAfter ks s j -> exists f a s' j', F f s = Some (a, s') /\ stAfter ks s' j'.
Definition yields (A : Type) (f : drawer A) (flat : A -> seq Z) (a : A) : Prop :=
  forall s j, stAfter ks s j -> (forall i, (i < size (flat a))%N -> wordAt ks (j + i) = nth 0%Z (flat a) i) ->
  exists s', f s = Some (a, s') /\ stAfter ks s' (j + size (flat a)).

Lemma times_all (A : Type) n (f : drawer A) (P : A -> Prop) s l s' :
  (forall s a s', f s = Some (a, s') -> P a) -> times n f s = Some (l, s') ->
  size l = n /\ (forall a, List.In a l -> P a).
Proof.
move=> h; elim: n s l s' => [|n IH] s l s' /=; first by case=> <- _.
case E : (f s) => [[a s1]|//]; case E2 : (times n f s1) => [[l2 s2]|//] [<- _].
have [hs hP] := IH _ _ _ E2; split; first by rewrite /= hs.
by move=> b /= [<-|]; [apply: h E | apply: hP].
Qed.
Lemma times_mono (A : Type) n (F : nat -> drawer A) : mono F -> mono (fun f => times n (F f)).
Proof.
move=> h f g s r hfg; elim: n s r => [//|n IH] s r /=.
case E : (F f s) => [[a s1]|//]; rewrite (h _ _ _ _ hfg E).
by case E2 : (times n (F f) s1) => [[l s2]|//]; rewrite (IH _ _ E2).
Qed.
Lemma times_total (A : Type) n (F : nat -> drawer A) : mono F -> total F -> total (fun f => times n (F f)).
Proof.
move=> hm ht; elim: n => [|n IH] s j hs; first by exists 0%N, [::], s, j.
have [f [a [s1 [j1 [e1 h1]]]]] := ht _ _ hs; have [g [l [s2 [j2 [e2 h2]]]]] := IH _ _ h1.
exists (maxn f g), (a :: l), s2, j2; split=> //=.
by rewrite (hm _ _ _ _ (leq_maxl f g) e1) (times_mono hm (leq_maxr f g) e2).
Qed.
Lemma times_yields (A : Type) n (f : drawer A) flat (l : seq A) : size l = n ->
  (forall a, List.In a l -> yields f flat a) -> yields (times n f) (fun l => flatten (map flat l)) l.
Proof.
move=> <- {n}; elim: l => [|a l IH] h s j hs hw; first by exists s; rewrite addn0.
have ha : yields f flat a by apply: h; left.
have [i hi|s1 [e1 h1]] := ha _ _ hs.
  have := hw i; rewrite /= size_cat nth_cat hi; apply.
  by apply: leq_trans hi (leq_addr _ _).
have [|i hi|s2 [e2 h2]] := IH _ _ _ h1; first by move=> b hb; apply: h; right.
  have := hw (size (flat a) + i)%N; rewrite /= size_cat nth_cat ltn_add2l => /(_ hi).
  by rewrite addnA => ->; rewrite ltnNge leq_addr addKn.
by exists s2; rewrite /= e1 e2 size_cat addnA.
Qed.

(** ** The leaves *)
Lemma sampleLoop_mono n : mono (fun f => sampleLoop ks f n).
Proof.
move=> f g s r hfg; elim: f g hfg s => [//|f IH] [//|g] hfg s /=.
by case: Sample => [[v s1]|//]; case: ifP => // _; apply: IH.
Qed.
Lemma SampleN_mono n : mono (fun f => SampleN ks f n).
Proof. by move=> f g s r h; rewrite /SampleN; case: ifP => // _; apply: sampleLoop_mono. Qed.
(** words below 2^63 keep coming *)
Definition lively : Prop := forall j, exists j', (j <= j')%N /\ (wordAt ks j' < 2 ^ 63)%Z.
Lemma SampleN_total n : lively -> (0 < n < W)%Z -> total (fun f => SampleN ks f n).
Proof.
move=> hl hn s j hs; have [j' [hj hw]] := hl j.
have hb : (wordAt ks j' < sampleBound n)%Z by have := bound_half hn; lia.
have n0 : (n =? 0)%Z = false by apply/Z.eqb_neq; lia.
pose acc d := (wordAt ks (j + d) <? sampleBound n)%Z.
have hex : exists d, acc d by exists (j' - j)%N; rewrite /acc subnKC //; apply/Z.ltb_lt.
case: (ex_minnP hex) => d ha hmin.
have [i hi||s' [e h']] := sampleLoop_first (n := n) hs (fuel := d.+1) (d := d) (ltnSn d).
- by case: (Z.ltb_spec (wordAt ks (j + i)) (sampleBound n)) => // /Z.ltb_lt h; have := hmin i h; lia.
- exact/Z.ltb_lt.
by exists d.+1, (wordAt ks (j + d) mod n)%Z, s', (j + d.+1)%N; rewrite /SampleN n0.
Qed.
Lemma drawLimbs_mono ms : mono (fun f => drawLimbs ks f ms).
Proof.
elim: ms => [//|m ms IH] f g s r h /=.
case E : (SampleN ks f m s) => [[v s1]|//]; rewrite (SampleN_mono h E).
by case E2 : (drawLimbs ks f ms s1) => [[l s2]|//]; rewrite (IH _ _ _ _ h E2).
Qed.
Definition moduli (ms : seq Z) : Prop := forall m, List.In m ms -> (0 < m < W)%Z.
Lemma drawLimbs_total ms : lively -> moduli ms -> total (fun f => drawLimbs ks f ms).
Proof.
move=> hl; elim: ms => [|m ms IH] hm s j hs; first by exists 0%N, [::], s, j.
have [f [a [s1 [j1 [e1 h1]]]]] := SampleN_total hl (hm m (or_introl erefl)) hs.
have [|g [l [s2 [j2 [e2 h2]]]]] := IH _ _ _ h1; first by move=> k hk; apply: hm; right.
exists (maxn f g), (a :: l), s2, j2; split=> //=.
by rewrite (SampleN_mono (leq_maxl f g) e1) (drawLimbs_mono (leq_maxr f g) e2).
Qed.
(** reduced limbs: one value below each modulus *)
Definition below (ms vs : seq Z) : Prop := size vs = size ms /\ forall l, (l < size ms)%N -> (0 <= nth 0%Z vs l < nth 0%Z ms l)%Z.
Lemma drawLimbs_below f ms s vs s' : moduli ms -> drawLimbs ks f ms s = Some (vs, s') -> below ms vs.
Proof.
elim: ms s vs s' => [|m ms IH] s vs s' hm /=; first by case=> <- _.
case E : (SampleN ks f m s) => [[v s1]|//]; case E2 : (drawLimbs ks f ms s1) => [[l s2]|//] [<- _].
have [|hz hb] := IH _ _ _ _ E2; first by move=> k hk; apply: hm; right.
split; first by rewrite /= hz.
case=> [_|i hi] /=; last exact: hb.
have h0 := hm m (or_introl erefl); move: E; rewrite /SampleN; case: ifP => // _.
by apply: sampleLoop_range; lia.
Qed.
Lemma SampleN_yields f n v : (0 < n < W)%Z -> (0 <= v < n)%Z -> yields (SampleN ks f.+1 n) (fun v => [:: v]) v.
Proof.
move=> hn hv s j hs hw; have := hw 0%N isT; rewrite addn0 /= => e.
have n0 : (n =? 0)%Z = false by apply/Z.eqb_neq; lia.
have hb : (n <= sampleBound n)%Z.
  rewrite boundE; last lia.
  have : (1 <= (W - 1) / n)%Z by apply: Z.div_le_lower_bound; rewrite /W in hn *; lia.
  nia.
have [s1 [e1 h1]] := sample_step hs; exists s1.
rewrite /SampleN n0 /= e1 -/(wordAt ks j) e.
have -> : (v <? sampleBound n)%Z by apply/Z.ltb_lt; lia.
by rewrite Z.mod_small // addn1.
Qed.
Lemma drawLimbs_yields f ms vs : moduli ms -> below ms vs -> yields (drawLimbs ks f.+1 ms) id vs.
Proof.
elim: ms vs => [|m ms IH] [|v vs] hm [hz hb] //; first by move=> s j hs _; exists s; rewrite addn0.
move=> s j hs hw.
have [i hi|s1 [e1 h1]] := SampleN_yields f (hm m (or_introl erefl)) (hb 0%N isT) hs.
  by case: i hi => // _; apply: (hw 0%N).
have [||i hi|s2 [e2 h2]] := IH vs _ _ _ _ h1.
- by move=> k hk; apply: hm; right.
- by split; [case: hz | move=> l hl; apply: (hb l.+1)].
- by rewrite addn1 addSnnS; apply: (hw i.+1).
by exists s2; rewrite /= e1 e2; split=> //; rewrite addn1 addSnnS in h2.
Qed.
End Key.
