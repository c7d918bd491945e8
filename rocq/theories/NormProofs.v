(** Lemmas on decomposeBase/decomposeBig. *)
From Coq Require Import ZArith Lia.
From mathcomp Require Import all_ssreflect zify.
From Verif Require Import NormModel.
Set Implicit Arguments. Unset Strict Implicit. Unset Printing Implicit Defensive.
Delimit Scope Z_scope with Z.
Local Open Scope Z_scope.

(** Sum of digit * weight *)
Fixpoint dotz (d b : seq Z) : Z :=
  match d, b with x :: d', y :: b' => x * y + dotz d' b' | _, _ => 0 end.

Arguments dotz : simpl never.
Lemma dotz_cons x d y b : dotz (x :: d) (y :: b) = x * y + dotz d b. Proof. by []. Qed.
Lemma dotz_nil b : dotz [::] b = 0. Proof. by []. Qed.
Lemma dotz_nilr d : dotz d [::] = 0. Proof. by case: d. Qed.

Definition ternary (d : seq Z) := all (fun x => (x =? -1) || (x =? 0) || (x =? 1)) d.

Arguments sumz : simpl never.
Lemma sumz0 : sumz [::] = 0. Proof. by []. Qed.
Lemma sumz_cons s x : sumz (x :: s) = x + sumz s.
Proof. by []. Qed.
Lemma sumz_rcons s x : sumz (rcons s x) = sumz s + x.
Proof. elim: s => [|a s IH] /=; rewrite !sumz_cons ?IH ?sumz0; lia. Qed.
Lemma sumz_cat s t : sumz (s ++ t) = sumz s + sumz t.
Proof. elim: s => [|a s IH] //=; rewrite !sumz_cons IH; lia. Qed.
Lemma foldl_sumz a s : foldl Z.add a s = a + sumz s.
Proof. by elim: s a => [|x s IH] a /=; rewrite ?IH ?sumz_cons ?sumz0; lia. Qed.

(** The digit is ceil(b/2). *)
Lemma ceil_half b : Z.shiftr b 1 + Z.land b 1 = (b + 1) / 2.
Proof.
rewrite Z.shiftr_div_pow2 // (Z.land_ones b 1) // -[2 ^ 1]/2.
have h := Z.div_mod b 2; have h2 := Z.mod_pos_bound b 2.
have h3 := Z.div_mod (b + 1) 2; have h4 := Z.mod_pos_bound (b + 1) 2; lia.
Qed.

Lemma dcmp_digitE x s : dcmp_digit x s = (x - sumz s + 1) / 2.
Proof. by rewrite /dcmp_digit foldl_sumz ceil_half Z.add_0_l. Qed.

Lemma dcmp_loopS x k : dcmp_loop x k.+1 = rcons (dcmp_loop x k) (dcmp_digit x (dcmp_loop x k)).
Proof. by []. Qed.

Lemma size_dcmp_loop x k : size (dcmp_loop x k) = k.
Proof. by elim: k => [|k IH] //; rewrite dcmp_loopS size_rcons IH. Qed.

(** After k digits the remainder is floor(x / 2^k). *)
Lemma dcmp_loop_rem x k : x - sumz (dcmp_loop x k) = x / 2 ^ Z.of_nat k.
Proof.
elim: k => [|k IH]; first by rewrite /= Z.div_1_r sumz0; lia.
rewrite dcmp_loopS sumz_rcons dcmp_digitE Nat2Z.inj_succ Z.pow_succ_r; last lia.
rewrite [2 * _]Z.mul_comm -Z.div_div -?IH; [|lia|lia].
move: (sumz _) => t; have -> : x - (t + (x - t + 1) / 2) = (x - t) - (x - t + 1) / 2 by lia.
move: (x - t) => b; have h := Z.div_mod b 2; have h2 := Z.mod_pos_bound b 2.
have h3 := Z.div_mod (b + 1) 2; have h4 := Z.mod_pos_bound (b + 1) 2; lia.
Qed.

(** A base "covers" S when it is greedy: each weight b is followed by weights whose sum
    is at least b - 1 and b is at least half the total. *)
Fixpoint greedy (base : seq Z) : bool :=
  match base with [::] => true | b :: s => (0 <? b) && (b - 1 <=? sumz s) && greedy s end.

Lemma greedy_pos base : greedy base -> 0 <= sumz base.
Proof. by elim: base => [|b s IH] //=; rewrite sumz_cons => /andP[/andP[/Z.ltb_spec0 h _] /IH]; lia. Qed.

Lemma greedy_digits base x : greedy base -> Z.abs x <= sumz base ->
  [/\ size (dcmp_digits x base) = size base, ternary (dcmp_digits x base)
    & dotz (dcmp_digits x base) base = x].
Proof.
elim: base x => [|b s IH] x /=; first by rewrite sumz0 dotz_nil; split=> //; lia.
rewrite sumz_cons => /andP[/andP[/Z.ltb_spec0 hb /Z.leb_spec0 hs] hg] hx.
case: Z.leb_spec => h1 /=.
  have [|-> -> e] := IH (x - b) hg; [lia|by split=> //; rewrite dotz_cons e; lia].
case: Z.leb_spec => h2 /=.
  have [|-> -> e] := IH (x + b) hg; [lia|by split=> //; rewrite dotz_cons e; lia].
have [|-> -> e] := IH x hg; [lia|by split=> //; rewrite dotz_cons e; lia].
Qed.

Lemma ternaryP x : (x =? -1) || (x =? 0) || (x =? 1) -> x = -1 \/ x = 0 \/ x = 1.
Proof. by move=> /orP[/orP[]|] /Z.eqb_eq ->; tauto. Qed.

Lemma ternary_bound d base : ternary d -> all (fun b => 0 <=? b) base -> Z.abs (dotz d base) <= sumz base.
Proof.
elim: base d => [|b s IH] [|x d] //=; rewrite ?sumz_cons ?dotz_cons ?dotz_nil ?dotz_nilr //.
- by move=> _ /andP[/Z.leb_spec0 h hs]; have := IH [::] isT hs; rewrite dotz_nil; lia.
- move=> /andP[hx hd] /andP[/Z.leb_spec0 h hs]; have := IH d hd hs.
  have [->|[->|->]] := ternaryP hx; lia.
Qed.

Lemma greedy_nonneg base : greedy base -> all (fun b => 0 <=? b) base.
Proof.
elim: base => [|b s IH] //= /andP[/andP[/Z.ltb_spec0 h _] /IH ->].
by rewrite andbT; apply/Z.leb_spec0; lia.
Qed.

(** Building greedy bases from the back: list of digits from index j on. *)
Lemma greedy_loop x m : 0 < x -> (forall k, (k <= m)%N -> 0 < x / 2 ^ Z.of_nat k) ->
  forall t, greedy t ->
  sumz t = x / 2 ^ Z.of_nat m \/ (x mod 2 ^ Z.of_nat m = 0 /\ sumz t = x / 2 ^ Z.of_nat m - 1) ->
  greedy (dcmp_loop x m ++ t).
Proof.
move=> hx; elim: m => [|m IH] hk t ht h1 //.
rewrite dcmp_loopS cat_rcons.
have hr := dcmp_loop_rem x m.
rewrite dcmp_digitE hr.
have er : x / 2 ^ Z.of_nat m.+1 = x / 2 ^ Z.of_nat m / 2.
  rewrite Nat2Z.inj_succ Z.pow_succ_r; last lia.
  by rewrite [2 * _]Z.mul_comm -Z.div_div //; lia.
have hmod : x mod 2 ^ Z.of_nat m.+1 = 0 -> x mod 2 ^ Z.of_nat m = 0 /\ (x / 2 ^ Z.of_nat m) mod 2 = 0.
  have p0 : 0 < 2 ^ Z.of_nat m by apply: Z.pow_pos_nonneg; lia.
  rewrite Nat2Z.inj_succ Z.pow_succ_r; last lia.
  move=> /Z.mod_divide []; first lia.
  move=> c ->; rewrite Z.mul_assoc Z.mod_mul; last lia.
  by rewrite Z.div_mul ?Z.mod_mul; lia.
rewrite er in h1 *.
have r0 : 0 < x / 2 ^ Z.of_nat m by apply: (hk m); lia.
apply: IH.
- by move=> k hkm; apply: hk; lia.
- rewrite /= ht andbT; move: r0 h1 hmod; move: (x / _) => r r0 h1 hmod.
  have h3 := Z.div_mod (r + 1) 2; have h4 := Z.mod_pos_bound (r + 1) 2.
  have h5 := Z.div_mod r 2; have h6 := Z.mod_pos_bound r 2.
  apply/andP; split; [apply/Z.ltb_spec0|apply/Z.leb_spec0]; first lia.
  by case: h1 => [->|[/hmod[_ e] ->]]; lia.
- rewrite sumz_cons; move: r0 h1 hmod; move: (x / _) => r r0 h1 hmod.
  have h3 := Z.div_mod (r + 1) 2; have h4 := Z.mod_pos_bound (r + 1) 2.
  have h5 := Z.div_mod r 2; have h6 := Z.mod_pos_bound r 2.
  by case: h1 => [->|[/hmod[e e2] ->]]; [left|right; split=> //]; lia.
Qed.

Lemma ptz_spec p : exists k, Z.pos p = 2 ^ ptz p * (2 * k + 1) /\ 0 <= k /\ 0 <= ptz p.
Proof.
elim: p => [p _|p [k [e [hk h0]]]|].
- by exists (Z.pos p); rewrite /= -/(Z.pos p); lia.
- exists k; split; last by rewrite /=; lia.
  rewrite [ptz _]/= Z.pow_add_r // (Pos2Z.inj_xO p) e; lia.
- by exists 0.
Qed.

Definition pow2 (x : Z) := exists k, 0 <= k /\ x = 2 ^ k.

Lemma isPow2P x : 0 < x -> (Z.shiftl 1 (trailingZeroBits x) =? x) = true <-> pow2 x.
Proof.
case: x => // p _; have [k [e [hk h0]]] := ptz_spec p.
rewrite /trailingZeroBits Z.eqb_eq Z.shiftl_mul_pow2 // Z.mul_1_l; split.
  by move=> <-; exists (ptz p).
move=> [m [hm em]]; rewrite em in e.
have k0 : k = 0; last by rewrite em e k0; lia.
case: (Z.eq_dec k 0) => // hk0.
have [lt|ge] := Z.lt_ge_cases m (ptz p).
  have := Z.pow_lt_mono_r 2 m (ptz p); nia.
have h : 2 ^ (m - ptz p) = 2 * k + 1.
  have hp : 0 < 2 ^ ptz p by apply: Z.pow_pos_nonneg; lia.
  apply: (Z.mul_reg_l _ _ (2 ^ ptz p)); first lia.
  by rewrite -Z.pow_add_r; [rewrite -e; congr (_ ^ _); lia|lia|lia].
have [e0|gt] := Z.eq_dec (m - ptz p) 0; first by rewrite e0 in h; move: h; rewrite Z.pow_0_r; lia.
have : 2 ^ (m - ptz p) = 2 * 2 ^ (m - ptz p - 1) by rewrite -Z.pow_succ_r; [congr (_ ^ _); lia|lia].
lia.
Qed.

(** The total weight of the base. *)
Definition cover (x : Z) : Z := if Z.shiftl 1 (trailingZeroBits x) =? x then x - 1 else x.

Lemma decomposeBaseP x : 2 <= x -> exists base,
  [/\ decomposeBase x = Some base, greedy base, sumz base = cover x &
      Z.of_nat (size base) = bitLen x - (if Z.shiftl 1 (trailingZeroBits x) =? x then 1 else 0)].
Proof.
move=> hx; rewrite /decomposeBase /cover /bitLen.
have -> : (x =? 0) = false by apply/Z.eqb_neq; lia.
rewrite Z.abs_eq; last lia.
have hl := Z.log2_spec x; have hp := isPow2P (x := x).
have l1 : 1 <= Z.log2 x by rewrite -[1]/(Z.log2 2); apply: Z.log2_le_mono.
have hk k : (k <= Z.to_nat (Z.log2 x))%N -> 0 < x / 2 ^ Z.of_nat k.
  move=> hk; apply: Z.div_str_pos; split; first by apply: Z.pow_pos_nonneg; lia.
  apply: Z.le_trans (2 ^ Z.log2 x) _ _ _; last lia.
  by apply: Z.pow_le_mono_r; lia.
case E: (_ =? x).
  have [k [k0 ek]] : pow2 x by apply/hp; [lia|].
  have lk : Z.log2 x = k by rewrite ek Z.log2_pow2.
  have -> : (Z.log2 x + 1 - 1 <=? 0) = false by apply/Z.leb_gt; lia.
  set m := Z.to_nat _.
  have hm : x / 2 ^ Z.of_nat m = 2.
    rewrite {1}ek -Z.pow_sub_r; [|lia|rewrite /m; lia].
    by have -> : k - Z.of_nat m = 1 by rewrite /m; lia.
  eexists; split; first reflexivity.
  - rewrite -cats1; apply: greedy_loop; [lia| |by []|right].
    + by move=> j hj; apply: hk; rewrite /m in hj; lia.
    + rewrite hm; split=> //; apply/Z.mod_divide; first by have := Z.pow_pos_nonneg 2 (Z.of_nat m); lia.
      exists 2; rewrite {1}ek -Z.pow_succ_r; last lia.
      by congr (_ ^ _); rewrite /m; lia.
  - rewrite sumz_rcons; have := dcmp_loop_rem x m; lia.
  - by rewrite size_rcons size_dcmp_loop /m; lia.
have -> : (Z.log2 x + 1 - 0 <=? 0) = false by apply/Z.leb_gt; lia.
set m := Z.to_nat _.
have hm : x / 2 ^ Z.of_nat m = 1.
  have -> : Z.of_nat m = Z.log2 x by rewrite /m; lia.
  symmetry; apply: (Z.div_unique_pos _ _ _ (x - 2 ^ Z.log2 x)); last lia.
  by move: (hl); rewrite Z.pow_succ_r; lia.
eexists; split; first reflexivity.
- rewrite -cats1; apply: greedy_loop; [lia| |by []|by left; rewrite hm].
  by move=> j hj; apply: hk; rewrite /m in hj; lia.
- rewrite sumz_rcons; have := dcmp_loop_rem x m; lia.
- by rewrite size_rcons size_dcmp_loop /m; lia.
Qed.
