(** More of the generated element types: Exp and Div (C105), Select and LexicographicallyLargest
    (C107), text and JSON (C108).  Square roots are in Prop_Sqrt.v. *)
From Coq Require Import ZArith Znumtheory Zpow_facts Lia.
From mathcomp Require Import all_ssreflect zify ssrZ.
From Verif Require Import JindoIntModel ZpModel ZpConst ZpProofs ZpField ZpConv ZpInv ElemModel Prop_Zp.
Set Implicit Arguments. Unset Strict Implicit. Unset Printing Implicit Defensive.
Delimit Scope Z_scope with Z.
Local Arguments Z.mul : simpl never.
Local Arguments Z.add : simpl never.
Local Arguments Z.sub : simpl never.
Local Arguments Z.div : simpl never.
Local Arguments Z.modulo : simpl never.
Local Arguments Z.pow : simpl never.
Local Arguments Z.of_nat : simpl never.
Local Arguments Z.land : simpl never.
Local Arguments Z.lxor : simpl never.

(** * C105: Exp and Div *)
Lemma powBitsE g p x e : List.In (g, p) packages -> elt (Limbs g) p x -> (0 < e)%Z ->
  elt (Limbs g) p (powBits g x e (rev (iota 0 (bitLen e).-1))) /\
  BigInt g (powBits g x e (rev (iota 0 (bitLen e).-1))) = (BigInt g x ^ e mod p)%Z.
Proof.
move=> hg /(eltE _ (proj2 (pkg_ok hg))) hx he; have [ok e1] := pkg_ok hg.
have hb : (0 < bitLen e)%N by rewrite /bitLen; case: Z.eqb_spec => //; lia.
have := powBitsP ok e (rev (iota 0 (bitLen e).-1)) hx; rewrite bits_fold ?prednK //; last exact: bitLenP.
case=> h1 h2; split; first exact/(eltE _ e1).
by rewrite -e1; apply: eqq_small h2; exact: (ev_range ok (proj1 h1)).
Qed.
(** what Inverse returns: C98_Inverse and C98_InverseBig *)
Definition inverts (g : gen) (p : Z) (inv : seq Z -> seq Z) : Prop :=
  forall x, elt (Limbs g) p x -> elt (Limbs g) p (inv x) /\
    if (BigInt g x =? 0)%Z then BigInt g (inv x) = 0%Z else ((BigInt g x * BigInt g (inv x)) mod p = 1)%Z.
Lemma pkg_gt1 g p : List.In (g, p) packages -> (1 < p)%Z.
Proof. by rewrite /packages /=; do ![case=> [[_ <-]|]] => //; vm_compute. Qed.
Lemma one_elt g p : List.In (g, p) packages -> elt (Limbs g) p (oneM g) /\ BigInt g (oneM g) = 1%Z.
Proof.
by move=> /pkg_ok [ok e]; split; [exact/(eltE _ e)/(red_one ok)|exact: (ev_one ok)].
Qed.

Theorem C105_Exp g p inv x k : List.In (g, p) packages -> elt (Limbs g) p x -> (0 <= k)%Z ->
  elt (Limbs g) p (Exp g inv x k) /\ BigInt g (Exp g inv x k) = (BigInt g x ^ k mod p)%Z.
Proof.
move=> hg hx hk; rewrite /Exp; case: Z.eqb_spec => [->|h0].
  by have [h1 h2] := one_elt hg; have h3 := pkg_gt1 hg; rewrite h2 Z.pow_0_r Z.mod_small //; lia.
have -> : (k <? 0)%Z = false by lia.
by apply: powBitsE => //; lia.
Qed.
(** a negative exponent inverts the power, and gives zero for zero *)
Theorem C105_Exp_negative g p inv x k : List.In (g, p) packages -> inverts g p inv -> elt (Limbs g) p x -> (k < 0)%Z ->
  elt (Limbs g) p (Exp g inv x k) /\
  if (BigInt g x =? 0)%Z then BigInt g (Exp g inv x k) = 0%Z
  else ((BigInt g x ^ (- k) * BigInt g (Exp g inv x k)) mod p = 1)%Z.
Proof.
move=> hg hinv hx hk; rewrite /Exp.
have -> : (k =? 0)%Z = false by lia.
have -> : (k <? 0)%Z by lia.
have [h1 h2] := hinv _ hx; have hk' : (0 < - k)%Z by lia.
have [h3 h4] := powBitsE hg h1 hk'; split=> //; rewrite h4; have hp := pkg_gt1 hg.
case: Z.eqb_spec h2 => h0 h2; first by rewrite h2 Z.pow_0_l // Z.mod_0_l //; lia.
rewrite Zmult_mod_idemp_r -Z.pow_mul_l Zpower_mod ?h2; last by lia.
by rewrite Z.pow_1_l ?Z.mod_1_l //; lia.
Qed.
Theorem C105_Div g p inv x y : List.In (g, p) packages -> inverts g p inv -> elt (Limbs g) p x -> elt (Limbs g) p y ->
  elt (Limbs g) p (Div g inv x y) /\
  if (BigInt g y =? 0)%Z then BigInt g (Div g inv x y) = 0%Z
  else ((BigInt g y * BigInt g (Div g inv x y)) mod p = BigInt g x)%Z.
Proof.
move=> hg hinv hx hy; have [h1 h2] := hinv _ hy; have [h3 h4 _] := C67_Mul hg hx h1.
rewrite /Div; split=> //; rewrite h4; have hp := pkg_gt1 hg.
case: Z.eqb_spec h2 => h0 h2; first by rewrite h2 Z.mul_0_r Z.mod_0_l //; lia.
have [hr _ _] := C69_BigInt hg hx.
rewrite Zmult_mod_idemp_r (_ : (_ * (_ * _) = BigInt g x * (BigInt g y * BigInt g (inv y)))%Z); last by ring.
by rewrite -Zmult_mod_idemp_r h2 Z.mul_1_r Z.mod_small.
Qed.

(** * C107: Select, LexicographicallyLargest, BitLen *)
Lemma selMask0 : selMask 0 = 0%Z. Proof. by vm_compute. Qed.
Lemma selMaskN c : (- 2 ^ 63 <= c < 2 ^ 63)%Z -> c <> 0%Z -> selMask c = Z.ones 64.
Proof.
move=> hc h0; rewrite /selMask.
have -> : Z.shiftr (Z.lor c (toInt64 (- c))) 63 = (-1)%Z; last by vm_compute.
have hW : W = (2 ^ 63 * 2)%Z by vm_compute.
have h63 : (2 ^ 63 = 9223372036854775808)%Z by vm_compute.
have hs a : (- 2 ^ 63 <= a < 0)%Z -> Z.shiftr a 63 = (-1)%Z.
  by move=> ha; rewrite Z.shiftr_div_pow2 //; symmetry; apply: (Z.div_unique _ _ _ (a + 2 ^ 63)); lia.
have hs0 a : (0 <= a < 2 ^ 63)%Z -> Z.shiftr a 63 = 0%Z.
  by move=> ha; rewrite Z.shiftr_div_pow2 // Z.div_small.
rewrite Z.shiftr_lor /toInt64; case: (Z.ltb_spec c 0) => h; first by rewrite hs ?Z.lor_m1_l //; lia.
rewrite Z.mod_small; last by lia.
by rewrite (@hs0 c) ?Z.lor_0_l ?hs //; lia.
Qed.
Lemma lxor_word a b : (0 <= a < W)%Z -> (0 <= b < W)%Z -> (0 <= Z.lxor a b < 2 ^ 64)%Z.
Proof.
move=> ha hb; have h0 : (0 <= Z.lxor a b)%Z by apply/Z.lxor_nonneg; lia.
split=> //; case: (Z.eq_dec (Z.lxor a b) 0) => [->//|hn].
have hl c : (0 <= c < W)%Z -> (Z.log2 c < 64)%Z.
  move=> hc; case: (Z.eq_dec c 0) => [->//|hc0]; apply/Z.log2_lt_pow2; first by lia.
  exact: (proj2 hc).
apply/Z.log2_lt_pow2; first by lia.
have := Z.log2_lxor _ _ (proj1 ha) (proj1 hb); have := hl _ ha; have := hl _ hb.
move: (Z.log2 a) (Z.log2 b) (Z.log2 (Z.lxor a b)); clear; lia.
Qed.
Theorem C107_Select n c x0 x1 : (- 2 ^ 63 <= c < 2 ^ 63)%Z -> isWords n x0 -> isWords n x1 ->
  Select c x0 x1 = if (c =? 0)%Z then x0 else x1.
Proof.
move=> hc /isWordsE [<- h0] /isWordsE [/esym hs h1]; rewrite /Select; case: Z.eqb_spec => [->|/(selMaskN hc) ->].
- rewrite selMask0; elim: x0 x1 hs {h0 h1} => [|a x0 IH] [|b x1] //= [/IH ->].
  by rewrite Z.land_0_l Z.lxor_0_r.
- elim: x0 x1 hs h0 h1 => [|a x0 IH] [|b x1] //= [/IH h] /andP[/wordP ha h0] /andP[/wordP hb h1].
  rewrite h //; congr (_ :: _); rewrite Z.land_comm Z.land_ones // Z.mod_small.
    by rewrite -Z.lxor_assoc Z.lxor_nilpotent Z.lxor_0_l.
  exact: lxor_word.
Qed.
(** the constants of the packages *)
Definition sqrtPackages : seq (gen * Z * sqc) :=
  [:: (zp110, zp110_modulus, zp110_sq); (zp220, zp220_modulus, zp220_sq); (zp440, zp440_modulus, zp440_sq);
      (zp880, zp880_modulus, zp880_sq); (jindoZp, jindoZp_modulus, jindoZp_sq); (bfvZp, bfvZp_modulus, bfvZp_sq);
      (multZp, multZp_modulus, multZp_sq)].
Lemma sqrt_sub g p c : List.In (g, p, c) sqrtPackages -> List.In (g, p) packages.
Proof. by rewrite /sqrtPackages /packages /=; do ![case=> [[<- <- _]|]] => //; tauto. Qed.
Definition lexOk (gpc : gen * Z * sqc) : bool :=
  let: (g, p, c) := gpc in [&& size (lexHalf c) == Limbs g, all word (lexHalf c) & (2 * wordsVal (lexHalf c) =? p + 1)%Z].
Lemma lex_ok : all lexOk sqrtPackages. Proof. by vm_compute. Qed.
Theorem C107_LexicographicallyLargest g p c x : List.In (g, p, c) sqrtPackages -> elt (Limbs g) p x ->
  LexicographicallyLargest g c x <-> (BigInt g (Neg g x) < BigInt g x)%Z.
Proof.
move=> hc hx; have hg := sqrt_sub hc; have [ok e] := pkg_ok hg.
have /and3P[/eqP hs hw /Z.eqb_eq h2] := In_all lex_ok hc.
have [hr _ _] := C69_BigInt hg hx; have [_ ->] := C68_Neg hg hx.
have hx' : red g x by exact/(eltE _ e).
have [[[hs1 hw1] _] _] := fromMontP ok (proj1 hx').
rewrite /LexicographicallyLargest /Bits; case E: (subChain _ _ _) => [z b].
have [] := subChain_val _ hw1 hw _ E; [by rewrite hs1 hs|by []|].
move=> hs2 hw2 hv hb; have := val_range hw2; rewrite hs2; have hB := B_gt0 (size (fromMont g x)).
rewrite -[val (fromMont g x)]/(BigInt g x) in hv; rewrite -[val (lexHalf c)]/(wordsVal (lexHalf c)) in hv.
move=> hr2; have hbb : b = 0%Z \/ b = 1%Z by lia.
have -> : ((- BigInt g x) mod p)%Z = if (BigInt g x =? 0)%Z then 0%Z else (p - BigInt g x)%Z.
  case: Z.eqb_spec => [->|h0]; first by rewrite Z.mod_0_l //; lia.
  by rewrite -(Z_mod_plus_full _ 1) Z.mod_small; lia.
have hrx := val_range hw1; rewrite -[val (fromMont g x)]/(BigInt g x) in hrx.
case: hbb => ?; subst b => /=; case: Z.eqb_spec; split=> //; lia.
Qed.
Lemma bitLenWords_rec z k acc : all word z ->
  foldl (fun acc p => if (p.2 =? 0)%Z then acc else (64 * p.1 + bitLen p.2)%N) acc (zip (iota k (size z)) z)
  = if (val z =? 0)%Z then acc else (64 * k + bitLen (val z))%N.
Proof.
elim: z k acc => [|a z IH] k acc //= /andP[/wordP ha hw]; rewrite IH //.
have hv := proj1 (val_range hw); have hW : (0 < W)%Z by [].
case: (Z.eqb_spec (val z) 0) => hz.
  by rewrite hz Z.mul_0_r Z.add_0_r.
have -> : (a + W * val z =? 0)%Z = false by apply/Z.eqb_spec; nia.
rewrite /bitLen; have -> : (val z =? 0)%Z = false by lia.
have -> : (a + W * val z =? 0)%Z = false by apply/Z.eqb_spec; nia.
suff -> : Z.log2 (a + W * val z) = (64 + Z.log2 (val z))%Z.
  have := Z.log2_nonneg (val z); move: (Z.log2 (val z)) => l hl.
  by rewrite mulnS (_ : Z.to_nat (64 + l) = (64 + Z.to_nat l)%N); lia.
have [l1 l2] := Z.log2_spec (val z) ltac:(lia).
have l0 := Z.log2_nonneg (val z).
apply: Z.log2_unique; first by lia.
rewrite -Z.add_succ_r !Z.pow_add_r; try lia.
rewrite -[(2 ^ 64)%Z]/W; move: l1 l2; rewrite Z.pow_succ_r // Z.pow_1_r.
move: (2 ^ Z.log2 (val z))%Z (val z) ha => A v; clear => ha l1 l2; rewrite /W in ha *; lia.
Qed.
(** BitLen is the number of bits of the number whose words are given *)
Theorem C107_BitLen n z : isWords n z ->
  (intOf z < 2 ^ Z.of_nat (BitLenWords z))%Z /\
  ((0 < BitLenWords z)%N -> (2 ^ (Z.of_nat (BitLenWords z) - 1) <= intOf z)%Z).
Proof.
move=> /isWordsE [_ hw]; rewrite /BitLenWords bitLenWords_rec // muln0 add0n intOfE.
rewrite -[wordsVal z]/(val z); have hv := proj1 (val_range hw).
case: Z.eqb_spec => [->//|h0]; have [h1 h2] := @bitLenP (val z) ltac:(lia).
split=> // hb; have -> : (Z.of_nat (bitLen (val z)) - 1 = Z.of_nat (bitLen (val z)).-1)%Z by lia.
exact: h1.
Qed.

(** * C108: text and JSON *)
(** the value of a character as a digit, and of a string as a numeral *)
Definition digitVal (ch : Z) : Z := if (ch <? 58)%Z then (ch - 48)%Z else (ch - 87)%Z.
Definition numeral (base : Z) (s : seq Z) : Z :=
  \big[Z.add/0%Z]_(i < size s) (digitVal (nth 0%Z s i) * base ^ Z.of_nat (size s - i.+1))%Z.
(** the usual way to write a number: digits or lower-case letters, no leading zero, at least one digit *)
Definition isDigit (base ch : Z) : Prop :=
  ((48 <= ch <= 57)%Z \/ (97 <= ch <= 122)%Z) /\ (digitVal ch < base)%Z.
Definition canonical (base : Z) (s : seq Z) : Prop :=
  [/\ (0 < size s)%N, forall i, (i < size s)%N -> isDigit base (nth 0%Z s i) &
      (1 < size s)%N -> nth 0%Z s 0 <> 48%Z].
(** what is assumed of big.Int.SetString with base 0: it reads the decimal numerals, with a sign *)
Definition readsDecimal (parse : seq Z -> option Z) : Prop :=
  forall s, canonical 10 s -> parse s = Some (numeral 10 s) /\ parse (45%Z :: s) = Some (- numeral 10 s)%Z.

Lemma numeral_cons base a s : numeral base (a :: s) = (digitVal a * base ^ Z.of_nat (size s) + numeral base s)%Z.
Proof. by rewrite /numeral big_ord_recl /= subn1. Qed.
Lemma digitChar_ok base d : (2 <= base <= 36)%Z -> (0 <= d < base)%Z ->
  isDigit base (digitChar d) /\ digitVal (digitChar d) = d.
Proof.
move=> hb hd; rewrite /isDigit /digitChar; case: Z.ltb_spec => h; rewrite /digitVal.
  have -> : (48 + d <? 58)%Z by lia.
  by split; [split; [left|]|]; lia.
have -> : (87 + d <? 58)%Z = false by lia.
by split; [split; [right|]|]; lia.
Qed.
Lemma digitChar0 d : (0 <= d)%Z -> digitChar d = 48%Z -> d = 0%Z.
Proof. by rewrite /digitChar; case: Z.ltb_spec; lia. Qed.
Lemma digitsLoopP fuel base v acc : (2 <= base <= 36)%Z -> (0 <= v < base ^ Z.of_nat fuel)%Z -> (0 < fuel)%N ->
  (forall i, (i < size acc)%N -> isDigit base (nth 0%Z acc i)) ->
  let s := digitsLoop fuel base v acc in
  [/\ (size acc < size s <= size acc + fuel)%N,
      forall i, (i < size s)%N -> isDigit base (nth 0%Z s i),
      (v <> 0%Z -> nth 0%Z s 0 <> 48%Z), (v = 0%Z -> size s = (size acc).+1) &
      numeral base s = (v * base ^ Z.of_nat (size acc) + numeral base acc)%Z].
Proof.
move=> hb; elim: fuel v acc => // fuel IH v acc hv _ hacc /=.
have hb0 : (0 < base)%Z by lia.
have hm := Z.mod_pos_bound v base hb0; have hv2 := Z_div_mod_eq_full v base.
have hd0 : (0 <= v / base)%Z by apply: Z.div_pos; lia.
have [hd1 hd2] := digitChar_ok hb hm.
have hacc2 i : (i < size (digitChar (v mod base) :: acc))%N -> isDigit base (nth 0%Z (digitChar (v mod base) :: acc) i).
  by case: i => [|i] //=; exact: hacc.
case: Z.eqb_spec => hd.
- rewrite hd Z.mul_0_r Z.add_0_l in hv2; split=> //=; first by lia.
  + by move=> hv0 /digitChar0; lia.
  + by rewrite numeral_cons hd2 -hv2.
- have hf : (0 < fuel)%N by case: fuel hv {IH} => // hv; exfalso; apply: hd; apply: Z.div_small; lia.
  have hv3 : (0 <= v / base < base ^ Z.of_nat fuel)%Z.
    split=> //; apply: Z.div_lt_upper_bound => //.
    by move: (proj2 hv); rewrite Nat2Z.inj_succ Z.pow_succ_r; lia.
  have [h1 h2 h3 _ h4] := IH _ _ hv3 hf hacc2; split=> //.
  + by move: h1 => /=; lia.
  + by move=> _; exact: h3.
  + by move=> h0; exfalso; apply: hd; rewrite h0 Z.div_0_l //; lia.
  + rewrite h4 numeral_cons hd2 /= Nat2Z.inj_succ Z.pow_succ_r; last by lia.
    by rewrite [in RHS]hv2; ring.
Qed.
Lemma formatNatP base v : (2 <= base <= 36)%Z -> (0 <= v)%Z ->
  [/\ canonical base (formatNat base v), numeral base (formatNat base v) = v &
      (size (formatNat base v) <= (bitLen v).+1)%N].
Proof.
move=> hb hv; have hlt : (0 <= v < base ^ Z.of_nat (bitLen v).+1)%Z.
  split=> //; have h2 : (v < 2 ^ Z.of_nat (bitLen v).+1)%Z.
    case: (Z.eq_dec v 0) => [->//|h0]; have [_ h] := @bitLenP v ltac:(lia).
    by apply: Z.lt_le_trans h _; apply: Z.pow_le_mono_r; lia.
  by apply: Z.lt_le_trans h2 _; apply: Z.pow_le_mono_l; lia.
have [] := @digitsLoopP _ base v [::] hb hlt => //.
rewrite -/(formatNat base v) /= => h1 h2 h3 h4 h5; split.
- split=> [|i|h]; [by lia|exact: h2|].
  by apply: h3 => h0; move: h; rewrite h4.
- by rewrite h5 /numeral big_ord0; lia.
- by lia.
Qed.

Lemma numeral_ge0 base s : (2 <= base)%Z -> (forall i, (i < size s)%N -> isDigit base (nth 0%Z s i)) -> (0 <= numeral base s)%Z.
Proof.
move=> hb; elim: s => [|a s IH] h; first by rewrite /numeral big_ord0.
rewrite numeral_cons; have h1 : (0 <= numeral base s)%Z by apply: IH => i hi; exact: (h i.+1).
have [hd _] := h 0%N erefl; have h2 : (0 <= digitVal a)%Z by move: hd; rewrite /= /digitVal; case: Z.ltb_spec; lia.
have h3 : (0 <= base ^ Z.of_nat (size s))%Z by apply: Z.pow_nonneg; lia.
by apply: Z.add_nonneg_nonneg => //; exact: Z.mul_nonneg_nonneg.
Qed.
Lemma canonical_size base s p : (2 <= base)%Z -> (0 < p)%Z -> canonical base s -> (numeral base s < p)%Z ->
  (size s <= (bitLen p).+1)%N.
Proof.
move=> hb hp [h1 h2 h3] hn; case: s h1 h2 h3 hn => // a s _ h2 h3; rewrite numeral_cons => hn /=.
rewrite ltnS; case: s h2 h3 hn => // b s h2 h3 hn.
have hd : (1 <= digitVal a)%Z.
  by have [] := h2 0%N erefl; have := h3 erefl; rewrite /= /digitVal; case: Z.ltb_spec; lia.
have h4 : (0 <= numeral base (b :: s))%Z by apply: numeral_ge0 => // i hi; exact: (h2 i.+1).
have [_ h5] := bitLenP hp.
have h6 : (base ^ Z.of_nat (size (b :: s)) < 2 ^ Z.of_nat (bitLen p))%Z.
  have : (0 <= base ^ Z.of_nat (size (b :: s)))%Z by apply: Z.pow_nonneg; lia.
  by move: (base ^ _)%Z hn h5 => X; clear -hd h4; nia.
have h7 : (2 ^ Z.of_nat (size (b :: s)) < 2 ^ Z.of_nat (bitLen p))%Z.
  by apply: Z.le_lt_trans h6; apply: Z.pow_le_mono_l; lia.
have h8 : (Z.of_nat (size (b :: s)) < Z.of_nat (bitLen p))%Z.
  apply/(Z.pow_lt_mono_r_iff 2); [by []|by lia|exact: h7].
by lia.
Qed.
Theorem C108_Text g p base x : List.In (g, p) packages -> elt (Limbs g) p x ->
  if (2 <=? base)%Z && (base <=? 36)%Z then
    exists s, canonical base s /\
      if (base =? 10)%Z && (0 <? BigInt g x)%Z && (p - BigInt g x <=? 65535)%Z then
        Text g base x = Some (45%Z :: s) /\ numeral base s = (p - BigInt g x)%Z
      else Text g base x = Some s /\ numeral base s = BigInt g x
  else Text g base x = None.
Proof.
move=> hg hx; have hp := pkg_gt1 hg; rewrite /Text.
have hpw : (65536 < p)%Z by move: hg {hx hp}; rewrite /packages /=; do ![case=> [[_ <-]|]] => //; vm_compute.
have -> : ((base <? 2)%Z || (36 <? base)%Z) = ~~ ((2 <=? base)%Z && (base <=? 36)%Z) by lia.
case hbb: ((2 <=? base)%Z && (base <=? 36)%Z) => /=; last by [].
have hb : (2 <= base <= 36)%Z by lia.
have [hr _ _] := C69_BigInt hg hx.
have [hn en] := C68_Neg hg hx.
have [hrn _ _] := C69_BigInt hg hn.
have [un1 un2] := C69_Uint64 hg hn; have [u1 u2] := C69_Uint64 hg hx.
rewrite -![FitsOnOneWord _]/(IsUint64 g _) -![hd0 _]/(Uint64 g _) -![wordsVal _]/(BigInt g _).
have e1 : [&& IsUint64 g (Neg g x), (Uint64 g (Neg g x) <=? 65535)%Z & ~~ (Uint64 g (Neg g x) =? 0)%Z]
  = (0 <? BigInt g x)%Z && (p - BigInt g x <=? 65535)%Z.
  have h64 : (65535 < 2 ^ 64)%Z by [].
  have en2 : BigInt g (Neg g x) = if (BigInt g x =? 0)%Z then 0%Z else (p - BigInt g x)%Z.
    rewrite en; case: Z.eqb_spec => [->|h0]; first by rewrite Z.mod_0_l //; lia.
    by rewrite -(Z_mod_plus_full _ 1) Z.mod_small; lia.
  case E: (IsUint64 g (Neg g x)) => /=.
    rewrite un1 Z.mod_small; last by have := proj1 un2 E; lia.
    by rewrite en2; case: Z.eqb_spec => h0; lia.
  have hnE : ~ (BigInt g (Neg g x) < 2 ^ 64)%Z by move/un2; rewrite E.
  by move: hnE; rewrite en2; case: Z.eqb_spec => h0; lia.
rewrite e1 andbA; case hc: ((base =? 10)%Z && (0 <? BigInt g x)%Z && (p - BigInt g x <=? 65535)%Z).
- have {hc} [h0 hle] : (0 < BigInt g x)%Z /\ (p - BigInt g x <= 65535)%Z by lia.
  have hu : Uint64 g (Neg g x) = (p - BigInt g x)%Z.
    rewrite un1 en -(Z_mod_plus_full (- BigInt g x) 1 p) (@Z.mod_small _ p); last by lia.
    by rewrite Z.mod_small; [lia|split; [lia|apply: Z.lt_trans (_ : _ < 65536)%Z _; [lia|by []]]].
  have [|h1 h2 _] := @formatNatP base (p - BigInt g x) hb; first by lia.
  by exists (formatNat base (p - BigInt g x)); rewrite hu.
- have [h1 h2 _] := @formatNatP base (BigInt g x) hb (proj1 hr).
  exists (formatNat base (BigInt g x)); split=> //; split=> //.
  case E: (IsUint64 g x) => //; rewrite u1 Z.mod_small //; split; [lia|exact/u2].
Qed.

(** a string that reads as v gives v modulo p; a string that does not read is an error *)
Theorem C108_SetString g p parse s : List.In (g, p) packages ->
  match SetString g parse s with
  | Some x => exists v, [/\ parse s = Some v, elt (Limbs g) p x & BigInt g x = (v mod p)%Z]
  | None => parse s = None
  end.
Proof.
move=> hg; rewrite /SetString; case: (parse s) => [v|] //.
by have [h1 h2] := C69_SetBigInt v hg; exists v.
Qed.
Lemma set_big g p x v : List.In (g, p) packages -> elt (Limbs g) p x -> BigInt g x = (v mod p)%Z -> SetBigInt g v = x.
Proof.
move=> hg hx e; have [h1 h2] := C69_SetBigInt v hg; have [_ _ <-] := C69_BigInt hg hx.
by have [_ _ <-] := C69_BigInt hg h1; rewrite h2 e.
Qed.
Lemma text_parse g p parse x : List.In (g, p) packages -> readsDecimal parse -> elt (Limbs g) p x ->
  exists s, [/\ Text g 10 x = Some s, exists2 v, parse s = Some v & SetBigInt g v = x,
    (0 < size s <= (bitLen p).+2)%N & forall i, (i < size s)%N -> nth 0%Z s i <> 34%Z].
Proof.
move=> hg hpar hx; have [hr _ _] := C69_BigInt hg hx.
have [s [hcan]] := C108_Text 10 hg hx.
have hs34 : forall i, (i < size s)%N -> nth 0%Z s i <> 34%Z.
  by move=> i hi; case: hcan => _ /(_ i hi) [] h _ _; lia.
have hlen : (numeral 10 s < p)%Z -> (size s <= (bitLen p).+1)%N.
  by apply: canonical_size hcan; have := pkg_gt1 hg; lia.
have [hp1 hp2] := hpar _ hcan; have hs0 : (0 < size s)%N by case: hcan.
case: ifP => [/andP[/andP[_ /Z.ltb_lt h0] _]|_] [ht hn].
- exists (45%Z :: s); split=> //.
  + exists (- numeral 10 s)%Z => //; apply: (set_big hg hx).
    by rewrite hn -(Z_mod_plus_full _ 1) Z.mod_small; lia.
  + by rewrite /= ltnS; apply: hlen; lia.
  + by case=> [|i] //=; rewrite ltnS; exact: hs34.
- exists s; split=> //.
  + by exists (numeral 10 s) => //; apply: (set_big hg hx); rewrite hn Z.mod_small.
  + by rewrite hs0 /=; apply: leqW; apply: hlen; lia.
Qed.

(** reading what was written gives the element back *)
Theorem C108_roundtrip g p parse x : List.In (g, p) packages -> readsDecimal parse -> elt (Limbs g) p x ->
  exists2 s, String_ g x = Some s & SetString g parse s = Some x.
Proof.
move=> hg hpar hx; have [s [h1 [v h2 h3] _ _]] := text_parse hg hpar hx.
by exists s => //; rewrite /SetString h2 h3.
Qed.
(** also through JSON, where texts of more than fifteen characters are quoted *)
Theorem C108_JSON g p parse x : List.In (g, p) packages -> readsDecimal parse -> elt (Limbs g) p x ->
  exists s d, [/\ String_ g x = Some s, MarshalJSON g x = Some d,
    d = (if (size s <= 15)%N then s else 34%Z :: rcons s 34%Z) & UnmarshalJSON g parse d = Some x].
Proof.
move=> hg hpar hx; have [s [h1 [v h2 h3] /andP[hs0 hs] h34]] := text_parse hg hpar hx.
exists s, (if (size s <= 15)%N then s else 34%Z :: rcons s 34%Z); split=> //.
  by rewrite /MarshalJSON h1.
have [ok e] := pkg_ok hg; rewrite /UnmarshalJSON /modulusOf e.
have hbl : (16 <= bitLen p)%N.
  by move: hg {hx h1 h3 hs ok e}; rewrite /packages /=; do ![case=> [[_ <-]|]] => //; vm_compute.
case: (leqP (size s) 15) => h15.
- have -> : (bitLen p * 3 < size s)%N = false by move: hs hbl; move: (bitLen p) => b; lia.
  have hne : (nth 0 s 0 =? 34)%Z = false by apply/Z.eqb_spec; exact: h34.
  rewrite hne andbF.
  have hne2 : (last 0 s =? 34)%Z = false.
    by apply/Z.eqb_spec; rewrite -nth_last; apply: h34; rewrite prednK.
  by rewrite hne2 andbF /SetString h2 h3.
- have -> : (bitLen p * 3 < size (34%Z :: rcons s 34%Z))%N = false.
    by rewrite /= size_rcons; move: hs hbl; move: (bitLen p) => b; lia.
  rewrite [nth 0%Z _ 0]/= [behead _]/= [(0 < size (34%Z :: _))%N]/= Z.eqb_refl.
  rewrite last_rcons size_rcons Z.eqb_refl [_.+1.-1]/= -cats1 take_size_cat //.
  by rewrite /SetString h2 h3.
Qed.
Theorem C108_JSON_bound g parse d : (3 * bitLen (modulusOf g) < size d)%N -> UnmarshalJSON g parse d = None.
Proof. by move=> h; rewrite /UnmarshalJSON mulnC h. Qed.

(** * Examples *)
Definition exE (v : Z) : seq Z := SetBigInt zp220 v.
Lemma exE_elt v : elt (Limbs zp220) zp220_modulus (exE v).
Proof. by apply: (proj1 (C69_SetBigInt v _)); rewrite /packages /=; right; left. Qed.
Example ex_Exp : [/\ BigInt zp220 (Exp zp220 id (exE 3) 40) = (3 ^ 40)%Z,
  BigInt zp220 (Exp zp220 id (exE 0) 0) = 1%Z & BigInt zp220 (Exp zp220 id (exE 0) 7) = 0%Z].
Proof. by vm_compute. Qed.
(** with the inverses of 3 and 7 written down: 3^-2 * 9 = 1, 35 / 7 = 5 *)
Example ex_Exp_negative : BigInt zp220 (Mul zp220 (exE 9) (Exp zp220 (fun=> exE ((1 * zp220_modulus + 1) / 3)) (exE 3) (-2))) = 1%Z.
Proof. by vm_compute. Qed.
Example ex_Div : BigInt zp220 (Div zp220 (fun=> exE ((6 * zp220_modulus + 1) / 7)) (exE 35) (exE 7)) = 5%Z.
Proof. by vm_compute. Qed.
Example ex_Select : Select 0 [:: 1; 2]%Z [:: 3; 4]%Z = [:: 1; 2]%Z /\ Select (- 2 ^ 63) [:: 1; 2]%Z [:: 3; 4]%Z = [:: 3; 4]%Z.
Proof. by vm_compute. Qed.
Example ex_Lex : [/\ LexicographicallyLargest zp220 zp220_sq (exE (-1)), ~~ LexicographicallyLargest zp220 zp220_sq (exE 1),
  ~~ LexicographicallyLargest zp220 zp220_sq (exE ((zp220_modulus - 1) / 2)) &
  LexicographicallyLargest zp220 zp220_sq (exE ((zp220_modulus + 1) / 2))].
Proof. by vm_compute. Qed.
Example ex_BitLen : BitLenWords [:: 5; 0; 3; 0]%Z = 130%N /\ BitLenWords [:: 0; 0]%Z = 0%N.
Proof. by vm_compute. Qed.
(** -5 and 65541 = 0x10005 in base 10 and 16; base 1 panics *)
Example ex_Text : [/\ Text zp220 10 (exE (-5)) = Some [:: 45; 53]%Z, Text zp220 10 (exE 65541) = Some [:: 54; 53; 53; 52; 49]%Z,
  Text zp220 16 (exE 65546) = Some [:: 49; 48; 48; 48; 97]%Z & Text zp220 1 (exE 7) = None].
Proof. by vm_compute. Qed.
(** a reader of decimal numerals *)
Definition decParse (s : seq Z) : option Z :=
  Some (if (nth 0%Z s 0 =? 45)%Z then (- numeral 10 (behead s))%Z else numeral 10 s).
Example ex_parse : readsDecimal decParse.
Proof.
move=> s [h0 h1 _]; split; last by [].
rewrite /decParse; have [h _] := h1 _ h0; have -> // : (nth 0 s 0 =? 45)%Z = false by lia.
Qed.
Example ex_roundtrip : exists2 s, String_ zp220 (exE (2 ^ 200)) = Some s & SetString zp220 decParse s = Some (exE (2 ^ 200)).
Proof. by apply: C108_roundtrip ex_parse (exE_elt _); rewrite /packages /=; right; left. Qed.
(** 2^40 is written bare, 2^60 is quoted *)
Example ex_JSON : omap size (MarshalJSON zp220 (exE (2 ^ 40))) = Some 13%N /\
  omap (fun d => (size d, nth 0%Z d 0, last 0%Z d)) (MarshalJSON zp220 (exE (2 ^ 60))) = Some (21%N, 34%Z, 34%Z).
Proof. by vm_compute. Qed.

Print Assumptions C105_Exp.
Print Assumptions C105_Exp_negative.
Print Assumptions C105_Div.
Print Assumptions C107_Select.
Print Assumptions C107_LexicographicallyLargest.
Print Assumptions C107_BitLen.
Print Assumptions C108_Text.
Print Assumptions C108_SetString.
Print Assumptions C108_roundtrip.
Print Assumptions C108_JSON.
Print Assumptions C108_JSON_bound.
