(** SampleFloat on bit-exact floats. *)
From Coq Require Import ZArith SpecFloat Lia Zpower.
From mathcomp Require Import all_ssreflect.
From mathcomp.zify Require Import zify.
From Verif Require Import JindoIntModel CsprngModel.
Set Implicit Arguments. Unset Strict Implicit. Unset Printing Implicit Defensive.
Delimit Scope Z_scope with Z.
Local Arguments Z.mul : simpl never.
Local Arguments Z.add : simpl never.
Local Arguments Z.sub : simpl never.
Local Arguments Z.pow : simpl never.

Lemma digits_log2 p : Z.pos (digits2_pos p) = (Z.log2 (Z.pos p) + 1)%Z.
Proof.
elim: p => [p IH|p IH|//].
- by rewrite -[digits2_pos p~1]/(Pos.succ (digits2_pos p)) Pos2Z.inj_succ IH (Pos2Z.inj_xI p) Z.log2_succ_double //; lia.
- by rewrite -[digits2_pos p~0]/(Pos.succ (digits2_pos p)) Pos2Z.inj_succ IH (Pos2Z.inj_xO p) Z.log2_double //; lia.
Qed.
Lemma digits_range p d : (2 ^ d <= Z.pos p < 2 ^ (d + 1))%Z -> (0 <= d)%Z -> Z.pos (digits2_pos p) = (d + 1)%Z.
Proof. by move=> h hd; rewrite digits_log2 (Z.log2_unique _ _ hd h). Qed.

Lemma fexp64 e : (-1021 <= e)%Z -> fexp f64prec f64emax e = (e - 53)%Z.
Proof. rewrite /fexp /emin /f64prec /f64emax; lia. Qed.

(** rounding leaves a 53-bit mantissa alone *)
Lemma shr_fexp53 m e : Z.pos (digits2_pos m) = 53%Z -> (-1074 <= e)%Z ->
  shr_fexp f64prec f64emax (Z.pos m) e loc_Exact = ({| shr_m := Z.pos m; shr_r := false; shr_s := false |}, e).
Proof.
move=> hm he; rewrite /shr_fexp /Zdigits2 hm fexp64; last lia.
have -> : (53 + e - 53 - e = 0)%Z by lia.
by [].
Qed.
Lemma round53 s m e : Z.pos (digits2_pos m) = 53%Z -> (-1074 <= e <= 971)%Z ->
  binary_round_aux f64prec f64emax s (Z.pos m) e loc_Exact = S754_finite s m e.
Proof.
move=> hm he; rewrite /binary_round_aux shr_fexp53 //=; last lia.
rewrite shr_fexp53 //=; last lia.
by have -> : (e <=? f64emax - f64prec)%Z by apply/Z.leb_le; rewrite /f64emax /f64prec; lia.
Qed.
(** one bit more, with a zero as the last bit *)
Lemma round54 s m e : Z.pos (digits2_pos m) = 53%Z -> (-1074 <= e <= 970)%Z ->
  binary_round_aux f64prec f64emax s (Z.pos m~0) e loc_Exact = S754_finite s m (e + 1).
Proof.
move=> hm he; rewrite /binary_round_aux {1}/shr_fexp.
have -> : Zdigits2 (Z.pos m~0) = 54%Z by rewrite /= Pos2Z.inj_succ hm.
rewrite fexp64; last lia.
have -> : (54 + e - 53 - e = 1)%Z by lia.
rewrite /= shr_fexp53 //=; last lia.
by have -> : (e + 1 <=? f64emax - f64prec)%Z by apply/Z.leb_le; rewrite /f64emax /f64prec; lia.
Qed.

Definition pow52 : positive := Z.to_pos (2 ^ 52).
Lemma pow52E : Z.pos pow52 = (2 ^ 52)%Z. Proof. by []. Qed.

Lemma div_pow52 m : (2 ^ 52 <= Z.pos m < 2 ^ 53)%Z ->
  SFdiv f64prec f64emax (S754_finite false m 0) (S754_finite false pow52 0) = S754_finite false m (-52).
Proof.
move=> hm; have hd : Z.pos (digits2_pos m) = 53%Z by apply: (@digits_range _ 52).
rewrite /SFdiv /SFdiv_core_binary.
have -> : Zdigits2 (Z.pos m) = 53%Z by [].
have -> : Zdigits2 (Z.pos pow52) = 53%Z by [].
have -> : Z.min (fexp f64prec f64emax (53 + 0 - (53 + 0))) (0 - 0) = (-53)%Z by [].
rewrite -[(0 - 0 - -53)%Z]/(Z.pos 53) Z.shiftl_mul_pow2 //.
have -> : Z.div_eucl (Z.pos m * 2 ^ 53) (Z.pos pow52) = (Z.pos m~0, 0%Z).
  have := Z_div_mod (Z.pos m * 2 ^ 53) (Z.pos pow52) erefl.
  case: Z.div_eucl => q r; rewrite pow52E => -[e hr].
  have [-> ->] : q = Z.pos m~0 /\ r = 0%Z; last by [].
  rewrite (Pos2Z.inj_xO m); split; lia.
by rewrite -[new_location _ _]/loc_Exact /= -/f64prec round54.
Qed.

Lemma sub_one m : (2 ^ 52 <= Z.pos m < 2 ^ 53)%Z ->
  SFsub f64prec f64emax (S754_finite false m (-52)) (S754_finite false pow52 (-52)) =
  binary_normalize f64prec f64emax (Z.pos m - 2 ^ 52) (-52) false.
Proof. by []. Qed.

Lemma normalize_small k : (Z.pos k < 2 ^ 52)%Z ->
  let d := Z.log2 (Z.pos k) in
  exists m, binary_normalize f64prec f64emax (Z.pos k) (-52) false = S754_finite false m (d - 104) /\
   Z.pos m = (Z.pos k * 2 ^ (52 - d))%Z /\ Z.pos (digits2_pos m) = 53%Z.
Proof.
move=> hk d; have hd0 : (0 <= d)%Z by apply: Z.log2_nonneg.
have [h1 h2] : (2 ^ d <= Z.pos k < 2 ^ Z.succ d)%Z by apply: Z.log2_spec.
have hd : (d < 52)%Z by apply/Z.log2_lt_pow2.
rewrite /= /binary_round digits_log2 -/d fexp64; last lia.
rewrite /shl_align.
have -> : (d + 1 + -52 - 53 - -52 = - (52 - d))%Z by lia.
have : (0 < 52 - d)%Z by lia.
case E : (52 - d)%Z => [|p|p] // _; rewrite -[(- Z.pos p)%Z]/(Z.neg p).
have hs : Z.pos (shift_pos p k) = (Z.pos k * 2 ^ (52 - d))%Z.
  by rewrite shift_pos_correct Z.mul_comm E; congr (_ * _)%Z; rewrite -Zpower_pos_nat Zpower_nat_Z positive_nat_Z.
have hdig : Z.pos (digits2_pos (shift_pos p k)) = 53%Z.
  apply: (@digits_range _ 52) => //; rewrite hs; split.
    have -> : (2 ^ 52 = 2 ^ d * 2 ^ (52 - d))%Z by rewrite -Z.pow_add_r; [congr (2 ^ _)%Z|..]; lia.
    by apply: Z.mul_le_mono_nonneg_r => //; apply: Z.pow_nonneg.
  have -> : (2 ^ (52 + 1) = 2 ^ Z.succ d * 2 ^ (52 - d))%Z by rewrite -Z.pow_add_r; [congr (2 ^ _)%Z|..]; lia.
  have hp : (0 < 2 ^ (52 - d))%Z by apply: Z.pow_pos_nonneg; lia.
  by apply: (proj1 (Z.mul_lt_mono_pos_r _ _ _ hp)).
exists (shift_pos p k); rewrite round53 //; last lia.
rewrite -E; split; last by split.
by have -> : (d + 1 + -52 - 53 = d - 104)%Z by lia.
Qed.

(** value of a finite float in units of 2^-1074 *)
Definition scaled (x : spec_float) : option Z :=
  match x with
  | S754_zero _ => Some 0%Z
  | S754_finite s m e => Some ((if s then -1 else 1) * (Z.pos m * 2 ^ (e + 1074)))%Z
  | _ => None
  end.

Lemma sampleFloat_value w : scaled (SampleFloatOf w) = Some ((w mod 2 ^ 52) * 2 ^ 1022)%Z /\
  valid_binary f64prec f64emax (SampleFloatOf w).
Proof.
have hr : (0 <= w mod 2 ^ 52 < 2 ^ 52)%Z by apply: Z.mod_pos_bound.
rewrite /SampleFloatOf; move: (w mod 2 ^ 52)%Z hr => r hr.
have -> : Float64frombits (Z.lor r (Z.shiftl (1023 + floatPrec) floatPrec)) = S754_finite false (Z.to_pos (2 ^ 52 + r)) 0.
  have -> : Z.lor r (Z.shiftl (1023 + floatPrec) floatPrec) = (r + 1075 * 2 ^ 52)%Z.
    have e0 : Z.land r (Z.shiftl 1075 52) = 0%Z.
      apply: Z.bits_inj' => n hn; rewrite Z.land_spec Z.bits_0.
      case: (Z.ltb_spec n 52) => h; first by rewrite Z.shiftl_spec_low // Bool.andb_false_r.
      case: (Z.eq_dec r 0) => [->|na]; first by rewrite Z.bits_0.
      rewrite Z.bits_above_log2 //; first lia.
      by apply/(@Z.lt_le_trans _ 52) => //; apply/Z.log2_lt_pow2; lia.
    by rewrite -[(1023 + floatPrec)%Z]/1075%Z -[floatPrec]/52%Z -Z.lxor_lor // -Z.add_nocarry_lxor // Z.shiftl_mul_pow2.
  rewrite /Float64frombits Z.shiftr_div_pow2 // Z.div_add // Z.div_small // Z.mod_add // Z.mod_small //.
  rewrite -[((0 + 1075) mod 2048 - 1075)%Z]/0%Z; congr (S754_finite _ _ _).
  apply/negbTE/negP; rewrite /is_true Z.testbit_true // => h.
  have e63 : ((r + 1075 * 2 ^ 52) / 2 ^ 63 = 0)%Z by apply: Z.div_small; lia.
  by rewrite e63 in h.
have hm : Z.pos (Z.to_pos (2 ^ 52 + r)) = (2 ^ 52 + r)%Z by rewrite Z2Pos.id //; lia.
rewrite -/pow52 div_pow52 ?hm; last lia.
rewrite sub_one ?hm; last lia.
have -> : (2 ^ 52 + r - 2 ^ 52 = r)%Z by lia.
case: r hr hm => [|k|k] hr hm; last lia; first by [].
have [|m [-> [e1 e2]]] := @normalize_small k; first by lia.
split.
  rewrite /scaled e1 Z.mul_1_l -Z.mul_assoc -Z.pow_add_r; [do 2!f_equal; f_equal; lia | | ].
    have : (Z.log2 (Z.pos k) < 52)%Z by apply/Z.log2_lt_pow2; lia.
    by lia.
  by have := Z.log2_nonneg (Z.pos k); lia.
have hd0 : (0 <= Z.log2 (Z.pos k))%Z by apply: Z.log2_nonneg.
have hd1 : (Z.log2 (Z.pos k) < 52)%Z by apply/Z.log2_lt_pow2; lia.
rewrite /valid_binary /bounded /canonical_mantissa e2 fexp64; last lia.
apply/andP; split; first by apply/Zeq_is_eq_bool; lia.
by apply/Z.leb_le; rewrite /f64emax /f64prec; lia.
Qed.
