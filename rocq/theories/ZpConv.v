(** Bytes, halving and random elements of the limb types. *)
From Coq Require Import ZArith Znumtheory Lia.
From mathcomp Require Import all_ssreflect zify.
From Verif Require Import JindoIntModel ZpModel ZpProofs CsprngProofs ZpField.
Set Implicit Arguments. Unset Strict Implicit. Unset Printing Implicit Defensive.
Delimit Scope Z_scope with Z.
Local Arguments Z.mul : simpl never.
Local Arguments Z.add : simpl never.
Local Arguments Z.sub : simpl never.
Local Arguments Z.div : simpl never.
Local Arguments Z.modulo : simpl never.
Local Arguments Z.pow : simpl never.
Local Arguments Z.of_nat : simpl never.
Local Arguments Z.lor : simpl never.
Local Arguments Z.lxor : simpl never.
Local Arguments Z.shiftl : simpl never.
Local Arguments Z.shiftr : simpl never.
Local Arguments Z.land : simpl never.
Local Arguments Z.testbit : simpl never.
Local Opaque Add64 Sub64 Mul64 madd0 madd1 madd2 putBE getBE.

Lemma pow256 k : (256 ^ Z.of_nat (8 * k) = B k)%Z.
Proof.
elim: k => [|k IH]; first by rewrite muln0 B0.
by rewrite mulnS Nat2Z.inj_add Z.pow_add_r ?IH ?BS //; lia.
Qed.

Lemma marshalP ws : all word ws ->
  [/\ size (flatten [seq putBE w | w <- rev ws]) = (8 * size ws)%N,
      all byte (flatten [seq putBE w | w <- rev ws]) &
      beVal (flatten [seq putBE w | w <- rev ws]) = val ws].
Proof.
elim: ws => [|a ws IH] //= /andP[ha /IH [h1 h2 h3]].
have [p1 p2 p3] := putBEP ha.
rewrite rev_cons map_rcons flatten_rcons; split.
- by rewrite size_cat h1 p1 mulnS addnC.
- by rewrite all_cat h2 p2.
- rewrite beVal_cat h3 p3 p1; have -> : (256 ^ Z.of_nat 8 = W)%Z by []. lia.
Qed.

Lemma beVal_lt e : all byte e -> (0 <= beVal e < 256 ^ Z.of_nat (size e))%Z.
Proof.
elim/last_ind: e => // e d IH; rewrite all_rcons -cats1 beVal_cat => /andP[/byteP h /IH h1].
have -> : (256 ^ Z.of_nat (size [:: d]) = 256)%Z by [].
rewrite size_cat addn1 Nat2Z.inj_succ Z.pow_succ_r; last by lia.
rewrite -[beVal [:: d]]/(0 * 256 + d)%Z; lia.
Qed.
Lemma getBE_word b : all byte b -> size b = 8%N -> word (getBE b).
Proof. by move=> hb hs; rewrite getBEE //; apply/wordP; have := beVal_lt hb; rewrite hs; wl. Qed.
Lemma unmarshalP k b : all byte b -> size b = (8 * k)%N ->
  let z := rev [seq getBE w | w <- reshape (nseq k 8%N) b] in
  [/\ size z = k, all word z & val z = beVal b].
Proof.
elim: k b => [|k IH] b hb /=.
  by move=> hs; case: b hs {hb}.
rewrite mulnS => hs; set b1 := take 8 b; set b2 := drop 8 b.
have hb' : all byte b1 /\ all byte b2 by apply/andP; rewrite -all_cat cat_take_drop.
have s1 : size b1 = 8%N by rewrite size_take hs; case: ltnP => //; case: (k) => // ? /=; rewrite ?muln0 // mulnS; lia.
have s2 : size b2 = (8 * k)%N by rewrite size_drop hs addnC addnK.
have [h1 h2 h3] := IH _ hb'.2 s2.
rewrite rev_cons; split.
- by rewrite size_rcons h1.
- by rewrite all_rcons h2 getBE_word //; case: hb'.
- rewrite val_rcons h1 h3 getBEE; last by case: hb'.
  rewrite -[in RHS](cat_take_drop 8 b) beVal_cat -/b1 -/b2 s2 pow256; lia.
Qed.

(** little-endian value of a list of bytes *)
Definition leVal (l : seq Z) : Z := foldr (fun d acc => d + 256 * acc)%Z 0%Z l.
Lemma leVal_cat a b : leVal (a ++ b) = (leVal a + 256 ^ Z.of_nat (size a) * leVal b)%Z.
Proof.
elim: a => [|d a IH]; first by rewrite /= Z.pow_0_r; lia.
rewrite cat_cons /= IH Nat2Z.inj_succ Z.pow_succ_r; [ring|lia].
Qed.
Lemma leVal_lt e : all byte e -> (0 <= leVal e < 256 ^ Z.of_nat (size e))%Z.
Proof.
elim: e => // d e IH /= /andP[/byteP h /IH h1]; rewrite Nat2Z.inj_succ Z.pow_succ_r; lia.
Qed.
Lemma leVal_nseq0 k : leVal (nseq k 0%Z) = 0%Z.
Proof. by elim: k => //= k ->. Qed.
Lemma lor_leVal l : all byte l -> foldr (fun d acc => Z.lor d (Z.shiftl acc 8)) 0%Z l = leVal l.
Proof.
elim: l => //= d l IH /andP[/byteP h /IH ->]; rewrite lor_shift //; lia.
Qed.
Lemma val_leVal (f : nat -> Z) k : (forall i, byte (f i)) ->
  let z := mkseq (fun j => foldr (fun i acc => Z.lor (f (8 * j + i)%N) (Z.shiftl acc 8)) 0%Z (iota 0 8)) k in
  [/\ size z = k, all word z & val z = leVal (mkseq f (8 * k))].
Proof.
move=> hf z; have hb j m : all byte [seq f (j + i)%N | i <- iota 0 m].
  by rewrite all_map; apply/allP => i _; apply: hf.
have e j : foldr (fun i acc => Z.lor (f (8 * j + i)%N) (Z.shiftl acc 8)) 0%Z (iota 0 8) =
    leVal [seq f (8 * j + i)%N | i <- iota 0 8].
  by rewrite -(lor_leVal (hb _ _)) foldr_map.
rewrite /z (eq_mkseq e) {e z}; split; first by rewrite size_mkseq.
  rewrite all_map; apply/allP => j _; apply/wordP.
  by have := leVal_lt (hb (8 * j)%N 8%N); rewrite size_map size_iota; wl.
elim: k => [|k IH] //.
rewrite mkseqS val_rcons size_mkseq IH mulnS addnC.
rewrite /mkseq iotaD map_cat leVal_cat size_map size_iota pow256 add0n; congr (_ + _ * leVal _)%Z.
by rewrite -{2}[(8 * k)%N]addn0 iotaDl -map_comp.
Qed.

Section Gen.
Variables (g : gen) (ok : okGen g).
Local Notation q := (qs g).
Local Notation n := (Limbs g).
Local Notation Q := (val (qs g)).
Local Notation ev := (ev g).

Lemma MarshalP x : limbs g x ->
  [/\ size (Marshal g x) = (8 * n)%N, all byte (Marshal g x) & beVal (Marshal g x) = ev x].
Proof.
move=> hx; have [[[h1 h2] _] _] := fromMontP ok hx.
by have := marshalP h2; rewrite h1.
Qed.

Lemma beElementP e : all byte e -> size e = (8 * n)%N ->
  if beElement g e is Some z then [/\ (beVal e < Q)%Z, red g z & ev z = beVal e] else (Q <= beVal e)%Z.
Proof.
move=> he hs; rewrite /beElement; have [h1 h2 h3] := unmarshalP he hs.
move: h1 h2 h3; set z := rev _ => h1 h2 h3.
rewrite /smallerThanModulus less_val //; last exact: ok_q.
rewrite -h3; case: Z.ltb_spec => h //.
by have [h4 h5] := toMontP ok (conj (conj h1 h2) h).
Qed.
Lemma SetBytesP e : all byte e -> red g (SetBytes g e) /\ (ev (SetBytes g e) = beVal e mod Q)%Z.
Proof.
move=> he; rewrite /SetBytes -/(beVal e); have hslow := SetBigIntP ok (beVal e).
case: eqP => // hs; have := beElementP he hs; case: (beElement g e) => // z [h1 h2 h3].
by split=> //; rewrite h3 Z.mod_small //; split=> //; apply: beVal_ge0.
Qed.
Lemma SetBytesCanonicalP e : all byte e ->
  if SetBytesCanonical g e is Some z then [/\ size e = (8 * n)%N, (beVal e < Q)%Z, red g z & ev z = beVal e]
  else size e <> (8 * n)%N \/ (Q <= beVal e)%Z.
Proof.
move=> he; rewrite /SetBytesCanonical; case: eqP => hs; last by left.
by have := beElementP he hs; case: (beElement g e) => [z []|]; [|right].
Qed.
Lemma SetBytesMarshal x : red g x -> SetBytes g (Marshal g x) = x.
Proof.
move=> hx; have [h1 h2 h3] := MarshalP (proj1 hx); have [h4 h5] := SetBytesP h2.
apply: (ev_inj ok h4 hx); rewrite h5 h3 Z.mod_small //; apply: ev_range => //; by case: hx.
Qed.

(** * one word *)
Lemma Uint64P x : limbs g x -> Uint64 g x = (ev x mod W)%Z.
Proof.
move=> hx; have [[h _] _] := fromMontP ok hx.
rewrite /Uint64 /Bits /ZpField.ev (val_hd (limbs_pos ok h)) Z.mul_comm Z_mod_plus_full Z.mod_small //.
by apply/wordP; apply: word_hd; case: h.
Qed.
Lemma val_eq0 ws : all word ws -> (foldr Z.lor 0 ws =? 0)%Z = (val ws =? 0)%Z.
Proof.
move=> h; have := @NotEqual_val ws (nseq (size ws) 0%Z); rewrite size_nseq val_nseq0 => <- //; last by rewrite all_nseq orbT.
congr (_ =? _)%Z; rewrite /NotEqual; elim: ws {h} => //= a ws ->; by rewrite Z.lxor_0_r.
Qed.
Lemma IsUint64P x : limbs g x -> IsUint64 g x = (ev x <? W)%Z.
Proof.
move=> hx; have [[h _] _] := fromMontP ok hx.
rewrite /IsUint64 /FitsOnOneWord val_eq0; last by apply: word_behead; case: h.
rewrite /ZpField.ev (val_hd (limbs_pos ok h)).
have /wordP h1 : word (hd0 (fromMont g x)) by apply: word_hd; case: h.
have h2 : (0 <= val (behead (fromMont g x)))%Z.
  have hw : all word (behead (fromMont g x)) by apply: word_behead; case: h.
  by have := val_range hw; lia.
by apply/Z.eqb_spec/Z.ltb_spec0 => [->|]; [lia|nia].
Qed.

(** * Halve *)
Lemma shr1_word a b : word a -> Z.lor (Z.shiftr a 1) (Z.shiftl b 63 mod W) = (a / 2 + (b mod 2) * 2 ^ 63)%Z.
Proof.
move=> /wordP ha; have -> : (Z.shiftl b 63 mod W = Z.shiftl (b mod 2) 63)%Z.
  rewrite !Z.shiftl_mul_pow2 //.
  have -> : W = (2 * 2 ^ 63)%Z by [].
  by rewrite Zmult_mod_distr_r.
rewrite Z.shiftr_div_pow2 // lor_shift //; split; first by apply: Z.div_pos; lia.
by apply: Z.div_lt_upper_bound; wl.
Qed.
Lemma val_mod2 x : (0 < size x)%N -> (val x mod 2 = hd0 x mod 2)%Z.
Proof.
move=> h; rewrite (val_hd h).
have -> : (hd0 x + W * val (behead x) = hd0 x + (2 ^ 63 * val (behead x)) * 2)%Z by wl.
by rewrite Z_mod_plus_full.
Qed.
Lemma shr1P z top : all word z -> (top = 0 \/ top = 1)%Z -> (0 < size z)%N ->
  [/\ size (shr1 z top) = size z, all word (shr1 z top) &
      (val (shr1 z top) = (val z + top * B (size z)) / 2)%Z].
Proof.
move=> hz ht; elim: z hz => // a z IH /= /andP[ha hz] _.
have hw b : word (Z.lor (Z.shiftr a 1) (Z.shiftl b 63 mod W)).
  rewrite shr1_word //; apply/wordP; move/wordP: ha => ha.
  have := Z.mod_pos_bound b 2 erefl; have := Z_div_mod_eq_full a 2; have := Z.mod_pos_bound a 2 erefl; wl.
have hdiv b X : ((b + W * X) / 2 = b / 2 + 2 ^ 63 * X)%Z.
  have -> : (b + W * X = b + (2 ^ 63 * X) * 2)%Z by wl.
  by rewrite Z.div_add.
case: z IH hz => [|b z] IH hz.
  split=> //=; first by rewrite hw.
  rewrite shr1_word // BS B0; have -> : (a + W * 0 + top * (W * 1) = a + W * top)%Z by ring.
  by rewrite hdiv; case: ht => ->; rewrite ?Z.mod_small; lia.
have [//|h1 h2 h3] := IH hz; split.
- by rewrite -h1.
- by rewrite [all _ _]/= hw; move: h2; rewrite /=.
have -> : val (Z.lor (Z.shiftr a 1) (Z.shiftl b 63 mod W) :: shr1 (b :: z) top) =
  (Z.lor (Z.shiftr a 1) (Z.shiftl b 63 mod W) + W * val (shr1 (b :: z) top))%Z by [].
rewrite h3 shr1_word // [size _]/=.
set V := val (b :: z); set K := B (size z).+1.
have hV : (V mod 2 = b mod 2)%Z by exact: (@val_mod2 (b :: z)).
have hK : (K = (2 ^ 63 * B (size z)) * 2)%Z by rewrite /K BS; wl.
rewrite BS -/K; have -> : (a + W * V + top * (W * K) = a + W * (V + top * K))%Z by ring.
rewrite hdiv; have h4 : ((V + top * K) mod 2 = b mod 2)%Z.
  by rewrite hK Z.mul_assoc Z_mod_plus_full.
rewrite -h4; have := Z_div_mod_eq_full (V + top * K) 2; wl.
Qed.
Lemma q_odd : (Q mod 2 = 1)%Z.
Proof.
rewrite (val_mod2 (limbs_pos ok (limbs_q ok))).
have h := Z_div_mod_eq_full (hd0 q * qInvNeg g + 1) W; rewrite (ok_neg ok) in h.
have h2 := Z.mod_pos_bound (hd0 q) 2 erefl.
have [h3|//] : (hd0 q mod 2 = 0 \/ hd0 q mod 2 = 1)%Z by lia.
have h4 := Z_div_mod_eq_full (hd0 q) 2; rewrite h3 in h4.
exfalso; move: h; rewrite h4; set a := (_ / 2)%Z; set b := (_ / W)%Z.
have -> : (2 * a + 0)%Z = (2 * a)%Z by ring.
by rewrite /W; lia.
Qed.
Lemma HalveP x : red g x -> red g (Halve g x) /\ ((2 * ev (Halve g x)) mod Q = ev x)%Z.
Proof.
move=> hx; have [hl hq] := hx; have hp := limbs_pos ok hl; have hr := limbs_range hl.
suff [h1 h2] : red g (Halve g x) /\ eqq g (2 * val (Halve g x)) (val x).
  split=> //; symmetry; apply: (eqq_small (ev_range ok hl)).
  apply: eqq_sym; apply: (@B_cancel _ ok n).
  have -> : (B n * (2 * ev (Halve g x)) = 2 * (B n * ev (Halve g x)))%Z by ring.
  apply: eqq_trans (_ : eqq g (2 * val (Halve g x)) _).
    by apply: eqq_mul; [exact: eqq_refl|apply: ev_val => //; case: h1].
  by apply: eqq_trans h2 _; apply: eqq_sym; apply: ev_val.
have hq2 := q_odd; have hq0 := q_gt0 ok.
have e : (Z.land (hd0 x) 1 = val x mod 2)%Z.
  by rewrite (val_mod2 hp) -[1%Z]/(Z.ones 1) Z.land_ones.
rewrite /Halve e; case: Z.eqb_spec => hodd.
- case E: (addChain x q 0) => [z c].
  have [|h1 h2 h3] := addChain_val _ E; first by rewrite (proj1 hl).
  have hc := addChain_carry (proj2 hl) (ok_q ok) (conj (Z.le_refl 0) Z.le_0_1) E.
  rewrite (proj1 hl) in h1 h3.
  set top := (if _ then _ else _)%Z.
  have htop : top = c.
    rewrite /top; have := ok_add ok; case: (addCarry g) => /=; first by case: Z.eqb_spec => /=; lia.
    move/Z.leb_le => h5; have h6 : all word z by []; have := val_range h6; rewrite h1; have := B_gt0 n; nia.
  have [|||h5 h6 h7] := @shr1P z top; [done|by rewrite htop; lia|by rewrite h1 n_gt0|].
  rewrite htop h1 Z.mul_comm h3 Z.add_0_r in h7.
  have h8 : ((val x + Q) mod 2 = 0)%Z by rewrite Z.add_mod // hodd hq2.
  have := Z_div_mod_eq_full (val x + Q) 2; rewrite h8 => h9.
  have h10 : (val x + Q = 2 * val (shr1 z top))%Z by rewrite htop h7; lia.
  split; last by exists 1%Z; lia.
  by split; [split=> //; rewrite h5|lia].
- have [|||h1 h2 h3] := @shr1P x 0; [by case: hl|by left|done|].
  have := Z_div_mod_eq_full (val x) 2; have := Z.mod_pos_bound (val x) 2 erefl.
  move=> m1 m2; have {m1 hodd} m3 : (val x mod 2 = 0)%Z by lia.
  rewrite m3 in m2; have h5 : (val x = 2 * val (shr1 x 0))%Z.
    by rewrite h3 Z.mul_0_l Z.add_0_r; lia.
  split; last by exists 0%Z; lia.
  by split; [split=> //; rewrite h1; case: hl|lia].
Qed.
(** * random elements *)
Lemma bitLenP e : (0 < e)%Z -> (2 ^ Z.of_nat (bitLen e).-1 <= e < 2 ^ Z.of_nat (bitLen e))%Z.
Proof.
move=> he; rewrite /bitLen; case: Z.eqb_spec => [|_]; first by lia.
rewrite [_.-1]/= Nat2Z.inj_succ Z2Nat.id; last exact: Z.log2_nonneg.
exact: Z.log2_spec.
Qed.
Lemma bitLen_q : (0 < bitLen Q)%N && (bitLen Q <= 64 * n)%N.
Proof.
have hq := q_gt0 ok; have h1 := q_lt ok; have [h2 h3] := bitLenP hq.
apply/andP; split.
  by rewrite /bitLen; case: Z.eqb_spec => //; lia.
have e : (B n = 2 ^ Z.of_nat (64 * n))%Z.
  by rewrite -pow256 -[256%Z]/(2 ^ 8)%Z -Z.pow_mul_r; try lia; congr (_ ^ _)%Z; lia.
have h4 : (Z.of_nat (bitLen Q).-1 < Z.of_nat (64 * n))%Z.
  by apply: (proj2 (Z.pow_lt_mono_r_iff 2 _ _ erefl _)); [lia|rewrite -e; lia].
by move: h4; clear; lia.
Qed.

Lemma candidateP src pos : (forall i, byte (src i)) ->
  limbs g (candidate g src pos) /\
  val (candidate g src pos) = (leVal (mkseq (fun i => src (pos + i)%N) (randBytes g)) mod 2 ^ Z.of_nat (bitLen Q))%Z.
Proof.
move=> hs; pose f i := if (i < randBytes g)%N then
  (if i == (randBytes g).-1 then Z.land (src (pos + i)%N) (topMask g) else src (pos + i)%N) else 0%Z.
have -> : candidate g src pos =
  mkseq (fun j => foldr (fun i acc => Z.lor (f (8 * j + i)%N) (Z.shiftl acc 8)) 0%Z (iota 0 8)) n by [].
have /andP[hb0 hb] := bitLen_q.
set k := randBytes g; set bl := bitLen Q; set b := (if (bl %% 8)%N == 0%N then 8%N else (bl %% 8)%N).
have hk : [/\ (0 < k)%N, (k <= 8 * n)%N, bl = (8 * k.-1 + b)%N & (b <= 8)%N].
  move: hb0 hb; rewrite /k /b /randBytes /modulusOf -/bl; clear; move: bl => x h1 h2.
  by case: eqP => h; split; lia.
case: hk => hk0 hkn hbl hb8.
have hmask : topMask g = Z.ones (Z.of_nat b) by rewrite /topMask /modulusOf -/bl -/b Z.ones_equiv Z.sub_1_r.
have hfk i : (k <= i)%N -> f i = 0%Z by rewrite /f -/k ltnNge => ->.
have hf1 i : (i < k.-1)%N -> f i = src (pos + i)%N.
  move=> h; rewrite /f -/k; have -> : (i < k)%N by apply: leq_trans h _; exact: leq_pred.
  by rewrite ltn_eqF.
have hf2 : f k.-1 = (src (pos + k.-1)%N mod 2 ^ Z.of_nat b)%Z.
  rewrite /f -/k prednK // leqnn eqxx hmask Z.land_ones //; exact: Nat2Z.is_nonneg.
have hf i : byte (f i).
  case: (ltnP i k.-1) => h; first by rewrite hf1.
  case: (ltnP i k) => h'; last by rewrite hfk.
  have -> : i = k.-1 by apply/eqP; rewrite eqn_leq h -ltnS prednK // h'.
  rewrite hf2; have /byteP h1 := hs (pos + k.-1)%N; apply/byteP.
  have h2 : (0 < 2 ^ Z.of_nat b)%Z by apply: Z.pow_pos_nonneg; lia.
  have := Z.mod_pos_bound (src (pos + k.-1)%N) _ h2.
  have := Z.mod_le (src (pos + k.-1)%N) (2 ^ Z.of_nat b); lia.
have [h1 h2 h3] := val_leVal n hf; split=> //; rewrite h3.
rewrite -(subnKC hkn) /mkseq iotaD map_cat leVal_cat add0n.
have -> : [seq f i | i <- iota k (8 * n - k)] = nseq (8 * n - k) 0%Z.
  apply: (@eq_from_nth _ 0%Z); rewrite ?size_map ?size_iota ?size_nseq // => i hi.
  by rewrite (nth_map 0%N) ?size_iota // nth_iota // hfk ?leq_addr // nth_nseq hi.
rewrite leVal_nseq0 Z.mul_0_r Z.add_0_r.
rewrite -(prednK hk0) -addn1 iotaD !map_cat !leVal_cat !size_map !size_iota !add0n.
set A := leVal [seq src (pos + i)%N | i <- iota 0 k.-1].
have -> : leVal [seq f i | i <- iota 0 k.-1] = A.
  by congr leVal; apply/eq_in_map => i; rewrite mem_iota add0n => /andP[_ hi]; exact: hf1.
rewrite /= hf2 !Z.mul_0_r !Z.add_0_r.
have hA : (0 <= A < 256 ^ Z.of_nat k.-1)%Z.
  have := @leVal_lt [seq src (pos + i)%N | i <- iota 0 k.-1]; rewrite size_map size_iota; apply.
  by rewrite all_map; apply/allP => i _; apply: hs.
have -> : (2 ^ Z.of_nat bl = 256 ^ Z.of_nat k.-1 * 2 ^ Z.of_nat b)%Z.
  by rewrite -[256%Z]/(2 ^ 8)%Z -Z.pow_mul_r; try lia; rewrite -Z.pow_add_r; try lia; congr (_ ^ _)%Z; rewrite hbl; lia.
move: hA; set P := (256 ^ _)%Z; set M := (2 ^ _)%Z; set s := src _ => hA.
have hM : (0 < M)%Z by apply: Z.pow_pos_nonneg; lia.
have hm := Z.mod_pos_bound s M hM; have hd := Z_div_mod_eq_full s M.
apply: (Z.mod_unique _ _ (s / M)); first by left; nia.
by rewrite {1}hd; ring.
Qed.

(** the element returned is the first attempt below the modulus *)
Lemma SetRandomP fuel src pos z pos' : (forall i, byte (src i)) -> SetRandom g fuel src pos = Some (z, pos') ->
  red g z /\ exists k, [/\ (k < fuel)%N, pos' = (pos + k.+1 * randBytes g)%N, z = candidate g src (pos + k * randBytes g) &
    forall j, (j < k)%N -> (Q <= val (candidate g src (pos + j * randBytes g)))%Z].
Proof.
move=> hs; elim: fuel pos => // fuel IH pos /=.
have [[h1 h2] _] := candidateP pos hs.
rewrite /smallerThanModulus less_val //; last exact: ok_q.
case: Z.ltb_spec => h.
  case=> <- <-; split; first by split.
  by exists 0%N; rewrite mul0n addn0 mul1n.
move/IH => [h3 [k [h4 h5 h6 h7]]]; split=> //; exists k.+1; split=> //.
- by rewrite h5 -addnA -mulSn.
- by rewrite h6 -addnA -mulSn.
- case=> [_|j hj]; first by rewrite mul0n addn0.
  by rewrite mulSn addnA; apply: h7.
Qed.
End Gen.
