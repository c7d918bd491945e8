(** C50, C51, C52: the encoder of the polynomial commitment. *)
From Coq Require Import ZArith.
From mathcomp Require Import all_ssreflect all_algebra zify ssrZ.
From Verif Require Import UintModel UintFp JindoIntModel JindoIntProofs Prop_JindoInt CycModel JindoModel JindoProofs.
Set Implicit Arguments. Unset Strict Implicit. Unset Printing Implicit Defensive.
Import GRing.Theory.
Delimit Scope Z_scope with Z.
Local Open Scope ring_scope.

(** What NewParameters provides: p = base^exp + 1 with the base a word, slots * exp the ring
    degree, elements of [limbs] words, pairwise coprime moduli. *)
Record jsetting (F : fieldType) (U : uint F) (P : jparams) (inv : Z -> Z -> Z) : Prop := JSetting {
  js_slots : (0 < slots P)%N;
  js_exp : (0 < exp P)%N;
  js_base : (2 <= base P < W)%Z;
  js_p : (base P ^ Z.of_nat (exp P) + 1 = modulus U)%Z;
  js_limbs : (modulus U <= W ^ Z.of_nat (limbs P))%Z;
  js_limbs0 : (0 < limbs P)%N;
  js_inv : modInverse inv;
  js_qs : coprimes (qs P);
  js_qs0 : (0 < size (qs P))%N;
  js_qos : coprimes (qos P);
  js_qos0 : (0 < size (qos P))%N
}.

(** a vector with zeros behind, up to the number of slots *)
Definition padTo (F : fieldType) (n : nat) (v : seq F) : seq F := mkseq (fun i => nth 0 v i) n.

Section Enc.
Variables (F : fieldType) (U : uint F) (P : jparams) (inv : Z -> Z -> Z).
Local Notation d := (slots P * exp P)%N.
Local Notation Q := (prodz (qs P)).
Variable RQ : cyc d Q.
Hypothesis K : jsetting U P inv.

Lemma js_d : (0 < d)%N. Proof. by rewrite muln_gt0 (js_slots K) (js_exp K). Qed.
Lemma js_Q : (0 < Q)%Z. Proof. exact: prodz_pos (js_qs K). Qed.

Lemma decode_eq (r : RQ) (w : seq F) : size w = slots P -> (forall i, (i < slots P)%N -> nth 0 (decode U inv r) i = nth 0 w i) ->
  decode U inv r = w.
Proof.
move=> hs h; apply: (@eq_from_nth _ 0); first by rewrite size_decode.
by move=> i; rewrite size_decode => hi; exact: h.
Qed.

(** * C50 *)
(** an encoding of at most slots elements exists and decodes to the vector; longer vectors panic *)
Theorem C50_encode_decode (v : seq F) : (2 * base P < Q - 1)%Z -> (size v <= slots P)%N ->
  exists r, encode U RQ v = Some r /\ decode U inv r = padTo (slots P) v.
Proof.
case: K => h1 h2 h3 h4 h5 h6 h7 h8 h9 _ _ hw hv.
have [m [e1 e2 e3 e4]] := baseEncodeD h1 h2 h3 h4 h5 h6 h9 hv.
have sm : (size (Poly m : {poly Z}) <= d)%N by apply: leq_trans (size_Poly _) _; rewrite e2.
exists (toQ RQ m); split; first by rewrite /encode e1.
apply: decode_eq; first by rewrite size_mkseq.
move=> i hi; rewrite /toQ (decodeE RQ h1 h2 h4 h7 h8 h9) // ?e4 ?coef_Poly ?nth_mkseq //.
rewrite nc_small ?js_d // => k; rewrite coef_Poly; have := e3 k; rewrite -[nth 0 m k]/(nth 0%Z m k); lia.
Qed.
(** the digits themselves are the integer coefficients of the encoding *)
Lemma encode_big (v : seq F) m (r : RQ) : (2 * base P < Q - 1)%Z -> (size v <= slots P)%N ->
  baseEncode U P (nseq d 0%Z) v = Some m -> encode U RQ v = Some r -> bigQ inv r = m.
Proof.
case: K => h1 h2 h3 h4 h5 h6 h7 h8 h9 _ _ hw hv e; rewrite /encode e => -[<-].
have [m' [e1 e2 e3 _]] := baseEncodeD h1 h2 h3 h4 h5 h6 h9 hv.
move: e1 e2 e3; rewrite e => -[<-] sm hm.
have sp : (size (Poly m : {poly Z}) <= d)%N by apply: leq_trans (size_Poly _) _; rewrite sm.
apply: (@eq_from_nth _ 0%Z); rewrite bigQ_size ?sm // => i hi.
rewrite /toQ (bigQE RQ h1 h2 h7 h8 h9) // nc_small ?js_d // ?coef_Poly // => k.
by rewrite coef_Poly; have := hm k; rewrite -[nth 0 m k]/(nth 0%Z m k); lia.
Qed.
Theorem C50_long (v : seq F) : (slots P < size v)%N -> encode U RQ v = None.
Proof. by move=> h; rewrite /encode baseEncode_long. Qed.

(** * C51 *)
(** whatever the samples, as long as no coefficient wraps *)
Theorem C51_rand_encode_decode (v : seq F) (S : seq Z) (B : Z) : (size v <= slots P)%N -> size S = d ->
  (forall i, (Z.abs (nth 0 S i) <= B)%Z) -> (2 * (base P + (base P + 1) * B) < Q - 1)%Z ->
  exists r, randEncode U RQ v S = Some r /\ decode U inv r = padTo (slots P) v.
Proof.
case: K => h1 h2 h3 h4 h5 h6 h7 h8 h9 _ _ hv hS hB hw.
have hS' : (size S <= d)%N by rewrite hS.
have [m [e1 e2 e3 e4 e5]] := randEncodeE RQ h1 h2 h3 h4 h5 h6 h9 hv hS'.
exists (pr RQ (randPoly P m S)); split=> //; apply: decode_eq; first by rewrite size_mkseq.
move=> i hi; rewrite (decodeE RQ h1 h2 h4 h7 h8 h9) // ?e5 ?coef_Poly ?nth_mkseq //.
rewrite randPoly_nc ?e3 // => k; rewrite coefB coefD coefZ !coef_Poly.
have hk := e4 k; have hsh : (Z.abs (nth 0 (shiftSample P S) k) <= B)%Z.
  have hB0 := hB 0%N; have [hkd|hkd] := ltnP k d; last by rewrite nth_default ?size_mkseq //; lia.
  by rewrite nth_mkseq //; case: ifP => _; [have := hB (d - slots P + k)%N; lia|exact: hB].
have hSk := hB k.
have hbS : (Z.abs (base P * nth 0 S k) <= base P * B)%Z.
  by rewrite Z.abs_mul (Z.abs_eq (base P)); [apply: Z.mul_le_mono_nonneg_l; lia|lia].
rewrite -[X in Z.abs X]/(nth 0%Z m k + nth 0%Z (shiftSample P S) k - base P * nth 0%Z S k)%Z.
move: hk hsh hbS hw; move: (nth 0%Z m k) (nth 0%Z (shiftSample P S) k) (base P * nth 0%Z S k)%Z => a c g.
by rewrite Z.mul_add_distr_r Z.mul_1_l; lia.
Qed.

(** * C52 *)
(** the integer coefficients of a ring element *)
Local Notation big := (bigQ inv).

Theorem C52_add (r1 r2 : RQ) :
  (forall i, (2 * Z.abs (nth 0 (big r1) i + nth 0 (big r2) i) < Q - 1)%Z) ->
  decode U inv (r1 + r2) = mkseq (fun i => nth 0 (decode U inv r1) i + nth 0 (decode U inv r2) i) (slots P).
Proof.
case: K => h1 h2 h3 h4 h5 h6 h7 h8 h9 _ _ hw.
have hsz (r : RQ) : (size (Poly (big r) : {poly Z}) <= d)%N by apply: leq_trans (size_Poly _) _; rewrite bigQ_size.
apply: decode_eq; first by rewrite size_mkseq.
move=> i hi; rewrite nth_mkseq //= -{1}[r1](pr_bigQ h7 h8 h9) -{1}[r2](pr_bigQ h7 h8 h9) -rmorphD.
rewrite (decodeE RQ h1 h2 h4 h7 h8 h9) //.
  by rewrite DpD // coefD -!(decode_big U inv h1).
rewrite nc_small ?js_d //; last by rewrite (leq_trans (size_add _ _)) // geq_max !hsz.
by move=> k; rewrite coefD !coef_Poly; exact: hw.
Qed.

(** an element whose coefficients sit at multiples of slots acts as a scalar *)
Theorem C52_scale (r c : RQ) (B : Z) :
  (forall k, ~~ (slots P %| k)%N -> nth 0 (big c) k = 0) ->
  (forall i, (Z.abs (nth 0 (big r) i) <= B)%Z) ->
  (2 * (\sum_(k < d) (Z.abs (nth 0 (big c) k) * B)%Z)%R < Q - 1)%Z ->
  decode U inv (r * c) = [seq a * nth 0 (decode U inv c) 0 | a <- decode U inv r].
Proof.
case: K => h1 h2 h3 h4 h5 h6 h7 h8 h9 _ _ hsc hB hw.
have hsz (x : RQ) : (size (Poly (big x) : {poly Z}) <= d)%N by apply: leq_trans (size_Poly _) _; rewrite bigQ_size.
apply: decode_eq; first by rewrite size_map size_decode.
move=> i hi; rewrite (nth_map 0) ?size_decode // -{1}[r](pr_bigQ h7 h8 h9) -{1}[c](pr_bigQ h7 h8 h9) -rmorphM.
rewrite (decodeE RQ h1 h2 h4 h7 h8 h9) //.
  rewrite (@DpMc _ _ _ h1 _ _ (nth 0 (decode U inv c) 0)).
    by rewrite coefZ -(decode_big U inv h1) // mulrC.
  rewrite (decode_big U inv h1) //; apply: Dp_scalar => // k hk.
  by rewrite coef_Poly; exact: hsc.
have hB' : infLe (Poly (big r)) B by move=> k; rewrite coef_Poly; exact: hB.
have := nc_mul_bound js_d (hsz r) (hsz c) hB'; move=> h k; move: (h k) hw => {h}.
under [X in (_ <= X)%Z -> _]eq_bigr do rewrite coef_Poly.
by move: (\sum_(k0 < d) _) => X; lia.
Qed.
End Enc.

(** * A concrete setting: p = 101 = 10^2 + 1, two slots, degree 4, two limbs *)
Definition F101 := [fieldType of 'F_101].
Definition U101 : uint F101 := @uintFp 101 isT.
Definition P101 (b : nat) : jparams := JParams b 8 3 2 10 2 2 1 1 1 2 1 3 [:: 10007; 10009]%Z [:: 20011; 20021]%Z 1000000 1000000000 1.
Lemma set101 b : jsetting U101 (P101 b) invSearch.
Proof.
split=> //; first exact: invSearchP.
- by split=> [q [<-|[<-|[]]]|[|[|i]] [|[|j]] // /andP[]].
by split=> [q [<-|[<-|[]]]|[|[|i]] [|[|j]] // /andP[]].
Qed.
Lemma d101 b : (0 < slots (P101 b) * exp (P101 b))%N. Proof. by []. Qed.
Lemma q101 b : (1 < prodz (qs (P101 b)))%Z. Proof. by []. Qed.
Lemma qo101 b : (1 < prodz (qos (P101 b)))%Z. Proof. by []. Qed.
Definition RQ101 b : cyc (slots (P101 b) * exp (P101 b)) (prodz (qs (P101 b))) := cycQ (d101 b) (q101 b).
Definition RO101 b : cyc (slots (P101 b) * exp (P101 b)) (prodz (qos (P101 b))) := cycQ (d101 b) (qo101 b).

Example ex_C50 : exists r, encode U101 (RQ101 1) [:: 57%:R; 100%:R] = Some r /\
  decode U101 invSearch r = [:: 57%:R; 100%:R].
Proof.
have [||r [e1 e2]] := C50_encode_decode (RQ101 1) (set101 1) (v := [:: 57%:R; 100%:R]); [done|done|].
exists r; split; first exact: e1.
by rewrite e2.
Qed.
Example ex_C51 : exists r, randEncode U101 (RQ101 1) [:: 57%:R] [:: 3; -7; 0; 5]%Z = Some r /\
  decode U101 invSearch r = [:: 57%:R; 0].
Proof.
have hS i : (Z.abs (nth 0%Z [:: 3; -7; 0; 5]%Z i) <= 7)%Z by do 4 (case: i => [|i]; first by []); case: i.
have [|||r [e1 e2]] := C51_rand_encode_decode (RQ101 1) (set101 1) (v := [:: 57%:R]) _ _ hS; [done|done|done|].
exists r; split; first exact: e1.
by rewrite e2.
Qed.
(** the encoding of a scalar meets the hypotheses of C52_scale *)
Example ex_C52 : exists r c, [/\ decode U101 invSearch (r + c) = [:: 57%:R + 20%:R; 3%:R + 0], encode U101 (RQ101 1) [:: 57%:R; 3%:R] = Some r, encode U101 (RQ101 1) [:: 20%:R] = Some c &
  decode U101 invSearch (r * c) = [:: 57%:R * 20%:R; 3%:R * 20%:R]].
Proof.
have l1 k : ~~ (slots (P101 1) %| k)%N -> nth 0%Z [:: 0; 0; 2; 0]%Z k = 0%Z by move: k => [|[|[|[|[|k]]]]].
have l2 k : (Z.abs (nth 0%Z [:: 7; 3; 5; 0]%Z k) <= 10)%Z by move: k => [|[|[|[|[|k]]]]].
have l4 k : (2 * Z.abs (nth 0%Z [:: 7; 3; 5; 0]%Z k + nth 0%Z [:: 0; 0; 2; 0]%Z k) < prodz (qs (P101 1)) - 1)%Z.
  by move: k => [|[|[|[|[|k]]]]].
have l3 : (2 * (\sum_(k < slots (P101 1) * exp (P101 1)) (Z.abs (nth 0%Z [:: 0; 0; 2; 0]%Z k) * 10)%Z)%R < prodz (qs (P101 1)) - 1)%Z.
  by rewrite !big_ord_recl big_ord0.
have [||r [e1 e2]] := C50_encode_decode (RQ101 1) (set101 1) (v := [:: 57%:R; 3%:R]); [done|done|].
have [||c [f1 f2]] := C50_encode_decode (RQ101 1) (set101 1) (v := [:: 20%:R]); [done|done|].
have g1 : baseEncode U101 (P101 1) (nseq (slots (P101 1) * exp (P101 1)) 0%Z) [:: 57%:R; 3%:R] = Some [:: 7; 3; 5; 0]%Z.
  by vm_compute.
have g2 : baseEncode U101 (P101 1) (nseq (slots (P101 1) * exp (P101 1)) 0%Z) [:: 20%:R] = Some [:: 0; 0; 2; 0]%Z.
  by vm_compute.
have b1 : bigQ invSearch r = [:: 7; 3; 5; 0]%Z by apply: (encode_big (set101 1) _ _ g1 e1).
have b2 : bigQ invSearch c = [:: 0; 0; 2; 0]%Z by apply: (encode_big (set101 1) _ _ g2 f1).
exists r, c; split; [|exact: e1|exact: f1|].
  rewrite (C52_add (set101 1)); first by rewrite e2 f2.
  by move=> k; rewrite b1 b2; exact: l4.
rewrite (C52_scale (B := 10) (set101 1)); first by rewrite e2 f2.
- by move=> k; rewrite b2; exact: l1.
- by move=> k; rewrite b1; exact: l2.
by rewrite b2; exact: l3.
Qed.

Print Assumptions C50_encode_decode.
Print Assumptions C50_long.
Print Assumptions C51_rand_encode_decode.
Print Assumptions C52_add.
Print Assumptions C52_scale.
