(** C94: the bound on the error that examples/bfv compiles into its circuit is large enough. *)
From Coq Require Import ZArith.
From mathcomp Require Import all_ssreflect all_algebra zify.
From Verif Require Import RingTac Spec UintModel BigpolyModel BitrevProofs NttProofs NttCore UintProofs NttTables
  UintFp PolyProofs RingProofs NormModel BucklerModel DefineModel CheckerModel WalkModel BucklerSpec FillProofs NormSound
  ContextProofs CheckerProofs NormComplete FillComplete Prop_Norm RangeProofs EncodeProofs CheckProofs CheckSound
  Prop_Check Prop_Bigpoly Prop_Checker Prop_Walk ProtocolModel ProtocolProofs Prop_Protocol ExampleModel ExampleProofs Prop_Examples.
Set Implicit Arguments. Unset Strict Implicit. Unset Printing Implicit Defensive.
Import GRing.Theory.
Local Open Scope ring_scope.
Delimit Scope Z_scope with Z.
Local Arguments Z.of_nat : simpl never.
Local Arguments Z.mul : simpl never.
Local Arguments Z.add : simpl never.
Local Arguments Z.sub : simpl never.
Local Arguments Z.opp : simpl never.

(** coefficient i of the product modulo X^N+1 *)
Definition nega (N : nat) (a b : seq Z) (i : nat) : Z :=
  zsum N (fun j => if (j <= i)%N then (nth 0 a j * nth 0 b (i - j))%Z else (- (nth 0 a j * nth 0 b (N + i - j)))%Z).

Section Field.
Variable F : fieldType.
Definition negaF (N : nat) (a b : seq F) (i : nat) : F :=
  \sum_(j < N) (if (j <= i)%N then a`_j * b`_(i - j) else - (a`_j * b`_(N + i - j))).
Lemma negaE N (a b : seq F) i : size a = N -> size b = N -> (i < N)%N ->
  ((Poly a * Poly b) %% ('X^N + 1))`_i = negaF N a b i.
Proof.
move=> sa sb hi; have N0 : (0 < N)%N by case: N hi {sa sb}.
have sV : size ('X^N + 1 : {poly F}) = N.+1 by rewrite -[1]/(1%:P) size_addl ?size_polyXn // size_polyC oner_eq0.
set A := Poly a; set B := Poly b.
pose lo := \poly_(k < N) (A * B)`_k; pose hh := \poly_(k < N) (A * B)`_(N + k).
have sAB : (size (A * B)%R <= N + N)%N.
  apply: leq_trans (size_mul_leq _ _) _; have := size_Poly a; have := size_Poly b; rewrite sa sb -/A -/B; lia.
have e : A * B = hh * ('X^N + 1) + (lo - hh).
  rewrite mulrDr mulr1 -addrA [hh + _]addrC subrK; apply/polyP => k.
  rewrite coefD coefMXn !coef_poly; have [hk|hk] := ltnP k N; first by rewrite add0r.
  rewrite addr0 subnKC //; case: ifP => // /negbT; rewrite -leqNgt => h.
  by rewrite nth_default //; apply: leq_trans sAB _; move: h hk; lia.
have sl : (size (lo - hh)%R < size ('X^N + 1 : {poly F})%R)%N.
  by rewrite sV ltnS; apply: leq_trans (size_add _ _) _; rewrite size_opp geq_max !size_poly.
rewrite e modp_addl_mul_small // coefB !coef_poly hi !coefM.
have cA k : A`_k = a`_k by rewrite coef_Poly.
have cB k : B`_k = b`_k by rewrite coef_Poly.
have b0 k : (N <= k)%N -> b`_k = 0 by move=> h; rewrite nth_default ?sb.
have a0 k : (N <= k)%N -> a`_k = 0 by move=> h; rewrite nth_default ?sa.
rewrite /negaF (bigID (fun j : 'I_N => (j <= i)%N)) /=; congr (_ + _).
  transitivity (\sum_(0 <= j < i.+1) a`_j * b`_(i - j)); first by rewrite big_mkord; apply: eq_bigr => j _; rewrite cA cB.
  rewrite (big_nat_widen _ _ N) // big_mkord; apply: eq_big => [j|j hj] /=; first by rewrite ltnS.
  by move: hj; rewrite /= ltnS => ->.
rewrite -sumrN.
transitivity (\sum_(0 <= j < (N + i).+1) - (a`_j * b`_(N + i - j))).
  by rewrite big_mkord; apply: eq_bigr => j _; rewrite cA cB.
rewrite (big_cat_nat _ _ _ (leq0n i.+1)) /=; last by move: hi; lia.
rewrite big_nat big1 ?add0r; last by move=> j /andP[_ hj]; rewrite b0 ?mulr0 ?oppr0 //; move: hj; lia.
rewrite (@big_cat_nat _ _ _ N) /=; [|by []|by move: hi; lia].
rewrite [X in _ + X]big_nat [X in _ + X]big1 ?addr0; last by move=> j /andP[hj _]; rewrite a0 ?mul0r ?oppr0.
rewrite big_geq_mkord; apply: eq_big => [j|j hj] /=; first by rewrite ltnNge.
by move: hj => /= hj; rewrite leqNgt hj.
Qed.
End Field.

Lemma choose n (P : nat -> Z -> Prop) : (forall i, (i < n)%N -> exists z, P i z) ->
  exists l : seq Z, size l = n /\ forall i, (i < n)%N -> P i (nth 0%Z l i).
Proof.
elim: n P => [|n IH] P h; first by exists [::].
have [z hz] := h 0%N isT; have [l [sl hl]] := IH (fun i => P i.+1) (fun i hi => h i.+1 hi).
by exists (z :: l); split=> /=; [rewrite sl|case].
Qed.
Lemma zsum_close n (f g : nat -> Z) a b B : (forall j, (j < n)%N -> 2 * Z.abs (a * f j - b * g j) <= B)%Z ->
  (2 * Z.abs (a * zsum n f - b * zsum n g) <= Z.of_nat n * B)%Z.
Proof.
elim: n f g => [|n IH] f g h; first by rewrite /zsum /=; lia.
rewrite !zsumS; have h0 := h 0%N isT; have := IH _ _ (fun j hj => h j.+1 hj).
have -> : Z.of_nat n.+1 = (Z.of_nat n + 1)%Z by lia.
move: (zsum n _) (zsum n _) (f 0%N) (g 0%N) h0 => x y u v; clear; nia.
Qed.

Lemma errNTT (F : fieldType) (U : uint F) n delta (a b c d : seq F) : size a = n -> size b = n -> size c = n -> size d = n ->
  size (bfvErrNTT U delta a b c d) = n /\
  forall i, (i < n)%N -> (bfvErrNTT U delta a b c d)`_i = b`_i * c`_i + a`_i - d`_i * setBigInt U delta.
Proof.
move=> sa sb sc sd; rewrite /bfvErrNTT /BucklerModel.subv /BucklerModel.addv /RingProofs.mulv.
set l1 := [seq x.1 * x.2 | x <- _]; set l2 := [seq x.1 + x.2 | x <- _]; set l3 := [seq x * _ | x <- _].
have s1 : size l1 = n by rewrite size_map size_zip sb sc minnn.
have s2 : size l2 = n by rewrite size_map size_zip s1 sa minnn.
have s3 : size l3 = n by rewrite size_map.
split=> [|i hi]; first by rewrite size_map size_zip s2 s3 minnn.
rewrite (nth_map (0, 0)) ?size_zip ?s2 ?s3 ?minnn // nth_zip ?s2 ?s3 //=.
rewrite (nth_map (0, 0)) ?size_zip ?s1 ?sa ?minnn // nth_zip ?s1 ?sa //=.
rewrite (nth_map (0, 0)) ?size_zip ?sb ?sc ?minnn // nth_zip ?sb ?sc //=.
by rewrite (nth_map 0) ?sd.
Qed.

Section Noise.
Variables (F : fieldType) (U : uint F) (rank : nat) (f : nttField F).
Hypothesis hc : NewNTTChecker U rank = Some (nfChk f).
Hypothesis h8 : (8 <= rank)%N.
Local Notation T0 := (nckNtt (nfChk f)).
Local Notation sb := (setBigInt U).
Local Notation P := (modulus U).
(** A ciphertext of lattigo: centred coefficients of (c0, c1), key s, message m, error e, with
    c0 + c1*s = invT*m + e modulo Q and X^N+1; k collects the multiples of Q. *)
Variables (c0 c1 s m e k : seq Z) (invT Q t B : Z).
Record bfvCipher : Prop := BfvCipher {
  bc_c0 : size c0 = rank; bc_c1 : size c1 = rank; bc_s : size s = rank; bc_m : size m = rank; bc_Q : (0 < Q)%Z;
  bc_eq : forall i, (i < rank)%N -> (nth 0 c0 i + nega rank c1 s i = invT * nth 0 m i + nth 0 e i + Q * nth 0 k i)%Z;
  bc_key : forall i, (Z.abs (nth 0 s i) <= 1)%Z;
  bc_msg : forall i, (i < rank)%N -> (2 * Z.abs (nth 0 m i) <= t)%Z;
  bc_err : forall i, (i < rank)%N -> (Z.abs (nth 0 e i) <= B)%Z
}.
Hypothesis hE : bfvCipher.

Lemma main_ok : exists a l0 l1, [/\ bfvMain U T0 rank c0 c1 s m invT Q = Some a, size l0 = rank, size l1 = rank,
  (forall i, (i < rank)%N -> (2 * Z.abs (nth 0 l0 i * Q - nth 0 c0 i * P) <= Q)%Z) /\
  (forall i, (i < rank)%N -> (2 * Z.abs (nth 0 l1 i * Q - nth 0 c1 i * P) <= Q)%Z) &
  let N := fwdNTT T0 in let mp := map sb in
  let en := bfvErrNTT U (bfvDelta U invT Q) (N (mp l0)) (N (mp l1)) (N (mp s)) (N (mp m)) in
  a = bfvAssign (N (mp l0)) (N (mp l1)) (N (mp s)) (N (mp m)) (mp m) en (invNTT T0 en)].
Proof.
have [z0 z1 _ _ hQ _ _ _ _] := hE.
have [p0 [e0 s0 _ h0]] := C12_modswitch U z0 hQ; have [p1 [e1 s1 _ h1]] := C12_modswitch U z1 hQ.
have [l0 [sl0 hl0]] := choose h0; have [l1 [sl1 hl1]] := choose h1.
have E0 : coeffs p0 = map sb l0.
  by apply: (@eq_from_nth _ 0); rewrite ?size_map ?sl0 // s0 => i hi; rewrite (nth_map 0%Z) ?sl0 //; case: (hl0 i hi).
have E1 : coeffs p1 = map sb l1.
  by apply: (@eq_from_nth _ 0); rewrite ?size_map ?sl1 // s1 => i hi; rewrite (nth_map 0%Z) ?sl1 //; case: (hl1 i hi).
rewrite /bfvMain e0 e1 E0 E1; eexists; exists l0, l1; split; try reflexivity; try by [].
by split=> i hi; [case: (hl0 i hi)|case: (hl1 i hi)].
Qed.

(** the error that main assigns, coefficient by coefficient *)
Lemma main_coef l0 l1 delta : size l0 = rank -> size l1 = rank ->
  let N := fwdNTT T0 in let mp := map sb in
  let en := bfvErrNTT U delta (N (mp l0)) (N (mp l1)) (N (mp s)) (N (mp m)) in
  [/\ size (invNTT T0 en) = rank, N (invNTT T0 en) = en,
     (Poly (mp l0) + Poly (mp l1) * Poly (mp s)) %% ('X^rank + 1) = (sb delta *: Poly (mp m) + Poly (invNTT T0 en)) %% ('X^rank + 1) &
   forall i, (i < rank)%N -> (invNTT T0 en)`_i = sb (nth 0 l0 i + nega rank l1 s i - delta * nth 0 m i)%Z].
Proof.
move=> z0 z1 N mp en; have [_ _ zs zm _ _ _ _ _] := hE.
have S (l : seq Z) : size l = rank -> size (mp l) = rank by rewrite size_map.
have [pt [e1 e2 e3 e4 e5]] := chk_points hc h8.
have SN l : size l = rank -> size (N (mp l)) = rank by move=> /S/e4[].
have [sen eni'] := errNTT U delta (SN _ z0) (SN _ z1) (SN _ zs) (SN _ zm).
have [f1 f2] := e3 _ sen.
have eni i : (i < rank)%N -> en`_i = (Poly (mp l1)).[pt i] * (Poly (mp s)).[pt i] + (Poly (mp l0)).[pt i] - (Poly (mp m)).[pt i] * sb delta.
  by move=> hi; rewrite /en eni' // /N !e1 ?S.
have hA : (Poly (mp l1) * Poly (mp s) + Poly (mp l0) - sb delta *: Poly (mp m)) %% ('X^rank + 1) = Poly (invNTT T0 en).
  rewrite -(e5 _ f2); apply/e2 => i hi; rewrite !hornerD hornerN hornerZ hornerM -(e1 (invNTT T0 en)) // f1 eni //.
  by rewrite [X in _ - X]mulrC.
split=> //.
  apply/e2 => i hi; rewrite !hornerD hornerM hornerZ -(e1 (invNTT T0 en)) // f1 eni //.
  by rewrite [X in _ = _ + (_ - X)]mulrC addrC [RHS]addrC subrK.
move=> i hi; have := congr1 (fun A : {poly F} => A`_i) hA; rewrite coef_Poly => <-.
rewrite !modpD modpN modpZl !(e5 _ (S _ _)) // !coefD coefN coefZ negaE ?S // !coef_Poly.
rewrite !(nth_map 0%Z) ?z0 ?zm // sbB setBigInt_add (setBigInt_mul U delta) /nega -sb_sum.
congr (_ - _); rewrite addrC; congr (_ + _); apply: eq_bigr => j _.
by case: ifP => hj; rewrite ?sbN setBigInt_mul !(nth_map 0%Z) ?z1 ?zs //; move: (ltn_ord j) hj hi; lia.
Qed.

(** main.go 166-168: after the switch the error is below N + t *)
Theorem C94_error_bound : (2 * P * B < Q * (Z.of_nat rank + t - 1))%Z ->
  exists a, bfvMain U T0 rank c0 c1 s m invT Q = Some a /\ infBounded U rank (bErrC a) (Z.of_nat rank + t - 1).
Proof.
move=> hB; have [a [l0 [l1 [ea s0 s1 [h0 h1] ed]]]] := main_ok.
exists a; split=> //; rewrite ed /= => i hi.
have [_ _ _ ->] := main_coef (bfvDelta U invT Q) s0 s1; last by [].
pose z := (nth 0 l0 i + nega rank l1 s i - bfvDelta U invT Q * nth 0 m i - P * nth 0 k i)%Z.
exists z; split.
  by rewrite /repr /z sbB [sb (P * _)]setBigInt_mul (sb_p U) mul0r subr0.
have [_ _ zs _ hQ heq hkey hmsg herr] := hE.
have hP := modulus_pos U.
have hd1 : (2 * Z.abs (Q * nega rank l1 s i - P * nega rank c1 s i) <= Z.of_nat rank * Q)%Z.
  apply: zsum_close => j hj; have := h1 j hj.
  have one x : (Z.abs x <= 1 -> forall u v, 2 * Z.abs (u * Q - v * P) <= Q -> 2 * Z.abs (Q * (u * x) - P * (v * x)) <= Q)%Z.
    move=> hx u v; have -> : (Q * (u * x) - P * (v * x) = (u * Q - v * P) * x)%Z by ring.
    rewrite Z.abs_mul; move: (Z.abs _) (Z.abs_nonneg (u * Q - v * P)) (Z.abs x) (Z.abs_nonneg x) hx => y hy w; clear -hy; nia.
  case: ifP => _ h; first exact: one (hkey _) _ _ h.
  rewrite !Z.mul_opp_r; have := one _ (hkey (rank + i - j)%N) _ _ h; lia.
have hd0 := h0 i hi; have he := heq i hi; have hm := hmsg i hi; have hb := herr i hi.
have hD : (0 <= P * invT - Q * bfvDelta U invT Q < Q)%Z.
  rewrite /bfvDelta; have := Z.div_mod (invT * P) Q; have := Z.mod_pos_bound (invT * P) Q hQ; lia.
have ez : (Q * z = (nth 0 l0 i * Q - nth 0 c0 i * P) + (Q * nega rank l1 s i - P * nega rank c1 s i)
    + (P * invT - Q * bfvDelta U invT Q) * nth 0 m i + P * nth 0 e i)%Z.
  have -> : nega rank c1 s i = (invT * nth 0 m i + nth 0 e i + Q * nth 0 k i - nth 0 c0 i)%Z by move: he; clear; lia.
  by rewrite /z; ring.
move: ez hd1 hd0 hm hb hD hB; move: (nth 0 l0 i * Q - _)%Z (Q * nega _ _ _ _ - _)%Z (P * invT - _)%Z (nth 0%Z m i) (nth 0%Z e i).
move: (Z.of_nat rank) z => n z a0 b0 c mi ei ez hd1 hd0 hm hb hD hB.
have h3 : (2 * Z.abs (c * mi) <= Q * t)%Z.
  rewrite Z.abs_mul; move: hD hm; move: (Z.abs_nonneg mi); move: (Z.abs mi) => w w0 hD hm.
  rewrite Z.abs_eq; nia.
have h4 : (2 * Z.abs (P * ei) <= 2 * P * B)%Z.
  rewrite Z.abs_mul Z.abs_eq; nia.
have h5 : (2 * (Q * Z.abs z) < 2 * (Q * (n + t)))%Z.
  have <- : (Z.abs (Q * z) = Q * Z.abs z)%Z by rewrite Z.abs_mul [Z.abs Q]Z.abs_eq; lia.
  rewrite ez; move: (c * mi)%Z (P * ei)%Z h3 h4 => u v h3 h4; nia.
have : (Z.abs z < n + t)%Z by nia.
lia.
Qed.

(** main, from the ciphertext to the accepted proof *)
Theorem C94_main_accepted (PC : pcs F) H name setBytes marshal xofProj c x T TE (co : coins PC) ordT :
  inert (nfView f) -> bNTT c = Some f -> bT c = t -> bDelta c = bfvDelta U invT Q -> bErr c = bfvErrBound rank t ->
  inert (bDeltaV c) -> bfvCompile U rank c = Some x -> running U xofProj rank x T TE co ordT ->
  (4 <= t)%Z -> (Z.of_nat rank + t < 2 ^ 64)%Z -> (2 * (Z.of_nat rank + t) < P)%Z ->
  (2 * P * B < Q * (Z.of_nat rank + t - 1))%Z ->
  exists a, bfvMain U T0 rank c0 c1 s m invT Q = Some a /\
    accepted U rank H name setBytes marshal xofProj x T TE co ordT (bfvV a) (bfvV (bfvPublic (bC0 a) (bC1 a))).
Proof.
move=> hv b1 b2 b3 b4 b5 hC hr t4 hw hP hB.
have [a [ea hI]] := C94_error_bound hB; exists a; split=> //.
have [a' [l0 [l1 [ea' s0 s1 _ ed]]]] := main_ok; move: ea'; rewrite ea => -[e12]; rewrite -{}e12 in ed.
have [n0 n1 n2 n3] := main_coef (bfvDelta U invT Q) s0 s1.
have eb : bfvErrBound rank t = (Z.of_nat rank + t)%Z by rewrite /bfvErrBound /w64 Z.mod_small //; lia.
have [_ _ zs zm _ _ _ hmsg _] := hE.
have hM : infBounded U rank (map (setBigInt U) m) (t / 2).
  move=> i hi; exists (nth 0%Z m i); split; first by rewrite /repr (nth_map 0%Z) ?zm.
  by apply: Z.div_le_lower_bound; [|exact: hmsg].
have t2 : (t / 2 < t - 1)%Z by apply: Z.div_lt_upper_bound; lia.
have t0 : (0 <= t / 2)%Z by apply: Z.div_pos; lia.
move: hI; rewrite ed /= => hI; rewrite -[X in bfvAssign _ _ _ _ _ X _]n1.
apply: (C90_bfv_accepted_partial hc h8 hv H name setBytes marshal (t := t) (delta := bfvDelta U invT Q) (err := Z.of_nat rank + t) _
  _ hC hr _ _ _ _ _ _ (bm := t / 2) (be := Z.of_nat rank + t - 1)); rewrite ?size_map //.
- lia.
- by split=> //; rewrite b4 eb.
- split=> //.
  + by move=> i hi; have [z [z1 z2]] := hM i hi; exists z; split=> //; lia.
  + by move=> i hi; have [z [z1 z2]] := hI i hi; exists z; split=> //; lia.
- by split; [lia|left].
- by split; [lia|left; lia].
- lia.
- lia.
- lia.
Qed.
End Noise.

(** * A concrete ciphertext: Q = 257, t = 4 with inverse 193, into Z/193, rank 8 *)
Definition xs : seq Z := [:: 1; -1; 0; 1; 1; 0; -1; 0]%Z.
Definition xm : seq Z := [:: 1; 2; -2; 0; 1; 0; 0; -1]%Z.
Definition xe : seq Z := [:: 1; 0; -1; -1; 0; 1; 1; 0]%Z.
Definition xc1 : seq Z := [:: 100; -3; 57; -128; 0; 11; 90; -77]%Z.
Definition xv (i : nat) : Z := (193 * nth 0 xm i + nth 0 xe i - nega 8 xc1 xs i)%Z.
Definition xk : seq Z := mkseq (fun i => - ((xv i + 128) / 257))%Z 8.
Definition xc0 : seq Z := mkseq (fun i => xv i + 257 * nth 0 xk i)%Z 8.
Lemma xcipher : bfvCipher 8 xc0 xc1 xs xm xe xk 193 257 4 1.
Proof.
split=> //.
- move=> i hi; rewrite /xc0 nth_mkseq // /xv; move: (nega _ _ _ _) (nth _ xk i) (nth _ xm i) (nth _ xe i) => a b c d; clear; lia.
- by do 9 (case; [by vm_compute|]); move=> i; rewrite nth_default.
- by do 8 (case; [by vm_compute|]).
- by do 8 (case; [by vm_compute|]).
Qed.
Lemma xcentred : all (fun z => -128 <=? z)%Z xc0 && all (fun z => z <=? 128)%Z xc0.
Proof. by vm_compute. Qed.

Section Inst.
Variable f : nttField F193.
Hypothesis ha : nfAddr f = 0%N.
Hypothesis hc : NewNTTChecker U193 8 = Some (nfChk f).
Hypothesis hv : inert (nfView f).
Definition xbfv : bfvC F193 :=
  BfvC (Some f) 4 (bfvErrBound 8 4) [::] [::] [::] (bfvDelta U193 193 257) (VStruct [::]) [::] [::] [::] [::].
Lemma fine_main : fine (define U193 (newContext F193 8 2 5) (bfvCmds U193 f 4 144 12)).
Proof. by rewrite /bfvCmds; rewrite ha; move: (nttTf _) (nttTr _) => tf tr; vm_compute. Qed.
Lemma inst_main : exists x T TE (co : coins idPcs) a, [/\ bfvCompile U193 8 xbfv = Some x, running U193 exXof 8 x T TE co [::],
  bfvMain U193 (nckNtt (nfChk f)) 8 xc0 xc1 xs xm 193 257 = Some a &
  accepted U193 8 exH exName exSet exMar exXof x T TE co [::] (bfvV a) (bfvV (bfvPublic (bC0 a) (bC1 a)))].
Proof.
have [x [T [TE [hd hr]]]] := fineP fine_main.
have ed : bfvDelta U193 193 257 = 144%Z by vm_compute.
have ee : bfvErrBound 8 4 = 12%Z by vm_compute.
have hb : bfvReady f 4 144 12 xbfv.
  by split; [exact: erefl|exact: erefl|exact: ed|exact: ee|exact: (conj erefl erefl)].
have ht : (1 <= 4 < 2 ^ 64)%Z by clear; lia.
have hC : bfvCompile U193 8 xbfv = Some x by rewrite (bfvCompileE hc isT hv ht hb).
have hI : inert (bDeltaV xbfv) by exact: (conj erefl erefl).
have n8 : Z.of_nat 8 = 8%Z by [].
have [||||a [h1 h2]] := @C94_main_accepted F193 U193 8 f hc isT xc0 xc1 xs xm xe xk 193 257 4 1 xcipher idPcs exH exName exSet exMar exXof
  xbfv x T TE (ordCoins [seq p.1 | p <- cinf x]) [::] hv erefl erefl erefl erefl hI hC hr.
- by clear; lia.
- by rewrite n8; clear; lia.
- by rewrite n8 q193; clear; lia.
- by rewrite n8 q193; clear; lia.
by exists x, T, TE, (ordCoins [seq p.1 | p <- cinf x]), a; split; [exact: hC|exact: hr|exact: h1|exact: h2].
Qed.
End Inst.
Example ex_C94 : exists f x T TE (co : coins idPcs) a, [/\ NewNTTChecker U193 8 = Some (nfChk f), bfvCompile U193 8 (xbfv f) = Some x,
  running U193 exXof 8 x T TE co [::], bfvMain U193 (nckNtt (nfChk f)) 8 xc0 xc1 xs xm 193 257 = Some a &
  accepted U193 8 exH exName exSet exMar exXof x T TE co [::] (bfvV a) (bfvV (bfvPublic (bC0 a) (bC1 a)))].
Proof.
have [f [hc hv ha]] := chk193; have [x [T [TE [k [a [h1 h2 h3 h4]]]]]] := inst_main ha hc hv.
by exists f, x, T, TE, k, a; split; [exact: hc|exact: h1|exact: h2|exact: h3|exact: h4].
Qed.

(** the parameters of main: N = 2^13, t = 2^16+1, zp = 31432^16+1, four primes of about 60 bits,
    fresh errors of lattigo up to 20 *)
Example ex_C94_parameters Q : (2 ^ 239 <= Q)%Z -> (2 * (31432 ^ 16 + 1) * 20 < Q * (2 ^ 13 + (2 ^ 16 + 1) - 1))%Z.
Proof.
move=> h; apply: (@Z.lt_le_trans _ (2 ^ 239 * (2 ^ 13 + (2 ^ 16 + 1) - 1))); first by vm_compute.
by apply: Z.mul_le_mono_nonneg_r.
Qed.

Print Assumptions C94_error_bound.
Print Assumptions C94_main_accepted.
Print Assumptions ex_C94.
