(** Lemmas about the samplers. *)
From Coq Require Import ZArith Lia.
From mathcomp Require Import all_ssreflect.
From mathcomp.zify Require Import zify.
From Verif Require Import JindoIntModel CsprngModel.
Set Implicit Arguments. Unset Strict Implicit. Unset Printing Implicit Defensive.
Delimit Scope Z_scope with Z.
Local Arguments Z.mul : simpl never.
Local Arguments Z.add : simpl never.
Local Arguments Z.sub : simpl never.
Local Arguments Z.pow : simpl never.
Local Arguments Z.of_nat : simpl never.

Definition byte (z : Z) : Prop := (0 <= z < 256)%Z.

(** * Words from bytes *)
Lemma lor_shift a b k : (0 <= k)%Z -> (0 <= a < 2 ^ k)%Z -> Z.lor a (Z.shiftl b k) = (a + b * 2 ^ k)%Z.
Proof.
move=> hk ha; have e0 : Z.land a (Z.shiftl b k) = 0%Z.
  apply: Z.bits_inj' => n hn; rewrite Z.land_spec Z.bits_0.
  case: (Z.ltb_spec n k) => h; first by rewrite Z.shiftl_spec_low // Bool.andb_false_r.
  case: (Z.eq_dec a 0) => [->|na]; first by rewrite Z.bits_0.
  rewrite Z.bits_above_log2 //; first lia.
  by apply/(@Z.lt_le_trans _ k) => //; apply/Z.log2_lt_pow2; lia.
by rewrite -Z.lxor_lor // -Z.add_nocarry_lxor // Z.shiftl_mul_pow2.
Qed.

(** little endian, the specification *)
Definition leSum (b : nat -> Z) : Z :=
  (b 0%N + b 1%N * 2 ^ 8 + b 2%N * 2 ^ 16 + b 3%N * 2 ^ 24 + b 4%N * 2 ^ 32 + b 5%N * 2 ^ 40 + b 6%N * 2 ^ 48 + b 7%N * 2 ^ 56)%Z.
Lemma leWordE b : (forall i, byte (b i)) -> leWord b = leSum b.
Proof.
move=> h; rewrite /leWord /leSum Z.lor_0_l.
have := h 0%N; have := h 1%N; have := h 2%N; have := h 3%N; have := h 4%N; have := h 5%N; have := h 6%N; have := h 7%N.
rewrite /byte; move: (b 0%N) (b 1%N) (b 2%N) (b 3%N) (b 4%N) (b 5%N) (b 6%N) (b 7%N) => a0 a1 a2 a3 a4 a5 a6 a7 h7 h6 h5 h4 h3 h2 h1 h0.
rewrite (@lor_shift a0) ?(@lor_shift (a0 + _)%Z) ?(@lor_shift (a0 + _ + _)%Z)
  ?(@lor_shift (a0 + _ + _ + _)%Z) ?(@lor_shift (a0 + _ + _ + _ + _)%Z) ?(@lor_shift (a0 + _ + _ + _ + _ + _)%Z)
  ?(@lor_shift (a0 + _ + _ + _ + _ + _ + _)%Z) //; lia.
Qed.
Lemma leSum_horner b : leSum b = (b 0%N + 256 * (b 1%N + 256 * (b 2%N + 256 * (b 3%N + 256 * (b 4%N + 256 * (b 5%N + 256 * (b 6%N + 256 * b 7%N)))))))%Z.
Proof. rewrite /leSum; ring. Qed.
Lemma digit_inj a x a' x' : byte a -> byte a' -> (a + 256 * x = a' + 256 * x')%Z -> a = a' /\ x = x'.
Proof. rewrite /byte; lia. Qed.
Lemma leSum_inj b b' : (forall i, byte (b i)) -> (forall i, byte (b' i)) -> leSum b = leSum b' ->
  forall i, (i < 8)%N -> b i = b' i.
Proof.
move=> h h'; rewrite !leSum_horner.
do 7!(move=> /digit_inj []; [exact: h | exact: h' | move=> ?]).
by move=> ?; do 8!(case=> [|]; first by []).
Qed.
Lemma leSum_range b : (forall i, byte (b i)) -> (0 <= leSum b < W)%Z.
Proof.
move=> h; rewrite /leSum /W.
have := h 0%N; have := h 1%N; have := h 2%N; have := h 3%N; have := h 4%N; have := h 5%N; have := h 6%N; have := h 7%N.
rewrite /byte; lia.
Qed.
(** the bytes of a word *)
Definition byteOf (r : Z) (i : nat) : Z := (r / 2 ^ (8 * Z.of_nat i) mod 256)%Z.
Lemma byteOf_byte r i : byte (byteOf r i).
Proof. by apply: Z.mod_pos_bound. Qed.
Lemma leSum_byteOf r : (0 <= r < W)%Z -> leSum (byteOf r) = r.
Proof.
move=> h; rewrite leSum_horner /byteOf.
have E k : (r / 2 ^ (8 * Z.of_nat k) = r / 2 ^ (8 * Z.of_nat k) mod 256 + 256 * (r / 2 ^ (8 * Z.of_nat k.+1)))%Z.
  have -> : (2 ^ (8 * Z.of_nat k.+1) = 2 ^ (8 * Z.of_nat k) * 256)%Z.
    by rewrite (_ : 256 = 2 ^ 8)%Z // -Z.pow_add_r; [congr (2 ^ _)%Z|..]; lia.
  rewrite -Z.div_div //; last by apply: Z.pow_nonzero; lia.
  move: (r / _)%Z => z; have := Z.div_mod z 256; lia.
have E0 : r = (r / 2 ^ (8 * Z.of_nat 0))%Z by rewrite Z.div_1_r.
have E8 : (r / 2 ^ (8 * Z.of_nat 8) = 0)%Z by apply: Z.div_small; exact: h.
have := E 0%N; have := E 1%N; have := E 2%N; have := E 3%N; have := E 4%N; have := E 5%N; have := E 6%N; have := E 7%N.
rewrite E8 -E0; do 7!move: (_ mod 256)%Z => ?; lia.
Qed.
Lemma lxor_byte a b : byte a -> byte b -> byte (Z.lxor a b).
Proof.
move=> ha hb; have h0 : (0 <= Z.lxor a b)%Z by apply/Z.lxor_nonneg; rewrite /byte in ha hb; split; lia.
split=> //; case: (Z.eq_dec (Z.lxor a b) 0) => [->//|n0].
have -> : 256%Z = (2 ^ 8)%Z by [].
apply/Z.log2_lt_pow2; first lia.
have hl z : byte z -> (Z.log2 z < 8)%Z.
  move=> [z0 z1]; case: (Z.eq_dec z 0) => [->//|nz]; apply/Z.log2_lt_pow2 => //; lia.
have [] : (0 <= a /\ 0 <= b)%Z by case: ha; case: hb.
move=> a0 b0; have := Z.log2_lxor a b a0 b0; have := hl _ ha; have := hl _ hb; lia.
Qed.

(** * The key stream *)
Section Stream.
Variable ks : nat -> Z.

(** xor of the blocks 0..n-1 of the stream at offset i, the blocks starting at positions [st j] *)
Fixpoint xorUpto (f : nat -> Z) (n : nat) : Z := if n is n'.+1 then Z.lxor (xorUpto f n') (f n') else 0%Z.

Lemma xorUpto_byte f n : (forall i, byte (f i)) -> byte (xorUpto f n).
Proof. by move=> h; elim: n => [|n IH]; [split | apply: lxor_byte]. Qed.

Lemma size_xks pos src : size (XORKeyStream ks pos src) = size src.
Proof. by rewrite size_mkseq. Qed.
Lemma nth_xks pos src i : (i < size src)%N -> nth 0%Z (XORKeyStream ks pos src) i = Z.lxor (nth 0%Z src i) (ks (pos + i)).
Proof. by move=> h; rewrite nth_mkseq. Qed.

(** the state after j Samples and no Read *)
Definition stAfter (s : sampler) (j : nat) : Prop :=
  let b := ((j + 1023) %/ 1024)%N in
  prngPos s = (b * bufSize)%N /\ size (sbuf s) = bufSize /\ sptr s = (bufSize - 8 * (b * 1024 - j))%N /\
  forall i, (i < bufSize)%N -> nth 0%Z (sbuf s) i = xorUpto (fun t => ks (t * bufSize + i)) b.

Lemma st_new : stAfter NewUniformSamplerWithSeed 0.
Proof. by rewrite /stAfter; split=> //; split; rewrite ?size_nseq //; split=> // i hi; rewrite nth_nseq if_same. Qed.

(** the bytes Sample hands out, in order *)
Definition outByte (i : nat) : Z := xorUpto (fun t => ks (t * bufSize + i %% bufSize)) (i %/ bufSize).+1.
End Stream.
Lemma bufE : bufSize = (8 * 1024)%N. Proof. by []. Qed.
Global Opaque bufSize.
Section Stream2.
Variable ks : nat -> Z.
Lemma leWord_ext b b' : (forall k, (k < 8)%N -> b k = b' k) -> leWord b = leWord b'.
Proof. by move=> h; rewrite /leWord !h. Qed.

Lemma sample_step s j : stAfter ks s j ->
  exists s', Sample ks s = Some (leWord (fun k => outByte ks (8 * j + k)), s') /\ stAfter ks s' j.+1.
Proof.
have B := bufE.
move=> [hp [hs [hq hb]]]; set b := ((j + 1023) %/ 1024)%N in hp hq hb.
have hdiv : (b * 1024 - j < 1024)%N /\ (j <= b * 1024)%N by rewrite /b; lia.
have : exists b' : nat, b' = ((j.+1 + 1023) %/ 1024)%N /\ (j < b' * 1024 <= j + 1024)%N.
  by eexists; split; [reflexivity | lia].
case=> b' [eb' hb'].
have R : prngPos (refill ks s) = (b' * bufSize)%N /\ size (sbuf (refill ks s)) = bufSize /\
   sptr (refill ks s) = (bufSize - 8 * (b' * 1024 - j))%N /\
   forall i, (i < bufSize)%N -> nth 0%Z (sbuf (refill ks s)) i = xorUpto (fun t => ks (t * bufSize + i)) b'.
  rewrite /refill hq; case: eqP => h.
    have e1 : b' = b.+1 by rewrite /b in h *; lia.
    rewrite /= size_xks hs hp e1; split; first by rewrite mulSn addnC.
    split=> //; split; first by rewrite B in h *; lia.
    by move=> i hi; rewrite nth_xks ?hs // hb //= .
  have e1 : b' = b by rewrite /b in h *; lia.
  by rewrite e1.
case: R => r1 [r2 [r3 r4]].
rewrite /Sample; set s1 := refill ks s in r1 r2 r3 r4 *.
have hlt : (sptr s1 + 7 < bufSize)%N by rewrite r3 B; lia.
rewrite hlt; exists (Sampler (prngPos s1) (sbuf s1) (sptr s1 + 8)); split; last first.
  rewrite /stAfter -eb' /=; split=> //; split=> //; split=> //; rewrite r3 B; lia.
congr (Some (_, _)); apply: leWord_ext => k hk; rewrite r4; last by rewrite r3 B; lia.
rewrite /outByte; have -> : ((8 * j + k) %/ bufSize).+1 = b' by rewrite B; lia.
by have -> : ((8 * j + k) %% bufSize = sptr s1 + k)%N by rewrite r3 B; lia.
Qed.

Lemma samples_spec n s j : stAfter ks s j ->
  exists s', samples ks n s = Some ([seq leWord (fun k => outByte ks (8 * i + k)) | i <- iota j n], s') /\ stAfter ks s' (j + n).
Proof.
elim: n s j => [|n IH] s j h; first by exists s; rewrite addn0.
have [s' [e h']] := sample_step h; have [s2 [e2 h2]] := IH _ _ h'.
by exists s2; rewrite /= e e2; split=> //; rewrite addnS -addSn.
Qed.
End Stream2.

(** * Binary search *)
Lemma bsearch_range fuel t u lo hi : (lo <= hi)%N -> (lo <= bsearch fuel t u lo hi <= hi)%N.
Proof.
elim: fuel lo hi => [|f IH] lo hi h /=; first by rewrite leqnn.
case: ifP => hl; last by rewrite leqnn.
case: ifP => _.
- by have := IH ((lo + hi) %/ 2).+1 hi; lia.
- by have := IH lo ((lo + hi) %/ 2)%N; lia.
Qed.
Lemma bsearch_spec fuel t u lo hi : (hi - lo < fuel)%N -> (lo <= hi <= size t)%N ->
  (forall i j, (i <= j)%N -> (j < size t)%N -> (nth 0%Z t i <= nth 0%Z t j)%Z) ->
  (forall i, (i < lo)%N -> (nth 0%Z t i < u)%Z) -> (forall i, (hi <= i)%N -> (i < size t)%N -> (u <= nth 0%Z t i)%Z) ->
  let r := bsearch fuel t u lo hi in
  (forall i, (i < r)%N -> (nth 0%Z t i < u)%Z) /\ (forall i, (r <= i)%N -> (i < size t)%N -> (u <= nth 0%Z t i)%Z).
Proof.
move=> hf hle hs; elim: fuel lo hi hf hle => [|f IH] lo hi hf hle hlo hhi; first lia.
cbv zeta; rewrite /=; case: ifP => hl.
  case: ifP => /Z.ltb_spec0 hc.
    apply: IH => //; [lia|lia|] => i hi'; apply: Z.le_lt_trans hc; apply: hs; lia.
  apply: IH => //; [lia|lia|] => i hi1 hi2; have := hs _ _ hi1 hi2; lia.
have e : lo = hi by lia.
by split=> // i; rewrite e; apply: hhi.
Qed.

(** * Histories with Read *)
Section Hist.
Variable ks : nat -> Z.
Definition isSample (c : call) : bool := if c is CSample then true else false.
Definition readLen (c : call) : nat := if c is CRead p then size p else 0.
Definition stHist (s : sampler) (nS nR : nat) : Prop :=
  let b := ((nS + 1023) %/ 1024)%N in
  prngPos s = (b * bufSize + nR)%N /\ size (sbuf s) = bufSize /\ sptr s = (bufSize - 8 * (b * 1024 - nS))%N.
Lemma hist_new : stHist NewUniformSamplerWithSeed 0 0.
Proof. by rewrite /stHist /= size_nseq. Qed.
Lemma hist_sample s nS nR : stHist s nS nR -> exists r s', Sample ks s = Some (r, s') /\ stHist s' nS.+1 nR.
Proof.
have B := bufE; move=> [hp [hs hq]]; set b := ((nS + 1023) %/ 1024)%N in hp hq.
have : exists b' : nat, b' = ((nS.+1 + 1023) %/ 1024)%N /\ (nS < b' * 1024 <= nS + 1024)%N.
  by eexists; split; [reflexivity | lia].
case=> b' [eb' hb'].
have [r1 [r2 r3]] : prngPos (refill ks s) = (b' * bufSize + nR)%N /\ size (sbuf (refill ks s)) = bufSize /\
   sptr (refill ks s) = (bufSize - 8 * (b' * 1024 - nS))%N.
  rewrite /refill hq; case: eqP => h.
    have e1 : b' = b.+1 by rewrite /b in h *; lia.
    rewrite /= size_xks hs hp e1; split; first by rewrite mulSn; lia.
    by split=> //; rewrite B in h *; lia.
  have e1 : b' = b by rewrite /b in h *; lia.
  by rewrite e1.
rewrite /Sample; set s1 := refill ks s in r1 r2 r3 *.
have hlt : (sptr s1 + 7 < bufSize)%N by rewrite r3 B; lia.
rewrite hlt; eexists; exists (Sampler (prngPos s1) (sbuf s1) (sptr s1 + 8)); split; first reflexivity.
rewrite /stHist -eb' /=; split=> //; split=> //; rewrite r3 B; lia.
Qed.
Lemma hist_run cs s nS nR : stHist s nS nR -> exists l s', run ks s cs = Some (l, s') /\ size l = size cs /\
  stHist s' (nS + count isSample cs) (nR + sumn (map readLen cs)).
Proof.
elim: cs s nS nR => [|c cs IH] s nS nR h; first by exists [::], s; rewrite /= !addn0.
case: c => [|p].
  have [r [s' [e h']]] := hist_sample h; have [l [s2 [e2 [hz h2]]]] := IH _ _ _ h'.
  by exists (AWord r :: l), s2; rewrite /= e /= e2 /= hz add0n addnCA add1n; rewrite addSn in h2.
have h' : stHist (Read ks s p).2 nS (nR + size p).
  by case: h => [h1 [h2 h3]]; rewrite /stHist /= h1 addnA.
have [l [s2 [e2 [hz h2]]]] := IH _ _ _ h'.
by exists (ABytes (Read ks s p).1 :: l), s2; rewrite /= e2 /= hz add0n addnA.
Qed.
End Hist.

(** * Rejection *)
Lemma boundE n : (0 < n)%Z -> sampleBound n = (n * ((W - 1) / n))%Z.
Proof. move=> h; rewrite /sampleBound; have := Z.div_mod (W - 1) n; lia. Qed.
Lemma bound_half n : (0 < n < W)%Z -> (2 ^ 63 <= sampleBound n)%Z.
Proof.
move=> h; rewrite /sampleBound.
have := Z.mod_pos_bound (W - 1) n; rewrite /W in h *.
case: (Z.le_gt_cases n (2 ^ 63)) => hn; first lia.
have -> : ((18446744073709551616 - 1) mod n = 18446744073709551616 - 1 - n)%Z.
  by symmetry; apply: (@Z.mod_unique_pos _ _ 1); lia.
lia.
Qed.
Lemma sampleLoop_range ks fuel n s v s' : (0 < n)%Z -> sampleLoop ks fuel n s = Some (v, s') -> (0 <= v < n)%Z.
Proof.
move=> h; elim: fuel s => [//|f IH] s /=.
by case: Sample => [[r s1]|//]; case: ifP => _; [case=> <- _; apply: Z.mod_pos_bound | apply: IH].
Qed.
(** the loop returns the first word below the bound *)
Lemma sampleLoop_first ks fuel n s j : stAfter ks s j ->
  let word := (fun i => leWord (fun k => outByte ks (8 * i + k))) in
  forall d, (d < fuel)%N -> (forall i, (i < d)%N -> (sampleBound n <= word (j + i)%N)%Z) -> (word (j + d)%N < sampleBound n)%Z ->
  exists s', sampleLoop ks fuel n s = Some ((word (j + d)%N mod n)%Z, s') /\ stAfter ks s' (j + d.+1).
Proof.
move=> h word d; elim: fuel s j h d => [//|f IH] s j h d hd hr ha /=.
have [s1 [-> h1]] := sample_step h; rewrite -/(word j).
case: d hd hr ha => [|d] hd hr ha.
  by rewrite addn0 in ha; move/Z.ltb_lt: (ha) => ->; exists s1; rewrite addn0 addn1.
have h0 := hr 0%N isT; rewrite addn0 in h0.
have -> : (word j <? sampleBound n)%Z = false by apply/Z.ltb_ge.
have [|i hi||s2 [e2 h2]] := IH _ _ h1 d; first by lia.
- by rewrite addSnnS; apply: hr.
- by rewrite addSnnS.
by exists s2; rewrite e2 addSnnS [in X in _ /\ X]addnS -[in X in _ /\ X]addSn.
Qed.

(** * The map from key streams to outputs *)
Section Bij.
Definition ksFor (out : nat -> Z) (i : nat) : Z :=
  if (i < bufSize)%N then out i else Z.lxor (out i) (out (i - bufSize)%N).
Lemma outByte_ksFor out i : outByte (ksFor out) i = out i.
Proof.
have B := bufE; rewrite /outByte.
have E n j : (j < bufSize)%N -> xorUpto (fun t => ksFor out (t * bufSize + j)) n.+1 = out (n * bufSize + j)%N.
  move=> hj; elim: n => [|n IH]; first by rewrite /xorUpto Z.lxor_0_l mul0n add0n /ksFor hj.
  rewrite -[LHS]/(Z.lxor (xorUpto (fun t => ksFor out (t * bufSize + j)) n.+1) (ksFor out (n.+1 * bufSize + j))) IH /ksFor.
  have -> : (n.+1 * bufSize + j < bufSize)%N = false by lia.
  have -> : (n.+1 * bufSize + j - bufSize = n * bufSize + j)%N by lia.
  by rewrite [Z.lxor (out (n.+1 * _ + _)%N) _]Z.lxor_comm -Z.lxor_assoc Z.lxor_nilpotent Z.lxor_0_l.
by rewrite E -?divn_eq // ltn_mod B.
Qed.
Lemma ksFor_byte out : (forall i, byte (out i)) -> forall i, byte (ksFor out i).
Proof. by move=> h i; rewrite /ksFor; case: ifP => _ //; apply: lxor_byte. Qed.
Lemma outByte_byte ks : (forall i, byte (ks i)) -> forall i, byte (outByte ks i).
Proof. by move=> h i; apply: xorUpto_byte => t; exact: h. Qed.
Lemma lxor_cancel a b c : Z.lxor a b = Z.lxor a c -> b = c.
Proof. by move=> h; rewrite -[b]Z.lxor_0_l -[c]Z.lxor_0_l -(Z.lxor_nilpotent a) !Z.lxor_assoc h. Qed.
Lemma outByte_inj ks ks' m : (forall i, (i < m)%N -> outByte ks i = outByte ks' i) -> forall i, (i < m)%N -> ks i = ks' i.
Proof.
have B := bufE; move=> h i; elim/ltn_ind: i => i IH hi.
have := h i hi; rewrite /outByte.
rewrite -![xorUpto _ _.+1]/(Z.lxor (xorUpto _ (i %/ bufSize)) _) -divn_eq.
have -> : xorUpto (fun t => ks' (t * bufSize + i %% bufSize)) (i %/ bufSize) = xorUpto (fun t => ks (t * bufSize + i %% bufSize)) (i %/ bufSize).
  have : (i %/ bufSize * bufSize <= i)%N by rewrite leq_trunc_div.
  elim: (i %/ bufSize)%N => [//|n IHn] hn /=.
  rewrite IHn; last by apply: leq_trans hn; rewrite leq_mul2r leqnSn orbT.
  congr Z.lxor; symmetry; have hm : (i %% bufSize < bufSize)%N by rewrite ltn_mod B.
  have hlt : (n * bufSize + i %% bufSize < i)%N by apply: leq_trans hn; rewrite mulSn addnC ltn_add2r.
  by apply: IH => //; apply: ltn_trans hi.
exact: lxor_cancel.
Qed.
End Bij.
