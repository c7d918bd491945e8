(** C60, C62-C66, C79, C80: the samplers and the commitment key. *)
From Coq Require Import ZArith Lia SpecFloat.
From mathcomp Require Import all_ssreflect.
From mathcomp.zify Require Import zify.
From Verif Require Import JindoIntModel CsprngModel CsprngProofs FloatProofs KeyProofs.
Set Implicit Arguments. Unset Strict Implicit. Unset Printing Implicit Defensive.
Delimit Scope Z_scope with Z.
Local Arguments Z.mul : simpl never.
Local Arguments Z.add : simpl never.
Local Arguments Z.sub : simpl never.
Local Arguments Z.pow : simpl never.
Local Arguments Z.of_nat : simpl never.

(** * C62 *)

(** n = 0 panics; otherwise an answer lies in [0, n), whatever the state *)
Theorem C62_range ks fuel n s :
  SampleN ks fuel 0 s = None /\
  ((0 < n)%Z -> forall v s', SampleN ks fuel n s = Some (v, s') -> (0 <= v < n)%Z).
Proof.
split=> // hn v s'; rewrite /SampleN; case: ifP => // _; exact: sampleLoop_range.
Qed.
(** after j Samples on a fresh sampler, SampleN uses the first word w below the bound and answers
    w mod n *)
Theorem C62_first ks n fuel j d s :
  let w := (fun i => leSum (fun k => outByte ks (8 * i + k))) in
  (forall i, byte (ks i)) -> (0 < n)%Z -> omap snd (samples ks j NewUniformSamplerWithSeed) = Some s -> (d < fuel)%N ->
  (forall i, (i < d)%N -> (sampleBound n <= w (j + i)%N)%Z) -> (w (j + d)%N < sampleBound n)%Z ->
  exists s', SampleN ks fuel n s = Some ((w (j + d)%N mod n)%Z, s') /\
    omap snd (samples ks (j + d.+1) NewUniformSamplerWithSeed) = Some s'.
Proof.
move=> w hb hn; have [s1 [e1 h1]] := samples_spec j (st_new ks); rewrite e1 add0n in h1 * => -[<-] hd hr ha.
have ew i : leWord (fun k => outByte ks (8 * i + k)) = w i by apply: leWordE => k; apply: outByte_byte.
have [i hi||s' [e' h']] := sampleLoop_first (n := n) h1 hd; rewrite ?ew; [exact: hr | exact: ha |].
exists s'; rewrite /SampleN (_ : (n =? 0)%Z = false); last by apply/Z.eqb_neq; lia.
rewrite e' ew; split=> //.
have S a b s0 : samples ks (a + b) s0 = if samples ks a s0 is Some (l, s1) then
     (if samples ks b s1 is Some (l', s2) then Some (l ++ l', s2) else None) else None.
  elim: a s0 => [|a IH] s0 /=; first by case: (samples ks b s0) => [[]|].
  case: Sample => [[r s2]|//]; rewrite IH; case: (samples ks a s2) => [[l s3]|//].
  by case: (samples ks b s3) => [[]|].
rewrite S e1; clear S e1.
have D f s0 j0 dd : stAfter ks s0 j0 -> (dd < f)%N ->
  (forall i, (i < dd)%N -> (sampleBound n <= w (j0 + i)%N)%Z) -> (w (j0 + dd)%N < sampleBound n)%Z ->
  omap snd (sampleLoop ks f n s0) = omap snd (samples ks dd.+1 s0).
  elim: f s0 j0 dd => [//|f IH] s0 j0 dd h0 hdd hrr haa.
  have [s2 [e2 h2]] := sample_step h0; rewrite [LHS]/= [samples _ _ _]/= e2 ew.
  case: dd hdd hrr haa => [|dd] hdd hrr haa.
    by rewrite addn0 in haa; move/Z.ltb_lt: haa => ->.
  have := hrr 0%N isT; rewrite addn0 => /Z.ltb_ge ->.
  rewrite (IH _ _ dd h2) //; first by rewrite /=; case: Sample => [[r3 s3]|//]; case: samples => [[]|].
    by move=> i hi; rewrite addSnnS; apply: hrr.
  by rewrite addSnnS.
have := D fuel s1 j d h1 hd hr ha; rewrite e' [X in Some X]/=.
by case: (samples ks d.+1 s1) => [[l3 s3]|] //= [->].
Qed.
(** the accepted words answered with v are v, v + n, ..., v + ((2^64-1)/n - 1) n: their number
    does not depend on v.  At least half of all words are accepted. *)
Theorem C62_unbiased n v r : (0 < n < W)%Z -> (0 <= v < n)%Z -> (0 <= r < W)%Z ->
  ((r < sampleBound n)%Z /\ (r mod n)%Z = v <-> exists q, (0 <= q < (W - 1) / n)%Z /\ r = (q * n + v)%Z) /\
  (2 ^ 63 <= sampleBound n)%Z.
Proof.
move=> hn hv hr; split; last exact: bound_half.
rewrite boundE; last lia.
split.
  move=> [h1 h2]; exists (r / n)%Z; split; last by have := Z.div_mod r n; lia.
  split; first by apply: Z.div_pos; lia.
  apply: Z.div_lt_upper_bound; lia.
move=> [q [hq ->]]; split; last by rewrite Z.add_comm Z.mod_add ?Z.mod_small //; lia.
nia.
Qed.

(** * C63 *)

(** byte i of the output: the key stream bytes at offset i mod 8192 of the blocks 0 .. i/8192,
    combined by xor (the buffer is not cleared between refills) *)
Definition streamByte (ks : nat -> Z) (i : nat) : Z :=
  foldl Z.lxor 0%Z [seq ks (t * 8192 + i %% 8192)%N | t <- iota 0 (i %/ 8192).+1].
Lemma streamByteE ks i : streamByte ks i = outByte ks i.
Proof.
rewrite /streamByte /outByte bufE -[(8 * 1024)%N]/8192%N; elim: (_.+1) => [//|n IH].
by rewrite -{1}addn1 iotaD map_cat foldl_cat IH.
Qed.
Theorem C63_stream ks k : (forall i, byte (ks i)) ->
  omap fst (samples ks k NewUniformSamplerWithSeed) =
  Some [seq leSum (fun b => streamByte ks (8 * i + b)) | i <- iota 0 k].
Proof.
move=> hb; have [s' [-> _]] := samples_spec k (st_new ks); congr Some; apply: eq_map => i.
rewrite leWordE; last by move=> b; apply: outByte_byte.
by rewrite /leSum !streamByteE.
Qed.
(** every list of words is the answer for some key stream, and the answers of k Samples determine
    the first 8k bytes of the key stream: a uniform key stream gives uniform words *)
Theorem C63_uniform :
  (forall l : seq Z, (forall x, List.In x l -> (0 <= x < W)%Z) ->
     exists ks, (forall i, byte (ks i)) /\ omap fst (samples ks (size l) NewUniformSamplerWithSeed) = Some l) /\
  (forall ks ks' k, (forall i, byte (ks i)) -> (forall i, byte (ks' i)) ->
     omap fst (samples ks k NewUniformSamplerWithSeed) = omap fst (samples ks' k NewUniformSamplerWithSeed) ->
     forall i, (i < 8 * k)%N -> ks i = ks' i).
Proof.
split.
  move=> l hl; pose out i := byteOf (nth 0%Z l (i %/ 8)) (i %% 8).
  have ho i : byte (out i) by apply: byteOf_byte.
  exists (ksFor out); split; first exact: ksFor_byte.
  rewrite C63_stream; last exact: ksFor_byte.
  congr Some; apply: (@eq_from_nth _ 0%Z); rewrite size_map size_iota // => i hi.
  rewrite (nth_map 0%N) ?size_iota // nth_iota // add0n.
  rewrite -[RHS]leSum_byteOf; last by apply: hl; elim: (l) (i) hi => [//|y L IHL] [|k'] hk' /=; [left | right; apply: IHL].
  rewrite /leSum !streamByteE !outByte_ksFor /out.
  have e k : (k < 8)%N -> ((8 * i + k) %/ 8 = i)%N /\ ((8 * i + k) %% 8 = k)%N by lia.
  do 8!match goal with |- context[((8 * i + ?k) %/ 8)%N] => let h := fresh in have h := e k isT; rewrite (proj1 h) (proj2 h) end.
  by [].
move=> ks ks' k hb hb'; rewrite !C63_stream // => -[] e i hi.
apply: (@outByte_inj ks ks' (8 * k)) => // {hi}i hi.
have hk : (i %/ 8 < k)%N by lia.
have := congr1 (fun l => nth 0%Z l (i %/ 8)) e.
rewrite !(nth_map 0%N) ?size_iota // !nth_iota // add0n => /leSum_inj h.
have := h _ _ (i %% 8)%N; rewrite !streamByteE (_ : 8 * (i %/ 8) + i %% 8 = i)%N; last by lia.
by apply; [move=> b; rewrite streamByteE; apply: outByte_byte | move=> b; rewrite streamByteE; apply: outByte_byte | lia].
Qed.

(** * C64 *)

(** After any history, Read xors p with the key stream from a position fixed by the numbers of
    Samples and bytes read before. *)
Theorem C64_position ks cs p : exists l s, run ks NewUniformSamplerWithSeed cs = Some (l, s) /\
  (Read ks s p).1 = mkseq (fun i => Z.lxor (nth 0%Z p i)
     (ks ((count isSample cs + 1023) %/ 1024 * 8192 + sumn (map readLen cs) + i)%N)) (size p).
Proof.
have [l [s [e [_ [h _]]]]] := hist_run ks cs hist_new; exists l, s; split=> //.
by rewrite /Read /= /XORKeyStream h bufE.
Qed.
(** So a zero buffer is filled with key stream bytes *)
Theorem C64_zero_buffer_partial ks s n : (Read ks s (nseq n 0%Z)).1 = mkseq (fun i => ks (prngPos s + i)%N) n.
Proof.
rewrite /Read /= /XORKeyStream size_nseq; apply: eq_mkseq => i.
by rewrite nth_nseq if_same Z.lxor_0_l.
Qed.
(** and every other buffer gives different bytes: the old contents remain in the output *)
Theorem C64_refuted ks s p q : size p = size q -> p <> q ->
  (Read ks s p).1 <> (Read ks s q).1.
Proof.
move=> hs hne e; apply: hne; apply: (@eq_from_nth _ 0%Z) => // i hi.
have := congr1 (fun l => nth 0%Z l i) e; rewrite /Read /= !nth_xks -?hs //.
by rewrite ![Z.lxor (nth _ _ _) _]Z.lxor_comm; apply: lxor_cancel.
Qed.

(** * C65 *)

(** any tables of the length made by computeCDT, any indices and random word *)
Theorem C65_range tables tailHi cFloor c0 c1 u below : (0 <= tailHi)%Z ->
  (forall t, List.In t tables -> Z.of_nat (size t) = (2 * tailHi + 1)%Z) ->
  (c0 < size tables)%N -> (c1 < size tables)%N ->
  (- tailHi - 1 <= TwinSample tables (- tailHi) cFloor c0 c1 u below - cFloor <= tailHi + 1)%Z.
Proof.
move=> ht hsz h0 h1.
have H t : Z.of_nat (size t) = (2 * tailHi + 1)%Z -> (-1 <= cdtIndex t u <= 2 * tailHi + 1)%Z.
  move=> hs; rewrite /cdtIndex /BinarySearch.
  have := @bsearch_range (size t).+1 t u 0 (size t) isT; move: (bsearch _ _ _ _ _) => i hi.
  by case: ifP => _; lia.
have In c : (c < size tables)%N -> List.In (nth [::] tables c) tables.
  by elim: (tables) c => [//|t ts IH] [|c] hc /=; [left | right; apply: IH].
have := H _ (hsz _ (In _ h0)); have := H _ (hsz _ (In _ h1)); rewrite /TwinSample.
by case: ifP => _; [|case: ifP => _]; lia.
Qed.
(** on a sorted table the index is the number of entries below u, one less if u is an entry *)
Theorem C65_index t u : (forall i j, (i <= j)%N -> (j < size t)%N -> (nth 0%Z t i <= nth 0%Z t j)%Z) ->
  cdtIndex t u = (Z.of_nat (count (fun x => (x <? u)%Z) t) - (if has (fun x => (x =? u)%Z) t then 1 else 0))%Z.
Proof.
move=> hs; rewrite /cdtIndex /BinarySearch.
have hr := @bsearch_range (size t).+1 t u 0 (size t) isT.
have [||||hlt hge] := @bsearch_spec (size t).+1 t u 0 (size t) _ _ hs => //; first by rewrite subn0.
- by rewrite leqnn.
- by move=> i h1 h2; lia.
move: (bsearch _ _ _ _ _) hr hlt hge => r hr hlt hge.
have -> : count (fun x => (x <? u)%Z) t = r.
  rewrite -{1}(cat_take_drop r t) count_cat.
  have hst : size (take r t) = r by rewrite size_take; case: ltnP => //; lia.
  have -> : count (fun x => (x <? u)%Z) (take r t) = r.
    rewrite -[RHS]hst; apply/eqP; rewrite -all_count; apply/(all_nthP 0%Z) => i; rewrite hst => hi.
    by rewrite nth_take //; apply/Z.ltb_lt; apply: hlt.
  have -> : count (fun x => (x <? u)%Z) (drop r t) = 0%N.
    apply/eqP; rewrite -leqn0 leqNgt -has_count; apply/negP => /(has_nthP 0%Z) [i].
    rewrite size_drop nth_drop => hi /Z.ltb_lt; have : (u <= nth 0%Z t (r + i))%Z; last lia.
    by apply: hge; lia.
  exact: addn0.
have -> : has (fun x => (x =? u)%Z) t = ((r < size t)%N && (nth 0%Z t r =? u)%Z).
  apply/(has_nthP 0%Z)/andP.
    move=> [i hi /Z.eqb_eq e].
    have hir : (r <= i)%N by rewrite leqNgt; apply/negP => /hlt; lia.
    have hrt : (r < size t)%N by lia.
    split=> //; apply/Z.eqb_eq; have := hs _ _ hir hi; have := hge r (leqnn r) hrt; lia.
  by move=> [h1 h2]; exists r.
by case: ifP => _; lia.
Qed.
(** the value just outside the tail is attained: the random word equal to the first entry *)
Theorem C65_outside_tail_refuted t ts tailHi cFloor below :
  (forall i j, (i <= j)%N -> (j < size t)%N -> (nth 0%Z t i <= nth 0%Z t j)%Z) -> (0 < size t)%N ->
  TwinSample (t :: ts) (- tailHi) cFloor 0 0 (nth 0%Z t 0) below = (cFloor - tailHi - 1)%Z.
Proof.
move=> hs h0; rewrite /TwinSample /= C65_index // Z.eqb_refl.
have -> : count (fun x => (x <? nth 0%Z t 0)%Z) t = 0%N.
  apply/eqP; rewrite -leqn0 leqNgt -has_count; apply/negP => /(has_nthP 0%Z) [i hi /Z.ltb_lt].
  by have := hs 0%N i isT hi; lia.
have -> : has (fun x => (x =? nth 0%Z t 0)%Z) t by apply/(has_nthP 0%Z); exists 0%N => //; apply/Z.eqb_refl.
by rewrite /Z.of_nat /=; lia.
Qed.

(** * C79: moving the centre by one moves the output by one *)

(** The fraction 1 (center - floor(center) rounds to 1 for a tiny negative center) is treated like
    the fraction 0 of the same floor: every output is one too small. *)
Theorem C79_fraction_one_refuted tables tailLo cFloor d u below : (0 < d)%Z ->
  TwinSample tables tailLo cFloor (twinC0 d d) (twinC1 d d) u below =
  (TwinSample tables tailLo (cFloor + 1) (twinC0 0 d) (twinC1 0 d) u below - 1)%Z.
Proof.
move=> hd; have -> : twinC0 d d = 0%N by rewrite /twinC0 Z.div_mul //; lia.
have -> : twinC1 d d = 0%N by rewrite /twinC1 -Z.mul_opp_l Z.div_mul //; lia.
have -> : twinC0 0 d = 0%N by rewrite /twinC0 Z.div_0_l //; lia.
have -> : twinC1 0 d = 0%N by rewrite /twinC1 Z.div_0_l //; lia.
by rewrite /TwinSample Z.eqb_refl; lia.
Qed.
(** above 127/128 the second table is that of the centre 0, not 1: the candidate is one too small *)
Theorem C79_last_block_refuted num den : (0 < den)%Z -> (127 * den < 128 * num < 128 * den)%Z ->
  twinC0 num den = 127%N /\ twinC1 num den = 0%N.
Proof.
move=> hd h; split.
  rewrite /twinC0 (_ : (128 * num / den = 127)%Z) //.
  by symmetry; apply: (@Z.div_unique _ _ _ (128 * num - 127 * den)%Z); lia.
rewrite /twinC1 (_ : (- (128 * num) / den = -128)%Z) //.
by symmetry; apply: (@Z.div_unique _ _ _ (128 * den - 128 * num)%Z); lia.
Qed.
(** center = -2^-60 in binary64: floor(center) = -1 and center - floor(center) = 1 *)
Example ex_C79 : SFsub f64prec f64emax (S754_finite true (2 ^ 52) (-112)) (S754_finite true (2 ^ 52) (-52)) =
  S754_finite false (2 ^ 52) (-52).
Proof. by vm_compute. Qed.

(** * C80: the choice between the two candidates *)

(** the sum of weights over lo..hi *)
Definition massZ (w : Z -> Z) (lo hi : Z) : Z :=
  foldr Z.add 0%Z [seq w (lo + Z.of_nat i)%Z | i <- iota 0 (Z.to_nat (hi - lo + 1))].
(** Twin-CDT: the smaller candidate x0 is right iff p is below the mass of tailLo..x0 *)
Definition twinChoice (tables : seq (seq Z)) (tailLo cFloor : Z) c0 c1 u (w : Z -> Z) (p : Z) : Z :=
  let x0 := (cdtIndex (nth [::] tables c0) u + tailLo)%Z in
  let x1 := (cdtIndex (nth [::] tables c1) u + tailLo)%Z in
  (cFloor + (if (x0 =? x1)%Z then x0 else if (p <? massZ w tailLo x0)%Z then x0 else x1))%Z.
(** The code sums up to the index v0 instead of the value v0 + tailLo.  As soon as v0 >= tailHi
    (x0 >= 0) and p is below the mass of the whole tail, it takes the first candidate. *)
Theorem C80_first_candidate_refuted tables tailHi cFloor c0 c1 u w p : (0 <= tailHi)%Z -> (forall x, (0 <= w x)%Z) ->
  (p < massZ w (- tailHi) tailHi)%Z -> (tailHi <= cdtIndex (nth [::] tables c0) u)%Z ->
  TwinSample tables (- tailHi) cFloor c0 c1 u (fun lo hi => (p <? massZ w lo hi)%Z) =
  (cdtIndex (nth [::] tables c0) u - tailHi + cFloor)%Z.
Proof.
move=> ht hw hp hv; rewrite /TwinSample; case: ifP => _; first lia.
have -> : (p <? massZ w (- tailHi) (cdtIndex (nth [::] tables c0) u))%Z; last lia.
apply/Z.ltb_lt; apply: (Z.lt_le_trans _ _ _ hp); rewrite /massZ.
move: (cdtIndex _ _) hv => v hv.
have -> : Z.to_nat (v - - tailHi + 1) = (Z.to_nat (tailHi - - tailHi + 1) + Z.to_nat (v - tailHi))%N by lia.
rewrite iotaD map_cat foldr_cat.
have F (l : seq Z) a : (0 <= a)%Z -> (foldr Z.add 0 l <= foldr Z.add a l)%Z by move=> ha; elim: l => [|x l IH] /=; lia.
apply: F; elim: (iota _ _) => [|i l IH] /=; first lia.
by have := hw (- tailHi + Z.of_nat i)%Z; lia.
Qed.
(** a case where the two differ: tail 1, masses 1, 2, 1 of 4 scaled, p = 3 *)
Definition tw0 : seq (seq Z) := [:: [:: 1; 3; 4]%Z; [:: 0; 2; 4]%Z].
Definition tww (x : Z) : Z := if (x =? 0)%Z then 2%Z else if (Z.abs x =? 1)%Z then 1%Z else 0%Z.
Example ex_C80 :
  TwinSample [:: [:: 1; 4; 5]%Z; [:: 1; 2; 5]%Z] (-1) 0 0 1 3 (fun lo hi => (3 <? massZ tww lo hi)%Z) = 0%Z /\
  twinChoice [:: [:: 1; 4; 5]%Z; [:: 1; 2; 5]%Z] (-1) 0 0 1 3 tww 3 = 1%Z.
Proof. by vm_compute. Qed.
Theorem C80_refuted : exists tables u w p, (forall x, (0 <= w x)%Z) /\
  TwinSample tables (-1) 0 0 1 u (fun lo hi => (p <? massZ w lo hi)%Z) <> twinChoice tables (-1) 0 0 1 u w p.
Proof.
exists [:: [:: 1; 4; 5]%Z; [:: 1; 2; 5]%Z], 3%Z, tww, 3%Z; split.
  by move=> x; rewrite /tww; case: ifP => _; [|case: ifP => _].
by rewrite (proj1 ex_C80) (proj2 ex_C80).
Qed.

(** * C66 *)

(** [scaled x] is x * 2^1074; so the float is exactly (word mod 2^52) / 2^52, in [0, 1), and a
    valid binary64 number *)
Theorem C66_value w : scaled (SampleFloatOf w) = Some ((w mod 2 ^ 52) * 2 ^ 1022)%Z /\
  valid_binary f64prec f64emax (SampleFloatOf w) /\
  (0 <= (w mod 2 ^ 52) * 2 ^ 1022 < 2 ^ 1074)%Z.
Proof.
have [h1 h2] := sampleFloat_value w; split=> //; split=> //.
have h := Z.mod_pos_bound w (2 ^ 52) erefl.
split; first by apply: Z.mul_nonneg_nonneg; [lia | apply: Z.pow_nonneg].
rewrite (_ : 2 ^ 1074 = 2 ^ 52 * 2 ^ 1022)%Z; last by rewrite -Z.pow_add_r.
have hp : (0 < 2 ^ 1022)%Z by apply: Z.pow_pos_nonneg.
by apply: (proj1 (Z.mul_lt_mono_pos_r _ _ _ hp)); lia.
Qed.
Example ex_C66 : SampleFloatOf (2 ^ 63 + 3 * 2 ^ 50) = S754_finite false (3 * 2 ^ 51) (-53).
Proof. by vm_compute. Qed.

(** * C60 *)

(** the key of parameters q: three matrices of polynomials, limb l of every coefficient below
    modulus l *)
Definition reducedMatrix (rows cols N : nat) (ms : seq Z) (m : keyMatrix) : Prop :=
  size m = rows /\ forall r, List.In r m -> size r = cols /\
  forall p, List.In p r -> size p = N /\ forall c, List.In c p -> below ms c.
Definition reducedKey (q : keyParams) (ck : commitKey) : Prop :=
  reducedMatrix (kInRank q) (kRows q) (kN q) (kQ q) (ckIn ck) /\
  reducedMatrix (kInRank q) (kMLWERank q) (kN q) (kQ q) (ckMLWE ck) /\
  reducedMatrix (kOutRank q) (kDcmpLen q) (kN q) (kQOut q) (ckOut ck).
Lemma drawMatrix_reduced ks f rows cols N ms s m s' : moduli ms ->
  drawMatrix ks f rows cols N ms s = Some (m, s') -> reducedMatrix rows cols N ms m.
Proof.
move=> hm; apply: times_all => {}s r {}s'; apply: times_all => {}s p {}s'; apply: times_all => {}s c {}s'.
exact: drawLimbs_below.
Qed.
Lemma drawMatrix_mono ks rows cols N ms : mono (fun f => drawMatrix ks f rows cols N ms).
Proof. by apply: times_mono; apply: times_mono; apply: times_mono; apply: drawLimbs_mono. Qed.
Lemma drawMatrix_total ks rows cols N ms : lively ks -> moduli ms -> total ks (fun f => drawMatrix ks f rows cols N ms).
Proof.
move=> hl hm; have h1 := @drawLimbs_mono ks ms; have h2 := times_mono (n := N) h1; have h3 := times_mono (n := cols) h2.
by apply: times_total => //; apply: times_total => //; apply: times_total => //; apply: drawLimbs_total.
Qed.
Definition flatMatrix (m : keyMatrix) : seq Z := flatten (map (fun r => flatten (map (fun p => flatten (map id p)) r)) m).
Lemma drawMatrix_yields ks f rows cols N ms m : moduli ms -> reducedMatrix rows cols N ms m ->
  yields ks (drawMatrix ks f.+1 rows cols N ms) flatMatrix m.
Proof.
move=> hm [h1 h2]; apply: times_yields => // r /h2 [h3 h4]; apply: times_yields => // p /h4 [h5 h6].
by apply: times_yields => // c /h6; apply: drawLimbs_yields.
Qed.

Lemma In_cat (A : Type) (x : A) l l' : List.In x (l ++ l') -> List.In x l \/ List.In x l'.
Proof.
elim: l => [|y l IH] /= h; first by right.
by case: h => [->|h]; [left; left | case: (IH h) => h2; [left; right | right]].
Qed.
Lemma In_flat (A : Type) (x : Z) (f : A -> seq Z) (L : seq A) : List.In x (flatten (map f L)) -> exists y, List.In y L /\ List.In x (f y).
Proof.
elim: L => [//|y L IH] h; have [h1|h1] := In_cat h; first by exists y; split=> //; left.
by have [z [hz1 hz2]] := IH h1; exists z; split=> //; right.
Qed.

(** every coefficient is reduced *)
Theorem C60_below ks fuel q ck : moduli (kQ q) -> moduli (kQOut q) -> NewCommitKey ks fuel q = Some ck -> reducedKey q ck.
Proof.
move=> h1 h2; rewrite /NewCommitKey.
case E1 : drawMatrix => [[a s1]|//]; case E2 : drawMatrix => [[b s2]|//]; case E3 : drawMatrix => [[c s3]|//] [<-].
split; first exact: drawMatrix_reduced E1.
by split; [exact: drawMatrix_reduced E2 | exact: drawMatrix_reduced E3].
Qed.
(** two parties with the same CRS get the same key, however long they were willing to wait.
    [aesCtr] is the key stream made from a seed. *)
Theorem C60_function (aesCtr : seq Z -> nat -> Z) crs f g q a b :
  NewCommitKey (aesCtr crs) f q = Some a -> NewCommitKey (aesCtr crs) g q = Some b -> a = b.
Proof.
wlog h : f g a b / (f <= g)%N.
  by move=> H ea eb; case/orP: (leq_total f g) => h; [apply: (H f g) | symmetry; apply: (H g f)].
rewrite /NewCommitKey.
case E1 : drawMatrix => [[m1 s1]|//]; case E2 : drawMatrix => [[m2 s2]|//]; case E3 : drawMatrix => [[m3 s3]|//] [<-].
by rewrite (drawMatrix_mono h E1) (drawMatrix_mono h E2) (drawMatrix_mono h E3) => -[].
Qed.
(** the key exists unless the stream stops giving words below 2^63 *)
Theorem C60_total ks q : lively ks -> moduli (kQ q) -> moduli (kQOut q) -> exists fuel ck, NewCommitKey ks fuel q = Some ck.
Proof.
move=> hl h1 h2.
have [f1 [a [s1 [j1 [e1 t1]]]]] := @drawMatrix_total ks (kInRank q) (kRows q) (kN q) _ hl h1 _ _ (st_new ks).
have [f2 [b [s2 [j2 [e2 t2]]]]] := @drawMatrix_total ks (kInRank q) (kMLWERank q) (kN q) _ hl h1 _ _ t1.
have [f3 [c [s3 [j3 [e3 t3]]]]] := @drawMatrix_total ks (kOutRank q) (kDcmpLen q) (kN q) _ hl h2 _ _ t2.
exists (maxn f1 (maxn f2 f3)), (CommitKey a b c); rewrite /NewCommitKey.
rewrite (drawMatrix_mono _ e1) ?leq_maxl //.
rewrite (drawMatrix_mono _ e2); last by rewrite leq_max leq_maxl orbT.
by rewrite (drawMatrix_mono _ e3) // leq_max leq_maxr orbT.
Qed.
(** and every reduced key is the key of some stream of bytes *)
Theorem C60_attained q ck : moduli (kQ q) -> moduli (kQOut q) -> reducedKey q ck ->
  exists ks, (forall i, byte (ks i)) /\ NewCommitKey ks 1 q = Some ck.
Proof.
case: ck => a b c h1 h2 [ra [rb rc]]; rewrite [ckIn _]/= [ckMLWE _]/= [ckOut _]/= in ra rb rc.
pose l := flatMatrix a ++ flatMatrix b ++ flatMatrix c.
have inW m rows cols N ms : moduli ms -> reducedMatrix rows cols N ms m -> forall x, List.In x (flatMatrix m) -> (0 <= x < W)%Z.
  move=> hms [_ hr] x; rewrite /flatMatrix.
  move=> /In_flat [r [hr1 /In_flat [p [hp1 /In_flat [v [hv hx]]]]]].
  have [_ hp] := hr _ hr1; have [_ hc] := hp _ hp1; have [hv1 hv2] := hc _ hv.
  have [i hi ei] : exists2 i, (i < size v)%N & nth 0%Z v i = x.
    elim: (v) hx => [//|y v' IHv] /= [->|/IHv [i hi <-]]; [by exists 0%N | by exists i.+1].
  rewrite hv1 in hi; have := hv2 i hi; rewrite ei.
  have hin : List.In (nth 0%Z ms i) ms by elim: (ms) (i) hi => [//|y L IHL] [|k] hk /=; [left | right; apply: IHL].
  by have := hms _ hin; lia.
have [|ks [hb ek]] := proj1 C63_uniform l.
  move=> x hx; have [h|h] := In_cat hx; first exact: (inW _ _ _ _ _ h1 ra).
  by have [h'|h'] := In_cat h; [exact: (inW _ _ _ _ _ h1 rb) | exact: (inW _ _ _ _ _ h2 rc)].
exists ks; split=> //.
have hw i : (i < size l)%N -> wordAt ks i = nth 0%Z l i.
  move=> hi; move: ek; have [s' [-> _]] := samples_spec (size l) (st_new ks); rewrite /= => -[e].
  by rewrite -[in RHS]e (nth_map 0%N) ?size_iota // nth_iota.
have [i hi|s1 [e1 t1]] := drawMatrix_yields 0 h1 ra (st_new ks).
  by rewrite add0n hw /l ?nth_cat ?hi // !size_cat; lia.
have [i hi|s2 [e2 t2]] := drawMatrix_yields 0 h1 rb t1.
  rewrite add0n hw /l; last by rewrite !size_cat; lia.
  by rewrite !nth_cat ltnNge leq_addr /= addKn hi.
have [i hi|s3 [e3 t3]] := drawMatrix_yields 0 h2 rc t2.
  rewrite add0n hw /l; last by rewrite !size_cat; lia.
  by rewrite !nth_cat -addnA ltnNge leq_addr /= addKn ltnNge leq_addr /= addKn.
by rewrite /NewCommitKey e1 e2 e3.
Qed.

(** * Concrete cases *)

(** first word 2^64 - 1, rejected for n = 10; second word 0x0101010101010101 *)
Definition exKs (i : nat) : Z := if (i < 8)%N then 255%Z else 1%Z.
Lemma exKs_byte i : byte (exKs i). Proof. by rewrite /exKs /byte; case: ifP. Qed.
Lemma exKs_out i : (i < 8192)%N -> outByte exKs i = exKs i.
Proof. by move=> h; rewrite -streamByteE /streamByte divn_small // modn_small // /= mul0n add0n. Qed.
Example ex_C62 : exists s', SampleN exKs 2 10 NewUniformSamplerWithSeed = Some (3%Z, s').
Proof.
have [i hi||s' [e _]] := @C62_first exKs 10 2 0 1 NewUniformSamplerWithSeed exKs_byte erefl erefl erefl.
- by case: i hi => // _; rewrite /leSum !exKs_out.
- by rewrite /leSum !exKs_out.
by exists s'; rewrite e /leSum !exKs_out.
Qed.
Example ex_C63 : omap fst (samples exKs 3 NewUniformSamplerWithSeed) =
  Some [:: 18446744073709551615; 72340172838076673; 72340172838076673]%Z.
Proof. by rewrite C63_stream; [rewrite /= /leSum !streamByteE !exKs_out | exact: exKs_byte]. Qed.
Example ex_C64 s : prngPos s = 6 -> (Read exKs s [:: 0; 0; 0]%Z).1 = [:: 255; 255; 1]%Z /\ (Read exKs s [:: 255; 0; 7]%Z).1 = [:: 0; 255; 6]%Z.
Proof. by move=> e; rewrite /Read /XORKeyStream e. Qed.
(** two tables of tail 1; the words 4 (inside), 1 (first entry) and 9 (beyond the last entry) *)
Example ex_C65 : [seq TwinSample tw0 (-1) 5 0 1 u (fun _ _ => true) | u <- [:: 4; 1; 9; 2]%Z] = [:: 5; 3; 7; 5]%Z.
Proof. by vm_compute. Qed.
(** ring degree 2, moduli 5 and 7, and 11 for the outer ring, one row each *)
Definition exKP : keyParams := KeyParams 2 1 1 1 1 1 [:: 5; 7]%Z [:: 11]%Z.
Definition exCK : commitKey := CommitKey [:: [:: [:: [:: 4; 6]; [:: 0; 1]]]]%Z [:: [:: [:: [:: 2; 2]; [:: 3; 5]]]]%Z [:: [:: [:: [:: 10]; [:: 7]]]]%Z.
Example ex_C60 : exists ks, (forall i, byte (ks i)) /\ NewCommitKey ks 1 exKP = Some exCK.
Proof.
have M m (l : seq Z) : List.In m l -> all (fun m => (0 <? m) && (m <? W))%Z l -> (0 < m < W)%Z.
  elim: l => [//|a l IH] /= [->|h] /andP[/andP[/Z.ltb_lt h1 /Z.ltb_lt h2] h3] //; exact: IH.
apply: C60_attained; [by move=> m h; apply: M h _ | by move=> m h; apply: M h _ |].
have B ms c : size c == size ms -> all2 (fun v m => (0 <=? v) && (v <? m))%Z c ms -> below ms c.
  move=> /eqP hs ha; split=> //; elim: ms c hs ha => [//|m ms IH] [//|v c] /= [hs] /andP[/andP[/Z.leb_le h1 /Z.ltb_lt h2] h3].
  by case=> [|l] //= hl; apply: IH.
have R N ms p : all (fun c => (size c == size ms) && all2 (fun v m => (0 <=? v) && (v <? m))%Z c ms) p -> size p == N ->
    reducedMatrix 1 1 N ms [:: [:: p]].
  move=> ha /eqP hs; split=> // r /= [<-|//]; split=> // p' /= [<-|//]; split=> // c.
  elim: (p) ha => [//|d l IH] /= /andP[/andP[h1 h2] h3] [<-|]; [exact: B | exact: IH].
by split; [apply: R | split; apply: R].
Qed.

Print Assumptions C62_range.
Print Assumptions C62_first.
Print Assumptions C62_unbiased.
Print Assumptions C63_stream.
Print Assumptions C63_uniform.
Print Assumptions C64_position.
Print Assumptions C64_refuted.
Print Assumptions C65_range.
Print Assumptions C65_index.
Print Assumptions C65_outside_tail_refuted.
Print Assumptions C66_value.
Print Assumptions C79_fraction_one_refuted.
Print Assumptions C79_last_block_refuted.
Print Assumptions C80_first_candidate_refuted.
Print Assumptions C80_refuted.
Print Assumptions C60_below.
Print Assumptions C60_function.
Print Assumptions C60_total.
Print Assumptions C60_attained.
