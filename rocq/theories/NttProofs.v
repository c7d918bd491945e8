(** Lemmas about the in-place transforms of ntt.go 246-466. *)
From mathcomp Require Import all_ssreflect all_algebra zify.
From Verif Require Import Spec UintModel BigpolyModel BitrevProofs RingTac.
Set Implicit Arguments. Unset Strict Implicit. Unset Printing Implicit Defensive.
Import GRing.Theory.
Local Open Scope ring_scope.

Lemma range_step_mul lo q step : (0 < step)%N ->
  range_step lo (lo + q * step) step = [seq (lo + step * i)%N | i <- iota 0 q].
Proof.
move=> h; rewrite /range_step; congr (map _ (iota _ _)).
rewrite addKn divnMDl // divn_small ?addn0 //; lia.
Qed.

Lemma map_iota_add (T : Type) (f : nat -> T) a n :
  [seq f (a + k)%N | k <- iota 0 n] = [seq f k | k <- iota a n].
Proof. by rewrite -{2}[a]addn0 iotaDl -map_comp. Qed.

Lemma flatten_blocks (T : Type) (f : nat -> T) lo q b :
  flatten [seq [seq f k | k <- iota (lo + b * i)%N b] | i <- iota 0 q]
  = [seq f k | k <- iota lo (b * q)].
Proof.
elim: q => [|q IH]; first by rewrite muln0.
by rewrite -[q.+1]addn1 iotaD map_cat flatten_cat IH add0n /= cats0 -map_cat -iotaD mulnDr muln1.
Qed.

Lemma iotaSr a n : iota a n.+1 = rcons (iota a n) (a + n)%N.
Proof. by rewrite -addn1 iotaD cats1. Qed.

Section Ops.
Variable F : fieldType.
Add Ring FRing : (rt [comRingType of F]).
Ltac fring := norm_ring [comRingType of F]; ring.
Implicit Types (p tw : seq F).
Local Notation bfty := (seq F -> nat -> nat -> F -> seq F).
Local Notation op := (nat * nat * F)%type.

Definition run (bf : bfty) p (ops : seq op) :=
  foldl (fun p (o : op) => bf p o.1.1 o.1.2 o.2) p ops.

Lemma run_flatten (bf : bfty) (I : Type) (f : I -> seq op) p s :
  foldl (fun p i => run bf p (f i)) p s = run bf p (flatten [seq f i | i <- s]).
Proof.
elim: s p => //= i s IH p; by rewrite IH /run foldl_cat.
Qed.

Lemma run_map (bf : bfty) (I : Type) (f g : I -> nat) (w : I -> F) p s :
  foldl (fun p i => bf p (f i) (g i) (w i)) p s
  = run bf p [seq (f i, g i, w i) | i <- s].
Proof. by elim: s p => //= i s IH p. Qed.

Definition stage_ops tw (m t : nat) : seq op :=
  flatten [seq [seq (j, (j + t)%N, tw`_(m + i)) | j <- iota (i * t).*2 t] | i <- iota 0 m].

Lemma ref_stage_ops (bf : bfty) tw m t p :
  ref_stage bf tw m t p = run bf p (stage_ops tw m t).
Proof.
rewrite /ref_stage /stage_ops -run_flatten.
elim: (iota 0 m) p => //= i s IH p.
by rewrite IH -(run_map bf id (fun j => (j + t)%N) (fun=> tw`_(m + i))).
Qed.

Lemma block8_ops (bf : bfty) j t w p :
  block8 bf j t w p = run bf p [seq (k, (k + t)%N, w) | k <- iota j 8].
Proof.
rewrite /block8 (run_map bf (fun k => j + k)%N (fun k => j + t + k)%N (fun=> w)).
rewrite -(map_iota_add (fun k => (k, (k + t)%N, w))).
by congr run; apply: eq_map => k; rewrite addnAC.
Qed.

Lemma blocks8_ops (bf : bfty) lo d t w p : (8 %| d)%N ->
  foldl (fun p j => block8 bf j t w p) p (range_step lo (lo + d) 8)
  = run bf p [seq (k, (k + t)%N, w) | k <- iota lo d].
Proof.
move=> /dvdnP[q ->].
rewrite mulnC -(flatten_blocks (fun k => (k, (k + t)%N, w))) mulnC range_step_mul //.
rewrite -run_flatten.
elim: (iota 0 q) p => //= i s IH p.
by rewrite IH block8_ops.
Qed.

Lemma unroll_firstE (bf : bfty) tw N t p : (N./2 = t)%N -> (8 %| t)%N ->
  unroll_first bf tw N t p = ref_stage bf tw 1 t p.
Proof.
move=> h h8; rewrite ref_stage_ops /unroll_first h -{1}[t]add0n blocks8_ops //.
by rewrite /stage_ops /= cats0 mul0n.
Qed.

Lemma unroll_stageE (bf : bfty) tw m t p : (8 %| t)%N ->
  unroll_stage bf tw m t p = ref_stage bf tw m t p.
Proof.
move=> h8; rewrite ref_stage_ops /unroll_stage /stage_ops -run_flatten.
elim: (iota 0 m) p => //= i s IH p.
by rewrite IH blocks8_ops.
Qed.

Lemma bf_congr (bf : bfty) p q j j' k k' w w' :
  p = q -> j = j' -> k = k' -> w = w' -> bf p j k w = bf q j' k' w'.
Proof. by move=> -> -> -> ->. Qed.

Lemma tw_congr tw i j : i = j -> tw`_i = tw`_j.
Proof. by move=> ->. Qed.

Ltac opeq := rewrite /run /=;
  repeat (apply: bf_congr; [ | by lia | by lia | by apply: tw_congr; lia ]); try by [].

Lemma unroll_t4E (bf : bfty) tw N p :
  unroll_t4 bf tw N p = ref_stage bf tw (N %/ 8) 4 p.
Proof.
rewrite ref_stage_ops /unroll_t4 /stage_ops -run_flatten.
elim: (iota 0 _) p => //= i s IH p.
rewrite IH; congr foldl; opeq.
Qed.

Lemma iota_groups (T : Type) (f : nat -> seq T) b q :
  flatten [seq f i | i <- iota 0 (b * q)]
  = flatten [seq flatten [seq f k | k <- iota (b * i) b] | i <- iota 0 q].
Proof.
elim: q => [|q IH]; first by rewrite muln0.
rewrite mulnS addnC iotaD map_cat flatten_cat IH -[q.+1]addn1 iotaD map_cat flatten_cat.
by rewrite !add0n /= cats0.
Qed.

Lemma foldl_map' (A B C : Type) (f : A -> C -> A) (g : B -> C) a s :
  foldl f a (map g s) = foldl (fun x y => f x (g y)) a s.
Proof. by elim: s a => //= x s IH a. Qed.

Lemma unroll_t2E (bf : bfty) tw N p : (8 %| N)%N ->
  unroll_t2 bf tw N p = ref_stage bf tw (N %/ 4) 2 p.
Proof.
move=> /dvdnP[q hq]; rewrite ref_stage_ops /unroll_t2 /stage_ops.
have e : (N %/ 4 = q * 2)%N by lia.
have -> : range_step 0 (N %/ 4) 2 = [seq (0 + 2 * i)%N | i <- iota 0 q].
  by rewrite -range_step_mul // add0n e.
have -> : iota 0 (N %/ 4) = iota 0 (2 * q) by rewrite e mulnC.
rewrite foldl_map' iota_groups -run_flatten.
elim: (iota 0 _) p => //= i s IH p.
rewrite IH; congr foldl; opeq.
Qed.

Lemma unroll_t1E (bf : bfty) tw N p : (8 %| N)%N ->
  unroll_t1 bf tw N p = ref_stage bf tw (N %/ 2) 1 p.
Proof.
move=> /dvdnP[q hq]; rewrite ref_stage_ops /unroll_t1 /stage_ops.
have e : (N %/ 2 = q * 4)%N by lia.
have -> : range_step 0 (N %/ 2) 4 = [seq (0 + 4 * i)%N | i <- iota 0 q].
  by rewrite -range_step_mul // add0n e.
have -> : iota 0 (N %/ 2) = iota 0 (4 * q) by rewrite e mulnC.
rewrite foldl_map' iota_groups -run_flatten.
elim: (iota 0 _) p => //= i s IH p.
rewrite IH; congr foldl; opeq.
Qed.

(** ** The stages as a list *)

(** Stage [s] of a transform of size [2^n] has [2^s] blocks of [2 * 2^(n-1-s)]. *)
Definition stg (bf : bfty) tw n p s := ref_stage bf tw (2 ^ s) (2 ^ (n.-1 - s)) p.

Lemma half_pow k : ((2 ^ k.+1)./2 = 2 ^ k)%N.
Proof. by rewrite expnS; lia. Qed.

Lemma ntt_ref_loopE fuel n tw s p : (s <= n)%N -> (n - s < fuel)%N ->
  ntt_ref_loop fuel (2 ^ n) tw (2 ^ s) (2 ^ (n - s)) p
  = foldl (stg (@butterfly F) tw n) p (iota s (n - s)).
Proof.
elim: fuel s p => [|fuel IH] s p hs hf //=.
case: n hs hf IH => [|n] hs hf IH.
  by have -> : s = 0%N by lia.
rewrite half_pow leq_exp2l //.
case: leqP => h.
  have e : (n.+1 - s = (n - s).+1)%N by lia.
  rewrite e half_pow /= -mul2n -expnS.
  have e2 : (n - s = n.+1 - s.+1)%N by lia.
  by rewrite e2 IH; [ rewrite -e2 | lia | lia].
by have -> : (n.+1 - s = 0)%N by lia.
Qed.

Lemma nttRefE n tw p : size p = (2 ^ n)%N ->
  nttInPlaceRef p tw = foldl (stg (@butterfly F) tw n) p (iota 0 n).
Proof.
move=> sp; rewrite /nttInPlaceRef sp.
have := @ntt_ref_loopE (2 ^ n) n tw 0 p isT.
by rewrite subn0 expn0; apply; rewrite ltn_expl.
Qed.

Lemma intt_ref_loopE fuel n tw s p : (s <= n)%N -> (s <= fuel)%N ->
  intt_ref_loop fuel tw (2 ^ s)./2 (2 ^ (n - s)) p
  = foldl (stg (@invButterfly F) tw n) p (rev (iota 0 s)).
Proof.
elim: fuel s p => [|fuel IH] s p hs hf /=.
  by have -> : s = 0%N by lia.
case: s hs hf => [|s] hs hf //.
rewrite half_pow expn_gt0 iotaSr rev_rcons add0n -mul2n -expnS.
have -> : ((n - s.+1).+1 = n - s)%N by lia.
rewrite IH //; [|lia].
by rewrite /= /stg; have -> : (n.-1 - s = n - s.+1)%N by lia.
Qed.

Lemma inttRefE n tw p : size p = (2 ^ n)%N ->
  inttInPlaceRef p tw = foldl (stg (@invButterfly F) tw n) p (rev (iota 0 n)).
Proof.
move=> sp; rewrite /inttInPlaceRef sp.
have := @intt_ref_loopE (2 ^ n) n tw n p (leqnn _).
by rewrite subnn expn0; apply; rewrite ltnW // ltn_expl.
Qed.

(** ** Unrolled = reference *)

Lemma dvd8 k : (3 <= k)%N -> (8 %| 2 ^ k)%N.
Proof. by move=> h; rewrite -[8%N]/(2 ^ 3)%N dvdn_Pexp2l. Qed.

Lemma pow_div k j : (j <= k)%N -> (2 ^ k %/ 2 ^ j = 2 ^ (k - j))%N.
Proof. by move=> h; rewrite expnB. Qed.

Lemma unroll_loopE fuel n tw s p : (0 < s <= n - 3)%N -> (4 <= n)%N -> (n - s < fuel)%N ->
  unroll_loop fuel (2 ^ n) tw (2 ^ s) (2 ^ (n - s)) p
  = foldl (stg (@butterfly F) tw n) p (iota s (n - 3 - s)).
Proof.
elim: fuel s p => [|fuel IH] s p hs hn hf; first by lia.
rewrite /= -[16%N]/(2 ^ 4)%N pow_div // leq_exp2l //.
case: leqP => h.
  have e : (n - s = (n - s.+1).+1)%N by lia.
  have e2 : (n - 3 - s = (n - 3 - s.+1).+1)%N by lia.
  rewrite e half_pow e2 /= -mul2n -expnS IH; [|lia|lia|lia].
  rewrite unroll_stageE; last by apply: dvd8; lia.
  by rewrite /stg; have -> : (n.-1 - s = n - s.+1)%N by lia.
by have -> : (n - 3 - s = 0)%N by lia.
Qed.

Lemma nttUnrollE n tw p : size p = (2 ^ n)%N -> (4 <= n)%N ->
  nttInPlaceUnroll p tw = foldl (stg (@butterfly F) tw n) p (iota 0 n).
Proof.
move=> sp hn; rewrite /nttInPlaceUnroll sp.
have hd : (8 %| 2 ^ n)%N by apply: dvd8; lia.
rewrite unroll_t1E // unroll_t2E // unroll_t4E.
have -> : (2 ^ n %/ 2 = 2 ^ n.-1)%N by rewrite (@pow_div n 1) ?subn1 //; lia.
have -> : (2 ^ n %/ 4 = 2 ^ (n - 2))%N by rewrite (@pow_div n 2) //; lia.
have -> : (2 ^ n %/ 8 = 2 ^ (n - 3))%N by rewrite (@pow_div n 3) //; lia.
have h2 : ((2 ^ n)./2 = 2 ^ n.-1)%N by case: n hn {sp hd} => // n _; rewrite half_pow.
rewrite unroll_firstE //; last by apply: dvd8; lia.
have := @unroll_loopE (2 ^ n) n tw 1 (ref_stage (@butterfly F) tw 1 (2 ^ n.-1) p).
rewrite expn1 subn1 => ->; [|lia|by []|by apply: (leq_ltn_trans (leq_pred n)); rewrite ltn_expl].
have -> : iota 0 n = 0%N :: iota 1 (n - 3 - 1) ++ [:: n - 3; n - 2; n.-1]%N.
  have -> : [:: n - 3; n - 2; n.-1]%N = iota (1 + (n - 3 - 1)) 3.
    by rewrite /=; congr [:: _; _; _]; lia.
  by rewrite -iotaD -[RHS]/(iota 0 (n - 3 - 1 + 3).+1); congr iota; lia.
rewrite /= foldl_cat /= /stg expn0 subn0.
have -> : (n.-1 - (n - 3) = 2)%N by lia.
have -> : (n.-1 - (n - 2) = 1)%N by lia.
by rewrite subnn.
Qed.

Lemma inv_unroll_loopE fuel n tw s p : (s <= n - 4)%N -> (4 <= n)%N -> (s < fuel)%N ->
  inv_unroll_loop fuel tw (2 ^ s) (2 ^ (n - s.+1)) p
  = (foldl (stg (@invButterfly F) tw n) p (rev (iota 1 s)), 2 ^ n.-1)%N.
Proof.
elim: fuel s p => [|fuel IH] s p hs hn hf; first by lia.
case: s hs hf => [|s] hs hf; first by rewrite /= subn1.
rewrite [inv_unroll_loop _ _ _ _ _]/= -{1}(expn1 2) leq_exp2l // half_pow -mul2n -expnS.
have e : ((n - s.+2).+1 = n - s.+1)%N by lia.
rewrite e IH; [|lia|lia|lia].
rewrite unroll_stageE; last by apply: dvd8; lia.
rewrite iotaSr rev_rcons /= add1n /stg.
by have -> : (n.-1 - s.+1 = n - s.+2)%N by lia.
Qed.

Lemma inttUnrollE n tw p : size p = (2 ^ n)%N -> (4 <= n)%N ->
  inttInPlaceUnroll p tw = foldl (stg (@invButterfly F) tw n) p (rev (iota 0 n)).
Proof.
move=> sp hn; rewrite /inttInPlaceUnroll sp.
have hd : (8 %| 2 ^ n)%N by apply: dvd8; lia.
rewrite unroll_t1E // unroll_t2E // unroll_t4E.
have -> : (2 ^ n %/ 2 = 2 ^ n.-1)%N by rewrite (@pow_div n 1) ?subn1 //; lia.
have -> : (2 ^ n %/ 4 = 2 ^ (n - 2))%N by rewrite (@pow_div n 2) //; lia.
have -> : (2 ^ n %/ 8 = 2 ^ (n - 3))%N by rewrite (@pow_div n 3) //; lia.
have -> : (2 ^ n %/ 16 = 2 ^ (n - 4))%N by rewrite (@pow_div n 4) //; lia.
set q := ref_stage _ _ _ _ _.
have := @inv_unroll_loopE (2 ^ n) n tw (n - 4) q (leqnn _) hn.
have -> : (n - (n - 4).+1 = 3)%N by lia.
rewrite -[(2 ^ 3)%N]/8%N => ->; last by apply: (leq_ltn_trans (leq_subr 4 n)); rewrite ltn_expl.
have h2 : ((2 ^ n)./2 = 2 ^ n.-1)%N by case: n hn {sp hd q} => // n _; rewrite half_pow.
rewrite unroll_firstE //; last by apply: dvd8; lia.
have -> : iota 0 n = 0%N :: iota 1 (n - 4) ++ [:: n - 3; n - 2; n.-1]%N.
  have -> : [:: n - 3; n - 2; n.-1]%N = iota (1 + (n - 4)) 3.
    by rewrite /=; congr [:: _; _; _]; lia.
  by rewrite -iotaD -[RHS]/(iota 0 (n - 4 + 3).+1); congr iota; lia.
rewrite rev_cons rev_cat foldl_rcons foldl_cat /= /stg expn0 subn0.
have -> : (n.-1 - (n - 3) = 2)%N by lia.
have -> : (n.-1 - (n - 2) = 1)%N by lia.
by rewrite subnn.
Qed.

Lemma nttInPlaceE n tw p : size p = (2 ^ n)%N ->
  nttInPlace p tw = foldl (stg (@butterfly F) tw n) p (iota 0 n).
Proof.
move=> sp; rewrite /nttInPlace; case: ifP => h; first exact: nttRefE.
apply: nttUnrollE => //; move: h; rewrite sp -[32%N]/(2 ^ 5)%N ltn_exp2l //; lia.
Qed.

Lemma inttInPlaceE n tw p : size p = (2 ^ n)%N ->
  inttInPlace p tw = foldl (stg (@invButterfly F) tw n) p (rev (iota 0 n)).
Proof.
move=> sp; rewrite /inttInPlace; case: ifP => h; first exact: inttRefE.
apply: inttUnrollE => //; move: h; rewrite sp -[32%N]/(2 ^ 5)%N ltn_exp2l //; lia.
Qed.
End Ops.
