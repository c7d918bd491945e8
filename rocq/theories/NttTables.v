(** The tables built by the transformer constructors (ntt.go 26-95, 153-203). *)
From Coq Require Import ZArith Lia Zpow_facts.
From mathcomp Require Import all_ssreflect all_algebra zify.
From Verif Require Import Spec UintModel BigpolyModel BitrevProofs RingTac NttProofs NttCore UintProofs.
Set Implicit Arguments. Unset Strict Implicit. Unset Printing Implicit Defensive.
Import GRing.Theory.
Local Open Scope ring_scope.
Delimit Scope Z_scope with Z.

Lemma of_nat_pow2 k : Z.of_nat (2 ^ k)%N = (2 ^ Z.of_nat k)%Z.
Proof.
elim: k => [|k IH] //.
by rewrite Nat2Z.inj_succ Z.pow_succ_r -?IH ?expnS; lia.
Qed.

Lemma isPowerOfTwoP n : reflect (exists k, n = 2 ^ k)%N (isPowerOfTwo n).
Proof.
apply: (iffP andP) => [[h0 /Z.eqb_eq h]|[k ->]]; last first.
  split; first by rewrite expn_gt0.
  apply/Z.eqb_eq; rewrite of_nat_pow2 Z.sub_1_r -Z.ones_equiv Z.land_ones; last lia.
  by rewrite Z.mod_same //; have := Z.pow_pos_nonneg 2 (Z.of_nat k); lia.
pose m := Z.of_nat n; pose k := Z.log2 m.
have hm : (0 < m)%Z by rewrite /m; lia.
have [hk1 hk2] := Z.log2_spec m hm.
exists (Z.to_nat k); apply: Nat2Z.inj; rewrite of_nat_pow2 Z2Nat.id; last exact: Z.log2_nonneg.
case: (Z.eq_dec m (2 ^ k)) => // ne; exfalso.
have : Z.testbit (Z.land m (m - 1)) k = true.
  rewrite Z.land_spec /k Z.bit_log2 //.
  have e : Z.log2 (m - 1) = Z.log2 m.
    apply: Z.log2_unique; first exact: Z.log2_nonneg.
    move: ne; rewrite /k; lia.
  rewrite -e Z.bit_log2 //.
  have : (0 < 2 ^ Z.log2 m)%Z by apply: Z.pow_pos_nonneg; [lia|exact: Z.log2_nonneg].
  move: ne; rewrite /k; lia.
by rewrite /m h Z.bits_0.
Qed.

Section Tables.
Variable F : fieldType.
Implicit Types (g : F) (tw : seq F).

Lemma fill_powers g n k : (k <= n)%N ->
  let v := foldl (fun tw i => set_nth 0 tw i (tw`_(i - 1) * g))
    (set_nth 0 (nseq n.+1 0) 0 1) (iota 1 k) in
  size v = n.+1 /\ forall i, (i <= k)%N -> v`_i = g ^+ i.
Proof.
elim: k => [|k IH] hk; first by split=> [|[|i]] //=; rewrite size_nseq.
rewrite iotaSr foldl_rcons add1n; have [] := IH (ltnW hk).
set v := foldl _ _ _ => sv nv; split; first by rewrite size_set_nth sv; lia.
move=> i hi; rewrite nth_set_nth /=; case: eqP => [->|ne]; last by apply: nv; lia.
by rewrite nv ?subn1 //= exprSr.
Qed.

Lemma powers_tableP g n : (0 < n)%N ->
  size (powers_table g n) = n /\ forall i, (i < n)%N -> (powers_table g n)`_i = g ^+ i.
Proof.
case: n => // n _; have [h1 h2] := fill_powers g (leqnn n).
by split=> // i hi; apply: h2.
Qed.

Lemma fill_row m (ref tw : seq F) k :
  (m + k <= size tw)%N ->
  let v := foldl (fun tw i => set_nth 0 tw (m + i)%N ref`_i) tw (iota 0 k) in
  size v = size tw /\
  forall x, v`_x = if (m <= x < m + k)%N then ref`_(x - m) else tw`_x.
Proof.
elim: k => [|k IH] h; first by split=> // x; rewrite addn0; case: ifP => //; lia.
rewrite iotaSr foldl_rcons add0n; have [] := IH; first lia.
set v := foldl _ _ _ => sv nv; split; first by rewrite size_set_nth sv; lia.
move=> x; rewrite nth_set_nth /= nv; case: eqP => [->|ne].
  by rewrite addKn; have -> : (m <= m + k < m + k.+1)%N by lia.
by have -> : (m <= x < m + k.+1)%N = (m <= x < m + k)%N by lia.
Qed.

Lemma spread_upP fuel n s ref tw : (s <= n)%N -> (n - s < fuel)%N -> size tw = (2 ^ n)%N ->
  let v := spread_up fuel (2 ^ n) (2 ^ s) ref tw in
  size v = (2 ^ n)%N /\
  forall r i, (r < n)%N -> (i < 2 ^ r)%N -> (s <= r)%N -> v`_(2 ^ r + i) = ref`_i.
Proof.
move=> + + +; suff H : forall tw s, (s <= n)%N -> (n - s < fuel)%N -> size tw = (2 ^ n)%N ->
  let v := spread_up fuel (2 ^ n) (2 ^ s) ref tw in
  size v = (2 ^ n)%N /\
  (forall r i, (r < n)%N -> (i < 2 ^ r)%N -> v`_(2 ^ r + i) = if (s <= r)%N then ref`_i else tw`_(2 ^ r + i)).
  move=> h1 h2 h3; have [a b] := H tw s h1 h2 h3; split=> // r i hr hi hs.
  by rewrite b // hs.
elim: fuel {s tw} => [|fuel IH] tw s hs hf st; first by [].
case: n hs hf st IH => [|n] hs hf st IH.
  by have -> : s = 0%N by lia.
rewrite [spread_up _ _ _ _ _]/= half_pow leq_exp2l //.
case: leqP => h; last first.
  by split=> // r i hr hi; case: ifP => //; lia.
have hle : (2 ^ s + 2 ^ s <= size tw)%N.
  by rewrite addnn -mul2n -expnS st leq_exp2l.
have [sz nth2] := fill_row ref hle.
rewrite -mul2n -expnS.
have [] := IH (foldl (fun tw i => set_nth 0 tw (2 ^ s + i)%N ref`_i) tw (iota 0 (2 ^ s))) s.+1; [lia|lia|by rewrite sz|].
move=> a b; split=> // r i hr hi; rewrite b // nth2.
case: (ltngtP s r) => c //.
  have : (2 ^ r.+1 <= 2 ^ s)%N by rewrite leq_exp2l.
  rewrite expnS => d.
  by have -> : (2 ^ s <= 2 ^ r + i < 2 ^ s + 2 ^ s)%N = false by lia.
rewrite -c in hi *.
have h9 : (2 ^ s <= 2 ^ s + i < 2 ^ s + 2 ^ s)%N by lia.
by rewrite h9 addKn.
Qed.

Lemma spread_downP fuel n ref tw s : (s <= n)%N -> (s <= fuel)%N -> size tw = (2 ^ n)%N ->
  let v := spread_down fuel (2 ^ s)./2 ref tw in
  size v = (2 ^ n)%N /\
  forall r i, (r < n)%N -> (i < 2 ^ r)%N ->
    v`_(2 ^ r + i) = if (r < s)%N then ref`_i else tw`_(2 ^ r + i).
Proof.
elim: fuel s tw => [|fuel IH] s tw hs hf st.
  by have -> : s = 0%N by lia.
case: s hs hf => [|s] hs hf; first by split.
rewrite half_pow [spread_down _ _ _ _]/= expn_gt0 /=.
have hle : (2 ^ s + 2 ^ s <= size tw)%N.
  by rewrite addnn -mul2n -expnS st leq_exp2l.
have [sz nth2] := fill_row ref hle.
have [] := IH s (foldl (fun tw i => set_nth 0 tw (2 ^ s + i)%N ref`_i) tw (iota 0 (2 ^ s))); [lia|lia|by rewrite sz|].
move=> a b; split=> // r i hr hi; rewrite b // nth2 ltnS.
case: (ltngtP r s) => c //.
  have : (2 ^ s.+1 <= 2 ^ r)%N by rewrite leq_exp2l.
  rewrite expnS => d.
  by have -> : (2 ^ s <= 2 ^ r + i < 2 ^ s + 2 ^ s)%N = false by lia.
rewrite c in hi *.
have h9 : (2 ^ s <= 2 ^ s + i < 2 ^ s + 2 ^ s)%N by lia.
by rewrite h9 addKn.
Qed.
End Tables.

(** Splitting a table index as 2^s + i. *)
Lemma index_split n x : (0 < x < 2 ^ n)%N ->
  exists s i, [/\ (s < n)%N, (i < 2 ^ s)%N & x = (2 ^ s + i)%N].
Proof.
case/andP=> h0 hx.
have h1 := trunc_logP (isT : 1 < 2)%N h0.
have h2 := trunc_log_ltn x (isT : 1 < 2)%N.
exists (trunc_log 2 x), (x - 2 ^ trunc_log 2 x)%N; split; last by lia.
  by rewrite -(ltn_exp2l _ _ (isT : 1 < 2)%N); apply: leq_ltn_trans hx.
by move: h2; rewrite expnS; lia.
Qed.

Lemma brv_scale n s x : (s <= n)%N -> (x < 2 ^ s)%N -> brv n x = (brv s x * 2 ^ (n - s))%N.
Proof.
elim: n s x => [|n IH] s x hs hx; first by rewrite !brv0; case: s hs hx => //; rewrite brv0.
case: s hs hx => [|s] hs hx.
  have -> : x = 0%N by lia.
  by rewrite !brv_zero.
rewrite !brvS subSS mulnDl -mulnA -expnD subnKC // (IH s) //.
by move: hx; rewrite expnS; lia.
Qed.

Lemma brv_top s i : (i < 2 ^ s)%N -> brv s.+1 (2 ^ s + i) = (brv s i).*2.+1.
Proof.
move=> hi; rewrite brvSr modnDl modn_small // divnDl ?dvdnn // divnn expn_gt0 /= divn_small //.
lia.
Qed.

Lemma brv_even s i : brv s.+1 i.*2 = brv s i.
Proof. by rewrite brvS odd_double doubleK. Qed.

Lemma brv_odd s i : brv s.+1 i.*2.+1 = (2 ^ s + brv s i)%N.
Proof. by rewrite brvS /= odd_double /= uphalf_double mul1n. Qed.

Section Conv.
Variables (F : fieldType) (n : nat) (g : F).

Section Cyclotomic.
Hypothesis gN : g ^+ (2 ^ n) = -1.
Variable tw : seq F.
Hypothesis twE : forall x, (x < 2 ^ n)%N -> tw`_x = g ^+ brv n x.

Definition c_cyclo s i := g ^+ ((brv s i).*2.+1 * 2 ^ (n - s)).

Lemma tw_cyclo s i : (s < n)%N -> (i < 2 ^ s)%N ->
  tw`_(2 ^ s + i) = g ^+ ((brv s i).*2.+1 * 2 ^ (n - s.+1)).
Proof.
move=> hs hi.
have h : (2 ^ s + i < 2 ^ s.+1)%N by rewrite expnS; lia.
have h2 : (2 ^ s.+1 <= 2 ^ n)%N by rewrite leq_exp2l.
rewrite twE; last by apply: leq_trans h h2.
by rewrite (brv_scale (s := s.+1)) // brv_top.
Qed.

Lemma cyclo_evals P i : size P = (2 ^ n)%N -> (i < 2 ^ n)%N ->
  (nttInPlace P tw)`_i = peval P (g ^+ (brv n i).*2.+1).
Proof.
move=> sP hi.
rewrite (@ntt_evals _ n tw c_cyclo) // /c_cyclo ?subnn ?expn0 ?muln1 //.
- move=> s j hs hj; rewrite tw_cyclo // -exprM -mulnA -expnSr; congr (g ^+ (_ * 2 ^ _)); lia.
- by move=> s j hs hj; rewrite tw_cyclo // brv_even.
- move=> s j hs hj; rewrite tw_cyclo // brv_odd.
  have -> : ((2 ^ s + brv s j).*2.+1 = 2 ^ s.+1 + (brv s j).*2.+1)%N by rewrite expnS; lia.
  by rewrite mulnDl -expnD subnKC // exprD gN mulN1r.
Qed.
End Cyclotomic.

Section Cyclic.
Hypothesis hn : (0 < n)%N.
Hypothesis gN : g ^+ (2 ^ n.-1) = -1.
Variable tw : seq F.
Hypothesis twE : forall s i, (s < n)%N -> (i < 2 ^ s)%N -> tw`_(2 ^ s + i) = g ^+ brv n.-1 i.

Definition c_cyc s i := g ^+ (brv s i * 2 ^ (n - s)).

Lemma tw_cyc s i : (s < n)%N -> (i < 2 ^ s)%N ->
  tw`_(2 ^ s + i) = g ^+ (brv s i * 2 ^ (n - s.+1)).
Proof.
move=> hs hi; rewrite twE // (brv_scale (s := s)) //; last lia.
by congr (g ^+ (_ * 2 ^ _)); lia.
Qed.

Lemma cyc_evals P i : size P = (2 ^ n)%N -> (i < 2 ^ n)%N ->
  (nttInPlace P tw)`_i = peval P (g ^+ brv n i).
Proof.
move=> sP hi.
rewrite (@ntt_evals _ n tw c_cyc) // /c_cyc ?subnn ?expn0 ?muln1 //.
- move=> s j hs hj; rewrite tw_cyc // -exprM -mulnA -expnSr; congr (g ^+ (_ * 2 ^ _)); lia.
- by move=> s j hs hj; rewrite tw_cyc // brv_even.
- move=> s j hs hj; rewrite tw_cyc // brv_odd.
  rewrite mulnDl -expnD.
  have -> : (s + (n - s.+1) = n.-1)%N by lia.
  by rewrite exprD gN mulN1r.
Qed.
End Cyclic.
End Conv.

Section Constructors.
Variables (F : fieldType) (U : uint F).
Local Notation p := (modulus U).

(** What the rest of the development needs to know about a transformer. *)
Record good_cyclotomic (T : transformer F) n (g : F) : Prop := GoodCyclotomic {
  gc_rank : trank T = (2 ^ n)%N;
  gc_root : g ^+ (2 ^ n) = -1;
  gc_tw : forall x, (x < 2 ^ n)%N -> (ttw T)`_x = g ^+ brv n x;
  gc_twInv : forall x, (x < 2 ^ n)%N -> (ttwInv T)`_x = g^-1 ^+ brv n x;
  gc_rankInv : trankInv T = (2 ^ n)%:R^-1;
  gc_rank_nz : (2 ^ n)%:R != 0 :> F
}.

Record good_cyclic (T : transformer F) n (g : F) : Prop := GoodCyclic {
  gy_rank : trank T = (2 ^ n)%N;
  gy_pos : (0 < n)%N;
  gy_root : g ^+ (2 ^ n.-1) = -1;
  gy_tw : forall s i, (s < n)%N -> (i < 2 ^ s)%N -> (ttw T)`_(2 ^ s + i) = g ^+ brv n.-1 i;
  gy_twInv : forall s i, (s < n)%N -> (i < 2 ^ s)%N -> (ttwInv T)`_(2 ^ s + i) = g^-1 ^+ brv n.-1 i;
  gy_rankInv : trankInv T = (2 ^ n)%:R^-1;
  gy_rank_nz : (2 ^ n)%:R != 0 :> F
}.

(** The constructor accepts exactly these ranks. *)
Definition ntt_rank rank := exists2 n, rank = (2 ^ n)%N & (Z.of_nat (2 * rank) | p - 1)%Z.

Lemma two_nz : (2 | p - 1)%Z -> 2%:R != 0 :> F.
Proof.
move=> [k hk]; have hp := modulus_gt1 U; apply/eqP => e.
have : setBigInt U 2 = setBigInt U 0 by rewrite -[2%Z]/(Z.of_nat 2) sb_nat e sb0.
by move/sb_inj_mod; rewrite Z.mod_0_l ?Z.mod_small; lia.
Qed.

Lemma rank_nz n : (Z.of_nat (2 * 2 ^ n) | p - 1)%Z -> (2 ^ n)%:R != 0 :> F.
Proof.
move=> [k hk]; rewrite natrX expf_neq0 // two_nz //.
by exists (k * Z.of_nat (2 ^ n))%Z; rewrite hk; lia.
Qed.

Lemma NewCyclotomicP rank : ntt_rank rank ->
  exists T n g, [/\ NewCyclotomicTransformer U rank = Some T, rank = (2 ^ n)%N & good_cyclotomic T n g].
Proof.
move=> [n hr [k hk]]; have hp := modulus_gt1 U.
rewrite /NewCyclotomicTransformer.
have -> : isPowerOfTwo rank by apply/isPowerOfTwoP; exists n.
have h2 : (0 < Z.of_nat (2 * rank))%Z.
  by have := expn_gt0 2 n; rewrite hr; lia.
rewrite pNegOneE hk Z.mod_mul ?Z.div_mul /=; try lia.
set g := find_root _ _ _.
have hg : g ^+ rank = -1.
  have := @find_rootP F U k (Z.of_nat rank); rewrite Nat2Z.id; apply; [nia|lia|lia].
have hs : (0 < rank)%N by rewrite hr expn_gt0.
exists (Transformer rank (bitReverseInPlace 0 (powers_table g rank))
   (bitReverseInPlace 0 (powers_table g^-1 rank)) (setBigInt U (Z.of_nat rank))^-1), n, g.
split=> //; split=> //=.
- by rewrite -hr.
- move=> x hx; have [a b] := powers_tableP g hs.
  rewrite (bitReverse_nth _ (n := n)) ?a //; apply: b; rewrite hr; exact: brv_lt.
- move=> x hx; have [a b] := powers_tableP g^-1 hs.
  rewrite (bitReverse_nth _ (n := n)) ?a //; apply: b; rewrite hr; exact: brv_lt.
- by rewrite sb_nat hr.
- by apply: rank_nz; exists k; rewrite hk hr.
Qed.

Lemma NewCyclotomic_None rank : ~ ntt_rank rank -> NewCyclotomicTransformer U rank = None.
Proof.
move=> h; rewrite /NewCyclotomicTransformer; case: ifP => // /negbFE/isPowerOfTwoP[n hn].
case: ifP => // /negbFE/Z.eqb_eq e; case: h; exists n => //; rewrite -pNegOneE.
apply/Z.mod_divide => //; have := expn_gt0 2 n; rewrite hn; lia.
Qed.

Lemma NewCyclicP rank : ntt_rank rank -> (1 < rank)%N ->
  exists T n g, [/\ NewCyclicTransformer U rank = Some T, rank = (2 ^ n)%N & good_cyclic T n g].
Proof.
move=> [n hr [k hk]] h1; have hp := modulus_gt1 U.
have hn : (0 < n)%N by case: n hr h1 => // ->.
rewrite /NewCyclicTransformer.
have -> : isPowerOfTwo rank by apply/isPowerOfTwoP; exists n.
have h2 : (0 < Z.of_nat (2 * rank))%Z.
  by have := expn_gt0 2 n; rewrite hr; lia.
have er : (rank %/ 2 = 2 ^ n.-1)%N.
  by rewrite hr; case: n hn {hr} => // n _; rewrite expnS mulKn.
have er2 : (rank./2 = 2 ^ n.-1)%N by rewrite -divn2.
rewrite pNegOneE {1}hk Z.mod_mul /=; try lia.
have -> : ((p - 1) / Z.of_nat rank = 2 * k)%Z.
  have -> : (p - 1 = 2 * k * Z.of_nat rank)%Z by rewrite hk; lia.
  by rewrite Z.div_mul; lia.
set g := find_root _ _ _.
have hs : (0 < 2 ^ n.-1)%N by rewrite expn_gt0.
have dr : (rank = 2 * 2 ^ n.-1)%N by rewrite hr -expnS prednK.
have hg : g ^+ (2 ^ n.-1) = -1.
  have := @find_rootP F U (2 * k)%Z (Z.of_nat (rank./2)); rewrite Nat2Z.id er2.
  by rewrite /g er2; apply; [nia|lia|lia].
rewrite er; have -> : (2 ^ n.-1 == 0)%N = false by lia.
eexists _, n, g; split=> //; split=> //=.
- move=> s i h hi; have [a b] := powers_tableP g hs.
  rewrite hr; have := @spread_upP F rank n 0; rewrite hr expn0.
  case/(_ (bitReverseInPlace 0 (powers_table g (2 ^ n.-1))) (nseq (2 ^ n) 0) isT); 
     [by rewrite subn0 ltn_expl|by rewrite size_nseq|].
  move=> _ -> //; rewrite (bitReverse_nth _ (n := n.-1)) ?a //; last first.
    by apply: leq_trans hi _; rewrite leq_exp2l //; lia.
  by apply: b; exact: brv_lt.
- move=> s i h hi; have [a b] := powers_tableP g^-1 hs.
  have := @spread_downP F rank n (bitReverseInPlace 0 (powers_table g^-1 (2 ^ n.-1))) (nseq rank 0) n (leqnn n).
  have -> : ((2 ^ n)./2 = 2 ^ n.-1)%N by rewrite -hr.
  case; [by rewrite hr ltnW // ltn_expl|by rewrite size_nseq|].
  move=> _ -> //; rewrite h (bitReverse_nth _ (n := n.-1)) ?a //; last first.
    by apply: leq_trans hi _; rewrite leq_exp2l //; lia.
  by apply: b; exact: brv_lt.
- by rewrite sb_nat hr.
- by apply: rank_nz; exists k; rewrite hk hr.
Qed.

Lemma NewCyclic_None rank : ~ (ntt_rank rank /\ (1 < rank)%N) -> NewCyclicTransformer U rank = None.
Proof.
move=> h; rewrite /NewCyclicTransformer; case: ifP => // /negbFE/isPowerOfTwoP[n hn].
case: ifP => // /negbFE/Z.eqb_eq e; case: ifP => // h2; case: h; split; last by lia.
exists n => //; rewrite -pNegOneE.
apply/Z.mod_divide => //; have := expn_gt0 2 n; rewrite hn; lia.
Qed.
End Constructors.
