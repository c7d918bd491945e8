(** C88: what the challenges of Buckler commit to.  Two runs of Verify with the same challenge
    either show a collision of the hash function or absorbed the same bytes. *)
From Coq Require Import ZArith.
From mathcomp Require Import all_ssreflect all_algebra zify.
From Verif Require Import UintModel BigpolyModel NttProofs UintFp RingProofs NormModel BucklerModel DefineModel
  Prop_Check ProtocolModel ProtocolProofs Prop_Protocol ConcModel Prop_Conc.
Set Implicit Arguments. Unset Strict Implicit. Unset Printing Implicit Defensive.
Delimit Scope Z_scope with Z.

Section Binding.
Variables (F : fieldType) (U : uint F).
Variables (P : pcs F) (H : bytes -> bytes) (name : nat -> bytes).
Variables (setBytes : bytes -> F) (marshal : F -> bytes).
Variable xofProj : nat -> bytes -> seq (seq bool).
Variables (T TE : transformer F) (x : context F).
Notation VerifyC := (VerifyC U H name setBytes marshal xofProj T TE x).

(** two different inputs with the same hash *)
Definition collision : Prop := exists a b, a != b /\ H a = H b.
(** hash values, raw commitments and marshalled elements have fixed lengths *)
Variables (lh lc lm : nat).
Hypothesis sizeH : forall b, size (H b) = lh.
Hypothesis sizeC : forall c : com P, size (pSer c) = lc.
Hypothesis sizeM : forall a : F, size (marshal a) = lm.

Lemma noCol a b : H a = H b -> collision \/ a = b.
Proof. by move=> h; have [e|ne] := eqVneq a b; [right|left; exists a, b]. Qed.
Lemma chal0_eq B B' : chal H name 0 [::] B = chal H name 0 [::] B' -> collision \/ flatten B = flatten B'.
Proof. by rewrite /chal => /noCol[|/eqP]; [left|rewrite eqseq_cat // eqxx /= => /eqP ->; right]. Qed.
Lemma chal_eq i p p' B B' : size p = size p' -> chal H name i.+1 p B = chal H name i.+1 p' B' ->
  collision \/ p = p' /\ flatten B = flatten B'.
Proof.
rewrite /chal => sp /noCol[|/eqP]; first by left.
by rewrite eqseq_cat // eqxx /= eqseq_cat // => /andP[/eqP -> /eqP ->]; right.
Qed.
Lemma size_chal i p B : size (chal H name i p B) = lh.
Proof. exact: sizeH. Qed.
Lemma same_flat (B B' : seq bytes) : shape B = shape B' -> flatten B = flatten B' -> B = B'.
Proof. by move=> h1 h2; apply: eq_from_flatten_shape. Qed.

Notation ser pf := [seq pSer c | c <- pfWitness pf].
Notation c0 pf := (nth [::] (vchs H name marshal x pf) 0).
Notation c1 pf := (nth [::] (vchs H name marshal x pf) 1).
Notation c5 pf := (nth [::] (vchs H name marshal x pf) 5).
Notation B0 pf := (vB0 x (pfWitness pf)).
Notation B1 pf := (vB1 marshal x (pfWitness pf) (pfLinSum pf) (pfSumSum pf)).
Notation B5 pf := (vB5 x (pfWitness pf)).
Lemma verified ord pw (pf : proof P) b cs : VerifyC ord pw pf = Some (b, cs) ->
  size (pfWitness pf) = batch x /\ cs = vchs H name marshal x pf.
Proof.
rewrite VerifyCE /VerifyE; case: (~~ _); [by []|]; case: fillPw => [pw'|]; [|by []].
case: (_ < _)%N; [by []|]; case: (_ && _); [by []|].
by case: eqP => // e; case: eqP => // _ [_ <-].
Qed.

Section Two.
Variables pf pf' : proof P.
Hypothesis s1 : size (pfWitness pf) = batch x.
Hypothesis s2 : size (pfWitness pf') = batch x.
Lemma size_ser_nth i : size (nth [::] (ser pf) i) = size (nth [::] (ser pf') i).
Proof.
have h (q : proof P) : size (pfWitness q) = batch x -> size (nth [::] (ser q) i) = if (i < batch x)%N then lc else 0.
  move=> s; case: ltnP => hi; last by rewrite nth_default // size_map s.
  case: (pfWitness q) s hi => [|c l] s hi; first by rewrite -s in hi.
  by rewrite (nth_map c) ?s // sizeC.
by rewrite !h.
Qed.
Lemma shape0 : shape (B0 pf) = shape (B0 pf').
Proof. by rewrite /shape /vB0 -!map_comp; apply: eq_map => i /=; exact: size_ser_nth. Qed.
Lemma shape1 : shape (B1 pf) = shape (B1 pf').
Proof.
rewrite /shape /vB1 !map_cat; congr (_ ++ (_ ++ _)).
- by rewrite -!map_comp; apply: eq_map => i /=; exact: size_ser_nth.
- by case: (hasLin x) => //=; rewrite !sizeM size_ser_nth.
- by case: (hasSum x) => //=; rewrite !sizeM size_ser_nth.
Qed.
Lemma shape5 : shape (B5 pf) = shape (B5 pf').
Proof.
rewrite /shape /vB5 -!map_drop -!map_comp.
apply: (@eq_from_nth _ 0%N); first by rewrite !size_map !size_drop s1 s2.
move=> i; rewrite size_map => hi.
have [c0 _] : exists c : com P, True by case: (drop _ _) hi => // c; exists c.
by rewrite !(nth_map c0) /= ?sizeC // size_drop s2 -s1 -size_drop.
Qed.

(** the first challenge: the commitments of the first round *)
Lemma first_bound : c0 pf = c0 pf' -> collision \/ B0 pf = B0 pf'.
Proof.
by move=> h; have [c|/(same_flat shape0)] := @chal0_eq (B0 pf) (B0 pf') h; [left|right].
Qed.
Lemma second_bound : c1 pf = c1 pf' -> collision \/ [/\ c0 pf = c0 pf', B0 pf = B0 pf' & B1 pf = B1 pf'].
Proof.
move=> h; have [||c|[e /(same_flat shape1) e1]] := @chal_eq 0 (c0 pf) (c0 pf') (B1 pf) (B1 pf').
- by rewrite !size_chal.
- exact: h.
- by left.
by have [c|e0] := first_bound e; [left|right].
Qed.
Notation cc j q := (nth [::] (vchs H name marshal x q) j).
Lemma chain_bound k : (0 < k < 5)%N -> cc k pf = cc k pf' -> collision \/
  [/\ B0 pf = B0 pf', B1 pf = B1 pf' & take k.+1 (vchs H name marshal x pf) = take k.+1 (vchs H name marshal x pf')].
Proof.
have down j : (0 < j < 4)%N -> cc j.+1 pf = cc j.+1 pf' -> collision \/ cc j pf = cc j pf'.
  move=> hj e; have [||c|[e' _]] := @chal_eq j (cc j pf) (cc j pf') [::] [::].
  - by case: j hj {e} => [|[|[|[]]]] // _; rewrite !size_chal.
  - by case: j hj e => [|[|[|[]]]] // _ e; exact: e.
  - by left.
  by right.
have all1 : cc k pf = cc k pf' -> (0 < k < 5)%N -> collision \/ cc 1 pf = cc 1 pf'.
  elim: k => [|[|k] IH] // e hk; first by right.
  have [|c|/IH h] := down _ _ e; first by move: hk; clear; lia.
    by left.
  by apply: h; move: hk; clear; lia.
move=> hk e; have [c|/second_bound[c|[h0 h1 h2]]] := all1 e hk; [by left|by left|right; split=> //].
by rewrite /vchs h1 h2; move: hk; clear; case: k => [|[|[|[|[]]]]].
Qed.
Lemma last_bound : cc 5 pf = cc 5 pf' -> collision \/
  [/\ vchs H name marshal x pf = vchs H name marshal x pf', B0 pf = B0 pf', B1 pf = B1 pf' & B5 pf = B5 pf'].
Proof.
move=> h; have [||c|[e4 /(same_flat shape5) e5]] := @chal_eq 4 (cc 4 pf) (cc 4 pf') (B5 pf) (B5 pf').
- by rewrite !size_chal.
- exact: h.
- by left.
have [c|[h1 h2 _]] := @chain_bound 4 isT e4; first by left.
by right; split=> //; rewrite /vchs h1 h2 e5.
Qed.
(** the bound lists cover everything *)
Lemma covers : B0 pf = B0 pf' -> B1 pf = B1 pf' ->
  [/\ forall i, (i < cwCnt x + hasLin x + hasSum x)%N -> nth [::] (ser pf) i = nth [::] (ser pf') i,
    hasLin x -> marshal (pfLinSum pf) = marshal (pfLinSum pf') &
    hasSum x -> marshal (pfSumSum pf) = marshal (pfSumSum pf')].
Proof.
move=> /eq_in_map h0 /eqP; rewrite /vB1 eqseq_cat ?size_map // => /andP[/eqP/eq_in_map h1].
rewrite eqseq_cat; last by case: (hasLin x).
move=> /andP[hl hs]; split.
- move=> i; case: (ltnP i (cwCnt x)) => hi h.
    have [hin|hn] := boolP (i \in cwSecond x); first exact: h1.
    by apply: h0; rewrite mem_filter /firstRound hn mem_iota.
  have [e|ne] := eqVneq i (cwCnt x).
    have [e'|hL] := boolP (hasLin x).
      by move: hl; rewrite e' /= => /eqP[]; rewrite e.
    move: hs; rewrite e (negbTE hL) addn0; case: (hasSum x) h => [_|]; last first.
      by rewrite e (negbTE hL) !addn0 ltnn.
    by move=> /eqP[].
  have [hL hS ei] : [/\ hasLin x, hasSum x & i = (cwCnt x).+1].
    by move: h hi ne; case: (hasLin x); case: (hasSum x) => /=; clear; split=> //; lia.
  by move: hs; rewrite hL hS addn1 ei /= => /eqP[].
- by move=> e; move: hl; rewrite e /= => /eqP[].
- by move=> e; move: hs; rewrite e /= => /eqP[].
Qed.
End Two.

(** * C88 *)

(** Two runs of Verify on proofs pf and pf' (any statements) that reach the challenges [cs] and
    [cs'].  Same projConst: the same commitments of the first round. *)
Theorem C88_projConst ord ord' pw pw' (pf pf' : proof P) b b' cs cs' :
  VerifyC ord pw pf = Some (b, cs) -> VerifyC ord' pw' pf' = Some (b', cs') ->
  nth [::] cs 0 = nth [::] cs' 0 ->
  collision \/ forall i, (i < cwCnt x)%N -> i \notin cwSecond x -> nth [::] (ser pf) i = nth [::] (ser pf') i.
Proof.
move=> /verified[s1 ->] /verified[s2 ->] /(first_bound s1 s2)[|h]; [by left|right=> i hi hn].
have /eq_in_map := h; apply.
by rewrite mem_filter /firstRound hn mem_iota.
Qed.

(** Same arithBatchConst, linCheckBatchConst, linCheckConst or sumCheckBatchConst: the same
    commitments to all witnesses and masks, and the same mask sums. *)
Theorem C88_batchConst ord ord' pw pw' (pf pf' : proof P) b b' cs cs' k :
  VerifyC ord pw pf = Some (b, cs) -> VerifyC ord' pw' pf' = Some (b', cs') ->
  (0 < k < 5)%N -> nth [::] cs k = nth [::] cs' k ->
  collision \/ [/\ forall i, (i < cwCnt x + hasLin x + hasSum x)%N -> nth [::] (ser pf) i = nth [::] (ser pf') i,
    hasLin x -> marshal (pfLinSum pf) = marshal (pfLinSum pf'),
    hasSum x -> marshal (pfSumSum pf) = marshal (pfSumSum pf') & take k.+1 cs = take k.+1 cs'].
Proof.
move=> /verified[s1 ->] /verified[s2 ->] hk hc.
have [c|[h0 h1 h2]] := @chain_bound pf pf' s1 s2 k hk hc; [by left|right].
by have [i1 i2 i3] := covers h0 h1.
Qed.

(** Same evalPoint: the same commitments altogether, the same mask sums and challenges. *)
Theorem C88_evalPoint ord ord' pw pw' (pf pf' : proof P) b b' cs cs' :
  VerifyC ord pw pf = Some (b, cs) -> VerifyC ord' pw' pf' = Some (b', cs') ->
  nth [::] cs 5 = nth [::] cs' 5 ->
  collision \/ [/\ ser pf = ser pf', hasLin x -> marshal (pfLinSum pf) = marshal (pfLinSum pf'),
    hasSum x -> marshal (pfSumSum pf) = marshal (pfSumSum pf') & cs = cs'].
Proof.
move=> /verified[s1 ->] /verified[s2 ->] /(last_bound s1 s2)[|[h h0 h1 h5]]; [by left|right].
have [i1 i2 i3] := covers h0 h1; split=> //.
have hl : (cwCnt x + hasLin x + hasSum x <= batch x)%N.
  by rewrite /batch; case: (hasLin x); case: (hasSum x); case: (hasArith x) => /=; clear; lia.
rewrite -[LHS](cat_take_drop (cwCnt x + hasLin x + hasSum x)) -[RHS](cat_take_drop (cwCnt x + hasLin x + hasSum x)).
congr (_ ++ _); last exact: h5.
apply: (@eq_from_nth _ [::]); first by rewrite !size_takel // size_map ?s1 ?s2.
by move=> i; rewrite size_takel ?size_map ?s1 // => hi; rewrite !nth_take // i1.
Qed.
End Binding.

(** * Instances *)

(** a hash of length one without collisions: the number of the byte string *)
Definition codeH (b : bytes) : bytes := [:: pickle b].
Lemma codeH_no_collision : ~ collision codeH.
Proof. by case=> a [b [/eqP ne [/(pcan_inj pickleK)]]]. Qed.
Lemma codeH_size (b : bytes) : size (codeH b) = 1%N.
Proof. by []. Qed.

Section One.
Variables (F : fieldType) (U : uint F) (H : bytes -> bytes).
Hypothesis sizeH1 : forall b, size (H b) = 1%N.
Hypothesis noColH : ~ collision H.
Definition oneMar (a : F) : bytes := [:: Z.to_nat (bigInt U a)].
(** commitments of one word: the first coefficient *)
Definition onePcs : pcs F := @Pcs F F unit unit unit 256
  (fun _ p => (nth 0%R p 0, tt)) oneMar
  (fun _ pt ps _ _ => ([seq evalSlice p pt | p <- ps], tt)) (fun _ _ _ _ => true).
Definition opf (a s : F) : proof onePcs := @Proof F onePcs (a :: nseq 6 0%R) s 0%R (nseq 7 0%R) tt.
Variables T TE : transformer F.
Notation oneVerify := (VerifyC U H (fun=> [::]) (fun=> 0%R) oneMar (@rxof) T TE (rx U) [::] [::]).
Notation oneChs a s := (vchs H (fun=> [::]) oneMar (rx U) (opf a s)).
Lemma oneVerifyE a s : exists b, oneVerify (opf a s) = Some (b, oneChs a s).
Proof.
exists (vChecks U (fun=> 0%R) (@rxof) T TE (rx U) [::] (opf a s) (oneChs a s)).
rewrite VerifyCE; exact: erefl.
Qed.
Lemma oneNat (u v : F) : Z.to_nat (bigInt U u) = Z.to_nat (bigInt U v) -> bigInt U u = bigInt U v.
Proof. by have := bigInt_range U u; have := bigInt_range U v; lia. Qed.
Lemma oneMar_inj (s s' : F) : oneMar s = oneMar s' -> bigInt U s = bigInt U s'.
Proof. by case=> /oneNat. Qed.
(** the circuit of Prop_Conc (three witnesses, two of the second round, a linear check): proofs that
    differ in the first commitment, or in the mask sum only, have different evaluation points *)
Lemma oneBound a s a' s' : (bigInt U a <> bigInt U a' \/ bigInt U s <> bigInt U s') ->
  exists b b' cs cs', [/\ oneVerify (opf a s) = Some (b, cs), oneVerify (opf a' s') = Some (b', cs'),
    size cs = 6%N, size cs' = 6%N & nth [::] cs 5 != nth [::] cs' 5].
Proof.
move=> hne; have [b hb] := oneVerifyE a s; have [b' hb'] := oneVerifyE a' s'.
exists b, b', (oneChs a s), (oneChs a' s'); split; [exact: hb|exact: hb'|exact: erefl|exact: erefl|].
apply/eqP => e; have sC (c : com onePcs) : size (pSer c) = 1%N by [].
have sM (u : F) : size (oneMar u) = 1%N by [].
have h0 := @C88_evalPoint F U onePcs H (fun=> [::]) (fun=> 0%R) oneMar (@rxof) T TE (rx U) 1 1 1 sizeH1 sC sM
  [::] [::] [::] [::] (opf a s) (opf a' s') b b' (oneChs a s) (oneChs a' s').
have := h0 hb hb' e.
case; first exact: noColH.
move=> [h1 h2 _ _]; have h3 := h2 isT.
case: hne; apply; [case: h1 => /oneNat; exact|exact: oneMar_inj h3].
Qed.
End One.

Notation oneVerify T TE :=
  (VerifyC U7681 codeH (fun=> [::]) (fun=> 0%R) (oneMar U7681) (@rxof) T TE (rx U7681) [::] [::]).
Example ex_C88 T TE (a s a' s' : F7681) : (bigInt U7681 a <> bigInt U7681 a' \/ bigInt U7681 s <> bigInt U7681 s') ->
  exists b b' cs cs', [/\ oneVerify T TE (opf U7681 a s) = Some (b, cs),
    oneVerify T TE (opf U7681 a' s') = Some (b', cs'),
    size cs = 6%N, size cs' = 6%N & nth [::] cs 5 != nth [::] cs' 5].
Proof. exact: (@oneBound F7681 U7681 codeH codeH_size codeH_no_collision T TE a s a' s'). Qed.

Print Assumptions C88_projConst.
Print Assumptions C88_batchConst.
Print Assumptions C88_evalPoint.
