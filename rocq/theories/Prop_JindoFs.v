(** C93: what the challenges of jindo depend on. *)
From Coq Require Import ZArith.
From mathcomp Require Import all_ssreflect all_algebra zify ssrZ.
From Verif Require Import RingTac UintModel UintFp JindoIntModel JindoIntProofs Prop_JindoInt CycModel JindoModel JindoProofs LayoutProofs Prop_JindoEnc JindoComplete JindoHonest Prop_JindoCommit Prop_JindoSound.
Set Implicit Arguments. Unset Strict Implicit. Unset Printing Implicit Defensive.
Import GRing.Theory.
Delimit Scope Z_scope with Z.
Local Open Scope ring_scope.

Section Fs.
Variables (F : fieldType) (U : uint F) (P : jparams) (inv : Z -> Z -> Z).
Local Notation s := (slots P).
Local Notation d := (slots P * exp P)%N.
Local Notation Q := (prodz (qs P)).
Local Notation Qo := (prodz (qos P)).
Variables (RQ : cyc d Q) (RO : cyc d Qo).
Variable ck : ckey RQ RO.
Local Notation item := (item F RQ RO).
Variables xof xof' : seq item -> nat -> Z * Z.

(** what has been said before the batching challenges: the reference string, every commitment,
    the point *)
Definition said1 (crs : seq Z) (x : F) (com : seq (seq RO)) : seq item :=
  ICrs F RQ RO crs :: [seq IO F RQ r | r <- flatten com] ++ [:: IX RQ RO x].
(** and before the column challenges: also the batching challenges and the partial evaluation
    with its mask *)
Definition said2 (crs : seq Z) (x : F) (com : seq (seq RO)) (b : seq (Z * Z)) (p : seq RQ) (m : RQ) : seq item :=
  said1 crs x com ++ [seq IC F RQ RO c | c <- b] ++ [seq IQ F RO r | r <- p ++ [:: m]].
Definition same (n : nat) (l : seq item) : Prop := forall k, (k < n)%N -> xof l k = xof' l k.
Definition batched (f : seq item -> nat -> Z * Z) (x : F) (com : seq (seq RO)) : seq (Z * Z) :=
  if (1 < batch P)%N then mkseq (f (said1 (crs ck) x com)) (batch P) else [::].

Lemma eq_mkseq' (T : Type) (f g : nat -> T) n : (forall k, (k < n)%N -> f k = g k) -> mkseq f n = mkseq g n.
Proof. by move=> h; apply/eq_in_map => k; rewrite mem_iota => /andP[_ hk]; exact: h. Qed.
Lemma batch_same x com : ((1 < batch P)%N -> same (batch P) (said1 (crs ck) x com)) ->
  batchBytes ck xof x com = batchBytes ck xof' x com.
Proof. by rewrite /batchBytes; case: ifP => // h /(_ isT) e; exact: eq_mkseq'. Qed.
Lemma chal_same x com p m : ((1 < batch P)%N -> same (batch P) (said1 (crs ck) x com)) ->
  same (cols P) (said2 (crs ck) x com (batched xof x com) p m) ->
  chalBytes ck xof x com p m = chalBytes ck xof' x com p m.
Proof.
move=> h1 h2; rewrite /chalBytes -(batch_same h1); apply: eq_mkseq' => k hk.
by have := h2 k hk; rewrite /said2 map_cat.
Qed.

(** Verify looks at the hash function at these two inputs only *)
Theorem C93_verify_reads x com y pf : ((1 < batch P)%N -> same (batch P) (said1 (crs ck) x com)) ->
  same (cols P) (said2 (crs ck) x com (batched xof x com) (pPartial pf) (pMask pf)) ->
  JindoModel.Verify U inv ck xof x com y pf = JindoModel.Verify U inv ck xof' x com y pf.
Proof. by move=> h1 h2; rewrite /JindoModel.Verify -(batch_same h1) -(chal_same h1 h2). Qed.

(** so does Evaluate, at the inputs for the proof it returns *)
Theorem C93_evaluate_reads x v com o y pf : ((1 < batch P)%N -> same (batch P) (said1 (crs ck) x com)) ->
  Evaluate U ck xof x v com o = Some (y, pf) ->
  same (cols P) (said2 (crs ck) x com (batched xof x com) (pPartial pf) (pMask pf)) ->
  Evaluate U ck xof' x v com o = Some (y, pf).
Proof.
move=> h1 + h2; rewrite /Evaluate; case: ifP => // _; rewrite -(batch_same h1).
case: (chalsOf _ (batchBytes _ _ _ _)) => // bt; case: (allSome _) => // lv.
set pp := mkseq _ _; set mm := \sum_(j < _) _.
case E: (chalsOf _ (chalBytes _ _ _ _ _ _)) => [ch|] // [ey ep].
rewrite -ep /= in h2; by rewrite -(chal_same h1 h2) E ey ep.
Qed.

Lemma said1_inj c c' x x' com com' t t' :
  said1 c x com ++ t = said1 c' x' com' ++ t' -> [/\ c = c', x = x', flatten com = flatten com' & t = t'].
Proof.
case=> ->; rewrite -!catA => e; suff [-> -> ->] : [/\ flatten com = flatten com', x = x' & t = t'] by [].
by elim: (flatten com) (flatten com') e => [|r l IH] [|r' l'] //= [-> //]; move=> /IH[-> -> ->].
Qed.
Lemma said2_inj c c' x x' com com' b b' p p' m m' : said2 c x com b p m = said2 c' x' com' b' p' m' ->
  [/\ c = c', x = x', flatten com = flatten com', b = b' & p = p' /\ m = m'].
Proof.
move/said1_inj=> [-> -> -> e].
have [-> e2] : b = b' /\ p ++ [:: m] = p' ++ [:: m'].
  elim: b b' e => [|r l IH] [|r' l'] //=.
  - by move=> /inj_map h; split=> //; apply: h => ? ? [].
  - by clear; case: p => [|? ?].
  - by clear; case: p' => [|? ?].
  by case=> -> /IH[-> ->].
by move: e2; rewrite !cats1 => /rcons_inj[-> ->].
Qed.

(** Two runs with the same column challenges: a collision of the hash function, or the same
    reference string, commitments, point, batching challenges, partial evaluation and mask. *)
Theorem C93_binding crs crs' x x' com com' b b' p p' m m' : shape com = shape com' ->
  (forall k, (k < cols P)%N -> xof (said2 crs x com b p m) k = xof (said2 crs' x' com' b' p' m') k) ->
  (exists l l', l <> l' /\ forall k, (k < cols P)%N -> xof l k = xof l' k) \/
  [/\ crs = crs', x = x', com = com', b = b' & p = p' /\ m = m'].
Proof.
move=> hs e.
have [/and5P[/eqP h1 /eqP h2 /eqP h3 /eqP h4 /andP[/eqP h5 /eqP h6]]|h] :=
  boolP [&& crs == crs', x == x', com == com', b == b', p == p' & m == m']; first by right.
left; exists (said2 crs x com b p m), (said2 crs' x' com' b' p' m'); split=> // /said2_inj[h1 h2 h3 h4 [h5 h6]].
have h7 : com = com' by rewrite -(flattenK com) h3 hs flattenK.
by move: h; rewrite h1 h2 h4 h5 h6 h7 !eqxx.
Qed.

(** InCommit, the responses and the claimed values do not enter the challenges: Verify of two
    proofs that differ there reads the hash function at the same inputs (C93_verify_reads), so the
    outer and inner checks alone bind them (C75, C76). *)
End Fs.

(** the accepted batch of two over Z/101 (ex_C58): the hash function may be changed anywhere else,
    here on inputs that do not start with a reference string *)
Example ex_C93 (ck : ckey (RQ101 2) (RO101 2)) (xof : seq (item F101 (RQ101 2) (RO101 2)) -> nat -> Z * Z) x (z : Z * Z) :
  let xof' l k := if l is ICrs _ :: _ then xof l k else z in
  exists com y pf, JindoModel.Verify U101 invSearch ck xof x com y pf = Some true /\
    JindoModel.Verify U101 invSearch ck xof' x com y pf = Some true.
Proof.
move=> xof'; have [com [os [y [pf [_ _ h _]]]]] := ex_C58 ck xof x; exists com, y, pf; split; first exact: h.
by rewrite -h; apply/esym/C93_verify_reads.
Qed.
(** two different masks: equal challenges under a constant hash function, which has collisions;
    a hash function that tells the inputs apart gives other challenges *)
Example ex_C93_binding : let P := P101 2 in
  let s (m : RQ101 2) := said2 [::] (3%:R : F101) ([:: [::]; [::]] : seq (seq (RO101 2))) [::] [::] m in s 0 <> s 1.
Proof. by move=> P s; rewrite /s => /said2_inj[_ _ _ _ [_ e]]; have := oner_neq0 (RQ101 2); rewrite -e eqxx. Qed.

Print Assumptions C93_verify_reads.
Print Assumptions C93_evaluate_reads.
Print Assumptions C93_binding.
