(** Proofs about the pointer-level vector operations. *)
From mathcomp Require Import all_ssreflect all_algebra zify.
From Verif Require Import UintModel BigpolyModel NttProofs VecModel.
Set Implicit Arguments. Unset Strict Implicit. Unset Printing Implicit Defensive.
Import GRing.Theory.
Local Open Scope ring_scope.

Lemma block_loop (A : Type) (op : A -> nat -> A) (h : A) n :
  foldl op (foldl (fun x i => foldl (fun x k => op x (i + k)%N) x (iota 0 8)) h
    (range_step 0 (n %/ 8 * 8) 8)) (iota (n %/ 8 * 8) (n - n %/ 8 * 8))
  = foldl op h (iota 0 n).
Proof.
have -> : foldl (fun x i => foldl (fun x k => op x (i + k)%N) x (iota 0 8)) h
    (range_step 0 (n %/ 8 * 8) 8) = foldl op h (iota 0 (n %/ 8 * 8)).
  rewrite -{1}[(n %/ 8 * 8)%N]add0n range_step_mul //.
  elim: (n %/ 8)%N => [|k IH]; first by [].
  rewrite (iotaSr 0 k) map_rcons foldl_rcons IH.
  have -> : (k.+1 * 8 = k * 8 + 8)%N by lia.
  rewrite iotaD foldl_cat !add0n /=.
  have -> : (8 * k = k * 8)%N by lia.
  by rewrite !addnS addn0.
rewrite -foldl_cat -{2}[(n %/ 8 * 8)%N]add0n -iotaD; congr (foldl _ _ (iota _ _)); lia.
Qed.

Section Vec.
Variable F : fieldType.
Implicit Types (h : heap F) (xOut x : slice).

(** [x] overlaps [out] at most position by position. *)
Definition aligned xOut x := forall i j, (i < size xOut)%N -> (j < size xOut)%N ->
  nth 0%N x i = nth 0%N xOut j -> i = j.

(** Generic loop: entry [i] of the output gets [f h i], [f] reading only positions
    that earlier iterations did not write. *)
Lemma store_loop (f : heap F -> nat -> F) h xOut n :
  uniq xOut -> (n <= size xOut)%N ->
  (forall h' i, (i < size xOut)%N ->
     (forall a, (forall j, (j < i)%N -> a <> nth 0%N xOut j) -> h' a = h a) -> f h' i = f h i) ->
  let r := foldl (fun h i => store h (nth 0%N xOut i) (f h i)) h (iota 0 n) in
  (forall i, (i < n)%N -> r (nth 0%N xOut i) = f h i) /\
  (forall a, (forall j, (j < n)%N -> a <> nth 0%N xOut j) -> r a = h a).
Proof.
move=> u hn hf; elim: n hn => [|n IH] hn; first by [].
rewrite iotaSr foldl_rcons add0n; have [] := IH (ltnW hn).
set r := foldl _ _ _ => h1 h2; split.
  move=> i; rewrite ltnS leq_eqVlt => /orP[/eqP ->|hi].
    by rewrite /store eqxx; apply: hf.
  have hi2 : (i < size xOut)%N by lia.
  rewrite /store nth_uniq //.
  have -> : (i == n) = false by lia.
  exact: h1.
move=> a ha; rewrite /store; case: eqP => [e|_]; first by case: (ha n).
by apply: h2 => j hj; apply: ha; lia.
Qed.

Definition reads_ok h xOut (f : heap F -> nat -> F) :=
  forall h' i, (i < size xOut)%N ->
     (forall a, (forall j, (j < i)%N -> a <> nth 0%N xOut j) -> h' a = h a) -> f h' i = f h i.

Lemma aligned_read h h' xOut x i : aligned xOut x -> (i < size xOut)%N ->
  (forall a, (forall j, (j < i)%N -> a <> nth 0%N xOut j) -> h' a = h a) ->
  h' (nth 0%N x i) = h (nth 0%N x i).
Proof.
move=> al hi hh; apply: hh => j hj e.
have := al i j hi (ltn_trans hj hi) e; lia.
Qed.

Lemma notin_nth (s : slice) a : a \notin s -> forall j, (j < size s)%N -> a <> nth 0%N s j.
Proof. by move=> h j hj e; move: h; rewrite e mem_nth. Qed.

Lemma binVecToP f h xOut x0 x1 : uniq xOut -> aligned xOut x0 -> aligned xOut x1 ->
  let r := binVecTo f h xOut x0 x1 in
  (forall i, (i < size xOut)%N -> r (nth 0%N xOut i) = f (h (nth 0%N x0 i)) (h (nth 0%N x1 i))) /\
  (forall a, a \notin xOut -> r a = h a).
Proof.
move=> u a0 a1; rewrite /binVecTo block_loop.
have [] := @store_loop (fun h i => f (h (nth 0%N x0 i)) (h (nth 0%N x1 i))) h xOut (size xOut) u (leqnn _).
  by move=> h' i hi hh; rewrite !(aligned_read _ hi hh).
by move=> r1 r2; split=> // a ha; apply: r2; apply: notin_nth.
Qed.

Lemma negVecToP h xOut x0 : uniq xOut -> aligned xOut x0 ->
  let r := negVecTo h xOut x0 in
  (forall i, (i < size xOut)%N -> r (nth 0%N xOut i) = - h (nth 0%N x0 i)) /\
  (forall a, a \notin xOut -> r a = h a).
Proof.
move=> u a0; rewrite /negVecTo block_loop.
have [] := @store_loop (fun h i => - h (nth 0%N x0 i)) h xOut (size xOut) u (leqnn _).
  by move=> h' i hi hh; rewrite !(aligned_read _ hi hh).
by move=> r1 r2; split=> // a ha; apply: r2; apply: notin_nth.
Qed.

Lemma scalarMulVecToP h xOut x0 c : uniq xOut -> aligned xOut x0 -> c \notin xOut ->
  let r := scalarMulVecTo h xOut x0 c in
  (forall i, (i < size xOut)%N -> r (nth 0%N xOut i) = h (nth 0%N x0 i) * h c) /\
  (forall a, a \notin xOut -> r a = h a).
Proof.
move=> u a0 hc; rewrite /scalarMulVecTo block_loop.
have [] := @store_loop (fun h i => h (nth 0%N x0 i) * h c) h xOut (size xOut) u (leqnn _).
  move=> h' i hi hh; rewrite !(aligned_read _ hi hh) // (hh c) // => j hj.
  by apply: (notin_nth hc); lia.
by move=> r1 r2; split=> // a ha; apply: r2; apply: notin_nth.
Qed.

Lemma aligned_refl x : uniq x -> aligned x x.
Proof. by move=> u i j hi hj /eqP; rewrite nth_uniq // => /eqP. Qed.

Lemma aligned_disjoint xOut x : size x = size xOut -> (forall a, a \in x -> a \notin xOut) -> aligned xOut x.
Proof.
move=> sx d i j hi hj e; have := d (nth 0%N x i); rewrite mem_nth ?sx // => /(_ isT).
by rewrite e mem_nth.
Qed.
End Vec.
