(** Facts and tactics for the assembly programs: symbolic execution one instruction at a time, and
    the invariants of the Montgomery rounds. *)
From Coq Require Import ZArith Lia.
From mathcomp Require Import all_ssreflect zify ssrZ.
From Verif Require Import JindoIntModel JindoIntProofs ZpModel ZpProofs ZpField AsmModel.
Set Implicit Arguments. Unset Strict Implicit. Unset Printing Implicit Defensive.
Delimit Scope Z_scope with Z.
Local Arguments Z.mul : simpl never. Local Arguments Z.add : simpl never. Local Arguments Z.sub : simpl never.
Local Arguments Z.pow : simpl never. Local Arguments Add64 : simpl never. Local Arguments Sub64 : simpl never.
Local Arguments Mul64 : simpl never.

(** * one operation, as an equation *)
Lemma Add64_eq x y c z c' : Add64 x y c = (z, c') -> (z = x + y + c - W * c')%Z /\ word z.
Proof. by move/Add64_val => [h1 h2]; split=> //; lia. Qed.
Lemma Mul64_eq x y h l : word x -> word y -> Mul64 x y = (h, l) -> [/\ (l = x * y - W * h)%Z, word l & word h].
Proof. by move=> hx hy /(Mul64_val hx hy) [h1 h2 h3 h4]; split=> //; [lia|apply/wordP; lia]. Qed.
Lemma word0 : word 0. Proof. by []. Qed.
Lemma word_mod a : word (a mod W). Proof. by apply/wordP; apply: Z.mod_pos_bound. Qed.

Lemma exec_cat e p p' s : exec e (p ++ p') s = exec e p' (exec e p s).
Proof. by rewrite /exec foldl_cat. Qed.
Lemma exec_nil e s : exec e [::] s = s. Proof. by []. Qed.
Lemma execx_nil e s : execx e [::] s = s. Proof. by []. Qed.
Lemma exec_cons e i p s : exec e (i :: p) s = exec e p (step e s i).
Proof. by []. Qed.
Lemma execx_cons e i p s : execx e (i :: p) s = execx e p (stepx e s i).
Proof. by []. Qed.
Lemma execx_cat e p p' s : execx e (p ++ p') s = execx e p' (execx e p s).
Proof. by rewrite /execx foldl_cat. Qed.

(** * memory *)
Lemma storeE m p i v : store m p i v p = set_nth 0%Z (m p) i v.
Proof. by rewrite /store Z.eqb_refl. Qed.
Lemma store_put m p x i v : store (put m p x) p i v =1 put m p (set_nth 0%Z x i v).
Proof. by move=> p'; rewrite /store /put Z.eqb_refl; case: Z.eqb_spec. Qed.
Lemma store_ext m m' p i v : m =1 m' -> store m p i v =1 store m' p i v.
Proof. by move=> h p'; rewrite /store !h. Qed.
Lemma put_id m p : put m p (m p) =1 m.
Proof. by move=> p'; rewrite /put; case: Z.eqb_spec => // ->. Qed.

Section Gen.
Variables (g : gen) (ok : okGen g).
Local Notation q := (qs g).
Local Notation n := (Limbs g).
Local Notation Q := (val (qs g)).

(** two elements with the same Montgomery product are the same words *)
Lemma red_uniq a b : red g a -> red g b -> eqq g (B n * val a) (B n * val b) -> a = b.
Proof.
move=> [ha hqa] [hb hqb] /(B_cancel ok) h.
apply: (limbs_inj ha hb); have ra := limbs_range ha; have rb := limbs_range hb.
case: h => k hk; have hq := q_gt0 ok.
suff : k = 0%Z by lia.
by nia.
Qed.

(** the branchless reduction: keep t when subtracting q borrows *)
Lemma reduceE t z c : limbs g t -> subChain t q 0 = (z, c) -> reduce g t = if (c =? 1)%Z then t else z.
Proof.
move=> [hs hw] E; rewrite /reduce /smallerThanModulus less_val ?hs ?(ok_q ok) // E /=.
have [||h1 h2 h3 h4] := subChain_val _ hw (ok_q ok) _ E; [by rewrite hs|lia|].
have hr := val_range h2; have rt := val_range hw; have rq := val_range (ok_q ok).
rewrite h1 hs in hr; rewrite hs in h3 rt; rewrite -/n in rq.
have hB := B_gt0 n.
have [?|?] : c = 0%Z \/ c = 1%Z by [lia]; subst c; rewrite /=; case: Z.ltb_spec => //; lia.
Qed.

Lemma subChainW t z c : limbs g t -> subChain t q 0 = (z, c) -> all word z.
Proof. by move=> ht E; have [[_ h] _] := sub_q ok ht; rewrite E in h. Qed.

(** addition and subtraction of the code in terms of the chains *)
Lemma Add64C a b c : Add64 a b c = Add64 b a c.
Proof. by rewrite /Add64 (Z.add_comm a). Qed.
Lemma addChainC x y c : addChain x y c = addChain y x c.
Proof. by elim: x y c => [|a x IH] [|b y] c //=; rewrite (Z.add_comm a) IH. Qed.
Lemma AddC x y : Add g x y = Add g y x.
Proof. by rewrite /Add /addWith addChainC. Qed.
Lemma addChain0 z : all word z -> addChain z (nseq (size z) 0%Z) 0 = (z, 0%Z).
Proof.
elim: z => //= a z IH /andP[/wordP ha hz].
by rewrite !Z.add_0_r Z.mod_small // Z.div_small // IH.
Qed.
Lemma SubE a b z c : limbs g a -> limbs g b -> subChain a b 0 = (z, c) ->
  Sub g a b = (addChain z (if (c =? 0)%Z then nseq n 0%Z else q) 0).1.
Proof.
move=> [ha wa] [hb wb] E; rewrite /Sub E.
have [||h1 h2 h3 h4] := subChain_val _ wa wb _ E; [by rewrite ha|lia|].
by case: Z.eqb_spec => //= _; rewrite -ha -h1 addChain0.
Qed.

(** the low word of t + m q is zero *)
Lemma montLow t0 l z c : word t0 -> let m := ((qInvNeg g * t0) mod W)%Z in
  forall h, Mul64 m (hd0 q) = (h, l) -> Add64 l t0 0 = (z, c) -> z = 0%Z.
Proof.
move=> ht m h hm ha; have hw : word m by apply: word_mod.
have [e1 w1 w2] := Mul64_eq hw (word_hd (ok_q ok)) hm.
have [e2 /wordP w3] := Add64_eq ha.
have [_ [e3 _]] := montM ok ht; rewrite -(Z.mul_comm (qInvNeg g)) -/m in e3.
suff : (z = W * (madd0 m (hd0 q) t0 - h - c))%Z by move: w3; clear; wl.
by rewrite e2 e1; move: e3; lia.
Qed.

(** * the rounds of mul *)
Hypothesis spare : (2 * Q <= B n)%Z.
Definition mulInv (x vs t : seq Z) : Prop :=
  [/\ limbs g t, (val t < 2 * Q)%Z & exists M, (B (size vs) * val t = val x * val vs + M * Q)%Z].
Lemma mulStart x v t' m k : red g x -> word v -> word m -> limbs g t' ->
  (W * val t' + B n.+1 * k = v * val x + m * Q)%Z -> mulInv x [:: v] t'.
Proof.
move=> [hx hxq] hv hm ht' h; have rx := limbs_range hx; have hq := q_gt0 ok.
have [h1 h2] := @pur_exact g ok spare (val x) 0 v m t' k ltac:(lia) ltac:(lia) hv hm ht' h.
by split=> //; exists m; rewrite /= /B; lia.
Qed.
Lemma mulStep x vs t v t' m k : red g x -> mulInv x vs t -> word v -> word m -> limbs g t' ->
  (W * val t' + B n.+1 * k = val t + v * val x + m * Q)%Z -> mulInv x (rcons vs v) t'.
Proof.
move=> [hx hxq] [ht htq [M hM]] hv hm ht' h; have rx := limbs_range hx; have rt := limbs_range ht.
have [h1 h2] := @pur_exact g ok spare (val x) (val t) v m t' k ltac:(lia) ltac:(lia) hv hm ht' h.
split=> //; exists (M + B (size vs) * m)%Z; rewrite size_rcons BS val_rcons.
have -> : (W * B (size vs) * val t' = B (size vs) * (W * val t'))%Z by ring.
by rewrite h1; move: hM; clear; lia.
Qed.
Lemma mulDone x y t : red g x -> limbs g y -> mulInv x y t -> reduce g t = mulGeneric g x y.
Proof.
move=> hx hy [ht htq [M hM]]; have [h1 [k h2]] := reduceP ok ht htq.
have [h3 [k' h4]] := mulGenericP ok hx hy.
apply: red_uniq => //; rewrite h2 h4; exists (M + B n * k - k')%Z.
by case: hy => hy _; rewrite hy in hM; move: hM; clear; lia.
Qed.

(** * the rounds of fromMont *)
Definition frInv (z : seq Z) (k : nat) (t : seq Z) : Prop :=
  limbs g t /\ exists M, (0 <= M < B k)%Z /\ (B k * val t = val z + M * Q)%Z.
Lemma frStart z : limbs g z -> frInv z 0 z.
Proof. by move=> hz; split=> //; exists 0%Z; rewrite B0; split; lia. Qed.
Lemma frStep z i t t' m k : frInv z i t -> word m -> limbs g t' ->
  (W * val t' + B n.+1 * k = val t + m * Q)%Z -> frInv z i.+1 t'.
Proof.
move=> [ht [M [hM h]]] /wordP hm ht' h'.
have rt := limbs_range ht; have rt' := limbs_range ht'; have hq := q_gt0 ok; have hB := B_gt0 n; have hB' := B_gt0 i.
have hq' := q_lt ok.
have hmq : (0 <= m * Q <= (W - 1) * Q)%Z by split; [apply: Z.mul_nonneg_nonneg; lia|apply: Z.mul_le_mono_nonneg_r; lia].
have hk : k = 0%Z.
  rewrite BS in h'.
  have [?|[?|?]] : (k <= -1 \/ k = 0 \/ 1 <= k)%Z by lia.
  - have : (B n * k <= B n * -1)%Z by apply: Z.mul_le_mono_nonneg_l; lia.
    wl.
  - by [].
  - have : (B n * 1 <= B n * k)%Z by apply: Z.mul_le_mono_nonneg_l; lia.
    wl.
split=> //; exists (M + B i * m)%Z; rewrite BS; split.
  have h6 : (B i * m <= B i * (W - 1))%Z by apply: Z.mul_le_mono_nonneg_l; lia.
  have h7 : (0 <= B i * m)%Z by apply: Z.mul_nonneg_nonneg; lia.
  by move: hM h6 h7; clear; lia.
have -> : (W * B i * val t' = B i * (W * val t'))%Z by ring.
have -> : (W * val t' = val t + m * Q)%Z by rewrite -h' hk; lia.
by move: h; clear; lia.
Qed.
Lemma frDone z t : limbs g z -> frInv z n t -> reduce g t = fromMont g z.
Proof.
move=> hz [ht [M [hM h]]]; have [h1 h2] := fromMontP ok hz.
have hr := limbs_range hz; have hq := q_gt0 ok; have hB := B_gt0 n.
have h4 : (val t <= Q)%Z.
  have h5 : (M * Q <= (B n - 1) * Q)%Z by apply: Z.mul_le_mono_nonneg_r; lia.
  have : (B n * val t < B n * (Q + 1))%Z by move: h h5 hr hq; clear; lia.
  by move/(proj2 (Z.mul_lt_mono_pos_l (B n) _ _ hB)); lia.
have [|h6 [k h7]] := reduceP ok ht; first by lia.
apply: red_uniq => //; apply: eqq_trans (eqq_sym h2); rewrite h7.
by exists (M + B n * k)%Z; move: h; clear; lia.
Qed.
End Gen.

(** * symbolic execution *)
Ltac fields := cbv beta iota delta [step rd wr getr setr gets sets setm setf
  ax bx cx dx si di bp r8 r9 r10 r11 r12 r13 r14 r15 cf of_ s0 s1 s2 s3 s4 s5 s6 s7 s8 mem].
Ltac opstep := lazymatch goal with
  | |- context [Add64 ?a ?b ?c] =>
    let z := fresh "z" in let c' := fresh "c" in let E := fresh "E" in let w := fresh "w" in
    destruct (Add64 a b c) as [z c'] eqn:E; cbv beta iota; destruct (Add64_eq E) as [? w]
  | |- context [Mul64 ?a ?b] =>
    let h := fresh "h" in let l := fresh "l" in let E := fresh "E" in
    destruct (Mul64 a b) as [h l] eqn:E; cbv beta iota;
    let H := fresh in
    assert (H : word a /\ word b) by (split; assumption);
    destruct H as [? ?];
    match goal with Ha : is_true (word a), Hb : is_true (word b) |- _ => destruct (Mul64_eq Ha Hb E) as [? ? ?] end
  | |- context [Sub64 ?a ?b ?c] =>
    let z := fresh "z" in let c' := fresh "c" in let E := fresh "E" in
    destruct (Sub64 a b c) as [z c'] eqn:E; cbv beta iota
  | _ => idtac
  end.
(** executes the next instruction of the innermost program *)
Ltac sx norm := match goal with
  | |- context [exec ?e (?i :: ?p) (St ?a ?b ?c ?d ?si ?di ?bp ?r8 ?r9 ?r10 ?r11 ?r12 ?r13 ?r14 ?r15 ?cf1 ?of1
       ?s0 ?s1 ?s2 ?s3 ?s4 ?s5 ?s6 ?s7 ?s8 ?m)] =>
    rewrite (exec_cons e i p (St a b c d si di bp r8 r9 r10 r11 r12 r13 r14 r15 cf1 of1 s0 s1 s2 s3 s4 s5 s6 s7 s8 m));
    fields; norm; opstep; fields
  end.
Ltac chains := repeat (match goal with
  | H : Add64 ?a ?b ?c = _ |- context [Add64 ?a ?b ?c] => rewrite H; cbv beta iota
  | H : Sub64 ?a ?b ?c = _ |- context [Sub64 ?a ?b ?c] => rewrite H; cbv beta iota
  end).

(** puts the equations of the operations into the goal, the last first *)
Ltac lincomb := repeat (match goal with
  | H : ?z = (_ - W * _)%Z |- context [?z] => is_var z; rewrite H; clear H
  end).
Ltac split_exec := repeat (match goal with |- context [exec ?e (?a ++ ?b) ?s] => rewrite (exec_cat e a b s) end).

(** * arm64 *)
Lemma nbK c : nb (nb c) = c. Proof. by rewrite /nb; lia. Qed.
Lemma nb1 c : (nb c =? 1)%Z = (c =? 0)%Z. Proof. by rewrite /nb; lia. Qed.
Lemma lin2 (a b u v : Z) : u = v -> (a + u = b + v)%Z -> a = b. Proof. by lia. Qed.
Section Arm.
Variables (g : gen) (ok : okGen g).
Lemma montLowX t0 m hh h l z c : word t0 -> Mul64 (qInvNeg g) t0 = (hh, m) -> Mul64 m (hd0 (qs g)) = (h, l) ->
  Add64 l t0 0 = (z, c) -> z = 0%Z.
Proof. by move=> ht [_ <-] h1 h2; apply: (montLow ok ht h1 h2). Qed.
Lemma reduceE0 t z c : limbs g t -> subChain t (qs g) 0 = (z, c) -> ZpModel.reduce g t = if (c =? 0)%Z then z else t.
Proof.
move=> ht E; rewrite (reduceE ok ht E); case: ht => hs hw.
have [||h1 h2 h3 h4] := subChain_val _ hw (ok_q ok) _ E; [by rewrite hs|lia|].
by have [->|->] : c = 0%Z \/ c = 1%Z by lia.
Qed.
End Arm.
Ltac fieldsx := cbv beta iota delta [stepx rdx getx setx setc setxm addn addn_rec Nat.add
  x0 x1 x2 x3 x4 x5 x6 x7 x8 x9 x10 x11 x12 x13 x14 x15 x16 x17 xc xmem].
Ltac opstepx := lazymatch goal with
  | H : Mul64 ?a ?b = _ |- context [Mul64 ?a ?b] => rewrite H; cbv beta iota
  | _ => opstep
  end.
(** executes the next instruction of the innermost program *)
Ltac xx norm := match goal with
  | |- context [execx ?e (?i :: ?p) (XSt ?a0 ?a1 ?a2 ?a3 ?a4 ?a5 ?a6 ?a7 ?a8 ?a9 ?a10 ?a11 ?a12 ?a13 ?a14 ?a15 ?a16 ?a17 ?c ?m)] =>
    rewrite (execx_cons e i p (XSt a0 a1 a2 a3 a4 a5 a6 a7 a8 a9 a10 a11 a12 a13 a14 a15 a16 a17 c m));
    fieldsx; norm; rewrite ?nbK ?nb1; opstepx; fieldsx
  end.
Ltac split_execx := repeat (match goal with |- context [execx ?e (?a ++ ?b) ?s] => rewrite (execx_cat e a b s) end).
