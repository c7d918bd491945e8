(** Arithmetic modulo b^m + 1 on lists of 63-bit integers: a checker for primality certificates.
    Nothing of the code is modelled here. *)
From Coq Require Import ZArith Znumtheory Lia Uint63.
From mathcomp Require Import all_ssreflect zify ssrZ.
From Verif Require Import PockProofs ZpInv.
Set Implicit Arguments. Unset Strict Implicit. Unset Printing Implicit Defensive.
Delimit Scope Z_scope with Z.
Local Arguments Z.mul : simpl never.
Local Arguments Z.add : simpl never.
Local Arguments Z.sub : simpl never.
Local Arguments Z.div : simpl never.
Local Arguments Z.modulo : simpl never.
Local Arguments Z.pow : simpl never.
Local Arguments Z.of_nat : simpl never.

(** a list of digits, the least significant first *)
Fixpoint maddp (a : int) (y z : seq int) : seq int :=
  match y with
  | [::] => z
  | b :: y => match z with
    | [::] => (a * b)%uint63 :: maddp a y [::]
    | c :: z => (a * b + c)%uint63 :: maddp a y z
    end
  end.
Fixpoint mulp (x y : seq int) : seq int :=
  if x is a :: x then maddp a y (0%uint63 :: mulp x y) else [::].
Fixpoint carry (beta c : int) (l : seq int) : seq int :=
  if l is d :: l then let t := (d + c)%uint63 in (t mod beta)%uint63 :: carry beta (t / beta)%uint63 l else [:: c].
Fixpoint subb (beta c : int) (lo hi : seq int) : seq int * int :=
  match lo, hi with
  | a :: lo, b :: hi =>
      let t := (a + beta - b - c)%uint63 in
      let: (r, c) := subb beta (if (t <? beta)%uint63 then 1 else 0)%uint63 lo hi in
      ((t mod beta)%uint63 :: r, c)
  | _, _ => ([::], c)
  end.
Definition incr (c : int) (l : seq int) : seq int := if l is a :: l then (a + c)%uint63 :: l else [::].
Definition mulmod (beta : int) (k : nat) (x y : seq int) : option (seq int) :=
  let p := carry beta 0 (mulp x y) in
  if (size p == k + k)%N && all (fun d => d <? beta)%uint63 p then
    let: (r, c) := subb beta 0 (take k p) (drop k p) in Some (incr c r)
  else None.
Fixpoint power (beta : int) (k : nat) (x : seq int) (e : positive) : option (seq int) :=
  match e with
  | xH => Some x
  | xO e => if power beta k x e is Some y then mulmod beta k y y else None
  | xI e => if power beta k x e is Some y then
      if mulmod beta k y y is Some z then mulmod beta k x z else None
    else None
  end.
Fixpoint powers (beta : int) (k : nat) (x : seq int) (e : positive) (i : nat) : option (seq int) :=
  if i is i.+1 then if power beta k x e is Some y then powers beta k y e i else None else Some x.
Fixpoint eqdigits (x y : seq int) : bool :=
  match x, y with
  | [::], [::] => true
  | a :: x, b :: y => (a =? b)%uint63 && eqdigits x y
  | _, _ => false
  end.
Definition small (k : nat) (a : int) : seq int := a :: nseq k.-1 0%uint63.
Definition minusOne (beta : int) (k : nat) : seq int := beta :: nseq k.-1 (beta - 1)%uint63.
(** b = 2h; [us] lists, for the prime divisors q of b, the exponent b / q and the inverse of a^(b^m/q) - 1 *)
Definition check (beta : int) (k m : nat) (h : positive) (a : int) (us : seq (positive * seq int)) : bool :=
  if powers beta k (small k a) (xO h) m.-1 is Some c then
    if power beta k c h is Some o then
      eqdigits o (minusOne beta k) &&
      all (fun p => [&& size p.2 == k, all (fun d => d <? beta)%uint63 p.2 &
           if power beta k c p.1 is Some d then
             if mulmod beta k d p.2 is Some r then eqdigits r (incr 1 p.2) else false
           else false]) us
    else false
  else false.

(** * Soundness *)
Notation phi := Uint63.to_Z.
Lemma phi_range x : (0 <= phi x < wB)%Z. Proof. exact: to_Z_bounded. Qed.
Lemma phi_add x y : (phi x + phi y < wB)%Z -> phi (x + y)%uint63 = (phi x + phi y)%Z.
Proof. by move=> h; rewrite add_spec Z.mod_small //; have := phi_range x; have := phi_range y; lia. Qed.
Lemma phi_mul x y : (phi x * phi y < wB)%Z -> phi (x * y)%uint63 = (phi x * phi y)%Z.
Proof. by move=> h; rewrite mul_spec Z.mod_small //; have := phi_range x; have := phi_range y; nia. Qed.
Lemma phi_sub x y : (phi y <= phi x)%Z -> phi (x - y)%uint63 = (phi x - phi y)%Z.
Proof. by move=> h; rewrite sub_spec Z.mod_small //; have := phi_range x; have := phi_range y; lia. Qed.
Lemma phi_ltb x y : (x <? y)%uint63 = (phi x <? phi y)%Z.
Proof. by apply/idP/idP => [/ltb_spec h|/Z.ltb_spec0 h]; [apply/Z.ltb_spec0|apply/ltb_spec]. Qed.

Definition bnd (K : Z) (l : seq int) : bool := all (fun d => phi d <=? K)%Z l.
Lemma bnd_le K K' l : (K <= K')%Z -> bnd K l -> bnd K' l.
Proof. by move=> h; apply: sub_all => d /Z.leb_spec0 h'; apply/Z.leb_spec0; lia. Qed.

Section Sound.
Variables (beta : int) (k : nat).
Local Notation BB := (phi beta).
Local Notation NN := (BB ^ Z.of_nat k + 1)%Z.
Hypotheses (hb : (2 <= BB)%Z) (hk : (0 < k)%N) (hw : (2 * (Z.of_nat k * (BB * BB)) < wB)%Z).
Definition V (l : seq int) : Z := foldr (fun d v => phi d + BB * v)%Z 0%Z l.
Lemma V_ge0 l : (0 <= V l)%Z.
Proof. by elim: l => [|d l IH] /=; [lia|have := phi_range d; nia]. Qed.
Lemma V_cat x y : V (x ++ y) = (V x + BB ^ Z.of_nat (size x) * V y)%Z.
Proof.
elim: x => [|d x IH] /=; first by rewrite -[Z.of_nat 0]/0%Z Z.pow_0_r; lia.
by rewrite IH Nat2Z.inj_succ Z.pow_succ_r; [lia|lia].
Qed.

Lemma maddpP a y z D K : (phi a <= D)%Z -> bnd D y -> bnd K z -> (0 <= K)%Z -> (D * D + K < wB)%Z ->
  V (maddp a y z) = (phi a * V y + V z)%Z /\ bnd (D * D + K) (maddp a y z).
Proof.
move=> ha; elim: y z => [|b y IH] z /= hy hz hK hD.
  by split; [lia|apply: bnd_le hz; have := phi_range a; nia].
case/andP: hy => /Z.leb_spec0 hb0 hy; have ra := phi_range a; have rb := phi_range b.
have hab : (phi a * phi b <= D * D)%Z by nia.
case: z hz => [|c z] /=.
- have [//|//|//|h1 h2] := IH [::] hy; move=> _.
  rewrite phi_mul ?h1 /=; last by lia.
  split; first by lia.
  by rewrite h2 andbT; apply/Z.leb_spec0; lia.
- case/andP=> /Z.leb_spec0 hc hz; have [//|//|h1 h2] := IH z hy hz; have rc := phi_range c.
  have e : phi (a * b + c)%uint63 = (phi a * phi b + phi c)%Z.
    by rewrite phi_add phi_mul //; lia.
  rewrite e h1; split; first by lia.
  by rewrite h2 andbT; apply/Z.leb_spec0; lia.
Qed.
Lemma mulpP x y D : bnd D x -> bnd D y -> (0 <= D)%Z -> (Z.of_nat (size x) * (D * D) < wB)%Z ->
  V (mulp x y) = (V x * V y)%Z /\ bnd (Z.of_nat (size x) * (D * D)) (mulp x y).
Proof.
move=> hx hy hD; elim: x hx => [|a x IH] //= /andP[/Z.leb_spec0 ha hx] hs.
have [|h1 h2] := IH hx; first by nia.
have [|||h3 h4] := @maddpP a y (0%uint63 :: mulp x y) D (Z.of_nat (size x) * (D * D)) ha hy.
- by rewrite /= h2 andbT; apply/Z.leb_spec0; rewrite -[phi 0]/0%Z; nia.
- by nia.
- by nia.
rewrite h3 /= h1 -[phi 0]/0%Z; split; first by lia.
by apply: bnd_le h4; lia.
Qed.
Lemma carryP K c l : bnd K l -> (phi c <= K)%Z -> (2 * K < wB)%Z -> V (carry beta c l) = (phi c + V l)%Z.
Proof.
move=> hl hc hK; elim: l c hc hl => [|d l IH] c hc /=; first by lia.
case/andP=> /Z.leb_spec0 hd hl; have rc := phi_range c; have rd := phi_range d.
have e : phi (d + c)%uint63 = (phi d + phi c)%Z by rewrite phi_add; lia.
rewrite IH //; last first.
  by rewrite div_spec e; apply: Z.div_le_upper_bound; nia.
rewrite div_spec mod_spec e.
by have := Z_div_mod_eq_full (phi d + phi c) BB; lia.
Qed.
Definition below (l : seq int) : bool := all (fun d => d <? beta)%uint63 l.
Lemma wB2 : (2 * BB < wB)%Z. Proof. have : (1 <= Z.of_nat k)%Z by lia. nia. Qed.
Lemma subbP c lo hi r c' : below lo -> below hi -> size lo = size hi -> (phi c <= 1)%Z ->
  subb beta c lo hi = (r, c') ->
  [/\ V r = (V lo - V hi - phi c + BB ^ Z.of_nat (size lo) * phi c')%Z, size r = size lo, below r & (phi c' <= 1)%Z].
Proof.
have w2 := wB2.
elim: lo hi c r c' => [|a lo IH] [|b hi] c r c' //=.
  by move=> _ _ _ hc [<- <-] /=; rewrite -[Z.of_nat 0]/0%Z Z.pow_0_r; split=> //; lia.
rewrite !phi_ltb => /andP[/Z.ltb_spec0 ha hlo] /andP[/Z.ltb_spec0 hb0 hhi] [hs] hc.
have ra := phi_range a; have rb := phi_range b; have rc := phi_range c.
set t := (a + beta - b - c)%uint63.
have et : phi t = (phi a + BB - phi b - phi c)%Z.
  have e1 : phi (a + beta)%uint63 = (phi a + BB)%Z by rewrite phi_add; lia.
  have e2 : phi (a + beta - b)%uint63 = (phi a + BB - phi b)%Z by rewrite phi_sub e1; lia.
  by rewrite /t phi_sub e2; lia.
set cc := (if _ then _ else _).
have hcc : (phi cc <= 1)%Z by rewrite /cc; case: (_ <? _)%Z; rewrite -?[phi 1]/1%Z -?[phi 0]/0%Z; lia.
case E: (subb beta cc lo hi) => [r1 c1] [<- <-]; have [h1 h2 h3 h4] := IH _ _ _ _ hlo hhi hs hcc E.
rewrite /= h1 h2 Nat2Z.inj_succ Z.pow_succ_r; last by lia.
have hm : (phi (t mod beta)%uint63 = phi t + BB * phi cc - BB)%Z.
  rewrite mod_spec /cc; case: Z.ltb_spec => h.
  - by rewrite -[phi 1]/1%Z Z.mod_small; lia.
  - rewrite -[phi 0]/0%Z -(Z_mod_plus_full (phi t) (-1) BB) Z.mod_small; lia.
split=> //; first by rewrite hm et; lia.
rewrite /below /= -/(below _) h3 andbT phi_ltb mod_spec; apply/Z.ltb_spec0.
by have := Z.mod_pos_bound (phi t) BB; lia.
Qed.
Definition okD (x : seq int) : bool := (size x == k)%N && bnd BB x.
Lemma incrP c l : (0 < size l)%N -> below l -> (phi c <= 1)%Z ->
  [/\ V (incr c l) = (V l + phi c)%Z, size (incr c l) = size l & bnd BB (incr c l)].
Proof.
have w2 := wB2; case: l => // a l _ /= /andP[]; rewrite phi_ltb => /Z.ltb_spec0 ha hl hc.
have e : phi (a + c)%uint63 = (phi a + phi c)%Z by rewrite phi_add; lia.
rewrite /= e; split=> //; first by lia.
apply/andP; split; first by apply/Z.leb_spec0; lia.
by apply: sub_all hl => d; rewrite phi_ltb => /Z.ltb_spec0 h; apply/Z.leb_spec0; lia.
Qed.
Lemma mulmodP x y z : okD x -> okD y -> mulmod beta k x y = Some z ->
  okD z /\ (V z mod NN = (V x * V y) mod NN)%Z.
Proof.
case/andP=> /eqP sx bx /andP[/eqP sy by_]; rewrite /mulmod.
set p := carry _ _ _; case: ifP => // /andP[/eqP sp hp].
case E: (subb _ _ _ _) => [r c] [<-].
have [||h1 h2] := mulpP bx by_; [lia|rewrite sx; lia|].
have h3 : V p = (V x * V y)%Z.
  by rewrite /p (carryP h2) ?h1 -?[phi 0]/0%Z // sx; [nia|lia].
have hp' := hp; rewrite -(cat_take_drop k p) all_cat in hp'; case/andP: hp' => p1 p2.
have s1 : size (take k p) = k by rewrite size_takel // sp leq_addr.
have s2 : size (drop k p) = k by rewrite size_drop sp addnK.
have [||h4 h5 h6 h7] := subbP p1 p2 _ _ E; [by rewrite s1 s2|by []|].
have [|h8 h9 h10] := incrP _ h6 h7; first by rewrite h5 s1.
rewrite s1 in h4 h5; split; first by rewrite /okD h9 h5 eqxx.
have h11 : V p = (V (take k p) + BB ^ Z.of_nat k * V (drop k p))%Z by rewrite -{1}(cat_take_drop k p) V_cat s1.
rewrite h8 h4 -h3 h11 -[phi 0]/0%Z.
rewrite -(Z_mod_plus_full _ (V (drop k p) - phi c) NN); congr (_ mod _)%Z.
ring.
Qed.
Lemma powerP x e z : okD x -> power beta k x e = Some z ->
  okD z /\ (V z mod NN = (V x ^ Zpos e) mod NN)%Z.
Proof.
move=> hx; elim: e z => [e IH|e IH|] z /=.
- case E: (power _ _ _ _) => [y|] //; have [h1 h2] := IH _ E.
  case E1: (mulmod _ _ _ _) => [w|] // E2; have [h3 h4] := mulmodP h1 h1 E1; have [h5 h6] := mulmodP hx h3 E2.
  split=> //; rewrite h6 -Z.mul_mod_idemp_r ?h4; last by have := V_ge0; have : (0 < BB ^ Z.of_nat k)%Z by [apply: Z.pow_pos_nonneg; lia]; lia.
  have hN : NN <> 0%Z by have : (0 < BB ^ Z.of_nat k)%Z by [apply: Z.pow_pos_nonneg; lia]; lia.
  rewrite Z.mul_mod_idemp_r // -Z.mul_mod_idemp_r // (Z.mul_mod (V y)) // h2 -Z.mul_mod // Z.mul_mod_idemp_r //.
  by rewrite (Pos2Z.inj_xI e) Z.pow_add_r ?Z.pow_1_r // Z.mul_comm (Z.mul_comm 2) Z.pow_mul_r // Z.pow_2_r.
- case E: (power _ _ _ _) => [y|] // E1; have [h1 h2] := IH _ E; have [h3 h4] := mulmodP h1 h1 E1.
  have hN : NN <> 0%Z by have : (0 < BB ^ Z.of_nat k)%Z by [apply: Z.pow_pos_nonneg; lia]; lia.
  split=> //; rewrite h4 Z.mul_mod // h2 -Z.mul_mod //.
  by rewrite (Pos2Z.inj_xO e) (Z.mul_comm 2) Z.pow_mul_r // Z.pow_2_r.
- by case=> <-; rewrite Z.pow_1_r.
Qed.
Lemma pow_cong a b e : (0 <= e)%Z -> (a mod NN = b mod NN)%Z -> (a ^ e mod NN = b ^ e mod NN)%Z.
Proof.
move=> he h; have hN : NN <> 0%Z by have : (0 < BB ^ Z.of_nat k)%Z by [apply: Z.pow_pos_nonneg; lia]; lia.
move: he; apply: (natlike_ind (fun e => (a ^ e mod NN = b ^ e mod NN)%Z)); first by rewrite !Z.pow_0_r.
by move=> x hx IH; rewrite !Z.pow_succ_r // Z.mul_mod // h IH -Z.mul_mod.
Qed.
Lemma powersP x e i z : okD x -> powers beta k x e i = Some z ->
  okD z /\ (V z mod NN = (V x ^ (Zpos e ^ Z.of_nat i)) mod NN)%Z.
Proof.
elim: i x => [|i IH] x hx /=.
  by case=> <-; rewrite -[Z.of_nat 0]/0%Z Z.pow_0_r Z.pow_1_r.
case E: (power _ _ _ _) => [y|] // E1; have [h1 h2] := powerP hx E; have [h3 h4] := IH _ h1 E1; split=> //.
rewrite h4 Nat2Z.inj_succ Z.pow_succ_r; last by lia.
rewrite Z.pow_mul_r; [|lia|by apply: Z.pow_nonneg].
by apply: pow_cong => //; apply: Z.pow_nonneg.
Qed.
Lemma eqdigitsP x y : eqdigits x y -> x = y.
Proof. by elim: x y => [|a x IH] [|b y] //= /andP[/eqb_spec -> /IH ->]. Qed.
Lemma V_nseq0 i : V (nseq i 0%uint63) = 0%Z.
Proof. by elim: i => //= i ->; rewrite -[phi 0]/0%Z; lia. Qed.
Lemma smallP a : (phi a <= BB)%Z -> okD (small k a) /\ V (small k a) = phi a.
Proof.
move=> ha; rewrite /okD /small /= size_nseq prednK // eqxx V_nseq0; split; last by lia.
rewrite /=; apply/andP; split; first by apply/Z.leb_spec0; lia.
by elim: k.-1 => //= i ->; rewrite andbT; apply/Z.leb_spec0; rewrite -[phi 0]/0%Z; lia.
Qed.
Lemma minusOneP : (V (minusOne beta k) = BB ^ Z.of_nat k)%Z.
Proof.
have e1 : phi (beta - 1)%uint63 = (BB - 1)%Z by rewrite phi_sub -?[phi 1]/1%Z; lia.
have h i : V (nseq i (beta - 1)%uint63) = (BB ^ Z.of_nat i - 1)%Z.
  elim: i => [|i IH] /=; first by rewrite -[Z.of_nat 0]/0%Z Z.pow_0_r.
  by rewrite IH e1 Nat2Z.inj_succ Z.pow_succ_r; lia.
rewrite /minusOne /= h -{2}(prednK hk) Nat2Z.inj_succ Z.pow_succ_r; lia.
Qed.
Lemma checkP m h a us : (0 < m)%N -> (phi a <= BB)%Z -> check beta k m h a us ->
  let A := (phi a ^ (Zpos (xO h) ^ Z.of_nat m.-1))%Z in
  (A ^ Zpos (xO h) mod NN = 1)%Z /\
  forall i, (i < size us)%N -> exists u, ((u * (A ^ Zpos (nth (1%positive, [::]) us i).1 - 1)) mod NN = 1)%Z.
Proof.
move=> hm ha; rewrite /check; have [h1 h2] := smallP ha.
have hP : (2 <= BB ^ Z.of_nat k)%Z.
  by rewrite -(prednK hk) Nat2Z.inj_succ Z.pow_succ_r; [have := Z.pow_pos_nonneg BB (Z.of_nat k.-1); nia|lia].
have hN : NN <> 0%Z by lia.
case E: (powers _ _ _ _ _) => [c|] //; case E1: (power _ _ _ _) => [o|] //.
have [h3 h4] := powersP h1 E; have [h5 h6] := powerP h3 E1.
case/andP=> /eqdigitsP eo hu /=; rewrite h2 in h4; set A := (phi a ^ _)%Z in h4 *; split.
  rewrite (Pos2Z.inj_xO h) (Z.mul_comm 2) Z.pow_mul_r // Z.pow_2_r.
  have e : (A ^ Zpos h mod NN = BB ^ Z.of_nat k mod NN)%Z.
    by rewrite -(pow_cong _ h4) // -h6 eo minusOneP.
  rewrite Z.mul_mod // e -Z.mul_mod //.
  have -> : (BB ^ Z.of_nat k * BB ^ Z.of_nat k = 1 + (BB ^ Z.of_nat k - 1) * NN)%Z by ring.
  by rewrite Z_mod_plus_full Z.mod_small; lia.
move=> i hi; have /and3P[] := all_nthP (1%positive, [::]) hu i hi.
case: (nth _ _ _) => p' u /= /eqP su bu; case E2: (power _ _ _ _) => [d|] //; case E3: (mulmod _ _ _ _) => [r|] // /eqdigitsP er.
have [h7 h8] := powerP h3 E2.
have hou : okD u.
  by rewrite /okD su eqxx; apply: sub_all bu => x; rewrite phi_ltb => /Z.ltb_spec0 hx; apply/Z.leb_spec0; lia.
have [_ h9] := mulmodP h7 hou E3; exists (V u).
have [||h10 _ _] := @incrP 1%uint63 u _ bu; [by rewrite su|by []|].
rewrite er h10 -[phi 1]/1%Z in h9.
have h11 : (V u * A ^ Zpos p' mod NN = (V u + 1) mod NN)%Z.
  rewrite h9 (Z.mul_comm (V u)) -Z.mul_mod_idemp_l // -[RHS]Z.mul_mod_idemp_l // h8.
  by congr ((_ * _) mod _)%Z; apply: pow_cong => //; rewrite h4.
by rewrite Z.mul_sub_distr_l Z.mul_1_r Zminus_mod h11 -Zminus_mod (_ : (V u + 1 - V u = 1)%Z) ?Z.mod_small //; lia.
Qed.
End Sound.

(** * From a checked certificate to primality *)
Lemma modnZ a c : Z.of_nat (a %% c.+1) = (Z.of_nat a mod Z.of_nat c.+1)%Z.
Proof.
have h1 := divn_eq a c.+1; have h2 : (a %% c.+1 < c.+1)%N by rewrite ltn_mod.
apply: (Z.mod_unique_pos _ _ (Z.of_nat (a %/ c.+1))); first by lia.
by rewrite {1}h1 Nat2Z.inj_add Nat2Z.inj_mul Z.mul_comm.
Qed.
Lemma divZ a b : (a %| b)%N -> (Z.of_nat a | Z.of_nat b)%Z.
Proof. by case/dvdnP=> c ->; exists (Z.of_nat c); rewrite Nat2Z.inj_mul. Qed.
Lemma divN a b : (Z.of_nat a | Z.of_nat b)%Z -> (a %| b)%N.
Proof.
case=> c hc; case: (Z.eq_dec (Z.of_nat b) 0) => hb; first by have -> : b = 0%N by lia.
have hc0 : (0 <= c)%Z by nia.
by apply/dvdnP; exists (Z.to_nat c); lia.
Qed.
Lemma primeZ p : prime.prime p -> Znumtheory.prime (Z.of_nat p).
Proof.
move=> hp; have h1 := prime_gt1 hp; apply: prime_intro; first by lia.
move=> n hn; apply/Zgcd_1_rel_prime; set d := Z.gcd n (Z.of_nat p).
have hd0 : (0 <= d)%Z by exact: Z.gcd_nonneg.
have hd : (Z.to_nat d %| p)%N by apply: divN; rewrite Z2Nat.id //; exact: Z.gcd_divide_r.
case/primeP: hp => _ /(_ _ hd) /orP[/eqP|/eqP] h; first by lia.
have : (d | n)%Z by exact: Z.gcd_divide_l.
by move/Z.divide_pos_le; lia.
Qed.
Lemma primeN p : prime.prime p <-> Znumtheory.prime (Z.of_nat p).
Proof.
split; first exact: primeZ.
move=> hp; have h1 := prime_ge_2 _ hp; apply/primeP; split; first by lia.
by move=> d /divZ /(prime_divisors _ hp); case=> [|[|[|]]]; lia.
Qed.

Section Cert.
Variables (beta : int) (k m : nat) (h : positive) (a : int) (us : seq (positive * seq int)).
Local Notation b := (Zpos (xO h)).
Theorem prime_of_check : (2 <= phi beta)%Z -> (0 < k)%N -> (2 * (Z.of_nat k * (phi beta * phi beta)) < wB)%Z ->
  (phi beta ^ Z.of_nat k = b ^ Z.of_nat m)%Z -> (0 < m)%N -> (1 <= phi a <= phi beta)%Z ->
  (forall q, Znumtheory.prime q -> (q | b)%Z ->
     exists2 i, (i < size us)%N & (q * Zpos (nth (1%positive, [::]) us i).1 = b)%Z) ->
  check beta k m h a us = true -> Znumtheory.prime (b ^ Z.of_nat m + 1).
Proof.
move=> hb hk hw hN hm ha hq hc.
have [h1 h2] := checkP hb hk hw hm (proj2 ha) hc; rewrite hN in h1 h2.
set M := (b ^ Z.of_nat m)%Z in h1 h2 *.
have hM : (2 <= M)%Z.
  by rewrite /M -(prednK hm) Nat2Z.inj_succ Z.pow_succ_r; [have := Z.pow_pos_nonneg b (Z.of_nat m.-1); nia|lia].
set bn := Z.to_nat b; have ebn : Z.of_nat bn = b by rewrite /bn Z2Nat.id.
have eM : Z.of_nat (bn ^ m) = M by rewrite of_nat_expn ebn.
set an := Z.to_nat (phi a); have ean : Z.of_nat an = phi a by rewrite /an Z2Nat.id; lia.
have hexp : (b ^ Z.of_nat m.-1 * b = M)%Z by rewrite /M -{2}(prednK hm) Nat2Z.inj_succ Z.pow_succ_r; [exact: Z.mul_comm|clear; lia].
have han : (0 < an)%N by move: ean ha; clear; lia.
clearbody bn an M.
have -> : (M + 1 = Z.of_nat (bn ^ m).+1)%Z by rewrite Nat2Z.inj_succ eM.
apply/primeN; apply: pock; first by move: eM hM; clear; lia.
move=> q hqp; rewrite [_.-1]/= => hqd.
have hqb : q %| bn by move: hqd; rewrite Euclid_dvdX // => /andP[].
have [||i hi ei] := hq (Z.of_nat q); first exact/primeN; first by rewrite -ebn; exact: divZ.
have [u hu] := h2 i hi; set p := (nth _ _ _).1 in ei hu.
exists an; split.
- rewrite -Z.pow_mul_r // ?hexp in h1; last by apply: Z.pow_nonneg.
  have e : Z.of_nat (an ^ (bn ^ m)) = (phi a ^ M)%Z by rewrite of_nat_expn ean eM.
  have hn : (1 < (bn ^ m).+1)%N by move: eM hM; clear; lia.
  rewrite [RHS]modn_small //; apply: Nat2Z.inj.
  by rewrite modnZ e Nat2Z.inj_succ eM.
- set X := (an ^ _)%N.
  have eX : Z.of_nat X = ((phi a ^ (b ^ Z.of_nat m.-1)) ^ Zpos p)%Z.
    rewrite /X of_nat_expn ean; have -> : Z.of_nat (bn ^ m %/ q) = (b ^ Z.of_nat m.-1 * Zpos p)%Z.
      have hq0 := prime_gt0 hqp; have : (bn ^ m %/ q * q = bn ^ m)%N by rewrite divnK.
      move/(f_equal Z.of_nat); rewrite Nat2Z.inj_mul eM -hexp.
      move=> ee; apply: (Z.mul_reg_r _ _ (Z.of_nat q)); first by move: hq0; clear; lia.
      by rewrite ee -Z.mul_assoc (Z.mul_comm (Zpos p)) ei.
    by rewrite Z.pow_mul_r //; apply: Z.pow_nonneg.
  rewrite -eX in hu; have hX : (0 < X)%N by rewrite /X expn_gt0 han.
  rewrite /coprime; set d := gcdn _ _.
  have /divZ [c1 e1] : d %| (bn ^ m).+1 by exact: dvdn_gcdl.
  have /divZ [c2 e2] : d %| (X - 1)%N by exact: dvdn_gcdr.
  have eM1 : Z.of_nat (bn ^ m).+1 = (M + 1)%Z by rewrite Nat2Z.inj_succ eM.
  have : (Z.of_nat d | 1)%Z.
    have := Z_div_mod_eq_full (u * (Z.of_nat X - 1)) (M + 1); rewrite hu -eM1 e1.
    have -> : (Z.of_nat X - 1 = c2 * Z.of_nat d)%Z by rewrite -e2; move: hX; clear; lia.
    set w := (_ / _)%Z => ee; exists (u * c2 - c1 * w)%Z; move: ee; clear; lia.
  by move/(Z.divide_1_r_nonneg _ (Nat2Z.is_nonneg _)) => hd; apply/eqP; apply: Nat2Z.inj.
Qed.
End Cert.

(** the prime divisors of a number with known factors *)
Lemma prime_in (ps : seq nat) b q : all prime.prime ps = true -> foldr (fun p r => Z.of_nat p * r)%Z 1%Z ps = b ->
  Znumtheory.prime q -> (q | b)%Z -> exists2 p, p \in ps & q = Z.of_nat p.
Proof.
move=> + + hq; elim: ps b => [|p ps IH] b /=.
  by move=> _ <- /Z.divide_1_r h; have := prime_ge_2 _ hq; lia.
case/andP=> hp hps <- /(prime_mult _ hq) [h|/(IH _ hps erefl) [p' h1 h2]].
- by exists p; [rewrite mem_head|apply: prime_div_prime => //; exact/primeN].
- by exists p'; [rewrite in_cons h1 orbT|].
Qed.
