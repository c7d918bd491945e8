(** Hash (C117), the order of vectors (C118) and SetInterface (C119) of the generated packages. *)
From Coq Require Import ZArith Lia.
From mathcomp Require Import all_ssreflect zify ssrZ.
From Verif Require Import JindoIntModel ZpModel ZpConst ZpProofs ZpField ZpConv ElemModel Prop_Zp Prop_Elem ApiModel.
Set Implicit Arguments. Unset Strict Implicit. Unset Printing Implicit Defensive.
Delimit Scope Z_scope with Z.
Local Arguments Z.mul : simpl never. Local Arguments Z.add : simpl never. Local Arguments Z.sub : simpl never.
Local Arguments Z.modulo : simpl never. Local Arguments Z.pow : simpl never. Local Arguments Z.of_nat : simpl never.
Local Arguments Z.div : simpl never.

(** * Specification *)
(** block i of length l of a list of bytes *)
Definition block (l i : nat) (b : seq Z) : seq Z := mkseq (fun j => nth 0%Z b (i * l + j)) l.
(** ExpandMsgXmd: an error, or as many bytes as asked for *)
Definition expands (expand : seq Z -> seq Z -> Z -> option (seq Z)) : Prop :=
  forall msg dst k b, expand msg dst k = Some b -> isBytes b /\ Z.of_nat (size b) = k.
(** all lists of l bytes *)
Fixpoint allBytes (l : nat) : seq (seq Z) :=
  if l is l'.+1 then flatten [seq [seq Z.of_nat a :: t | t <- allBytes l'] | a <- iota 0 256] else [:: [::]].
(** the integer an interface{} holds; a machine integer is in its range *)
Definition meaning (g : gen) (parse : seq Z -> option Z) (i : iface) : option Z :=
  match i with
  | INil | IOther | IUintP None | IBigP None => None
  | IUint x | IUintP (Some x) => Some (BigInt g x)
  | Iuint8 v | Iuint16 v | Iuint32 v | Iuint v | Iuint64 v | Iint8 v | Iint16 v | Iint32 v | Iint64 v | Iint v => Some v
  | Istring s => parse s
  | IBigP (Some v) | IBig v => Some v
  | Ibytes b => Some (bigEndian b)
  end.
Definition wellTyped (g : gen) (p : Z) (i : iface) : Prop :=
  match i with
  | IUint x | IUintP (Some x) => elt (Limbs g) p x
  | Iuint8 v => (0 <= v < 2 ^ 8)%Z | Iuint16 v => (0 <= v < 2 ^ 16)%Z | Iuint32 v => (0 <= v < 2 ^ 32)%Z
  | Iuint v | Iuint64 v => (0 <= v < 2 ^ 64)%Z
  | Iint8 v => (- 2 ^ 7 <= v < 2 ^ 7)%Z | Iint16 v => (- 2 ^ 15 <= v < 2 ^ 15)%Z | Iint32 v => (- 2 ^ 31 <= v < 2 ^ 31)%Z
  | Iint v | Iint64 v => (- 2 ^ 63 <= v < 2 ^ 63)%Z
  | Ibytes b => isBytes b
  | _ => True
  end.

(** * C117 *)
Lemma block_slice l i b : (i.+1 * l <= size b)%N -> take l (drop (i * l) b) = block l i b.
Proof.
move=> h; apply: (@eq_from_nth _ 0%Z) => [|j]; rewrite size_takel ?size_drop ?size_mkseq //; try (rewrite mulSn in h; lia).
by move=> hj; rewrite nth_take // nth_drop nth_mkseq.
Qed.
Lemma block_bytes l i b : isBytes b -> (i.+1 * l <= size b)%N -> isBytes (block l i b).
Proof.
move=> hb h j; rewrite size_mkseq => hj; rewrite nth_mkseq //; apply: hb; rewrite mulSn in h; lia.
Qed.
(** count elements; element i is block i of the expanded message, read big-endian, modulo p *)
Theorem C117_Hash g p expand msg dst count : List.In (g, p) packages -> expands expand ->
  (0 <= count)%Z -> (count * Z.of_nat (hashL g) < 2 ^ 63)%Z ->
  match expand msg dst (count * Z.of_nat (hashL g))%Z with
  | Some b => exists2 r, Hash g expand msg dst count = Ok r & Z.of_nat (size r) = count /\
      forall i, (i < size r)%N -> elt (Limbs g) p (nth [::] r i) /\
        BigInt g (nth [::] r i) = (bigEndian (block (hashL g) i b) mod p)%Z
  | None => Hash g expand msg dst count = Err _
  end.
Proof.
move=> hg hx h0 h1; set k := (_ * _)%Z in h1 *.
have hk : (0 <= k)%Z by apply: Z.mul_nonneg_nonneg; lia.
have hw : wrap k = k by rewrite /wrap Z.mod_small; lia.
rewrite /Hash -/k hw; case E: (expand msg dst k) => [b|] //.
have [hb hs] := hx _ _ _ _ E; rewrite hs Z.ltb_irrefl.
have -> : (count <? 0)%Z = false by lia.
eexists; first reflexivity.
rewrite size_mkseq Z2Nat.id //; split=> // i hi; rewrite nth_mkseq //.
have hl : (i.+1 * hashL g <= size b)%N.
  have h2 : (Z.of_nat i.+1 * Z.of_nat (hashL g) <= k)%Z by apply: Z.mul_le_mono_nonneg_r; lia.
  by move: h2; rewrite -hs; clear; lia.
have [h2 h3] := C69_SetBigInt (foldl (fun acc d => acc * 256 + d)%Z 0%Z (take (hashL g) (drop (i * hashL g) b))) hg.
by split=> //; rewrite h3 block_slice // beE.
Qed.
(** the blocks are 128 bits longer than the modulus *)
Definition wideOk (gp : gen * Z) : bool := (2 ^ 128 * gp.2 <=? 256 ^ Z.of_nat (hashL gp.1))%Z.
Lemma wide_ok : all wideOk packages. Proof. by vm_compute. Qed.
Lemma modulus_ok : all (fun gp => 0 <? gp.2)%Z packages. Proof. by vm_compute. Qed.
Theorem C117_wide g p : List.In (g, p) packages -> (2 ^ 128 * p <= 256 ^ Z.of_nat (hashL g))%Z.
Proof. by move=> hg; have /Z.leb_le := In_all wide_ok hg. Qed.
Lemma flat_iota k m : flatten [seq [seq (a * m + v)%N | v <- iota 0 m] | a <- iota 0 k] = iota 0 (k * m).
Proof.
elim: k => [|k IH] //; rewrite -{1}addn1 iotaD map_cat flatten_cat IH /= cats0 mulSnr iotaD.
by rewrite -[(0 + k * m)%N]addn0 iotaDl !add0n.
Qed.
Lemma size_allBytes l b : b \in allBytes l -> size b = l.
Proof.
elim: l b => [|l IH] b; first by rewrite inE => /eqP ->.
rewrite -[allBytes l.+1]/(flatten [seq [seq Z.of_nat a :: t | t <- allBytes l] | a <- iota 0 256]).
by move=> /flattenP[s /mapP[a _ ->] /mapP[t /IH ht ->]] /=; rewrite ht.
Qed.
Lemma allBytes_iota l : map bigEndian (allBytes l) = [seq Z.of_nat v | v <- iota 0 (256 ^ l)].
Proof.
elim: l => [|l IH]; first by rewrite /= beE.
rewrite -[allBytes l.+1]/(flatten [seq [seq Z.of_nat a :: t | t <- allBytes l] | a <- iota 0 256]) expnS -flat_iota !map_flatten -!map_comp.
congr flatten; apply: eq_map => a /=; rewrite -!map_comp.
transitivity [seq (Z.of_nat a * 256 ^ Z.of_nat l + v)%Z | v <- map bigEndian (allBytes l)].
  rewrite -map_comp; apply/eq_in_map => t /size_allBytes ht /=; rewrite !beE -cat1s beVal_cat ht.
  by rewrite /beVal /= Z.mul_0_l Z.add_0_l.
rewrite IH -map_comp; apply: eq_map => v /=.
by rewrite Nat2Z.inj_add Nat2Z.inj_mul; congr (_ * _ + _)%Z; elim: l {IH} => // l IH; rewrite expnS Nat2Z.inj_mul -IH Nat2Z.inj_succ Z.pow_succ_r //; lia.
Qed.
Lemma count_mod (N : nat) p r : (0 <= r < p)%Z ->
  Z.of_nat (count (fun v => Z.of_nat v mod p =? r)%Z (iota 0 N)) = ((Z.of_nat N + (p - 1 - r)) / p)%Z.
Proof.
move=> hr; elim: N => [|N IH]; first by rewrite /= Z.add_0_l Z.div_small //; lia.
rewrite -{1}addn1 iotaD count_cat Nat2Z.inj_add IH /= add0n addn0.
have hd := Z_div_mod_eq_full (Z.of_nat N + (p - 1 - r)) p; have hm := Z.mod_pos_bound (Z.of_nat N + (p - 1 - r)) p ltac:(lia).
set A := (_ / p)%Z in hd *; set B := (_ mod p)%Z in hd hm.
have hN := Z_div_mod_eq_full (Z.of_nat N) p; have hM := Z.mod_pos_bound (Z.of_nat N) p ltac:(lia).
have -> : (Z.of_nat N.+1 + (p - 1 - r) = Z.of_nat N + (p - 1 - r) + 1)%Z by lia.
rewrite hd.
case: Z.eqb_spec => h.
- have hB : B = (p - 1)%Z.
    rewrite /B -Zplus_mod_idemp_l h Z.mod_small; lia.
  by rewrite hB; have -> : (p * A + (p - 1) + 1 = (A + 1) * p)%Z by [ring]; rewrite Z.div_mul; lia.
- have hB : (B < p - 1)%Z.
    rewrite /B -Zplus_mod_idemp_l; move: h hM; move: (Z.of_nat N mod p)%Z => s h hM.
    have [h'|h'] : (s < r \/ r < s)%Z by lia.
      by rewrite Z.mod_small; lia.
    have -> : (s + (p - 1 - r) = s - r - 1 + 1 * p)%Z by ring.
    by rewrite Z_mod_plus_full Z.mod_small; lia.
  have -> : (p * A + B + 1 = A * p + (B + 1))%Z by ring.
  by rewrite Z.div_add_l; [rewrite Z.div_small; lia|lia].
Qed.
(** on uniformly random blocks every residue r is hit with probability within 2^-128 / p of 1/p *)
Theorem C117_uniform g p r : List.In (g, p) packages -> (0 <= r < p)%Z ->
  let total := Z.of_nat (size (allBytes (hashL g))) in
  let hits := Z.of_nat (count (fun b => BigInt g (SetBigInt g (bigEndian b)) =? r)%Z (allBytes (hashL g))) in
  total = (256 ^ Z.of_nat (hashL g))%Z /\ (2 ^ 128 * Z.abs (p * hits - total) <= total)%Z.
Proof.
move=> hg hr total hits.
have pw l : Z.of_nat (256 ^ l)%N = (256 ^ Z.of_nat l)%Z.
  by elim: l => // l IH; rewrite expnS Nat2Z.inj_mul IH (Nat2Z.inj_succ l) Z.pow_succ_r //; lia.
have hT : total = (256 ^ Z.of_nat (hashL g))%Z.
  by rewrite /total -(size_map bigEndian) allBytes_iota size_map size_iota pw.
have hH : hits = ((total + (p - 1 - r)) / p)%Z.
  rewrite hT -pw -count_mod // /hits; congr Z.of_nat.
  rewrite -(count_map Z.of_nat (fun v => v mod p =? r)%Z) -allBytes_iota count_map.
  by apply: eq_count => b /=; have [_ ->] := C69_SetBigInt (bigEndian b) hg.
split=> //; have hw := C117_wide hg; rewrite -hT in hw.
have hd := Z_div_mod_eq_full (total + (p - 1 - r)) p; have hm := Z.mod_pos_bound (total + (p - 1 - r)) p ltac:(lia).
rewrite -hH in hd; move: hw hd hm hr; move: (_ mod p)%Z (p * hits)%Z => s X; clear; lia.
Qed.

(** * C118 *)
Theorem C118_Less g p v i j : List.In (g, p) packages -> (forall k, (k < size v)%N -> elt (Limbs g) p (nth [::] v k)) ->
  (i < size v)%N -> (j < size v)%N ->
  exists2 b, Less g v i j = Some b & b = true <-> (BigInt g (nth [::] v i) < BigInt g (nth [::] v j))%Z.
Proof.
move=> hg hv hi hj; rewrite /Less hi hj; eexists; first reflexivity.
have [_ h _ _] := C70_Cmp hg (hv i hi) (hv j hj); rewrite -h.
by split=> /Z.eqb_eq.
Qed.
Theorem C118_Swap v i j : (i < size v)%N -> (j < size v)%N ->
  exists2 v', Swap v i j = Some v' & [/\ perm_eq v' v, nth [::] v' i = nth [::] v j, nth [::] v' j = nth [::] v i &
    forall k, k <> i -> k <> j -> nth [::] v' k = nth [::] v k].
Proof.
move=> hi hj; rewrite /Swap hi hj; eexists; first reflexivity; split.
- set v' := set_nth _ _ _ _.
  have hs : size v' = size v by rewrite !size_set_nth; move/maxn_idPr: hi => ->; move/maxn_idPr: hj => ->.
  apply/(perm_iotaP [::]); pose s k := if k == j then i else if k == i then j else k.
  exists (map s (iota 0 (size v))).
    apply: uniq_perm; rewrite ?iota_uniq // ?map_inj_in_uniq ?iota_uniq //.
      by move=> a b _ _; rewrite /s; repeat (case: eqP => ?); lia.
    move=> k; rewrite mem_iota /= add0n; apply/mapP/idP => [[a]|hk].
      by rewrite mem_iota add0n => /andP[_ ha] ->; rewrite /s; repeat (case: eqP => ?).
    exists (s k); first by rewrite mem_iota add0n /s; repeat (case: eqP => ?); lia.
    by rewrite /s; case: (k =P j) => h1; [|case: (k =P i) => h2]; repeat (case: eqP => ?); lia.
  apply: (@eq_from_nth _ [::]) => [|k]; first by rewrite !size_map size_iota.
  rewrite hs => hk; rewrite (nth_map 0%N) ?size_map ?size_iota // (nth_map 0%N) ?size_iota // nth_iota // add0n.
  rewrite /v' !nth_set_nth /= /s; case: (k == j) => //.
  by rewrite nth_set_nth /=; case: (k == i).
- by rewrite nth_set_nth /= nth_set_nth /= eqxx; case: eqP => // ->.
- by rewrite nth_set_nth /= eqxx.
- by move=> k /eqP hi' /eqP hj'; rewrite nth_set_nth /= (negbTE hj') nth_set_nth /= (negbTE hi').
Qed.
(** whatever swaps a sorting procedure makes: if afterwards no element is Less than its predecessor,
    the vector is the old one in ascending order of the values *)
Theorem C118_sort g p v l v' : List.In (g, p) packages -> (forall k, (k < size v)%N -> elt (Limbs g) p (nth [::] v k)) ->
  swaps l v = Some v' -> (forall k, (k.+1 < Len v')%N -> Less g v' k.+1 k = Some false) ->
  perm_eq v' v /\ forall i j, (i <= j < size v)%N -> (BigInt g (nth [::] v' i) <= BigInt g (nth [::] v' j))%Z.
Proof.
move=> hg hv hl hk.
have hp : perm_eq v' v.
  elim: l v hl {hv} => [|[i j] l IH] v /=; first by case=> ->.
  case E: (Swap v i j) => [w|] // /IH h; apply: perm_trans h _.
  have [hi hj] : (i < size v)%N /\ (j < size v)%N by move: E; rewrite /Swap; case: ifP => // /andP[].
  by have [w'] := C118_Swap hi hj; rewrite E => -[->] [].
split=> // i j; rewrite -(perm_size hp) => /andP[hij hj].
have hv' k : (k < size v')%N -> elt (Limbs g) p (nth [::] v' k).
  move=> h; have : nth [::] v' k \in v by rewrite -(perm_mem hp) mem_nth.
  by move=> /(nthP [::]) [a ha <-]; apply: hv.
have step k : (k.+1 < size v')%N -> (BigInt g (nth [::] v' k) <= BigInt g (nth [::] v' k.+1))%Z.
  move=> h; have [b] := C118_Less hg hv' h (ltnW h); rewrite hk // => -[<-] hb.
  by case: (Z.leb_spec (BigInt g (nth [::] v' k)) (BigInt g (nth [::] v' k.+1))) => // /hb.
elim: j hij hj => [|j IH]; first by rewrite leqn0 => /eqP -> _; lia.
rewrite leq_eqVlt => /orP[/eqP -> _|]; first by lia.
by rewrite ltnS => hij hj; have := IH hij (ltnW hj); have := step j hj; lia.
Qed.

(** * C119 *)
(** an interface{} that holds an integer sets z to it modulo p, anything else is an error *)
Theorem C119_SetInterface g p parse i : List.In (g, p) packages -> wellTyped g p i ->
  match SetInterface g parse i with
  | Some z => exists2 v, meaning g parse i = Some v & elt (Limbs g) p z /\ BigInt g z = (v mod p)%Z
  | None => meaning g parse i = None
  end.
Proof.
move=> hg; have pkg := pkg_ok hg.
have U v : (0 <= v < 2 ^ 64)%Z -> exists2 v', Some v = Some v' & elt (Limbs g) p (SetUint64 g v) /\ BigInt g (SetUint64 g v) = (v' mod p)%Z.
  by move=> h; exists v => //; exact: C69_SetUint64.
have I v : (- 2 ^ 63 <= v < 2 ^ 63)%Z -> exists2 v', Some v = Some v' & elt (Limbs g) p (SetInt64 g v) /\ BigInt g (SetInt64 g v) = (v' mod p)%Z.
  by move=> h; exists v => //; exact: C69_SetInt64.
have E x : elt (Limbs g) p x -> exists2 v, Some (BigInt g x) = Some v & elt (Limbs g) p x /\ BigInt g x = (v mod p)%Z.
  by move=> h; exists (BigInt g x) => //; split=> //; have [h1 _ _] := C69_BigInt hg h; rewrite Z.mod_small.
have Bg v : exists2 v', Some v = Some v' & elt (Limbs g) p (SetBigInt g v) /\ BigInt g (SetBigInt g v) = (v' mod p)%Z.
  by exists v => //; exact: C69_SetBigInt.
case: i => //=; try (move=> v h; (apply: U || apply: I || apply: E); lia || exact: h); try by [].
- by case=> // x; exact: E.
- move=> s _; have := C108_SetString parse s hg; case: (SetString _ _ _) => [z [v [h1 h2 h3]]|->] //.
  by exists v.
- by case.
- by move=> b hb; exists (bigEndian b) => //; exact: C69_SetBytes.
Qed.

(** * Concrete cases *)
(** the constants Bits of the seven packages *)
Example ex_bits : [seq bitsC gp.1 | gp <- packages] = [:: 110; 220; 440; 880; 255; 240; 128]%N.
Proof. by vm_compute. Qed.
(** an expander: the bytes 0, 1, 2, ... up to 255 bytes, an error above *)
Definition count255 (msg dst : seq Z) (k : Z) : option (seq Z) :=
  if (0 <=? k)%Z && (k <=? 255)%Z then Some [seq Z.of_nat j | j <- iota 0 (Z.to_nat k)] else None.
Example ex_expands : expands count255.
Proof.
move=> msg dst k b; rewrite /count255; case: ifP => // /andP[/Z.leb_le h0 /Z.leb_le h1] [<-].
split=> [j|]; last by rewrite size_map size_iota Z2Nat.id.
by rewrite size_map size_iota => hj; rewrite (nth_map 0%N) ?size_iota // nth_iota //; lia.
Qed.
Example ex_Hash : if Hash zp220 count255 [::] [::] 2 is Ok r
  then [seq BigInt zp220 x | x <- r] = [:: beVal (map Z.of_nat (iota 0 44)) mod zp220_modulus; beVal (map Z.of_nat (iota 44 44)) mod zp220_modulus]%Z
  else False.
Proof. by vm_compute. Qed.
Example ex_Hash_err : Hash zp220 count255 [::] [::] 6 = Err _.
Proof. by vm_compute. Qed.
(** a negative count asks for a negative number of bytes; if that is not an error, make panics *)
Example ex_Hash_panic : Hash zp220 (fun _ _ _ => Some [::]) [::] [::] (-1) = Panic _.
Proof. by vm_compute. Qed.
Example ex_sort : let v := [:: exE 9; exE (-1); exE 4] in
  [/\ Less zp220 v 0 1 = Some true, Less zp220 v 2 0 = Some true, Less zp220 v 0 3 = None &
  exists2 v', swaps [:: (0, 2); (1, 2)]%N v = Some v' & map (BigInt zp220) v' = [:: 4; 9; zp220_modulus - 1]%Z].
Proof. by split; [vm_compute|vm_compute|vm_compute|eexists; [vm_compute; reflexivity|vm_compute]]. Qed.
Example ex_SetInterface : [/\ omap (BigInt zp220) (SetInterface zp220 (fun=> Some (-5)%Z) (Iint8 (-3))) = Some (zp220_modulus - 3)%Z,
  omap (BigInt zp220) (SetInterface zp220 (fun=> Some (-5)%Z) (Ibytes [:: 1; 2]%Z)) = Some 258%Z,
  omap (BigInt zp220) (SetInterface zp220 (fun=> Some (-5)%Z) (Istring [:: 45; 53]%Z)) = Some (zp220_modulus - 5)%Z &
  SetInterface zp220 (fun=> Some (-5)%Z) (IBigP None) = None].
Proof. by vm_compute. Qed.

Print Assumptions C117_Hash.
Print Assumptions C117_wide.
Print Assumptions C117_uniform.
Print Assumptions C118_Less.
Print Assumptions C118_Swap.
Print Assumptions C118_sort.
Print Assumptions C119_SetInterface.
