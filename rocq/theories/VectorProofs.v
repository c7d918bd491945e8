(** Lemmas about the vectors of the limb types. *)
From Coq Require Import ZArith Znumtheory Lia.
From mathcomp Require Import all_ssreflect zify ssrZ.
From Verif Require Import JindoIntModel ZpModel ZpProofs CsprngProofs ZpField ZpConv VectorModel.
Set Implicit Arguments. Unset Strict Implicit. Unset Printing Implicit Defensive.
Delimit Scope Z_scope with Z.
Local Arguments Z.mul : simpl never.
Local Arguments Z.add : simpl never.
Local Arguments Z.sub : simpl never.
Local Arguments Z.div : simpl never.
Local Arguments Z.modulo : simpl never.
Local Arguments Z.pow : simpl never.
Local Arguments Z.of_nat : simpl never.
Local Arguments Z.to_nat : simpl never.
Local Arguments Z.lor : simpl never.
Local Arguments Z.shiftl : simpl never.
Local Arguments Z.shiftr : simpl never.

(** * execute *)
Definition items (l : seq (nat * nat)) : seq nat := flatten [seq iota se.1 (se.2 - se.1) | se <- l].
Lemma spreadP tasks i per extra offset : (extra <= tasks)%N ->
  items (spread tasks i per extra offset) = iota (i * per + offset) (tasks * per + extra) /\
  size (spread tasks i per extra offset) = tasks /\
  (forall se, se \in spread tasks i per extra offset -> (per <= se.2 - se.1 <= per + (0 < extra))%N).
Proof.
elim: tasks i extra offset => [|tasks IH] i extra offset.
  by rewrite leqn0 => /eqP ->; rewrite /items /=; split.
move=> he /=; case: (ltnP 0 extra) => h0.
- have [|e1 [e2 e3]] := IH i.+1 extra.-1 offset.+1; first lia.
  rewrite /items /= in e1 *; rewrite e1 e2; split; [|split=> //].
    rewrite (_ : tasks.+1 * per + extra = per.+1 + (tasks * per + extra.-1))%N ?(iotaD _ per.+1); last lia.
    by congr (_ ++ _); [congr (iota _ _)|congr (iota _ _)]; lia.
  move=> [a b]; rewrite inE addn1 => /orP[/eqP [-> ->] /=|/e3 /=]; first by apply/andP; lia.
  by case: (0 < extra.-1)%N; rewrite ?addn1 ?addn0 => /andP[h1 h2]; apply/andP; lia.
- have [|e1 [e2 e3]] := IH i.+1 extra offset; first lia.
  rewrite /items /= in e1 *; rewrite e1 e2; split; [|split=> //].
    rewrite (_ : tasks.+1 * per + extra = per + (tasks * per + extra))%N ?(iotaD _ per); last lia.
    by congr (_ ++ _); [congr (iota _ _)|congr (iota _ _)]; lia.
  move=> [a b]; rewrite inE addn0 => /orP[/eqP [-> ->] /=|/e3 /=]; first by apply/andP; lia.
  by rewrite ltnNge h0 addn0.
Qed.

Lemma executeP nb cpu mc : (0 < nbTasks cpu mc)%N ->
  items (execute nb cpu mc) = iota 0 nb /\
  ((1 < nbTasks cpu mc)%N -> size (execute nb cpu mc) = minn (nbTasks cpu mc) nb) /\
  (forall se, se \in execute nb cpu mc -> (nb %/ nbTasks cpu mc <= se.2 - se.1 <= (nb %/ nbTasks cpu mc).+1)%N).
Proof.
rewrite /execute; set t := nbTasks cpu mc => ht.
case: eqP => [->|t1].
  rewrite /items /= cats0 subn0; split=> //; split=> // se; rewrite inE => /eqP -> /=; rewrite divn1; lia.
have hm := divn_eq nb t; have hl := ltn_pmod nb ht.
case: (ltnP (nb %/ t) 1) => h.
  have [|e1 [e2 e3]] := @spreadP nb 0 1 (nb - nb * 1) 0; first lia.
  rewrite e1 e2; split; [congr (iota _ _); lia|split; [lia|]].
  by move=> [a b] /e3 /=; move: h; rewrite ltnS leqn0 => /eqP ->; rewrite muln1 subnn addn0 => /andP[_ ->].
have [|e1 [e2 e3]] := @spreadP t 0 (nb %/ t) (nb - t * (nb %/ t)) 0; first lia.
rewrite e1 e2; split; [congr (iota _ _); lia|split; [by move=> _; apply/esym/minn_idPl; nia|]].
move=> [a b] /e3 /= /andP[h1 h2]; move: h2; case: (0 < _)%N; rewrite ?addn1 ?addn0 => h2; apply/andP; split=> //; exact: leq_trans h2 _.
Qed.

(** * bytes *)
Lemma beVal_inj a b : all byte a -> all byte b -> size a = size b -> beVal a = beVal b -> a = b.
Proof.
elim/last_ind: a b => [|a x IH] b ha hb; first by case: b hb.
case/lastP: b hb => [|b y] hb; first by rewrite size_rcons.
rewrite !size_rcons => -[hs]; move: ha hb; rewrite !all_rcons => /andP[/byteP hx ha] /andP[/byteP hy hb].
have e c (d : Z) : beVal (rcons c d) = (beVal c * 256 + d)%Z.
  by rewrite -cats1 beVal_cat /=; rewrite -[beVal [:: d]]/(0 * 256 + d)%Z Z.pow_1_r; lia.
rewrite !e => h; have h1 : beVal a = beVal b by lia.
by rewrite (IH b ha hb hs h1); congr rcons; lia.
Qed.
Lemma leVal_inj a b : all byte a -> all byte b -> size a = size b -> leVal a = leVal b -> a = b.
Proof.
elim: a b => [|x a IH] [|y b] //= /andP[/byteP hx ha] /andP[/byteP hy hb] [hs] h.
by rewrite (IH b ha hb hs); [congr cons; lia|lia].
Qed.
Lemma digits_byte (f : nat -> Z) k : all byte (mkseq (fun i => (f i mod 256)%Z) k).
Proof. by rewrite all_map; apply/allP => i _ /=; apply/byteP; have := Z.mod_pos_bound (f i) 256; lia. Qed.
Lemma putUint32P l : [/\ size (putUint32 l) = 4%N, all byte (putUint32 l) & beVal (putUint32 l) = (l mod 2 ^ 32)%Z].
Proof.
split; [by rewrite size_mkseq|exact: digits_byte|].
have := Z.mod_pos_bound l (2 ^ 32); rewrite /putUint32 /mkseq /= /beVal /=; move: (l mod _)%Z => v hv.
rewrite !Z.shiftr_div_pow2 //.
have -> : (2 ^ (8 * Z.of_nat (3 - 0)) = 256 * 256 * 256)%Z by [].
have -> : (2 ^ (8 * Z.of_nat (3 - 1)) = 256 * 256)%Z by [].
have -> : (2 ^ (8 * Z.of_nat (3 - 2)) = 256)%Z by [].
have -> : (2 ^ (8 * Z.of_nat (3 - 3)) = 1)%Z by [].
have {}hv : (0 <= v < 4294967296)%Z by apply: hv.
rewrite -!Z.div_div // Z.div_1_r.
have e1 := Z.div_mod v 256; have e2 := Z.div_mod (v / 256) 256; have e3 := Z.div_mod (v / 256 / 256) 256.
rewrite (Z.mod_small (v / 256 / 256 / 256) 256); first lia.
by split; [do 3 (apply: Z.div_pos => //); lia|do 3 (apply: Z.div_lt_upper_bound => //); lia].
Qed.
Lemma putLE_getLE b : all byte b -> size b = 8%N -> putLE (getLE b) = b.
Proof.
move=> hb hs; have hg : getLE b = leVal b by exact: lor_leVal.
apply: (@eq_from_nth _ 0%Z); first by rewrite size_mkseq hs.
rewrite size_mkseq => i hi; rewrite nth_mkseq // hg.
rewrite Z.shiftr_div_pow2; last lia.
have hi' : (i < size b)%N by rewrite hs.
have ht : size (take i b) = i by rewrite size_take hi'.
rewrite -[in X in (X / _)%Z](cat_take_drop i b) leVal_cat ht.
rewrite (drop_nth 0%Z) // /=.
have [h1 h2] : all byte (take i b) /\ byte (nth 0%Z b i).
  by move: hb; rewrite -{1}(cat_take_drop i b) (drop_nth 0%Z) // all_cat /= => /and3P[].
have hl := leVal_lt h1; rewrite ht in hl.
have -> : (2 ^ (8 * Z.of_nat i) = 256 ^ Z.of_nat i)%Z by rewrite Z.pow_mul_r //; lia.
rewrite (Z.mul_comm (256 ^ _)) Z.div_add ?(Z.div_small (leVal _)) //; last by have := Z.pow_pos_nonneg 256 (Z.of_nat i); lia.
by move/byteP: h2 => h2; rewrite Z.add_0_l Z.mul_comm Z_mod_plus_full Z.mod_small.
Qed.
Lemma leVal_rev b : leVal (rev b) = beVal b.
Proof.
elim/last_ind: b => // b d IH; rewrite rev_rcons /= IH -cats1 beVal_cat /=.
rewrite -[beVal [:: d]]/(0 * 256 + d)%Z Z.pow_1_r; lia.
Qed.
Lemma putLE_rev w : putLE w = rev (putBE w).
Proof. by []. Qed.
Lemma putLEP w : word w -> [/\ size (putLE w) = 8%N, all byte (putLE w) & getLE (putLE w) = w].
Proof.
move=> hw; have [h1 h2 h3] := putBEP hw; rewrite putLE_rev size_rev all_rev; split=> //.
by rewrite /getLE lor_leVal ?all_rev // leVal_rev.
Qed.
Lemma getLE_word b : all byte b -> size b = 8%N -> word (getLE b).
Proof. by move=> hb hs; rewrite /getLE lor_leVal //; apply/wordP; have := leVal_lt hb; rewrite hs; wl. Qed.

Lemma zadd (a b : nat) : Z.of_nat (a + b)%N = (Z.of_nat a + Z.of_nat b)%Z.
Proof. lia. Qed.

Section Gen.
Variables (g : gen) (ok : okGen g).
Local Notation q := (qs g).
Local Notation n := (Limbs g).
Local Notation Q := (val (qs g)).
Local Notation ev := (ev g).
Local Notation Bytes := (Bytes g).

Lemma Bytes_gt0 : (0 < Bytes)%N.
Proof. by rewrite /VectorModel.Bytes muln_gt0 /=; have := ok_size ok; lia. Qed.
Lemma beElement_Marshal x : red g x -> beElement g (Marshal g x) = Some x.
Proof.
move=> hx; have [h1 h2 h3] := MarshalP ok (proj1 hx); have := beElementP ok h2 h1.
have hr := ev_range ok (proj1 hx).
case: beElement => [z [_ h4 h5]|]; last by rewrite h3; lia.
by congr Some; apply: (ev_inj ok h4 hx); rewrite h5.
Qed.
Lemma Marshal_beElement e z : all byte e -> size e = Bytes -> beElement g e = Some z -> red g z /\ Marshal g z = e.
Proof.
move=> he hs h; have := beElementP ok he hs; rewrite h => -[_ hz ez]; split=> //.
have [h1 h2 h3] := MarshalP ok (proj1 hz).
by apply: beVal_inj => //; rewrite ?h1 ?h3.
Qed.

(** * the serial reader *)
Lemma readLoopS k i hd tot vec s : readLoop g k.+1 i hd tot vec s =
    let: (buf, err, rest) := readFull Bytes s in
    match err with
    | Some UnexpectedEOF => ReadRes (tot + Z.of_nat (size buf))%Z (Some (LessData i hd)) vec rest
    | Some EOF => ReadRes (tot + Z.of_nat (size buf))%Z (Some (ReadingElement i)) vec rest
    | None =>
        if beElement g buf is Some el then readLoop g k (i + 1)%Z hd (tot + Z.of_nat (size buf))%Z (rcons vec el) rest
        else ReadRes (tot + Z.of_nat (size buf))%Z (Some (DecodingElement i)) vec rest
    end.
Proof. by []. Qed.
Lemma WriteToE vec : (forall x, x \in vec -> red g x) ->
  WriteTo g vec = (putUint32 (Z.of_nat (size vec)) ++ flatten [seq Marshal g x | x <- vec],
                   (4 + Z.of_nat (Bytes * size vec))%Z).
Proof.
rewrite /WriteTo; set h := putUint32 _; set t := 4%Z; rewrite -[h in RHS]cats0.
move: h t => h t hv; rewrite cats0.
elim: vec h t hv => [|x vec IH] h t hv /=; first by rewrite cats0 muln0 Z.add_0_r.
rewrite IH; last by move=> y hy; apply: hv; rewrite inE hy orbT.
have [h1 _ _] := MarshalP ok (proj1 (hv x (mem_head _ _))).
by rewrite -catA h1; congr pair; rewrite -/Bytes mulnS (zadd Bytes) Z.add_assoc.
Qed.
Lemma readFullE k s : (k <= size s)%N -> readFull k s = (take k s, None, drop k s).
Proof. by rewrite /readFull => ->. Qed.
Lemma readFullN k s : (size s < k)%N -> exists e, (readFull k s).1.2 = Some e.
Proof. by rewrite /readFull ltnNge => /negbTE -> /=; case: s => [|a s]; eexists. Qed.
Lemma readLoop_ok els i hd tot vec rest : (forall x, x \in els -> red g x) ->
  readLoop g (size els) i hd tot vec (flatten [seq Marshal g x | x <- els] ++ rest) =
  ReadRes (tot + Z.of_nat (Bytes * size els)) None (vec ++ els) rest.
Proof.
elim: els i tot vec => [|x els IH] i tot vec hv; first by rewrite muln0 Z.add_0_r cats0.
have hx := hv x (mem_head _ _); have [h1 _ _] := MarshalP ok (proj1 hx).
rewrite [size _]/= [flatten _]/= -catA readLoopS readFullE; last by rewrite size_cat h1 leq_addr.
rewrite take_size_cat // drop_size_cat // beElement_Marshal // IH; last by move=> y hy; apply: hv; rewrite inE hy orbT.
by rewrite cat_rcons h1 -/Bytes mulnS (zadd Bytes) Z.add_assoc.
Qed.
Lemma readLoop_inv k i hd tot vec s : all byte s -> rrErr (readLoop g k i hd tot vec s) = None ->
  exists els rest, [/\ size els = k, (forall x, x \in els -> red g x),
    s = flatten [seq Marshal g x | x <- els] ++ rest &
    readLoop g k i hd tot vec s = ReadRes (tot + Z.of_nat (Bytes * size els)) None (vec ++ els) rest].
Proof.
elim: k i tot vec s => [|k IH] i tot vec s hs.
  by move=> _; exists [::], s; split=> //; rewrite muln0 Z.add_0_r cats0.
case: (leqP Bytes (size s)) => hl; last first.
  by have [e] := readFullN hl; rewrite readLoopS; case: readFull => -[buf err] rest /= ->; case: e.
rewrite readLoopS readFullE //.
have hb : all byte (take Bytes s) /\ all byte (drop Bytes s) by apply/andP; rewrite -all_cat cat_take_drop.
have hsz : size (take Bytes s) = Bytes by rewrite size_takel.
case e : (beElement g (take Bytes s)) => [el|] //.
have [h1 h2] := Marshal_beElement hb.1 hsz e.
move=> /(IH _ _ _ _ hb.2) [els [rest [e1 e2 e3 e4]]].
exists (el :: els), rest; split=> /=.
- by rewrite e1.
- by move=> x; rewrite inE => /orP[/eqP ->|/e2].
- by rewrite h2 -catA -e3 cat_take_drop.
- by rewrite e4 cat_rcons hsz mulnS (zadd Bytes) Z.add_assoc.
Qed.

(** * the concurrent reader *)
Local Opaque putLE getLE.
Lemma rawBytesK b : all byte b -> size b = Bytes -> rawBytes (rawLimbs g b) = b.
Proof.
rewrite /rawBytes /rawLimbs /VectorModel.Bytes; move: n => k; elim: k b => [|k IH] b hb.
  by rewrite muln0; case: b hb.
rewrite mulnS => hs /=.
have hb' : all byte (take 8 b) /\ all byte (drop 8 b) by apply/andP; rewrite -all_cat cat_take_drop.
rewrite putLE_getLE ?IH ?cat_take_drop; try by case: hb'.
- by rewrite size_drop hs addKn.
- by rewrite size_takel // hs leq_addr.
Qed.
Lemma rawVecS k b : rawVec g k.+1 b = rawLimbs g (take Bytes b) :: rawVec g k (drop Bytes b).
Proof. by []. Qed.
Lemma rawVec_cat a b x y : size x = (a * Bytes)%N -> rawVec g (a + b) (x ++ y) = rawVec g a x ++ rawVec g b y.
Proof.
elim: a x => [|a IH] x hs; first by case: x hs.
have hl : (Bytes <= size x)%N by rewrite hs mulSn leq_addr.
rewrite addSn !rawVecS cat_cons -IH; last by rewrite size_drop hs mulSn addKn.
congr (rawLimbs g _ :: rawVec g _ _); rewrite ?drop_cat ?take_cat.
- by move: hl; rewrite leq_eqVlt => /orP[/eqP ->|->] //; rewrite ltnn subnn take0 take_size cats0.
- by move: hl; rewrite leq_eqVlt => /orP[/eqP ->|->] //; rewrite ltnn subnn drop0 drop_size.
Qed.
Lemma size_rawVec k b : size (rawVec g k b) = k.
Proof. by elim: k b => // k IH b; rewrite rawVecS /= IH. Qed.
Lemma maxAlloc_gt0 : (Z.of_nat Bytes <= 2 ^ 32)%Z -> (0 < maxAllocateSliceLength g)%Z.
Proof. by move=> h; apply: Z.div_str_pos; have := Bytes_gt0; lia. Qed.
Lemma asyncLoopS fuel i hd tot vec s : (i < hd)%Z ->
  asyncLoop g fuel.+1 i hd tot vec s =
    let: (buf, err, rest) := readFull (Z.to_nat (Z.min (hd - i) (maxAllocateSliceLength g)) * Bytes) s in
    let len := Z.to_nat (Z.min (hd - i) (maxAllocateSliceLength g)) in
    let total := (tot + Z.of_nat (size buf))%Z in
    let vec := vec ++ rawVec g len (buf ++ nseq (len * Bytes - size buf) 0%Z) in
    match err with
    | Some UnexpectedEOF =>
        ReadRes total (Some (LessData (i + Z.of_nat (size buf) / Z.of_nat Bytes) hd)) vec rest
    | Some EOF => ReadRes total (Some (IoErr EOF)) vec rest
    | None => asyncLoop g fuel (i + maxAllocateSliceLength g) hd total vec rest
    end.
Proof. by move=> /Z.ltb_lt h; rewrite [LHS]/= h. Qed.
Lemma asyncLoopP fuel i hd tot vec s : (0 < maxAllocateSliceLength g)%Z -> (0 <= i)%Z ->
  (Z.to_nat (hd - i) <= fuel)%N ->
  let m := (Z.to_nat (hd - i) * Bytes)%N in
  if (m <= size s)%N then
    asyncLoop g fuel i hd tot vec s =
    ReadRes (tot + Z.of_nat m) None (vec ++ rawVec g (Z.to_nat (hd - i)) (take m s)) (drop m s)
  else exists e, rrErr (asyncLoop g fuel i hd tot vec s) = Some e.
Proof.
move=> hM; set M := maxAllocateSliceLength g in hM *.
elim: fuel i tot vec s => [|fuel IH] i tot vec s hi hf m.
  have hlt : (i <? hd)%Z = false by apply/Z.ltb_ge; lia.
  have m0 : m = 0%N by rewrite /m (_ : Z.to_nat (hd - i) = 0%N) //; lia.
  by rewrite m0 leq0n /= hlt take0 drop0 /= Z.add_0_r (_ : Z.to_nat (hd - i) = 0%N) ?cats0 //; lia.
case: (Z.ltb_spec i hd) => hlt; last first.
  have m0 : m = 0%N by rewrite /m (_ : Z.to_nat (hd - i) = 0%N) //; lia.
  have hlt' : (i <? hd)%Z = false by apply/Z.ltb_ge.
  by rewrite m0 leq0n /= hlt' take0 drop0 /= Z.add_0_r (_ : Z.to_nat (hd - i) = 0%N) ?cats0 //; lia.
rewrite asyncLoopS // -/M; set len := Z.to_nat (Z.min (hd - i) M).
have hm : Z.to_nat (hd - i) = (len + Z.to_nat (hd - (i + M)))%N by rewrite /len; clear -hM hlt; lia.
have hm' : m = (len * Bytes + Z.to_nat (hd - (i + M)) * Bytes)%N by rewrite /m hm mulnDl.
have hfuel : (Z.to_nat (hd - (i + M)) <= fuel)%N by clear -hM hlt hf; lia.
case: (leqP (len * Bytes) (size s)) => hl; last first.
  have -> : (m <= size s)%N = false by apply/negbTE; rewrite -ltnNge hm'; apply: leq_trans hl _; exact: leq_addr.
  have [e] := readFullN hl; case: readFull => -[buf err] rest /= ->; case: e; eexists; reflexivity.
rewrite readFullE //; have hst : size (take (len * Bytes) s) = (len * Bytes)%N by rewrite size_takel.
cbv zeta; rewrite hst subnn cats0.
have := IH (i + M)%Z (tot + Z.of_nat (len * Bytes))%Z
  (vec ++ rawVec g len (take (len * Bytes) s)) (drop (len * Bytes) s) ltac:(lia) hfuel.
rewrite size_drop /= -/m leq_subRL // -hm'; case: ifP => // hms ->.
rewrite -catA -rawVec_cat // -hm hm' zadd Z.add_assoc drop_drop addnC; congr ReadRes.
congr (_ ++ rawVec g _ _).
by rewrite takeD.
Qed.

(** ** the tasks *)
Lemma items_cons se l : items (se :: l) = iota se.1 (se.2 - se.1) ++ items l.
Proof. by []. Qed.
Lemma items_nth l t i : (t < size l)%N -> ((nth (0, 0) l t).1 <= i < (nth (0, 0) l t).2)%N -> i \in items l.
Proof.
move=> ht h; apply/flatten_mapP; exists (nth (0, 0)%N l t); first exact: mem_nth.
by rewrite mem_iota; move: h; case: (nth _ _ _) => a b /= /andP[h1 h2]; rewrite h1 subnKC //; apply: ltnW; apply: leq_ltn_trans h2.
Qed.
Lemma items_inv l i : i \in items l ->
  exists2 t, (t < size l)%N & ((nth (0, 0) l t).1 <= i < (nth (0, 0) l t).2)%N.
Proof.
case/flatten_mapP => se /(nthP (0, 0)%N) [t ht <-] hi; exists t => //.
by move: hi; rewrite mem_iota; case: (nth _ _ _) => a b /= /andP[h1 h2]; lia.
Qed.
Lemma items_disjoint l t u i : uniq (items l) -> (t < size l)%N -> (u < size l)%N ->
  ((nth (0, 0) l t).1 <= i < (nth (0, 0) l t).2)%N -> ((nth (0, 0) l u).1 <= i < (nth (0, 0) l u).2)%N -> t = u.
Proof.
elim: l t u => [|se l IH] [|t] [|u] //; rewrite items_cons cat_uniq => /and3P[_ hd hu] ht hu' h1 h2.
- case/hasP: hd; exists i; first exact: (items_nth (l := l) (t := u)).
  by have := @items_nth [:: se] 0 i isT h1; rewrite /items /= cats0.
- case/hasP: hd; exists i; first exact: (items_nth (l := l) (t := t)).
  by have := @items_nth [:: se] 0 i isT h2; rewrite /items /= cats0.
- by congr S; apply: IH.
Qed.

Section Conv.
Variables (bs : seq (seq Z)) (ivs : seq (nat * nat)).
Hypothesis bsP : forall b, b \in bs -> all byte b /\ size b = Bytes.
Hypothesis ivsE : items ivs = iota 0 (size bs).
Local Notation iv t := (nth (0, 0)%N ivs t).
Local Notation tk st t := (nth (Task 0 0 true) (cTasks st) t).
Local Notation el i := (beElement g (nth [::] bs i)).

Record inv (st : conv) : Prop := Inv {
  inv_size : size (cVec st) = size bs;
  inv_tasks : size (cTasks st) = size ivs;
  inv_end : forall t, (t < size ivs)%N -> tEnd (tk st t) = (iv t).2 /\ ((iv t).1 <= tCur (tk st t))%N;
  inv_past : forall t i, (t < size ivs)%N -> ((iv t).1 <= i < tCur (tk st t))%N -> (i < (iv t).2)%N ->
    el i = Some (nth [::] (cVec st) i);
  inv_next : forall t i, (t < size ivs)%N -> (tCur (tk st t) <= i < (iv t).2)%N ->
    nth [::] (cVec st) i = rawLimbs g (nth [::] bs i);
  inv_done : forall t, (t < size ivs)%N -> tDone (tk st t) -> (tCur (tk st t) < (iv t).2)%N -> (0 < cptErrors st)%N;
  inv_cpt : (0 < cptErrors st)%N -> exists2 i, (i < size bs)%N & el i = None }.

Lemma iv_lt t i : (t < size ivs)%N -> ((iv t).1 <= i < (iv t).2)%N -> (i < size bs)%N.
Proof. by move=> ht /(items_nth ht); rewrite ivsE mem_iota add0n. Qed.
Lemma iv_disj t u i : (t < size ivs)%N -> (u < size ivs)%N ->
  ((iv t).1 <= i < (iv t).2)%N -> ((iv u).1 <= i < (iv u).2)%N -> t = u.
Proof. by apply: items_disjoint; rewrite ivsE iota_uniq. Qed.

Lemma taskStepE st t : taskStep g st t =
  let k := tk st t in
  if tDone k then st else
  if ~~ (tCur k < tEnd k)%N then
    Conv (cVec st) (set_nth (Task 0 0 true) (cTasks st) t (Task (tCur k) (tEnd k) true)) (cptErrors st) else
  if beElement g (rawBytes (nth [::] (cVec st) (tCur k))) is Some z then
    Conv (set_nth [::] (cVec st) (tCur k) z)
         (set_nth (Task 0 0 true) (cTasks st) t (Task (tCur k).+1 (tEnd k) false)) (cptErrors st)
  else Conv (cVec st) (set_nth (Task 0 0 true) (cTasks st) t (Task (tCur k) (tEnd k) true)) (cptErrors st).+1.
Proof.
rewrite /taskStep /beElement; cbv zeta; case: ifP => // _; case: ifP => // _.
by case: smallerThanModulus.
Qed.

Lemma inv_step st t : inv st -> inv (taskStep g st t).
Proof.
move=> I; rewrite taskStepE; cbv zeta; case hd : (tDone _) => //.
have ht : (t < size ivs)%N.
  by rewrite ltnNge; apply/negP => h; move: hd; rewrite nth_default // (inv_tasks I).
have [he hs] := inv_end I ht.
have hsz k : size (set_nth (Task 0 0 true) (cTasks st) t k) = size ivs.
  by rewrite size_set_nth (inv_tasks I); apply/maxn_idPr.
rewrite he; case: ltnP => /= hc; last first.
  split=> //=; try exact: (inv_size I); try exact: (inv_cpt I).
  - move=> u hu; rewrite nth_set_nth /=; case: eqP => [->|_] //=; exact: (inv_end I hu).
  - move=> u i hu; rewrite nth_set_nth /=; case: eqP => [->|_] /=; exact: (inv_past I).
  - move=> u i hu; rewrite nth_set_nth /=; case: eqP => [->|_] /=; exact: (inv_next I).
  - move=> u hu; rewrite nth_set_nth /=; case: eqP => [->|_] /=; first by rewrite ltnNge hc.
    exact: (inv_done I).
have hlt : (tCur (tk st t) < size bs)%N by apply: (iv_lt ht); rewrite hs.
have [hb1 hb2] := bsP (mem_nth [::] hlt).
rewrite (inv_next I ht) ?leqnn // rawBytesK //.
case e : (el _) => [z|]; split=> //=; try exact: (inv_size I).
- by rewrite size_set_nth (inv_size I); apply/maxn_idPr.
- move=> u hu; rewrite nth_set_nth /=; case: eqP => [->|_] /=; last exact: (inv_end I hu).
  by split=> //; apply: leqW.
- move=> u i hu; rewrite !nth_set_nth /=; case: eqP => [->|hne] /= h1 h2; case: eqP => [hi|hi]; rewrite ?hi //.
  + by apply: (inv_past I ht) => //; move: h1 hi; clear; lia.
  + exact: (inv_past I hu).
- move=> u i hu; rewrite !nth_set_nth /=; case: eqP => [->|hne] /= h1; case: eqP => [hi|hi].
  + by move: h1; rewrite hi ltnn.
  + by apply: (inv_next I ht); move: h1; clear; lia.
  + case: hne; apply: (@iv_disj u t i) => //; last by rewrite hi hs hc.
    by case: (inv_end I hu) => _ h2; move: h1 h2; clear; lia.
  + exact: (inv_next I hu).
- move=> u hu; rewrite nth_set_nth /=; case: eqP => [->|_] //=; exact: (inv_done I).
- exact: (inv_cpt I).
- move=> u hu; rewrite nth_set_nth /=; case: eqP => [->|_] //=; exact: (inv_end I hu).
- move=> u i hu; rewrite nth_set_nth /=; case: eqP => [->|_] /=; exact: (inv_past I).
- move=> u i hu; rewrite nth_set_nth /=; case: eqP => [->|_] /=; exact: (inv_next I).
- by move=> _; exists (tCur (tk st t)).
Qed.
Definition start : conv := Conv [seq rawLimbs g b | b <- bs] [seq Task se.1 se.2 false | se <- ivs] 0.
Lemma inv_start : inv start.
Proof.
have hn t : (t < size ivs)%N -> tk start t = Task (iv t).1 (iv t).2 false.
  by move=> ht; rewrite /start /= (nth_map (0, 0)%N).
split=> //=; rewrite ?size_map //.
- by move=> t ht; rewrite hn.
- by move=> t i ht; rewrite hn //= => /andP[h1 h2] _; move: h2; rewrite ltnNge h1.
- move=> t i ht; rewrite hn //= => hi; rewrite (nth_map [::]) //; exact: (iv_lt ht).
- by move=> t ht; rewrite hn.
Qed.
Lemma inv_run sched : inv (foldl (taskStep g) start sched).
Proof.
elim/last_ind: sched => [|sched t IH]; first exact: inv_start.
by rewrite foldl_rcons; apply: inv_step.
Qed.
Lemma conv_end sched (st := foldl (taskStep g) start sched) : convDone st ->
  if (0 < cptErrors st)%N then exists2 i, (i < size bs)%N & el i = None
  else size (cVec st) = size bs /\ forall i, (i < size bs)%N -> el i = Some (nth [::] (cVec st) i).
Proof.
have I : inv st := inv_run sched.
move=> hd; case: ifP => hc; first exact: (inv_cpt I).
split; [exact: (inv_size I)|move=> i hi].
have [|t ht hti] := @items_inv ivs i; first by rewrite ivsE mem_iota.
have hdt : tDone (tk st t) by apply: (all_nthP (Task 0 0 true) hd); rewrite (inv_tasks I).
have hcur : ((iv t).2 <= tCur (tk st t))%N.
  by rewrite leqNgt; apply/negP => h; move: (inv_done I ht hdt h); rewrite hc.
by apply: (inv_past I ht); move: hti hcur; clear; lia.
Qed.

(** every task returns *)
Definition left st t : nat := (if tDone (tk st t) then 0 else (tEnd (tk st t) - tCur (tk st t)).+1)%N.
Lemma left_step st t u : (left (taskStep g st t) u <= left st u - (t == u))%N.
Proof.
rewrite taskStepE; cbv zeta; case hd : (tDone (tk st t)).
  by rewrite /left; case: eqP => [<-|_]; rewrite ?hd ?subn0.
have E k v c : left (Conv v (set_nth (Task 0 0 true) (cTasks st) t k) c) u =
    (if u == t then (if tDone k then 0 else (tEnd k - tCur k).+1) else left st u)%N.
  by rewrite /left /= nth_set_nth /=; case: eqP.
rewrite eq_sym; case: ltnP => /= hc.
  case: beElement => [z|]; rewrite E /=; case: eqP => [->|_]; rewrite ?subn0 //.
  by rewrite /left hd subn1 /= subnS prednK // subn_gt0.
by rewrite E /=; case: eqP => // _; rewrite subn0.
Qed.
Lemma left_run sched st u : (left (foldl (taskStep g) st sched) u <= left st u - count_mem u sched)%N.
Proof.
elim: sched st => [|t sched IH] st /=; first by rewrite subn0.
apply: leq_trans (IH _) _; by rewrite subnDA; apply: leq_sub2r; exact: left_step.
Qed.
Lemma size_run sched st : (forall t, t \in sched -> (t < size (cTasks st))%N) ->
  size (cTasks (foldl (taskStep g) st sched)) = size (cTasks st).
Proof.
elim: sched st => //= t sched IH st h.
have e : size (cTasks (taskStep g st t)) = size (cTasks st).
  have ht := h t (mem_head _ _).
  rewrite taskStepE; cbv zeta; case: ifP => // _; case: ifP => _; last case: beElement => [z|];
  by rewrite /= size_set_nth; apply/maxn_idPr.
by rewrite IH e // => u hu; apply: h; rewrite inE hu orbT.
Qed.
Lemma conv_fair sched : (forall t, (t < size ivs)%N -> ((iv t).2 - (iv t).1 < count_mem t sched)%N) ->
  convDone (foldl (taskStep g) start sched).
Proof.
move=> h; set st := foldl _ _ _; have I : inv st := inv_run sched.
apply/(all_nthP (Task 0 0 true)) => t; rewrite (inv_tasks I) => ht.
have := left_run sched start t; rewrite -/st.
rewrite {2}/left /start /= (nth_map (0, 0)%N) //= => hl.
have : left st t = 0%N by apply/eqP; rewrite -leqn0; apply: leq_trans hl _; rewrite leqn0 subn_eq0; exact: h.
by rewrite /left; case: tDone.
Qed.
End Conv.
End Gen.
