(** Vectors of the generated field types: C101 (serialization), C102 (execute), C103 (arithmetic),
    C104 (little-endian elements). *)
From Coq Require Import ZArith Znumtheory Lia.
From mathcomp Require Import all_ssreflect zify ssrZ.
From Verif Require Import JindoIntModel ZpModel ZpConst ZpProofs ZpField ZpConv VectorModel VectorProofs Prop_Zp.
Set Implicit Arguments. Unset Strict Implicit. Unset Printing Implicit Defensive.
Delimit Scope Z_scope with Z.
Local Arguments Z.mul : simpl never.
Local Arguments Z.add : simpl never.
Local Arguments Z.sub : simpl never.
Local Arguments Z.div : simpl never.
Local Arguments Z.modulo : simpl never.
Local Arguments Z.pow : simpl never.
Local Arguments Z.of_nat : simpl never.
Local Arguments Z.to_nat : simpl never.

(** * Specification *)

(** every element of a vector is reduced *)
Definition elts (g : gen) (p : Z) (v : seq (seq Z)) : Prop :=
  forall i, (i < size v)%N -> elt (Limbs g) p (nth [::] v i).

(** the bytes of a vector: the length in 4 bytes, then the integers in 8 times Limbs bytes each, all
    with the most significant byte first *)
Definition encodes (g : gen) (v : seq (seq Z)) (b : seq Z) : Prop :=
  [/\ isBytes b, size b = (4 + 8 * Limbs g * size v)%N, bigEndian (take 4 b) = Z.of_nat (size v) &
      forall i, (i < size v)%N ->
        bigEndian (take (8 * Limbs g) (drop (4 + 8 * Limbs g * i) b)) = BigInt g (nth [::] v i)].

(** * Proofs *)
Lemma eltsE g p v : wordsVal (qs g) = p -> elts g p v <-> (forall x, x \in v -> red g x).
Proof.
move=> e; split=> h.
- by move=> x /(nthP [::]) [i hi <-]; apply/(eltE _ e); apply: h.
- by move=> i hi; apply/(eltE _ e); apply: h; apply: mem_nth.
Qed.
Lemma chunksE g v d : okGen g -> (forall x, x \in v -> red g x) ->
  (d = flatten [seq Marshal g x | x <- v] <->
   [/\ all byte d, size d = (8 * Limbs g * size v)%N &
       forall i, (i < size v)%N -> beVal (take (8 * Limbs g) (drop (8 * Limbs g * i) d)) = BigInt g (nth [::] v i)]).
Proof.
move=> ok; elim: v d => [|x v IH] d hv.
  rewrite muln0 /=; split=> [->|[_ /eqP]]; first by split.
  by rewrite size_eq0 => /eqP.
have hx := hv x (mem_head _ _); have [h1 h2 h3] := MarshalP ok (proj1 hx).
have {}IH e := IH e (fun y hy => hv y ltac:(by rewrite inE hy orbT)).
rewrite [flatten _]/= -/(flatten _); set f := flatten _ in IH *.
have [hf _] := IH f; have {hf} [f1 f2 f3] := hf erefl.
split=> [->|[b1 b2 b3]].
  split; [by rewrite all_cat h2 f1|by rewrite size_cat h1 f2 -mulnS|].
  case=> [|i] /= hi; first by rewrite muln0 drop0 take_size_cat.
  rewrite mulnS addnC -drop_drop drop_size_cat //.
  by rewrite f3.
have hl : (8 * Limbs g <= size d)%N by rewrite b2 mulnS leq_addr.
have hb' : all byte (take (8 * Limbs g) d) /\ all byte (drop (8 * Limbs g) d).
  by apply/andP; rewrite -all_cat cat_take_drop.
rewrite -{1}(cat_take_drop (8 * Limbs g) d); congr (_ ++ _).
- apply: beVal_inj => //; [by case: hb'|by rewrite size_takel|].
  by have := b3 0%N isT; rewrite muln0 drop0 h3.
- apply/IH; split; [by case: hb'|by rewrite size_drop b2 mulnS addKn|move=> i hi].
  by have := b3 i.+1 hi; rewrite mulnS addnC -drop_drop.
Qed.
Lemma encodesE g p v b : List.In (g, p) packages -> elts g p v ->
  encodes g v b <-> (Z.of_nat (size v) < 2 ^ 32)%Z /\ b = putUint32 (Z.of_nat (size v)) ++ flatten [seq Marshal g x | x <- v].
Proof.
move=> /pkg_ok [ok e] /(eltsE _ e) hv; have [u1 u2 u3] := putUint32P (Z.of_nat (size v)).
split.
- case=> /isBytesE hb hs; rewrite beE => hh hi.
  have hb' : all byte (take 4 b) /\ all byte (drop 4 b) by apply/andP; rewrite -all_cat cat_take_drop.
  have st : size (take 4 b) = 4%N by rewrite size_takel // hs leq_addr.
  have hlt : (Z.of_nat (size v) < 2 ^ 32)%Z by have := beVal_lt hb'.1; rewrite st hh; clear; lia.
  split=> //; rewrite -{1}(cat_take_drop 4 b); congr (_ ++ _).
    by apply: beVal_inj; rewrite ?st ?u1 ?hh ?u3 //; [case: hb'|rewrite Z.mod_small //; clear -hlt; lia].
  apply/(chunksE _ ok hv); split; [by case: hb'|by rewrite size_drop hs addKn|].
  by move=> i hi'; rewrite drop_drop addnC -beE hi.
- case=> hlt ->; have [_] := chunksE (flatten [seq Marshal g x | x <- v]) ok hv.
  have [+ _] := chunksE (flatten [seq Marshal g x | x <- v]) ok hv; move=> /(_ erefl) [c1 c2 c3] _.
  split.
  + by apply/isBytesE; rewrite all_cat u2.
  + by rewrite size_cat u1 c2.
  + by rewrite take_size_cat // beE u3 Z.mod_small //; clear -hlt; lia.
  + by move=> i hi; rewrite addnC -drop_drop drop_size_cat // beE c3.
Qed.

(** * C101: serialization *)
Theorem C101_WriteTo g p v : List.In (g, p) packages -> elts g p v -> (Z.of_nat (size v) < 2 ^ 32)%Z ->
  encodes g v (WriteTo g v).1 /\ (WriteTo g v).2 = Z.of_nat (size (WriteTo g v).1).
Proof.
move=> hp hv hl; have [ok e] := pkg_ok hp; have hr : forall x, x \in v -> red g x by apply/(eltsE _ e).
have E := WriteToE ok hr; have henc : encodes g v (WriteTo g v).1 by rewrite E; apply/(encodesE _ hp hv).
by split=> //; case: (henc) => _ -> _ _; rewrite E /VectorModel.Bytes /=; clear; lia.
Qed.

(** a call of ReadFrom that returns no error has consumed exactly the bytes of the vector it leaves *)
Theorem C101_ReadFrom g p old s : List.In (g, p) packages -> isBytes s ->
  rrErr (ReadFrom g old s) = None ->
  exists b, [/\ s = b ++ rrRest (ReadFrom g old s), elts g p (rrVec (ReadFrom g old s)),
    encodes g (rrVec (ReadFrom g old s)) b & rrTotal (ReadFrom g old s) = Z.of_nat (size b)].
Proof.
move=> hp /isBytesE hs; have [ok e] := pkg_ok hp; rewrite /ReadFrom.
case: (leqP 4 (size s)) => hl; last first.
  by have [er] := readFullN hl; case: readFull => -[buf err] rest /= ->.
rewrite readFullE //.
have hb : all byte (take 4 s) /\ all byte (drop 4 s) by apply/andP; rewrite -all_cat cat_take_drop.
move=> /(readLoop_inv ok hb.2) [els [rest [e1 e2 e3 ->]]] /=.
have hev : elts g p els by apply/(eltsE _ e).
have st : size (take 4 s) = 4%N by rewrite size_takel.
have hr := beVal_lt hb.1; rewrite st in hr; rewrite getBEE in e1; last by case: hb.
have hlt : (Z.of_nat (size els) < 2 ^ 32)%Z by rewrite e1; clear -hr; lia.
have [u1 u2 u3] := putUint32P (Z.of_nat (size els)).
have e4 : take 4 s = putUint32 (Z.of_nat (size els)).
  apply: beVal_inj; [by case: hb|exact: u2|by rewrite st u1|].
  by rewrite u3 Z.mod_small; clear -e1 hr hlt; lia.
exists (putUint32 (Z.of_nat (size els)) ++ flatten [seq Marshal g x | x <- els]).
have henc : encodes g els (putUint32 (Z.of_nat (size els)) ++ flatten [seq Marshal g x | x <- els]).
  exact/(encodesE _ hp hev).
split=> //; first by rewrite -catA -e3 -e4 cat_take_drop.
by case: henc => _ -> _ _; rewrite /VectorModel.Bytes; clear; lia.
Qed.
(** and the bytes of a vector, whatever follows, are read as that vector *)
Theorem C101_roundtrip g p old v b rest : List.In (g, p) packages -> elts g p v -> encodes g v b ->
  ReadFrom g old (b ++ rest) = ReadRes (Z.of_nat (size b)) None v rest.
Proof.
move=> hp hv henc; have [ok e] := pkg_ok hp; have hr : forall x, x \in v -> red g x by apply/(eltsE _ e).
case: (henc) => _ hsz _ _; move: henc => /(encodesE _ hp hv) [hl eb].
have [u1 u2 u3] := putUint32P (Z.of_nat (size v)).
have hb4 : (4 <= size b)%N by rewrite hsz leq_addr.
rewrite /ReadFrom readFullE ?size_cat; last by apply: leq_trans hb4 (leq_addr _ _).
rewrite {1 2 3}eb -!catA take_size_cat // drop_size_cat // getBEE // u3 Z.mod_small; last by clear -hl; lia.
rewrite Nat2Z.id (readLoop_ok _ _ _ _ _ _ hr) // hsz /VectorModel.Bytes.
by rewrite (zadd 4).
Qed.

(** The concurrent reader: with any number of processors and any schedule under which the tasks
    have returned, it has the outcome of ReadFrom. *)
Lemma small_Bytes g p : List.In (g, p) packages -> (Z.of_nat (VectorModel.Bytes g) <= 2 ^ 32)%Z.
Proof.
move=> h; have : (Limbs g <= 14)%N.
  have : all (fun gp : gen * Z => Limbs gp.1 <= 14)%N packages by vm_compute.
  by move=> ha; exact: (In_all ha h).
by rewrite /VectorModel.Bytes; clear; lia.
Qed.
Lemma AsyncReadFromE g p old s : List.In (g, p) packages -> isBytes s ->
  (size s < 4)%N /\ (exists e, rrErr (AsyncReadFrom g old s) = Some e) \/
  (4 <= size s)%N /\
  let k := Z.to_nat (beVal (take 4 s)) in
  if (k * VectorModel.Bytes g <= size s - 4)%N then
    AsyncReadFrom g old s = ReadRes (4 + Z.of_nat (k * VectorModel.Bytes g)) None
      (rawVec g k (take (k * VectorModel.Bytes g) (drop 4 s))) (drop (k * VectorModel.Bytes g) (drop 4 s))
  else exists e, rrErr (AsyncReadFrom g old s) = Some e.
Proof.
move=> hp /isBytesE hs; have [ok e] := pkg_ok hp; rewrite /AsyncReadFrom.
case: (leqP 4 (size s)) => hl; [right; split=> //|left; split=> //]; last first.
  by have [er] := readFullN hl; case: readFull => -[buf err] rest /= ->; exists (IoErr er).
rewrite readFullE //.
have hb : all byte (take 4 s) /\ all byte (drop 4 s) by apply/andP; rewrite -all_cat cat_take_drop.
rewrite getBEE; last by case: hb.
have hge := beVal_ge0 hb.1.
case: Z.eqb_spec => [->|hne] /=.
  by rewrite Z2Nat.inj_0 !mul0n /= take0 drop0.
have := @asyncLoopP g (Z.to_nat (beVal (take 4 s))) 0 (beVal (take 4 s)) 4 [::] (drop 4 s)
  (maxAlloc_gt0 ok (small_Bytes hp)) (Z.le_refl 0).
by rewrite Z.sub_0_r size_drop => /(_ (leqnn _)).
Qed.
Lemma reshape_nth k m d i : size d = (k * m)%N -> (i < k)%N -> nth [::] (reshape (nseq k m) d : seq (seq Z)) i = take m (drop (m * i) d).
Proof.
elim: k d i => // k IH d [|i] hs hi /=; first by rewrite muln0 drop0.
by rewrite IH ?drop_drop ?mulnS 1?addnC // size_drop hs mulSn addKn.
Qed.
Lemma size_reshape_nseq k m (d : seq Z) : size (reshape (nseq k m) d) = k.
Proof. by rewrite size_reshape size_nseq. Qed.
Theorem C101_AsyncReadFrom g p old s cpu sched : List.In (g, p) packages -> isBytes s -> (0 < cpu)%N ->
  let r := ReadFrom g old s in
  let a := AsyncReadFrom g old s in
  let c := convRun g (rrVec a) cpu sched in
  (rrErr r = None ->
     [/\ rrErr a = None, rrTotal a = rrTotal r, rrRest a = rrRest r &
         convDone c -> convErr c = None /\ cVec c = rrVec r]) /\
  (rrErr r <> None -> rrErr a <> None \/ (convDone c -> convErr c <> None)).
Proof.
move=> hp hs hcpu r a c; have [ok e] := pkg_ok hp; set By := VectorModel.Bytes g.
have hss : all byte s by apply/isBytesE.
have [[hl [er he]]|[hl]] := @AsyncReadFromE g p old s hp hs.
  split; last by rewrite /a he; left.
  by rewrite /r /ReadFrom; have [e2] := readFullN hl; case: readFull => -[buf err] rest /= ->.
cbv zeta; set k := Z.to_nat _; rewrite -/By.
have hb : all byte (take 4 s) /\ all byte (drop 4 s) by apply/andP; rewrite -all_cat cat_take_drop.
have rE : r = readLoop g k 0 (beVal (take 4 s)) 4 [::] (drop 4 s).
  by rewrite /r /ReadFrom readFullE // getBEE //; case: hb.
case: leqP => hk; last first.
  case=> er he; split; last by rewrite /a he; left.
  rewrite rE => /(readLoop_inv ok hb.2) [els [rest [e1 e2 e3 _]]].
  have hev : elts g p els by apply/(eltsE _ e).
  have [h _] := chunksE (flatten [seq Marshal g x | x <- els]) ok e2.
  have [_ h2 _] := h erefl.
  have : (size (drop 4 s) = By * k + size rest)%N by rewrite e3 size_cat h2 e1.
  by rewrite size_drop => h3; move: hk; rewrite h3 mulnC ltnNge leq_addr.
move=> aE; set d := take (k * By) (drop 4 s) in aE *.
have sd : size d = (k * By)%N by rewrite size_takel // size_drop.
have bd : all byte d by move: hb.2; rewrite -(cat_take_drop (k * By) (drop 4 s)) all_cat => /andP[].
set bs := reshape (nseq k By) d.
have sbs : size bs = k by rewrite size_reshape_nseq.
have bsP : forall b, b \in bs -> all byte b /\ size b = By.
  move=> b /(nthP [::]) [i]; rewrite sbs => hi <-; rewrite (reshape_nth sd hi).
  split; first by move: bd; rewrite -{1}(cat_take_drop (By * i) d) all_cat => /andP[_]; rewrite -{1}(cat_take_drop By (drop _ d)) all_cat => /andP[].
  rewrite size_takel // size_drop sd -mulnC -mulnBr; rewrite -{1}[By]muln1 leq_mul2l subn_gt0 hi orbT //.
have fl : flatten bs = d by rewrite reshapeKr // sumn_nseq sd mulnC.
have hiv : items (execute (size bs) cpu None) = iota 0 (size bs).
  by have [h _] := @executeP (size bs) cpu None hcpu.
have cE : c = foldl (taskStep g) (start g bs (execute (size bs) cpu None)) sched.
  by rewrite /c /a aE /convRun /= size_rawVec sbs /start /rawVec.
have End := conv_end bsP hiv (sched := sched); rewrite -cE in End.
have key els : (forall x, x \in els -> red g x) -> (size els = k) -> (forall i, (i < k)%N -> beElement g (nth [::] bs i) = Some (nth [::] els i)) ->
    r = ReadRes (4 + Z.of_nat (By * k)) None els (drop (k * By) (drop 4 s)).
  move=> hr hse hel; rewrite rE -[in LHS](cat_take_drop (k * By) (drop 4 s)) -/d.
  have -> : d = flatten [seq Marshal g x | x <- els].
    rewrite -fl; congr flatten; apply: (@eq_from_nth _ [::]); first by rewrite size_map hse.
    move=> i; rewrite sbs => hi; rewrite (nth_map [::]) ?hse //.
    have [b1 b2] := bsP _ (mem_nth [::] (etrans (congr1 (leq i.+1) sbs) hi)).
    by have [_ ->] := Marshal_beElement ok b1 b2 (hel i hi).
  by rewrite -hse (readLoop_ok _ _ _ _ _ _ hr).
split.
- rewrite {1}rE => /(readLoop_inv ok hb.2) [els [rest [e1 e2 e3 e4]]].
  have hel i : (i < k)%N -> beElement g (nth [::] bs i) = Some (nth [::] els i).
    have sh : shape [seq Marshal g x | x <- els] = nseq k By.
      rewrite -e1 /shape -map_comp -(size_map (size \o Marshal g) els); apply/all_pred1P.
      rewrite all_map; apply/allP => x /e2 hx /=.
      by have [-> _ _] := MarshalP ok (proj1 hx).
    have ed : d = flatten [seq Marshal g x | x <- els].
      by rewrite /d e3 take_size_cat // size_flatten sh sumn_nseq mulnC.
    have -> : bs = [seq Marshal g x | x <- els] by rewrite /bs ed -sh flattenK.
    move=> hi; rewrite (nth_map [::]) ?e1 // beElement_Marshal //.
    by apply: e2; apply: mem_nth; rewrite e1.
  have rE' := key els e2 e1 hel; rewrite rE' /a aE; split=> //=; first by rewrite mulnC.
  move=> hd; have := End hd; rewrite /convErr; case: ifP => [_ [i]|_ [h1 h2]].
    by rewrite sbs => hi; rewrite hel.
  split=> //; apply: (@eq_from_nth _ [::]); first by rewrite h1 sbs e1.
  by move=> i; rewrite h1 => hi; have := h2 i hi; rewrite hel -?sbs // => -[].
- move=> hr; right=> hd; have := End hd; rewrite /convErr; case: ifP => // _ [h1 h2] _.
  apply: hr; rewrite (key (cVec c)) ?h1 //; last by rewrite -sbs.
  move=> x /(nthP [::]) [i]; rewrite h1 => hi <-.
  have [b1 b2] := bsP _ (mem_nth [::] hi).
  by have [] := Marshal_beElement ok b1 b2 (h2 i hi).
Qed.
(** the tasks return once each has been scheduled often enough *)
Theorem C101_AsyncReadFrom_ends g p old s cpu sched : List.In (g, p) packages -> isBytes s -> (0 < cpu)%N ->
  let a := AsyncReadFrom g old s in
  rrErr a = None ->
  (forall t, (t < size (execute (size (rrVec a)) cpu None))%N -> (size (rrVec a) < count_mem t sched)%N) ->
  convDone (convRun g (rrVec a) cpu sched).
Proof.
move=> hp hs hcpu a; have [ok e] := pkg_ok hp; set By := VectorModel.Bytes g.
have hss : all byte s by apply/isBytesE.
have [[hl [er he]]|[hl]] := @AsyncReadFromE g p old s hp hs; first by rewrite /a he.
cbv zeta; set k := Z.to_nat _; rewrite -/By.
case: leqP => hk; last by case=> er he; rewrite /a he.
move=> aE; set d := take (k * By) (drop 4 s) in aE *.
have hb : all byte (take 4 s) /\ all byte (drop 4 s) by apply/andP; rewrite -all_cat cat_take_drop.
have sd : size d = (k * By)%N by rewrite size_takel // size_drop.
have bd : all byte d by move: hb.2; rewrite -(cat_take_drop (k * By) (drop 4 s)) all_cat => /andP[].
set bs := reshape (nseq k By) d.
have sbs : size bs = k by rewrite size_reshape_nseq.
have bsP : forall b, b \in bs -> all byte b /\ size b = By.
  move=> b /(nthP [::]) [i]; rewrite sbs => hi <-; rewrite (reshape_nth sd hi).
  split; first by move: bd; rewrite -{1}(cat_take_drop (By * i) d) all_cat => /andP[_]; rewrite -{1}(cat_take_drop By (drop _ d)) all_cat => /andP[].
  rewrite size_takel // size_drop sd -mulnC -mulnBr; rewrite -{1}[By]muln1 leq_mul2l subn_gt0 hi orbT //.
have [hiv _] := @executeP (size bs) cpu None hcpu.
move=> _; rewrite /a aE /= size_rawVec => hf.
have -> : convRun g (rawVec g k d) cpu sched = foldl (taskStep g) (start g bs (execute (size bs) cpu None)) sched.
  by rewrite /convRun /= size_rawVec sbs /start /rawVec.
apply: (conv_fair bsP hiv) => t; rewrite sbs => ht; apply: leq_ltn_trans (hf t ht).
set se := nth _ _ _; case: (leqP se.2 se.1) => h; first by have /eqP -> : (se.2 - se.1 == 0)%N.
have h1 : (se.2.-1 < k)%N.
  rewrite -sbs; apply: (@iv_lt bs _ hiv t) => //; first by rewrite sbs.
  by rewrite sbs -/se; move: h; clear; lia.
by move: h h1; clear; lia.
Qed.

(** uint32(len(vector)) keeps the length modulo 2^32 only: a vector of 2^32 elements is written with
    length 0 and read back, without an error, as the empty vector *)
Theorem C101_length_refuted : exists v : seq (seq Z),
  [/\ elts zp220 zp220_modulus v, Z.of_nat (size v) = (2 ^ 32)%Z &
      forall old, rrErr (ReadFrom zp220 old (WriteTo zp220 v).1) = None /\
                  rrVec (ReadFrom zp220 old (WriteTo zp220 v).1) = [::]].
Proof.
have hp : List.In (zp220, zp220_modulus) packages by right; left.
have [ok e] := pkg_ok hp.
have [hz _] := C69_SetBigInt 7 hp; move/(eltE _ e): hz; move: (SetBigInt _ _) => z hz.
have hz' K : forall x, x \in nseq K z -> red zp220 x by move=> x /nseqP [-> _].
have [K hK] := Z_of_nat_complete (2 ^ 32) (Z.pow_nonneg 2 32 ltac:(lia)).
exists (nseq K z); rewrite size_nseq; split; [by apply/(eltsE _ e); exact: hz'|exact: esym|].
move=> old; rewrite (WriteToE ok (hz' K)) size_nseq -hK.
have -> : putUint32 (2 ^ 32) = [:: 0; 0; 0; 0]%Z by vm_compute.
move: (flatten _) => f; rewrite [(_, _).1]/=; clear K hK; rewrite /ReadFrom readFullE //.
have -> : take 4 [:: 0, 0, 0, 0 & f]%Z = [:: 0; 0; 0; 0]%Z by rewrite /= take0.
by split; vm_compute.
Qed.

(** * C102: execute *)

(** work is called on consecutive intervals that make up [0, nbIterations), of lengths that differ
    by one at most; the number of calls is bounded by the processors or by the argument *)
Theorem C102_execute nbIterations cpu maxCpus : (0 < cpu)%N ->
  let calls := execute nbIterations cpu maxCpus in
  [/\ flatten [seq iota se.1 (se.2 - se.1) | se <- calls] = iota 0 nbIterations,
      forall c d, c \in calls -> d \in calls -> (c.2 - c.1 <= (d.2 - d.1).+1)%N &
      (Z.of_nat (size calls) <= if maxCpus is Some c then Z.max 1 (Z.min c 512) else Z.of_nat cpu)%Z].
Proof.
move=> hc calls.
have ht : (0 < nbTasks cpu maxCpus)%N.
  by rewrite /nbTasks; case: maxCpus calls => // c _; case: Z.ltb_spec => // h1; case: Z.ltb_spec => // h2; lia.
have [h1 [h2 h3]] := executeP nbIterations ht; split=> //.
  by move=> c d /h3 /andP[_ hc1] /h3 /andP[hd1 _]; apply: leq_trans hc1 _; rewrite ltnS.
have : (size calls <= nbTasks cpu maxCpus)%N.
  case: (ltnP 1 (nbTasks cpu maxCpus)) => h; first by rewrite h2 // geq_minl.
  have e1 : nbTasks cpu maxCpus = 1%N by move: ht h; clear; lia.
  by rewrite /calls /execute e1.
move: (size calls) => k; clear; rewrite /nbTasks; case: maxCpus => [c|]; last by clear; lia.
by case: Z.ltb_spec => h1; [|case: Z.ltb_spec => h2]; lia.
Qed.

(** * C103: arithmetic of vectors *)

(** a vector v in an array of N elements *)
Definition within (N : nat) (v : slice) : bool := (v.1 + v.2 <= N)%N.
(** res is written from the front while a is read: a may start where res starts or later, or end
    before res starts *)
Definition mayOverlap (res a : slice) : bool := (res.1 <= a.1)%N || (a.1 + a.2 <= res.1)%N.
(** the elements of a vector inside [mem] are reduced *)
Definition eltsIn (g : gen) (p : Z) (mem : seq (seq Z)) (v : slice) : Prop :=
  forall i, (i < v.2)%N -> elt (Limbs g) p (nth [::] mem (v.1 + i)).
(** what a call left in [mem']: the elements of res, and everything else as before *)
Definition left_in (g : gen) (p : Z) (mem mem' : seq (seq Z)) (res : slice) (f : nat -> Z) : Prop :=
  [/\ size mem' = size mem,
      forall i, (i < res.2)%N -> elt (Limbs g) p (nth [::] mem' (res.1 + i)) /\
        BigInt g (nth [::] mem' (res.1 + i)) = f i &
      forall j, (j < res.1)%N || (res.1 + res.2 <= j)%N -> nth [::] mem' j = nth [::] mem j].

Lemma fold_put (f : seq (seq Z) -> nat -> seq Z) (v : nat -> seq Z) mem (res : slice) k :
  (res.1 + k <= size mem)%N ->
  (forall i m, (i < k)%N -> size m = size mem ->
     (forall j, (j < res.1)%N || (res.1 + i <= j)%N -> nth [::] m j = nth [::] mem j) -> f m i = v i) ->
  let mem' := foldl (fun m i => put_ m res i (f m i)) mem (iota 0 k) in
  [/\ size mem' = size mem, forall i, (i < k)%N -> nth [::] mem' (res.1 + i) = v i &
      forall j, (j < res.1)%N || (res.1 + k <= j)%N -> nth [::] mem' j = nth [::] mem j].
Proof.
elim: k => [|k IH] hk hf; first by split=> // j; rewrite addn0; case: ltnP.
have [||e1 e2 e3] := IH; [by apply: leq_trans hk; rewrite leq_add2l|by move=> i m hi; apply: hf; apply: ltnW|].
have hl : (res.1 + k < size mem)%N by rewrite -addnS.
rewrite -addn1 iotaD foldl_cat add0n /=.
rewrite /= in e1 e2 e3; move: e1 e2 e3; set m := foldl _ _ _ => e1 e2 e3.
rewrite /put_ (hf k) //; split.
- by rewrite size_set_nth e1; apply/maxn_idPr.
- move=> i; rewrite addn1 ltnS leq_eqVlt nth_set_nth /= eqn_add2l.
  by case: eqP => [->|_] //= /e2.
- move=> j hj; rewrite nth_set_nth /=; case: eqP => [ej|_]; first by exfalso; move: hj ej; clear; lia.
  by apply: e3; move: hj; clear; lia.
Qed.
Lemma read_ok (mem m : seq (seq Z)) (res a : slice) i : mayOverlap res a -> (i < a.2)%N ->
  (forall j, (j < res.1)%N || (res.1 + i <= j)%N -> nth [::] m j = nth [::] mem j) ->
  nth [::] m (a.1 + i) = nth [::] mem (a.1 + i).
Proof. by move=> h hi hm; apply: hm; move: h hi; rewrite /mayOverlap; clear; lia. Qed.
Lemma vecOp2P op mem (res a b : slice) (v : nat -> seq Z) :
  within (size mem) res -> mayOverlap res a -> mayOverlap res b ->
  (forall i, (i < a.2)%N -> op (nth [::] mem (a.1 + i)) (nth [::] mem (b.1 + i)) = v i) ->
  if (a.2 == b.2) && (a.2 == res.2) then
    exists2 mem', vecOp2 op mem res a b = Some mem' &
    [/\ size mem' = size mem, forall i, (i < res.2)%N -> nth [::] mem' (res.1 + i) = v i &
        forall j, (j < res.1)%N || (res.1 + res.2 <= j)%N -> nth [::] mem' j = nth [::] mem j]
  else vecOp2 op mem res a b = None.
Proof.
move=> hr ha hb hv; rewrite /vecOp2 -negb_and; case: andP => // -[/eqP e1 /eqP e2] /=.
rewrite e2; set M := foldl _ _ _; exists M => //; apply: fold_put => // i m hi hm hj.
rewrite -e2 in hi; rewrite /at_ -(hv i hi) (read_ok ha hi hj) (read_ok hb _ hj) // -e1 //.
Qed.

Lemma op2_left g p op mem res a b (F : Z -> Z -> Z) : List.In (g, p) packages ->
  (forall x y, elt (Limbs g) p x -> elt (Limbs g) p y ->
     elt (Limbs g) p (op x y) /\ BigInt g (op x y) = (F (BigInt g x) (BigInt g y) mod p)%Z) ->
  within (size mem) res -> mayOverlap res a -> mayOverlap res b -> eltsIn g p mem a -> eltsIn g p mem b ->
  if (a.2 == b.2) && (a.2 == res.2) then
    exists2 mem', vecOp2 op mem res a b = Some mem' &
      left_in g p mem mem' res (fun i => F (BigInt g (nth [::] mem (a.1 + i))) (BigInt g (nth [::] mem (b.1 + i))) mod p)%Z
  else vecOp2 op mem res a b = None.
Proof.
move=> hp hop hr ha hb ea eb.
have := @vecOp2P op mem res a b (fun i => op (nth [::] mem (a.1 + i)) (nth [::] mem (b.1 + i))) hr ha hb (fun i _ => erefl).
case: andP => // -[/eqP e1 /eqP e2] [mem' h1 [h2 h3 h4]]; exists mem' => //; split=> // i hi.
by rewrite h3 //; apply: hop; [apply: ea|apply: eb]; rewrite -?e1 e2.
Qed.
Theorem C103_Add g p mem res a b : List.In (g, p) packages ->
  within (size mem) res -> mayOverlap res a -> mayOverlap res b -> eltsIn g p mem a -> eltsIn g p mem b ->
  if (a.2 == b.2) && (a.2 == res.2) then
    exists2 mem', addVec g mem res a b = Some mem' &
      left_in g p mem mem' res (fun i => (BigInt g (nth [::] mem (a.1 + i)) + BigInt g (nth [::] mem (b.1 + i))) mod p)%Z
  else addVec g mem res a b = None.
Proof. by move=> hp; apply: op2_left (hp) _ => x y hx hy; have [] := C68_Add hp hx hy. Qed.
Theorem C103_Sub g p mem res a b : List.In (g, p) packages ->
  within (size mem) res -> mayOverlap res a -> mayOverlap res b -> eltsIn g p mem a -> eltsIn g p mem b ->
  if (a.2 == b.2) && (a.2 == res.2) then
    exists2 mem', subVec g mem res a b = Some mem' &
      left_in g p mem mem' res (fun i => (BigInt g (nth [::] mem (a.1 + i)) - BigInt g (nth [::] mem (b.1 + i))) mod p)%Z
  else subVec g mem res a b = None.
Proof. by move=> hp; apply: op2_left (hp) _ => x y hx hy; have [] := C68_Sub hp hx hy. Qed.
Theorem C103_Mul g p mem res a b : List.In (g, p) packages ->
  within (size mem) res -> mayOverlap res a -> mayOverlap res b -> eltsIn g p mem a -> eltsIn g p mem b ->
  if (a.2 == b.2) && (a.2 == res.2) then
    exists2 mem', mulVec g mem res a b = Some mem' &
      left_in g p mem mem' res (fun i => (BigInt g (nth [::] mem (a.1 + i)) * BigInt g (nth [::] mem (b.1 + i))) mod p)%Z
  else mulVec g mem res a b = None.
Proof. by move=> hp; apply: op2_left (hp) _ => x y hx hy; have [] := C67_Mul hp hx hy. Qed.
(** the scalar may lie anywhere in the array but in res *)
Theorem C103_ScalarMul g p mem res a b : List.In (g, p) packages ->
  within (size mem) res -> mayOverlap res a -> eltsIn g p mem a -> elt (Limbs g) p (nth [::] mem b) ->
  (b < res.1)%N || (res.1 + res.2 <= b)%N ->
  if a.2 == res.2 then
    exists2 mem', scalarMulVec g mem res a b = Some mem' &
      left_in g p mem mem' res (fun i => (BigInt g (nth [::] mem (a.1 + i)) * BigInt g (nth [::] mem b)) mod p)%Z
  else scalarMulVec g mem res a b = None.
Proof.
move=> hp hr ha ea eb hb; rewrite /scalarMulVec; case: eqP => //= e2.
rewrite e2; set M := foldl _ _ _; exists M => //.
have [||h1 h2 h3] := @fold_put (fun m i => Mul g (at_ m a i) (nth [::] m b))
  (fun i => Mul g (nth [::] mem (a.1 + i)) (nth [::] mem b)) mem res res.2; [exact: hr| |].
  move=> i m hi hm hj; rewrite -e2 in hi; rewrite /at_ (read_ok ha hi hj) hj //.
  by move: hb hi; rewrite -e2; clear; lia.
split=> // i hi; rewrite [nth [::] M _]h2 //.
by have [] := C67_Mul hp (ea i (etrans (congr1 (leq i.+1) e2) hi)) eb.
Qed.
Canonical Zadd_law := Monoid.Law Z.add_assoc Z.add_0_l Z.add_0_r.
Lemma zeroP g p : List.In (g, p) packages -> elt (Limbs g) p (nseq (Limbs g) 0%Z) /\ BigInt g (nseq (Limbs g) 0%Z) = 0%Z.
Proof.
move=> hp; have [ok e] := pkg_ok hp; have [h1 h2] := C69_SetBigInt p hp.
have E : SetBigInt g p = nseq (Limbs g) 0%Z by rewrite /SetBigInt /modulusOf e Z.eqb_refl.
rewrite -E; split=> //; rewrite h2 Z_mod_same_full //.
Qed.
Lemma sum_fold g p (f : nat -> seq Z) k : List.In (g, p) packages ->
  (forall i, (i < k)%N -> elt (Limbs g) p (f i)) ->
  let z := foldl (fun res i => Add g res (f i)) (nseq (Limbs g) 0%Z) (iota 0 k) in
  elt (Limbs g) p z /\ BigInt g z = ((\big[Z.add/0%Z]_(i < k) BigInt g (f i)) mod p)%Z.
Proof.
move=> hp; elim: k => [|k IH] hf.
  by have [h1 h2] := zeroP hp; rewrite big_ord0 Z.mod_0_l; [split|have [h3 _ _] := C69_BigInt hp h1; lia].
have [|h1 h2] := IH; first by move=> i hi; apply: hf; apply: ltnW.
rewrite -addn1 iotaD foldl_cat add0n [foldl _ _ (iota k 1)]/=.
have [h3 h4] := C68_Add hp h1 (hf k (ltnSn k)); split=> //.
by rewrite h4 h2 addn1 big_ord_recr /= Zplus_mod_idemp_l.
Qed.
Theorem C103_Sum g p v : List.In (g, p) packages -> elts g p v ->
  elt (Limbs g) p (sumVec g v) /\
  BigInt g (sumVec g v) = ((\big[Z.add/0%Z]_(i < size v) BigInt g (nth [::] v i)) mod p)%Z.
Proof.
move=> hp hv; have := sum_fold hp hv.
suff -> : foldl (fun res i => Add g res (nth [::] v i)) (nseq (Limbs g) 0%Z) (iota 0 (size v)) = sumVec g v by [].
rewrite /sumVec -{3}(mkseq_nth [::] v) /mkseq; move: (nseq _ _) (iota _ _) => z l.
by elim: l z => //= i l IH z; rewrite IH.
Qed.
Theorem C103_InnerProduct g p a b : List.In (g, p) packages -> elts g p a -> elts g p b ->
  if size a == size b then
    exists2 z, innerProductVec g a b = Some z & elt (Limbs g) p z /\
      BigInt g z = ((\big[Z.add/0%Z]_(i < size a) (BigInt g (nth [::] a i) * BigInt g (nth [::] b i))%Z) mod p)%Z
  else innerProductVec g a b = None.
Proof.
move=> hp ha hb; rewrite /innerProductVec; case: eqP => //= e.
set z := foldl _ _ _; exists z => //.
have hm i : (i < size a)%N -> _ := fun hi => C67_Mul hp (ha i hi) (hb i (etrans (congr1 (leq i.+1) (esym e)) hi)).
have [|h1 h2] := @sum_fold g p (fun i => Mul g (nth [::] a i) (nth [::] b i)) (size a) hp.
  by move=> i hi; have [] := hm i hi.
split=> //; rewrite [LHS]h2.
have : forall k, (k <= size a)%N ->
    ((\big[Z.add/0%Z]_(i < k) BigInt g (Mul g (nth [::] a i) (nth [::] b i))) mod p =
     (\big[Z.add/0%Z]_(i < k) (BigInt g (nth [::] a i) * BigInt g (nth [::] b i))) mod p)%Z; last by apply.
elim=> [|k IH] hk; first by rewrite !big_ord0.
rewrite !big_ord_recr /= Zplus_mod IH; last exact: ltnW.
by have [_ -> _] := hm k hk; rewrite Zmod_mod -Zplus_mod.
Qed.
Theorem C103_Equal g p a b : elts g p a -> elts g p b -> equalVec a b <-> a = b.
Proof.
move=> ha hb; have E2 : forall x y : seq Z, size x = size y -> all2 Z.eqb x y = (x == y).
  by elim=> [|c x IH] [|d y] //= -[/IH ->].
rewrite /equalVec; split=> [/andP[/eqP hs /(all_nthP ([::], [::])) h]|<-]; last first.
  by rewrite eqxx /=; elim: a {ha} => //= c a ->; rewrite E2 // eqxx.
apply: (@eq_from_nth _ [::]) => // i hi; have := h i; rewrite size_zip hs minnn nth_zip // => /(_ _) h1.
have hib : (i < size b)%N by rewrite -hs.
apply/eqP; rewrite -E2; first exact: h1.
by have [[-> _] _] := ha i hi; have [[-> _] _] := hb i hib.
Qed.

(** ** where sharing memory goes wrong *)
Definition at110 (v : seq Z) : seq (seq Z) := [seq SetBigInt zp110 x | x <- v].
Lemma at110P v : elts zp110 zp110_modulus (at110 v).
Proof.
move=> i; rewrite size_map => hi; rewrite (nth_map 0%Z) //.
by have [] := @C69_SetBigInt zp110 zp110_modulus (nth 0%Z v i) (or_introl erefl).
Qed.
(** res one place behind a: the sums written are read again *)
Theorem C103_overlap_refuted : exists (mem mem' : seq (seq Z)) (res a b : slice),
  [/\ elts zp110 zp110_modulus mem, [&& within (size mem) res, within (size mem) a & within (size mem) b],
      (a.2 == b.2) && (a.2 == res.2), addVec zp110 mem res a b = Some mem' &
      BigInt zp110 (nth [::] mem' (res.1 + 1)) <>
      ((BigInt zp110 (nth [::] mem (a.1 + 1)) + BigInt zp110 (nth [::] mem (b.1 + 1))) mod zp110_modulus)%Z].
Proof.
exists (at110 [:: 1; 2; 4; 8; 8]%Z), (at110 [:: 1; 9; 17; 8; 8]%Z), (1, 2)%N, (0, 2)%N, (3, 2)%N.
split; [exact: at110P|by []|by []|by vm_compute|].
by vm_compute.
Qed.
(** a vector multiplied in place by one of its own elements: from there on the factor is the square *)
Theorem C103_scalar_refuted : exists (mem mem' : seq (seq Z)) (res : slice) (b : nat),
  [/\ elts zp110 zp110_modulus mem, within (size mem) res && (b < size mem)%N,
      scalarMulVec zp110 mem res res b = Some mem' &
      BigInt zp110 (nth [::] mem' (res.1 + 1)) <>
      ((BigInt zp110 (nth [::] mem (res.1 + 1)) * BigInt zp110 (nth [::] mem b)) mod zp110_modulus)%Z].
Proof.
exists (at110 [:: 2; 3]%Z), (at110 [:: 4; 12]%Z), (0, 2)%N, 0%N.
split; [exact: at110P|by []|by vm_compute|by vm_compute].
Qed.

(** * C104: little-endian elements *)
Lemma leMarshalP ws : all word ws ->
  let b := flatten [seq putLE w | w <- ws] in
  [/\ size b = (8 * size ws)%N, all byte b & leVal b = wordsVal ws].
Proof.
move=> h b; have [h1 h2 h3] := marshalP h.
have -> : b = rev (flatten [seq putBE w | w <- rev ws]).
  by rewrite rev_flatten -map_comp -map_rev revK.
by rewrite size_rev all_rev leVal_rev.
Qed.
Lemma leUnmarshalP k b : all byte b -> size b = (8 * k)%N ->
  let z := [seq getLE w | w <- reshape (nseq k 8%N) b] in
  [/\ size z = k, all word z & wordsVal z = leVal b].
Proof.
elim: k b => [|k IH] b hb; first by move=> hs; case: b hs {hb}.
rewrite mulnS => hs.
have hb' : all byte (take 8 b) /\ all byte (drop 8 b) by apply/andP; rewrite -all_cat cat_take_drop.
have s1 : size (take 8 b) = 8%N by rewrite size_takel // hs leq_addr.
have s2 : size (drop 8 b) = (8 * k)%N by rewrite size_drop hs addKn.
have [h1 h2 h3] := IH _ hb'.2 s2.
rewrite -[reshape _ b]/(take 8 b :: reshape (nseq k 8%N) (drop 8 b)) map_cons; split.
- by rewrite [size _]/= h1.
- by rewrite [all _ _]/= h2 getLE_word //; case: hb'.
- rewrite [wordsVal _]/= h3 /getLE lor_leVal; last by case: hb'.
  rewrite -[in RHS](cat_take_drop 8 b) leVal_cat s1.
  by have -> : (256 ^ Z.of_nat 8 = W)%Z by [].
Qed.
Lemma leElementP g b : okGen g -> all byte b -> size b = (8 * Limbs g)%N ->
  if leElement g b is Some z then [/\ (leVal b < wordsVal (qs g))%Z, red g z & BigInt g z = leVal b]
  else (wordsVal (qs g) <= leVal b)%Z.
Proof.
move=> ok he hs; rewrite /leElement; have [h1 h2 h3] := leUnmarshalP he hs.
move: h1 h2 h3; set z := [seq _ | _ <- _] => h1 h2 h3.
rewrite /smallerThanModulus less_val //; last exact: ok_q.
rewrite -h3; case: Z.ltb_spec => h //.
by have [h4 h5] := toMontP ok (conj (conj h1 h2) h).
Qed.
Theorem C104_PutElement g p x : List.In (g, p) packages -> elt (Limbs g) p x ->
  [/\ size (lePutElement g x) = (8 * Limbs g)%N, isBytes (lePutElement g x),
      littleEndian (lePutElement g x) = BigInt g x & leElement g (lePutElement g x) = Some x].
Proof.
move=> /pkg_ok [ok e] /(eltE _ e) hx; have [[[h1 h2] h3] _] := fromMontP ok (proj1 hx).
have [c1 c2 c3] := leMarshalP h2; rewrite h1 in c1.
split; [exact: c1|exact/isBytesE|by rewrite leE|].
have hr := ev_range ok (proj1 hx).
have := leElementP ok c2 c1; rewrite /lePutElement; case: leElement => [z [_ h4 h5]|]; last by rewrite c3; lia.
by congr Some; apply: (ev_inj ok h4 hx); rewrite -[ev g z]/(BigInt g z) h5.
Qed.
Theorem C104_Element g p b : List.In (g, p) packages -> isBytes b -> size b = (8 * Limbs g)%N ->
  if leElement g b is Some z then
    [/\ (littleEndian b < p)%Z, elt (Limbs g) p z, BigInt g z = littleEndian b & lePutElement g z = b]
  else (p <= littleEndian b)%Z.
Proof.
move=> /pkg_ok [ok e] /isBytesE hb hs; have := leElementP ok hb hs; rewrite leE -e.
case: leElement => // z [h1 h2 h3]; split=> //; first exact/(eltE _ erefl).
have [[[f1 f2] f3] _] := fromMontP ok (proj1 h2).
have [c1 c2 c3] := leMarshalP f2; apply: leVal_inj => //; first by rewrite c1 f1.
by rewrite c3 -h3.
Qed.

(** * Concrete cases *)
Definition ex_vec : seq (seq Z) := at110 [:: 5; 7; 0x2020436a1e4e12ff610000000000]%Z.
(** three elements in two tasks; the third is the largest of the field *)
Example ex_C101 :
  let b := (WriteTo zp110 ex_vec).1 in
  let a := AsyncReadFrom zp110 [::] (b ++ [:: 1; 2]%Z) in
  let c := convRun zp110 (rrVec a) 2 [:: 1; 0; 0; 1; 1; 0; 0]%N in
  [/\ size b = 52%N, ReadFrom zp110 [::] (b ++ [:: 1; 2]%Z) = ReadRes 52 None ex_vec [:: 1; 2]%Z,
      convDone c, convErr c = None & cVec c = ex_vec].
Proof. by split; vm_compute. Qed.
(** one byte of the last element made too large *)
Example ex_C101_bad :
  let s := set_nth 0%Z (WriteTo zp110 ex_vec).1 36 255%Z in
  let a := AsyncReadFrom zp110 [::] s in
  let c := convRun zp110 (rrVec a) 2 [:: 1; 0; 0; 1; 1; 0; 0]%N in
  [/\ rrErr (ReadFrom zp110 [::] s) = Some (DecodingElement 2), rrErr a = None, convDone c &
      convErr c = Some (FailedValidation 1)].
Proof. by split; vm_compute. Qed.
Example ex_C102 : execute 10 4 None = [:: (0, 3); (3, 6); (6, 8); (8, 10)]%N /\ execute 3 8 (Some 600%Z) = [:: (0, 1); (1, 2); (2, 3)]%N.
Proof. by split; vm_compute. Qed.
(** the third vector added to the first in place *)
Example ex_C103 :
  mayOverlap (0, 2)%N (0, 2)%N && mayOverlap (0, 2)%N (2, 2)%N /\
  addVec zp110 (at110 [:: 1; 2; 10; 20]%Z) (0, 2)%N (0, 2)%N (2, 2)%N = Some (at110 [:: 11; 22; 10; 20]%Z) /\
  BigInt zp110 (sumVec zp110 (at110 [:: 1; 2; 10; 20]%Z)) = 33%Z.
Proof. by repeat split; vm_compute. Qed.
Example ex_C104 : lePutElement zp110 (SetBigInt zp110 258) = [:: 2; 1; 0; 0; 0; 0; 0; 0; 0; 0; 0; 0; 0; 0; 0; 0]%Z.
Proof. by vm_compute. Qed.

Print Assumptions C101_WriteTo.
Print Assumptions C101_ReadFrom.
Print Assumptions C101_roundtrip.
Print Assumptions C101_AsyncReadFrom.
Print Assumptions C101_AsyncReadFrom_ends.
Print Assumptions C101_length_refuted.
Print Assumptions C102_execute.
Print Assumptions C103_Add.
Print Assumptions C103_Sub.
Print Assumptions C103_Mul.
Print Assumptions C103_ScalarMul.
Print Assumptions C103_Sum.
Print Assumptions C103_InnerProduct.
Print Assumptions C103_Equal.
Print Assumptions C103_overlap_refuted.
Print Assumptions C103_scalar_refuted.
Print Assumptions C104_PutElement.
Print Assumptions C104_Element.
