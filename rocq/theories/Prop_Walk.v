(** Placeholders and walks of Compile, Prove and Verify: properties C27, C28, C29. *)
From Coq Require Import ZArith Lia.
From mathcomp Require Import all_ssreflect all_algebra zify.
From Verif Require Import UintModel UintProofs UintFp CheckerModel WalkModel.
Set Implicit Arguments. Unset Strict Implicit. Unset Printing Implicit Defensive.
Import GRing.Theory.
Delimit Scope Z_scope with Z.

(** * C27 *)
Section C27.
Variables (F : fieldType) (U : uint F).
(** ids whose placeholder fits: below the modulus and below 2^64.  (The moduli Buckler is
    meant for exceed 2^64.) *)
Definition idFits (id : Z) : Prop := (0 <= id /\ 2 * (id + 1) + 1 < modulus U /\ 2 * (id + 1) + 1 < 2 ^ 64)%Z.

Lemma wit_val id : idFits id -> bigInt U (nth 0%R (idToWit U id) 0) = (2 * (id + 1))%Z.
Proof.
move=> [h0 [h1 h2]]; rewrite /= bigInt_setBigInt /w64.
rewrite (Z.mod_small (id + 1)); last by lia.
by rewrite (Z.mod_small (2 * (id + 1))) ?Z.mod_small //; lia.
Qed.
Lemma pub_val id : idFits id -> bigInt U (nth 0%R (idToPub U id) 0) = (2 * (id + 1) + 1)%Z.
Proof.
move=> [h0 [h1 h2]]; rewrite /= bigInt_setBigInt /w64.
rewrite (Z.mod_small (id + 1)); last by lia.
rewrite (Z.mod_small (2 * (id + 1))); last by lia.
rewrite (Z.mod_small (2 * (id + 1) + 1)); last by lia.
by rewrite Z.mod_small //; lia.
Qed.

Theorem C27_roundtrip id : idFits id -> witnessToID U (idToWit U id) = id /\ witnessToID U (idToPub U id) = id.
Proof.
move=> h; have [h0 [h1 h2]] := h; rewrite /witnessToID wit_val // pub_val // /w64 !Z.shiftr_div_pow2 //.
rewrite (Z.mod_small (2 * (id + 1))); last by lia.
rewrite (Z.mod_small (2 * (id + 1) + 1)); last by lia.
rewrite -[(2 ^ 1)%Z]/2%Z.
have -> : (2 * (id + 1) / 2 = id + 1)%Z by symmetry; apply: Z.div_unique_exact; lia.
have -> : ((2 * (id + 1) + 1) / 2 = id + 1)%Z by symmetry; apply: (Z.div_unique _ _ _ 1); lia.
by rewrite Z.mod_small; lia.
Qed.

Theorem C27_distinct i j : idFits i -> idFits j ->
  [/\ idToWit U i = idToWit U j -> i = j, idToPub U i = idToPub U j -> i = j & idToWit U i <> idToPub U j].
Proof.
move=> hi hj; split.
- by move=> e; have [<- _] := C27_roundtrip hi; have [<- _] := C27_roundtrip hj; rewrite e.
- by move=> e; have [_ <-] := C27_roundtrip hi; have [_ <-] := C27_roundtrip hj; rewrite e.
- by move=> e; have := wit_val hi; rewrite e pub_val //; lia.
Qed.
End C27.

(** * Specification of the numbering *)
Section Spec.
Variable F : fieldType.
Implicit Types v : cv F.

(** the value a path leads to *)
Fixpoint at_ v (p : seq nat) : option (cv F) :=
  match p with
  | [::] => Some v
  | i :: p =>
    match v with
    | VPtr u | VIface u | VUnexp u => at_ u p
    | VStruct l | VSlice l | VArr l => if (i < size l)%N then at_ (nth VOther l i) p else None
    | _ => None
    end
  end.

(** equal up to the contents of the witnesses *)
Fixpoint skel v : cv F :=
  match v with
  | VPub _ => VPub [::] | VWit _ => VWit [::]
  | VPtr u => VPtr (skel u) | VIface u => VIface (skel u) | VUnexp u => VUnexp (skel u)
  | VStruct l => VStruct (map skel l) | VSlice l => VSlice (map skel l) | VArr l => VArr (map skel l)
  | VNil => VNil | VOther => VOther
  end.

(** every witness field can be assigned by Compile: it is exported, and not held directly by
    an interface *)
Fixpoint settable (addr ro : bool) v : bool :=
  match v with
  | VPub _ | VWit _ => addr && ~~ ro
  | VPtr u => settable true ro u | VIface u => settable false ro u | VUnexp u => settable addr true u
  | VStruct l => all (settable addr ro) l | VSlice l => all (settable true ro) l | VArr l => all (settable addr ro) l
  | VNil | VOther => true
  end.
(** every witness has length [rank] *)
Fixpoint full (rank : nat) v : bool :=
  match v with
  | VPub x | VWit x => size x == rank
  | VPtr u | VIface u | VUnexp u => full rank u
  | VStruct l | VSlice l | VArr l => all (full rank) l
  | VNil | VOther => true
  end.

(** the witnesses in walking order *)
Fixpoint pubs v : seq (seq F) :=
  match v with
  | VPub x => [:: x] | VPtr u | VIface u | VUnexp u => pubs u
  | VStruct l | VSlice l | VArr l => flatten (map pubs l) | _ => [::]
  end.
Fixpoint wits v : seq (seq F) :=
  match v with
  | VWit x => [:: x] | VPtr u | VIface u | VUnexp u => wits u
  | VStruct l | VSlice l | VArr l => flatten (map wits l) | _ => [::]
  end.

Lemma cv_ind' (P : cv F -> Prop) :
  (forall x, P (VPub x)) -> (forall x, P (VWit x)) -> P VNil -> P VOther ->
  (forall u, P u -> P (VPtr u)) -> (forall u, P u -> P (VIface u)) -> (forall u, P u -> P (VUnexp u)) ->
  (forall l, (forall u, List.In u l -> P u) -> P (VStruct l)) ->
  (forall l, (forall u, List.In u l -> P u) -> P (VSlice l)) ->
  (forall l, (forall u, List.In u l -> P u) -> P (VArr l)) -> forall v, P v.
Proof.
move=> h1 h2 h3 h4 h5 h6 h7 h8 h9 h10; fix IH 1.
have inl l : forall u, List.In u l -> P u.
  elim: l => [|a l IHl] u /=; first by case.
  by case=> [<-|]; [exact: IH|exact: IHl].
case=> [x|x||u|u|l|l|l|u|]; [exact: h1|exact: h2|exact: h3|exact: h5|exact: h6|exact: (h8 _ (inl l))|exact: (h9 _ (inl l))|exact: (h10 _ (inl l))|exact: h7|exact: h4].
Defined.
End Spec.

Lemma In_nth' (A : Type) (d : A) l i : (i < size l)%N -> List.In (nth d l i) l.
Proof. by elim: l i => [|a l IH] [|i] //=; [left|move=> /IH; right]. Qed.

Section Proofs.
Variables (F : fieldType) (U : uint F) (rank : nat).
Implicit Types v s : cv F.

(** writing a list of vectors from position k on *)
Definition wr (a : seq (seq F)) (k : nat) (xs : seq (seq F)) : seq (seq F) :=
  take k a ++ xs ++ drop (k + size xs) a.
Lemma size_wr a k xs : (k + size xs <= size a)%N -> size (wr a k xs) = size a.
Proof.
by move=> h; rewrite /wr !size_cat size_take size_drop; case: ltnP; move: h; lia.
Qed.
Lemma wr_nil a k : wr a k [::] = a.
Proof. by rewrite /wr addn0 /= cat_take_drop. Qed.
Lemma wr1 a k x : (k < size a)%N -> set_nth [::] a k x = wr a k [:: x].
Proof.
move=> h; rewrite /wr addn1; apply: (@eq_from_nth _ [::]).
  by rewrite size_set_nth !size_cat size_take size_drop h /=; move: h; lia.
move=> i; rewrite size_set_nth => hi; rewrite nth_set_nth /= nth_cat size_take h.
case: ltngtP => hik; first by rewrite nth_take.
  case E: (i - k)%N => [|m] /=; first by move: E hik; lia.
  by rewrite nth_drop; congr (nth _ a _); move: E; lia.
by rewrite hik subnn.
Qed.
Lemma wr_cat a k xs ys : (k + size xs + size ys <= size a)%N -> wr (wr a k xs) (k + size xs) ys = wr a k (xs ++ ys).
Proof.
move=> h; rewrite /wr size_cat addnA.
have sk : size (take k a) = k by rewrite size_takel //; move: h; lia.
have -> : take (k + size xs) (take k a ++ xs ++ drop (k + size xs) a) = take k a ++ xs.
  by rewrite catA take_size_cat // size_cat sk.
rewrite -!catA; congr (_ ++ (_ ++ (_ ++ _))).
have -> : (k + size xs + size ys = size (take k a ++ xs) + size ys)%N by rewrite size_cat sk.
rewrite catA addnC -drop_drop drop_size_cat // drop_drop size_cat sk; congr (drop _ a); lia.
Qed.

(** what the walks of Prove and Verify do to full-length witnesses *)
Definition stepP v st := Pst (wr (ppw st) (ppc st) (pubs v)) (wr (psw st) (pwc st) (wits v))
    (ppc st + size (pubs v)) (pwc st + size (wits v)).
Definition fits v (st : pst F) := (ppc st + size (pubs v) <= size (ppw st))%N /\ (pwc st + size (wits v) <= size (psw st))%N.

Lemma prvWalkP v : forall addr ro st, settable addr ro v -> full rank v -> fits v st ->
  prvWalk rank ro v st = Some (stepP v st, false).
Proof.
have lst (l : seq (cv F)) (c : seq (cv F) -> cv F) : (forall l, pubs (c l) = flatten (map (@pubs F) l)) ->
    (forall l, wits (c l) = flatten (map (@wits F) l)) ->
    (forall u, List.In u l -> forall addr ro st, settable addr ro u -> full rank u -> fits u st ->
      prvWalk rank ro u st = Some (stepP u st, false)) ->
    forall addr ro st, all (settable addr ro) l -> all (full rank) l -> fits (c l) st ->
    (fix go (l : seq (cv F)) (st : pst F) : option (pst F) :=
    match l with
    | [::] => Some st
    | u :: l => if prvWalk rank ro u st is Some (st, _) then go l st else None
    end) l st = Some (stepP (c l) st).
  move=> cp cw; rewrite /fits /stepP cp cw.
  elim: l => [|u l IH] hl addr ro st /=.
    by move=> _ _ _; rewrite !wr_nil !addn0; case: st.
  move=> /andP[s1 s2] /andP[f1 f2]; rewrite !size_cat !addnA => -[h1 h2].
  rewrite (hl u _ addr ro) //; [|by left|by split; move: h1 h2; lia].
  rewrite (IH _ addr ro) //; [| |rewrite /= !size_wr; move: h1 h2; lia].
    by rewrite /stepP /= !wr_cat // !addnA.
  by move=> u' hu; apply: hl; right.
elim/cv_ind': v => [x|x|||u IH|u IH|u IH|l IH|l IH|l IH] addr ro st /=.
- move=> /andP[_ /negbTE ->] /eqP hx [/= h1 h2]; rewrite hx eqxx /= leqNgt.
  have -> : (ppc st < size (ppw st))%N by move: h1; lia.
  by rewrite /stepP /= wr1 ?wr_nil ?addn1 ?addn0 //; move: h1; lia.
- move=> /andP[_ /negbTE ->] /eqP hx [/= h1 h2]; rewrite hx eqxx /= leqNgt.
  have -> : (pwc st < size (psw st))%N by move: h2; lia.
  by rewrite /stepP /= wr1 ?wr_nil ?addn1 ?addn0 //; move: h2; lia.
- by move=> _ _ _; rewrite /stepP /= !wr_nil !addn0; case: st.
- by move=> _ _ _; rewrite /stepP /= !wr_nil !addn0; case: st.
- by move=> h1 h2 h3; rewrite (IH _ _ _ h1 h2 h3).
- by move=> h1 h2 h3; rewrite (IH _ _ _ h1 h2 h3).
- by move=> h1 h2 h3; rewrite (IH _ _ _ h1 h2 h3).
- by move=> h1 h2 h3; rewrite (lst l (@VStruct F) _ _ IH addr).
- by move=> h1 h2 h3; rewrite (lst l (@VSlice F) _ _ IH true).
- by move=> h1 h2 h3; rewrite (lst l (@VArr F) _ _ IH addr).
Qed.

Lemma vrfWalkP v : forall addr ro st, settable addr ro v -> full rank v -> (st.2 + size (pubs v) <= size st.1)%N ->
  vrfWalk rank ro v st = Some (wr st.1 st.2 (pubs v), (st.2 + size (pubs v))%N, false).
Proof.
have lst (l : seq (cv F)) : 
    (forall u, List.In u l -> forall addr ro st, settable addr ro u -> full rank u -> (st.2 + size (pubs u) <= size st.1)%N ->
      vrfWalk rank ro u st = Some (wr st.1 st.2 (pubs u), (st.2 + size (pubs u))%N, false)) ->
    forall addr ro st, all (settable addr ro) l -> all (full rank) l ->
      (st.2 + size (flatten (map (@pubs F) l)) <= size st.1)%N ->
    (fix go (l : seq (cv F)) (st : seq (seq F) * nat) : option (seq (seq F) * nat) :=
    match l with
    | [::] => Some st
    | u :: l => if vrfWalk rank ro u st is Some (st, _) then go l st else None
    end) l st = Some (wr st.1 st.2 (flatten (map (@pubs F) l)), (st.2 + size (flatten (map (@pubs F) l)))%N).
  elim: l => [|u l IH] hl addr ro st /=.
    by move=> _ _ _; rewrite wr_nil addn0; case: st.
  move=> /andP[s1 s2] /andP[f1 f2]; rewrite size_cat addnA => h1.
  rewrite (hl u _ addr ro) //; [|by left|by move: h1; lia].
  rewrite (IH _ addr ro) //; [| |by rewrite /= size_wr; move: h1; lia].
    by rewrite /= wr_cat // addnA.
  by move=> u' hu; apply: hl; right.
elim/cv_ind': v => [x|x|||u IH|u IH|u IH|l IH|l IH|l IH] addr ro st /=.
- move=> /andP[_ /negbTE ->] /eqP hx h1; rewrite hx eqxx /= leqNgt.
  have -> : (st.2 < size st.1)%N by move: h1; lia.
  by rewrite wr1 ?addn1 //; move: h1; lia.
- by move=> _ _ _; rewrite wr_nil addn0; case: st.
- by move=> _ _ _; rewrite wr_nil addn0; case: st.
- by move=> _ _ _; rewrite wr_nil addn0; case: st.
- by move=> h1 h2 h3; rewrite (IH _ _ _ h1 h2 h3).
- by move=> h1 h2 h3; rewrite (IH _ _ _ h1 h2 h3).
- by move=> h1 h2 h3; rewrite (IH _ _ _ h1 h2 h3).
- by move=> h1 h2 h3; rewrite (lst l IH addr).
- by move=> h1 h2 h3; rewrite (lst l IH true).
- by move=> h1 h2 h3; rewrite (lst l IH addr).
Qed.

(** what the walk of Compile does: the shape stays, the witnesses in walking order become the
    placeholders numbered from the counters on *)
Definition ids (f : Z -> seq F) (k m : nat) : seq (seq F) := [seq f (Z.of_nat i) | i <- iota k m].
Lemma ids_cat f k m1 m2 : ids f k m1 ++ ids f (k + m1) m2 = ids f k (m1 + m2).
Proof. by rewrite /ids iotaD map_cat. Qed.

Lemma firstWalkP v : forall addr ro st, settable addr ro v ->
  exists v', [/\ firstWalk U addr ro v st = (v', (st.1 + size (pubs v), st.2 + size (wits v))%N, false),
    skel v' = skel v, pubs v' = ids (idToPub U) st.1 (size (pubs v)) & wits v' = ids (idToWit U) st.2 (size (wits v))].
Proof.
have lst (l : seq (cv F)) :
    (forall u, List.In u l -> forall addr ro st, settable addr ro u ->
      exists v', [/\ firstWalk U addr ro u st = (v', (st.1 + size (pubs u), st.2 + size (wits u))%N, false),
      skel v' = skel u, pubs v' = ids (idToPub U) st.1 (size (pubs u)) & wits v' = ids (idToWit U) st.2 (size (wits u))]) ->
    forall addr ro st, all (settable addr ro) l ->
    exists l', [/\ (fix go (addr : bool) (l : seq (cv F)) (st : nat * nat) : seq (cv F) * (nat * nat) :=
    match l with
    | [::] => ([::], st)
    | u :: l => let: (u', st, _) := firstWalk U addr ro u st in
                let: (l', st) := go addr l st in (u' :: l', st)
    end) addr l st = (l', (st.1 + size (flatten (map (@pubs F) l)), st.2 + size (flatten (map (@wits F) l)))%N),
      map (@skel F) l' = map (@skel F) l,
      flatten (map (@pubs F) l') = ids (idToPub U) st.1 (size (flatten (map (@pubs F) l))) &
      flatten (map (@wits F) l') = ids (idToWit U) st.2 (size (flatten (map (@wits F) l)))].
  elim: l => [|u l IH] hl addr ro st /=.
    by move=> _; exists [::]; rewrite !addn0 -surjective_pairing.
  move=> /andP[s1 s2]; have [|u' [e1 e2 e3 e4]] := hl u _ addr ro st s1; first by left.
  have [|l' [f1 f2 f3 f4]] := IH _ addr ro (st.1 + size (pubs u), st.2 + size (wits u))%N s2.
    by move=> u0 hu; apply: hl; right.
  exists (u' :: l'); rewrite e1 f1 /= e2 f2 e3 f3 e4 f4 /= !size_cat !addnA; split=> //; exact: ids_cat.
elim/cv_ind': v => [x|x|||u IH|u IH|u IH|l IH|l IH|l IH] addr ro st /=.
- by move=> ->; eexists; rewrite addn0 addn1.
- by move=> ->; eexists; rewrite addn0 addn1.
- by move=> _; exists VNil; rewrite !addn0 -surjective_pairing.
- by move=> _; exists VOther; rewrite !addn0 -surjective_pairing.
- by move=> h; have [v' [-> e2 e3 e4]] := IH true ro st h; exists (VPtr v'); rewrite /= e2.
- by move=> h; have [v' [-> e2 e3 e4]] := IH false ro st h; exists (VIface v'); rewrite /= e2.
- by move=> h; have [v' [-> e2 e3 e4]] := IH addr true st h; exists (VUnexp v'); rewrite /= e2.
- by move=> h; have [l' [-> e2 e3 e4]] := lst l IH addr ro st h; exists (VStruct l'); rewrite /= e2.
- by move=> h; have [l' [-> e2 e3 e4]] := lst l IH true ro st h; exists (VSlice l'); rewrite /= e2.
- by move=> h; have [l' [-> e2 e3 e4]] := lst l IH addr ro st h; exists (VArr l'); rewrite /= e2.
Qed.

(** shape determines settability, the number of witnesses, and the position in the walking
    order of the witness at a path *)
Lemma all_map_eq (A : Type) (f : A -> A) (P : pred A) (l l' : seq A) : map f l = map f l' ->
  (forall u u', List.In u l -> f u = f u' -> P u = P u') -> all P l = all P l'.
Proof.
elim: l l' => [|u l IH] [|u' l'] //= [e1 e2] h; rewrite (h u u') ?(IH l') //; last by left.
by move=> a a' ha; apply: h; right.
Qed.
Lemma settable_skel v : forall s addr ro, skel v = skel s -> settable addr ro v = settable addr ro s.
Proof.
elim/cv_ind': v => [x|x|||u IH|u IH|u IH|l IH|l IH|l IH] [] //= => [u'|u'|u'|l'|l'|l'] addr ro [] e; try exact: IH.
- by apply: (all_map_eq e) => u u' hu; exact: IH.
- by apply: (all_map_eq e) => u u' hu; exact: IH.
- by apply: (all_map_eq e) => u u' hu; exact: IH.
Qed.
Lemma size_flat (f : cv F -> seq (seq F)) l l' : map (@skel F) l = map (@skel F) l' ->
  (forall u u', List.In u l -> skel u = skel u' -> size (f u) = size (f u')) ->
  size (flatten (map f l)) = size (flatten (map f l')).
Proof.
elim: l l' => [|u l IH] [|u' l'] //= [e1 e2] h; rewrite !size_cat (h u u') ?(IH l') //; last by left.
by move=> a a' ha; apply: h; right.
Qed.
Lemma size_skel v : forall s, skel v = skel s -> size (pubs v) = size (pubs s) /\ size (wits v) = size (wits s).
Proof.
elim/cv_ind': v => [x|x|||u IH|u IH|u IH|l IH|l IH|l IH] [] //= => [u'|u'|u'|l'|l'|l'] [] e; try exact: IH.
- by split; apply: size_flat => // u u' hu e'; have [] := IH u hu u' e'.
- by split; apply: size_flat => // u u' hu e'; have [] := IH u hu u' e'.
- by split; apply: size_flat => // u u' hu e'; have [] := IH u hu u' e'.
Qed.

Lemma pos_flat (f : cv F -> seq (seq F)) (g : seq F -> cv F) l i p :
  (forall u s, skel u = skel s -> size (f u) = size (f s)) ->
  (i < size l)%N -> (exists k, (k < size (f (nth VOther l i)))%N /\ forall s, skel (nth VOther l i) = skel s ->
     at_ s p = Some (g (nth [::] (f s) k))) ->
  exists k, (k < size (flatten (map f l)))%N /\ forall l', map (@skel F) l = map (@skel F) l' ->
     (i < size l')%N /\ at_ (nth VOther l' i) p = Some (g (nth [::] (flatten (map f l')) k)).
Proof.
move=> hs; elim: l i => [|u l IH] [|i] //=.
  move=> _ [k [hk h]]; exists k; split; first by rewrite size_cat; apply: leq_trans hk (leq_addr _ _).
  by move=> [|u' l'] //= [e1 e2]; split=> //; rewrite nth_cat -(hs _ _ e1) hk; exact: h.
rewrite ltnS => hi h; have [k [hk hk2]] := IH i hi h.
exists (size (f u) + k)%N; split; first by rewrite size_cat ltn_add2l.
move=> [|u' l'] //= [e1 e2]; have [a b] := hk2 l' e2; split=> //.
by rewrite nth_cat -(hs _ _ e1) ltnNge leq_addr /= addKn.
Qed.

Lemma posW v : forall p x, at_ v p = Some (VWit x) ->
  exists k, (k < size (wits v))%N /\ forall s, skel v = skel s -> at_ s p = Some (VWit (nth [::] (wits s) k)).
Proof.
have hsw u s : skel u = skel s -> size (wits u) = size (wits s) by move=> /size_skel[].
elim/cv_ind': v => [x|x|||u IH|u IH|u IH|l IH|l IH|l IH] [|i p] y //=.
- by move=> _; exists 0%N; split=> // -[] //= z _.
- by move=> /IH[k [hk h]]; exists k; split=> // -[] //= s [e]; exact: h.
- by move=> /IH[k [hk h]]; exists k; split=> // -[] //= s [e]; exact: h.
- by move=> /IH[k [hk h]]; exists k; split=> // -[] //= s [e]; exact: h.
- case: ifP => // hi /(IH _ (In_nth' VOther hi)) h; have [k [hk hk2]] := pos_flat hsw hi h.
  by exists k; split=> // -[] //= l' [e]; have [-> ->] := hk2 l' e.
- case: ifP => // hi /(IH _ (In_nth' VOther hi)) h; have [k [hk hk2]] := pos_flat hsw hi h.
  by exists k; split=> // -[] //= l' [e]; have [-> ->] := hk2 l' e.
- case: ifP => // hi /(IH _ (In_nth' VOther hi)) h; have [k [hk hk2]] := pos_flat hsw hi h.
  by exists k; split=> // -[] //= l' [e]; have [-> ->] := hk2 l' e.
Qed.
Lemma posP v : forall p x, at_ v p = Some (VPub x) ->
  exists k, (k < size (pubs v))%N /\ forall s, skel v = skel s -> at_ s p = Some (VPub (nth [::] (pubs s) k)).
Proof.
have hsw u s : skel u = skel s -> size (pubs u) = size (pubs s) by move=> /size_skel[].
elim/cv_ind': v => [x|x|||u IH|u IH|u IH|l IH|l IH|l IH] [|i p] y //=.
- by move=> _; exists 0%N; split=> // -[] //= z _.
- by move=> /IH[k [hk h]]; exists k; split=> // -[] //= s [e]; exact: h.
- by move=> /IH[k [hk h]]; exists k; split=> // -[] //= s [e]; exact: h.
- by move=> /IH[k [hk h]]; exists k; split=> // -[] //= s [e]; exact: h.
- case: ifP => // hi /(IH _ (In_nth' VOther hi)) h; have [k [hk hk2]] := pos_flat hsw hi h.
  by exists k; split=> // -[] //= l' [e]; have [-> ->] := hk2 l' e.
- case: ifP => // hi /(IH _ (In_nth' VOther hi)) h; have [k [hk hk2]] := pos_flat hsw hi h.
  by exists k; split=> // -[] //= l' [e]; have [-> ->] := hk2 l' e.
- case: ifP => // hi /(IH _ (In_nth' VOther hi)) h; have [k [hk hk2]] := pos_flat hsw hi h.
  by exists k; split=> // -[] //= l' [e]; have [-> ->] := hk2 l' e.
Qed.
End Proofs.

(** * C28 *)
Section C28.
Variables (F : fieldType) (U : uint F).

(** Compile on the circuit value [c] leaves the placeholders [c'] and the counters; [v] is
    the value given to Prove and Verify, [pwCnt] and [wCnt] the context's final counts
    (Define only adds to them). *)
Theorem C28_same_numbering rank c v pwCnt wCnt : settable true false c -> skel v = skel c -> full rank v ->
  (size (pubs c) <= pwCnt)%N -> (size (wits c) <= wCnt)%N -> 
  (forall id, (id < size (pubs c) + size (wits c))%N -> idFits U (Z.of_nat id)) ->
  exists c' pw w, [/\ compileWalk U c = (VPtr c', (size (pubs c), size (wits c)), false),
    proveInputs rank pwCnt wCnt v = Some (inr (pw, w)) /\ verifyInputs rank pwCnt v = Some (inr pw),
    forall p x, at_ v p = Some (VWit x) -> exists id ph, [/\ at_ c' p = Some (VWit ph), witnessToID U ph = Z.of_nat id,
      (id < size (wits c))%N & nth [::] w id = x],
    forall p x, at_ v p = Some (VPub x) -> exists id ph, [/\ at_ c' p = Some (VPub ph), witnessToID U ph = Z.of_nat id,
      (id < size (pubs c))%N & nth [::] pw id = x] &
    (forall i, (size (pubs c) <= i < pwCnt)%N -> nth [::] pw i = nseq rank 0%R) /\
    (forall i, (size (wits c) <= i < wCnt)%N -> nth [::] w i = nseq rank 0%R)].
Proof.
move=> hc hs hf hp hw hid.
have hv : settable true false v by rewrite (settable_skel _ _ hs).
have [sp sw] := size_skel hs.
have [c' [e1 e2 e3 e4]] := firstWalkP U (0%N, 0%N) hc.
pose st0 := Pst (nseq pwCnt [::]) (nseq wCnt [::]) 0 0 : pst F.
have f0 : fits v st0 by rewrite /fits /= !size_nseq sp sw.
have P0 := prvWalkP hv hf f0.
pose st1 := (nseq pwCnt [::], 0%N) : seq (seq F) * nat.
have hq : (st1.2 + size (pubs v) <= size st1.1)%N by rewrite /= size_nseq sp.
have V0 := vrfWalkP hv hf hq.
have z0 total (xs : seq (seq F)) : (size xs <= total)%N ->
    zerosFrom rank (size xs) total (wr (nseq total [::]) 0 xs) = xs ++ nseq (total - size xs) (nseq rank 0%R).
  by move=> h; rewrite /zerosFrom /wr take0 /= take_size_cat.
exists c', (pubs v ++ nseq (pwCnt - size (pubs v)) (nseq rank 0%R)), (wits v ++ nseq (wCnt - size (wits v)) (nseq rank 0%R)).
split.
- by rewrite /compileWalk /= e1 /= !add0n.
- split.
    by rewrite /proveInputs /= P0 /= !add0n !z0 ?sp ?sw // -sp -sw.
  by rewrite /verifyInputs /= V0 /= !add0n !z0 ?sp // -sp.
- move=> p x hx; have [k [hk h]] := posW hx; have := h _ (erefl (skel v)); rewrite hx => -[ex].
  exists k, (nth [::] (wits c') k); rewrite (h c') ?hs ?e2 //; split=> //; last first.
  + by rewrite nth_cat hk.
  + by rewrite -sw.
  have hk' : (k < size (wits c))%N by rewrite -sw.
  rewrite e4 /ids (nth_map 0%N) ?size_iota // nth_iota // add0n.
  by apply: (proj1 (C27_roundtrip _)); apply: hid; move: hk'; lia.
- move=> p x hx; have [k [hk h]] := posP hx; have := h _ (erefl (skel v)); rewrite hx => -[ex].
  exists k, (nth [::] (pubs c') k); rewrite (h c') ?hs ?e2 //; split=> //; last first.
  + by rewrite nth_cat hk.
  + by rewrite -sp.
  have hk' : (k < size (pubs c))%N by rewrite -sp.
  rewrite e3 /ids (nth_map 0%N) ?size_iota // nth_iota // add0n.
  by apply: (proj2 (C27_roundtrip _)); apply: hid; move: hk'; lia.
- split=> i /andP[h1 h2]; rewrite nth_cat ?sp ?sw ltnNge h1 /= nth_nseq.
    by have -> : (i - size (pubs c) < pwCnt - size (pubs c))%N by move: h1 h2; lia.
  by have -> : (i - size (wits c) < wCnt - size (wits c))%N by move: h1 h2; lia.
Qed.

(** A witness held directly by an interface field is skipped by Compile (it is not
    addressable) and counted by Prove: a circuit { A any; B Witness } with one further
    witness slot gets A in the slot of B. *)
Theorem C28_interface_refuted (a b : seq F) rank : size a = rank -> size b = rank ->
  let c := VStruct [:: VIface (VWit [::]); VWit [::]] in let v := VStruct [:: VIface (VWit a); VWit b] in
  skel v = skel c /\ full rank v /\
  compileWalk U c = (VPtr (VStruct [:: VIface (VWit [::]); VWit (idToWit U 0)]), (0, 1)%N, false) /\
  proveInputs rank 0 1 v = None /\
  proveInputs rank 0 2 v = Some (inr ([::], [:: a; b])).
Proof.
move=> ha hb c v; split=> //; split; first by rewrite /= ha hb eqxx.
split=> //; rewrite /proveInputs /= ha hb eqxx /=; split=> //.
Qed.
End C28.

(** * C29: the walks never report a wrong length, because the errors of the recursive calls
    are dropped, and the wrong-length witness is silently left out: the following witnesses
    move down and the last slots are zero. *)
Section C29.
Variable F : fieldType.

Theorem C29_never_reported_refuted rank pwCnt wCnt (v : cv F) :
  proveInputs rank pwCnt wCnt v <> Some (inl tt) /\ verifyInputs rank pwCnt v <> Some (inl tt).
Proof.
rewrite /proveInputs /verifyInputs /=; split.
  by case: (prvWalk _ _ _ _) => [[st e]|].
by case: (vrfWalk _ _ _ _) => [[st e]|].
Qed.

Theorem C29_shift_refuted rank (a b c : seq F) : size a <> rank -> size b = rank -> size c = rank ->
  proveInputs rank 0 3 (VStruct [:: VWit a; VWit b; VWit c]) = Some (inr ([::], [:: b; c; nseq rank 0%R])) /\
  verifyInputs rank 3 (VStruct [:: VPub a; VPub b; VPub c]) = Some (inr [:: b; c; nseq rank 0%R]).
Proof.
move=> /eqP/negbTE ha hb hc; rewrite /proveInputs /verifyInputs /= ha /=.
by rewrite hb eqxx /= hc eqxx.
Qed.
End C29.

(** * Concrete cases *)
Example ex_C27 : idFits U97 40 /\ witnessToID U97 (idToWit U97 40) = 40%Z /\ witnessToID U97 (idToPub U97 40) = 40%Z.
Proof. by split; [rewrite /idFits /=; lia|vm_compute]. Qed.
(** struct { P PublicWitness; In *struct { V []Witness; n int }; Q [1]PublicWitness } with two
    elements in V *)
Definition exC (p q a b : seq F97) : cv F97 :=
  VStruct [:: VPub p; VPtr (VStruct [:: VSlice [:: VWit a; VWit b]; VUnexp VOther]); VArr [:: VPub q]].
Definition vv (n : nat) : seq F97 := nseq 8 (n%:R)%R.
Example ex_C28 : [/\ settable true false (exC [::] [::] [::] [::]),
  skel (exC (vv 1) (vv 2) (vv 3) (vv 4)) = skel (exC [::] [::] [::] [::]), full 8 (exC (vv 1) (vv 2) (vv 3) (vv 4)) &
  at_ (exC (vv 1) (vv 2) (vv 3) (vv 4)) [:: 1; 0; 0; 1]%N = Some (VWit (vv 4))].
Proof. by []. Qed.

Print Assumptions C27_roundtrip.
Print Assumptions C27_distinct.
Print Assumptions C28_same_numbering.
Print Assumptions C28_interface_refuted.
Print Assumptions C29_never_reported_refuted.
Print Assumptions C29_shift_refuted.
