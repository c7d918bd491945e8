(** C48: Prove and Verify calls that run at the same time on one compiled circuit. *)
From Coq Require Import ZArith Lia.
From mathcomp Require Import all_ssreflect all_algebra zify.
From Verif Require Import Spec UintModel BigpolyModel BitrevProofs NttProofs NttCore UintProofs NttTables
  UintFp PolyProofs RingProofs NormModel BucklerModel DefineModel BucklerSpec FillProofs NormSound ContextProofs
  CheckerProofs NormComplete FillComplete Prop_Norm RangeProofs EncodeProofs CheckProofs CheckSound Prop_Check
  ProtocolModel ProtocolProofs ConcModel.
Set Implicit Arguments. Unset Strict Implicit. Unset Printing Implicit Defensive.
Delimit Scope Z_scope with Z.
Local Arguments nseq : simpl never.
Local Arguments iota : simpl never.
Local Arguments reshape : simpl never.

(** * Programs *)
Section Programs.
Variable A : Type.
Notation prog := (prog A).
Implicit Types (m : mem) (M : seq (seq bool)) (f : seq (seq bool) -> A).

Lemma flatten_bits r M : shape M = nseq 128 r -> [seq bitAt M c | c <- rcells r] = flatten M.
Proof.
move=> hM; have sM : size M = 128 by rewrite -(size_map size) -/(shape M) hM size_nseq.
have rowM i : (i < 128)%N -> size (nth [::] M i) = r.
  move=> hi; have := nth_shape M i; rewrite hM nth_nseq hi => e; exact: esym e.
rewrite /rcells map_allpairs /allpairs_dep.
congr flatten; rewrite -[M in RHS](mkseq_nth [::]) sM /mkseq.
apply/eq_in_map => i; rewrite mem_iota add0n => hi.
rewrite -[RHS](mkseq_nth false) rowM //.
Qed.

(** where a call with matrix M stands, in a memory that agrees with M on what the call relies on *)
Definition agree m M (cs : seq cell) : Prop := forall c, c \in cs -> m c = bitAt M c.
Inductive at_ (r : nat) M f m : prog -> Prop :=
  | AtW : forall dn rest, wcells r = dn ++ rest -> agree m M dn ->
      at_ r M f m (writeAll rest M (readAll (rcells r) [::] (useMatrix r f)))
  | AtR : forall dn rest, rcells r = dn ++ rest -> agree m M (wcells r) ->
      at_ r M f m (readAll rest [seq bitAt M c | c <- dn] (useMatrix r f))
  | AtE : at_ r M f m (Ret (f M)).

Lemma wr_cells r c : (c \in rcells r) = (c \in wcells r).
Proof.
by apply/allpairsP/allpairsP => -[[i j] [/= h1 h2 ->]]; exists (j, i).
Qed.
Lemma at_start r M f m : at_ r M f m (projCall r M f).
Proof. by rewrite /projCall; apply: (@AtW _ _ _ _ [::]). Qed.
Lemma at_step r M f m p : shape M = nseq 128 r -> at_ r M f m p ->
  at_ r M f (step1 m p).1 (step1 m p).2.
Proof.
move=> hM; case=> [dn rest e ha|dn rest e ha|]; last exact: AtE.
- case: rest e => [|c rest] e /=.
    have ha' : agree m M (wcells r) by rewrite e cats0.
    case Er: (rcells r) => [|c rs] /=.
      rewrite /useMatrix /= -[[::]]/[seq bitAt M c | c <- [::]] -[[::] in X in map _ X]Er flatten_bits //.
      by rewrite -hM flattenK; exact: AtE.
    by rewrite ha' -?wr_cells ?Er ?mem_head //; apply: (@AtR _ _ _ _ [:: c] rs).
  apply: (@AtW _ _ _ _ (rcons dn c)); first by rewrite cat_rcons.
  move=> c'; rewrite mem_rcons inE /upd; case: eqP => [-> //|_ /=]; exact: ha.
- case: rest e => [|c rest] e /=.
    by rewrite /useMatrix /= -[dn]cats0 -e flatten_bits // -hM flattenK; exact: AtE.
  rewrite ha -?wr_cells ?e ?mem_cat ?mem_head ?orbT // -map_rcons.
  by apply: AtR => //; rewrite cat_rcons.
Qed.
(** writes of others that agree with M do no harm *)
Lemma at_upd r M f m c b p : at_ r M f m p -> b = bitAt M c -> at_ r M f (upd m c b) p.
Proof.
move=> h ->; have ag cs : agree m M cs -> agree (upd m c (bitAt M c)) M cs.
  by move=> ha c' hc; rewrite /upd; case: eqP => [->//|_]; exact: ha.
by case: h => [dn rest e /ag|dn rest e /ag|]; [apply: AtW|apply: AtR|move=> *; apply: AtE].
Qed.
Lemma at_other r M f m p f' p' : at_ r M f m p -> at_ r M f' m p' -> at_ r M f (step1 m p').1 p.
Proof.
move=> h; case=> [dn rest e ha|dn rest e ha|] //=.
- by case: rest e => [|c rest] e /=; [case: (rcells r)|apply: at_upd].
- by case: rest e.
Qed.
Lemma at_result r M f m p a : at_ r M f m p -> shape M = nseq 128 r -> result p = Some a -> a = f M.
Proof.
move=> h hM; case: h => [dn rest e ha|dn rest e ha|]; last by move=> /= [].
- case: rest e => [|c rest] e //=; case Er: (rcells r) => [|c rs] //= [<-].
  by rewrite -[[::]]/[seq bitAt M c | c <- [::]] -[[::] in X in map _ X]Er flatten_bits // -hM flattenK.
- case: rest e => [|c rest] e //= [<-].
  by rewrite -[dn]cats0 -e flatten_bits // -hM flattenK.
Qed.

(** a program all of whose writes are bits of M *)
Inductive wonly M : prog -> Prop :=
  | WoRet a : wonly M (Ret a)
  | WoWr c p : wonly M p -> wonly M (Wr c (bitAt M c) p)
  | WoRd c k : (forall b, wonly M (k b)) -> wonly M (Rd c k).
Lemma wonly_step M m p : wonly M p -> wonly M (step1 m p).2.
Proof. by case=> [a|c q|c k] /=; [constructor| |apply]. Qed.
Lemma wonly_readAll M cs bits r f : wonly M (readAll cs bits (useMatrix r f)).
Proof. by elim: cs bits => [|c cs IH] bits /=; constructor=> // b. Qed.
Lemma wonly_call r M f : wonly M (projCall r M f).
Proof. by rewrite /projCall; elim: (wcells r) => [|c cs IH] /=; [exact: wonly_readAll|constructor]. Qed.
Lemma at_wonly r M f m p p' : at_ r M f m p -> wonly M p' -> at_ r M f (step1 m p').1 p.
Proof. by move=> h; case=> [a|c q _|c k _] //=; apply: at_upd. Qed.

(** a bound on the number of steps *)
Inductive within : nat -> prog -> Prop :=
  | InRet n a : within n (Ret a)
  | InWr n c b p : within n p -> within n.+1 (Wr c b p)
  | InRd n c k : (forall b, within n (k b)) -> within n.+1 (Rd c k).
Lemma within_step n m p : within n p -> within n.-1 (step1 m p).2.
Proof. by case=> [k a|k c b q|k c q] //=; constructor. Qed.
Lemma within0 p : within 0 p -> result p.
Proof. by move=> h; inversion h. Qed.
Lemma within_call r M f : within (256 * r) (projCall r M f).
Proof.
have hr cs bits : within (size cs) (readAll cs bits (useMatrix r f)).
  by elim: cs bits => [|c cs IH] bits /=; constructor.
have hw k cs p : within k p -> within (size cs + k) (writeAll cs M p).
  by move=> h; elim: cs => //= c cs IH; constructor.
have -> : (256 * r = size (wcells r) + size (rcells r))%N.
  by rewrite !size_allpairs !size_iota; lia.
exact: hw.
Qed.

(** ** The list of threads *)
Definition tget (ts : seq prog) (i : nat) : option prog := if drop i ts is p :: _ then Some p else None.
Lemma split_at (X : Type) (l : seq X) i : (i < size l)%N -> exists a x b, l = a ++ x :: b /\ size a = i.
Proof.
elim: l i => [|x l IH] [|i] //= h; first by exists [::], x, l.
by have [a [y [b [-> <-]]]] := IH i h; exists (x :: a), y, b.
Qed.
Lemma tget_nil ts i : (size ts <= i)%N -> tget ts i = None.
Proof. by move=> h; rewrite /tget drop_oversize. Qed.
Lemma tget_cat a (p : prog) b j :
  tget (a ++ p :: b) j = if (j < size a)%N then tget a j else if j == size a then Some p else tget b (j - (size a).+1).
Proof.
elim: a j => [|x a IH] [|j] //=; first by rewrite subSS subn0.
by rewrite -[LHS]/(tget (a ++ p :: b) j) IH ltnS eqSS subSS.
Qed.
Lemma step_get m ts i j :
  tget (step (m, ts) i).2 j = if j == i then omap (fun p => (step1 m p).2) (tget ts j) else tget ts j.
Proof.
case: (ltnP i (size ts)) => h; last first.
  by rewrite /step /= drop_oversize //=; case: eqP => // ->; rewrite tget_nil.
have [a [p [b [-> <-]]]] := split_at h.
rewrite /step /= drop_size_cat // take_size_cat //; case E: (step1 m p) => [m' p'] /=.
rewrite !tget_cat; case: (ltngtP j (size a)) => //= hj; by rewrite E.
Qed.
Lemma step_mem m ts i : (step (m, ts) i).1 = if tget ts i is Some p then (step1 m p).1 else m.
Proof. by rewrite /step /tget /=; case: (drop i ts) => [|p b] //=; case: step1. Qed.
Lemma resultOfE i m ts : resultOf i (m, ts) = obind (@result A) (tget ts i).
Proof. by rewrite /resultOf /tget /=; case: (drop i ts). Qed.

(** the specification of a thread: its matrix and what it does with it *)
Record spec := Spec { sMat : option (seq (seq bool)); sRes : seq (seq bool) -> A }.
Definition start (r : nat) (s : spec) : prog :=
  if sMat s is Some M then projCall r M (sRes s) else Ret (sRes s [::]).
Definition value (s : spec) : A := sRes s (odflt [::] (sMat s)).

Definition quiet M (s : spec) : bool := if sMat s is Some M' then M' == M else true.
Lemma wonly_start r M s : quiet M s -> wonly M (start r s).
Proof.
rewrite /quiet /start; case: (sMat s) => [M'|_]; last by constructor.
by move/eqP=> ->; exact: wonly_call.
Qed.

Definition starts (r : nat) (ss : seq spec) : seq prog := [seq start r s | s <- ss].
Lemma tget_starts r ss i d : (i < size ss)%N -> tget (starts r ss) i = Some (start r (nth d ss i)).
Proof. by elim: ss i => [|s ss IH] [|i] //= /IH. Qed.

(** every call ends, after as many steps of its own as it has cell accesses *)
Lemma finish r ss m sched i : (i < size ss)%N -> (256 * r <= count_mem i sched)%N ->
  resultOf i (runSched sched (m, starts r ss)).
Proof.
move=> hi; have [d _] : exists d : spec, True by case: ss hi => // s; exists s.
have h0 : exists2 p, tget (starts r ss) i = Some p & within (256 * r) p.
  rewrite (tget_starts _ d) //; eexists; first by [].
  rewrite /start; case: sMat => [M|]; [exact: within_call|constructor].
move: (starts r ss) (256 * r)%N h0 => ts k; elim: sched m ts k => [|j sched IH] m ts k [p hp hk].
  by rewrite /= leqn0 => /eqP k0; rewrite resultOfE hp; apply: within0; rewrite -k0.
rewrite /= => hc; case E: (step (m, ts) j) => [m' ts'].
apply: (IH m' ts' (k - (j == i))%N); last by rewrite leq_subLR.
rewrite -[ts']/(m', ts').2 -E step_get hp eq_sym; case: (j == i); last by rewrite subn0; exists p.
by eexists; first by []; rewrite subn1; exact: within_step.
Qed.

(** between the first and the last step of call i only calls with the same matrix make steps *)
Lemma window r ss m s1 s2 s3 i s M a : (i < size ss)%N -> nth s ss i = s -> sMat s = Some M ->
  shape M = nseq 128 r -> i \notin s1 -> i \notin s3 ->
  (forall j, j \in s2 -> j = i \/ quiet M (nth s ss j)) ->
  resultOf i (runSched (s1 ++ s2 ++ s3) (m, starts r ss)) = Some a -> a = sRes s M.
Proof.
move=> hi es eM hM n1 n3 h2; rewrite /runSched !foldl_cat.
pose Q ts := forall j p, (j < size ss)%N -> quiet M (nth s ss j) -> tget ts j = Some p -> wonly M p.
have qstep m' ts j : Q ts -> Q (step (m', ts) j).2.
  move=> h k p hk hq; rewrite step_get; case: (k == j); last exact: h.
  by case E: (tget ts k) => [q|] //= [<-]; apply: wonly_step; apply: h E.
have sz ts m' j : size (step (m', ts) j).2 = size ts.
  rewrite /step /=; case E: (drop j ts) => [|p b] //; case: step1 => m2 p' /=.
  by rewrite -[in RHS](cat_take_drop j ts) E !size_cat /=.
(* before *)
have st1 : let st := foldl (@step A) (m, starts r ss) s1 in
  [/\ Q st.2, size st.2 = size ss & tget st.2 i = Some (start r s)].
  have : [/\ Q (m, starts r ss).2, size (m, starts r ss).2 = size ss & tget (m, starts r ss).2 i = Some (start r s)].
    split; [|by rewrite size_map|by rewrite (tget_starts _ s) // es].
    by move=> j p hj hq /=; rewrite (tget_starts _ s) // => -[<-]; exact: wonly_start.
  move: (m, starts r ss) n1; elim: s1 => [|j s1 IH] [m' ts] //=.
  rewrite inE negb_or => /andP[hj hs] [h1 h2' h3]; apply: IH => //; split; [exact: qstep|by rewrite sz|].
  by rewrite step_get (negbTE hj).
move: (foldl _ _ s1) st1 => [m1 ts1] /= [q1 z1 g1].
(* during *)
have st2 : let st := foldl (@step A) (m1, ts1) s2 in exists2 p, tget st.2 i = Some p & at_ r M (sRes s) st.1 p.
  have : exists2 p, tget (m1, ts1).2 i = Some p & at_ r M (sRes s) (m1, ts1).1 p.
    by exists (start r s) => //=; rewrite /start eM; exact: at_start.
  move: q1 z1; rewrite -[ts1]/(m1, ts1).2; move: (m1, ts1) => st.
  elim: s2 st h2 => [|j s2 IH] [m' ts] //= h2 q z [p hp ha].
  apply: IH; [by move=> k hk; apply: h2; rewrite inE hk orbT|exact: qstep|by rewrite sz|].
  rewrite step_get step_mem; case: (altP (i =P j)) => [<-|nij].
    by rewrite hp /=; eexists; first by []; exact: at_step.
  exists p => //; case E: (tget ts j) => [p'|//].
  have hj : (j < size ss)%N by rewrite ltnNge; apply/negP => hj; move: E; rewrite tget_nil // z.
  have [e|hq] := h2 j (mem_head _ _); first by rewrite e eqxx in nij.
  exact: at_wonly ha (q j p' hj hq E).
move: (foldl _ _ s2) st2 => [m2 ts2] /= [p g2 ha].
(* after *)
have : tget (foldl (@step A) (m2, ts2) s3).2 i = Some p.
  move: n3 g2; rewrite -[ts2]/(m2, ts2).2; move: (m2, ts2) => st.
  elim: s3 st => [|j s3 IH] [m' ts] //=; rewrite inE negb_or => /andP[hj hs] h.
  by apply: IH => //; rewrite step_get (negbTE hj).
case: (foldl _ _ s3) => m3 ts3 /= g3; rewrite resultOfE g3 /= => hr.
exact: at_result ha hM hr.
Qed.

(** calls without a matrix *)
Lemma no_matrix r ss m sched i s a : (i < size ss)%N -> nth s ss i = s -> sMat s = None ->
  resultOf i (runSched sched (m, starts r ss)) = Some a -> a = value s.
Proof.
move=> hi es eM; have : tget (m, starts r ss).2 i = Some (Ret (value s)).
  by rewrite /= (tget_starts _ s) // es /start /value eM.
rewrite /runSched; move: (m, starts r ss); elim: sched => [|j sched IH] [m' ts] /=.
  by move=> h; rewrite resultOfE h => -[].
by move=> h; apply: IH; rewrite step_get h; case: eqP.
Qed.

(** the race: first all writes of call 0, then all of call 1, then the reads of call 0 *)
Definition raceSched (r : nat) : seq nat := nseq (128 * r) 0%N ++ nseq (128 * r) 1%N ++ nseq (128 * r) 0%N.
Lemma race r M0 f0 M1 f1 m : shape M1 = nseq 128 r ->
  resultOf 0 (runSched (raceSched r) (m, [:: projCall r M0 f0; projCall r M1 f1])) = Some (f0 M1).
Proof.
move=> hM.
have wr (M : seq (seq bool)) cs k dn m' : agree m' M dn ->
  exists m2, [/\ iter (size cs) (fun st => (step1 st.1 st.2)) (m', writeAll cs M k) = (m2, k : prog) & agree m2 M (dn ++ cs)].
  elim: cs dn m' => [|c cs IH] dn m' ha; first by exists m'; rewrite cats0.
  rewrite [size _]/= iterSr /= -cat_rcons; apply: IH => c'; rewrite mem_rcons inE /upd.
  by case: eqP => [->//|_]; exact: ha.
have rd0 k m' p q : foldl (@step A) (m', [:: p; q]) (nseq k 0%N) =
    let st := iter k (fun st => step1 st.1 st.2) (m', p) in (st.1, [:: st.2; q]).
  elim: k m' p => [|k IH] m' p //; rewrite -[nseq k.+1 _]/(0%N :: nseq k 0%N) [LHS]/= iterSr.
  by rewrite /step /=; case E: (step1 m' p) => [m2 p'] /=; exact: IH.
have rd1 k m' p q : foldl (@step A) (m', [:: p; q]) (nseq k 1%N) =
    let st := iter k (fun st => step1 st.1 st.2) (m', q) in (st.1, [:: p; st.2]).
  elim: k m' q => [|k IH] m' q //; rewrite -[nseq k.+1 _]/(1%N :: nseq k 1%N) [LHS]/= iterSr.
  by rewrite /step /=; case E: (step1 m' q) => [m2 q'] /=; exact: IH.
have sw : size (wcells r) = (128 * r)%N by rewrite size_allpairs !size_iota mulnC.
have sr : size (rcells r) = (128 * r)%N by rewrite size_allpairs !size_iota.
rewrite /runSched /raceSched !foldl_cat rd0 /projCall.
have [m2 [e0 _]] := @wr M0 (wcells r) (readAll (rcells r) [::] (useMatrix r f0)) [::] m (fun c => ltac:(by [])).
rewrite sw in e0; rewrite e0 rd1.
have [m3 [e1 h3]] := @wr M1 (wcells r) (readAll (rcells r) [::] (useMatrix r f1)) [::] m2 (fun c => ltac:(by [])).
rewrite sw in e1; rewrite e1 rd0 -sr.
have gen cs dn : rcells r = dn ++ cs ->
  iter (size cs) (fun st => step1 st.1 st.2) (m3, readAll cs [seq bitAt M1 c | c <- dn] (useMatrix r f0)) = (m3, Ret (f0 M1)).
  elim: cs dn => [|c cs IH] dn e.
    by rewrite /= /useMatrix -[dn]cats0 -e flatten_bits // -hM flattenK.
  rewrite [size _]/= iterSr /= h3 /=; last by rewrite -wr_cells e mem_cat mem_head orbT.
  by rewrite -map_rcons; apply: IH; rewrite cat_rcons.
by have := gen (rcells r) [::] erefl; rewrite [map _ _]/= => ->.
Qed.
End Programs.

(** * Prove and Verify *)
Section Calls.
Variables (F : fieldType) (U : uint F) (P : pcs F) (H : bytes -> bytes) (name : nat -> bytes).
Variables (setBytes : bytes -> F) (marshal : F -> bytes) (xofProj : nat -> bytes -> seq (seq bool)).
Variables (T TE : transformer F) (x : context F).
Notation N := (crank x).
Notation outcomeWith := (@outcomeWith F U P H name setBytes marshal T TE x).
Notation projConstOf := (@projConstOf F U P H name T TE x).
Notation progOf := (@progOf F U P H name setBytes marshal xofProj T TE x).

(** what a call returns when it runs alone (the Prove and Verify of the other files) *)
Definition alone (c : call P) : outcome P := outcomeWith xofProj c.
(** the matrix it fills in *)
Definition matrixOf (c : call P) : option (seq (seq bool)) :=
  if chasProj x then omap (xofProj N) (projConstOf c) else None.

Lemma alone_matrix c pc : projConstOf c = Some pc -> alone c = outcomeWith (fun _ _ => xofProj N pc) c.
Proof.
rewrite /alone; case: c => [k pw w|ord pw pf] /=.
- rewrite /Prove /ProveC; case: (_ || _); [by []|].
  case: fillInf => [w'|]; [|by []]; case: fillTwo => [[pw' w2]|]; [|by []].
  by case: ComputeChallenge => [[pc' st]|]; [case=> <-|].
- rewrite /Verify /VerifyC; case: (~~ _); [by []|]; case: fillPw => [pw'|]; [|by []].
  case: (size _ < _)%N; [by []|]; case: (_ && _); [by []|].
  by case: ComputeChallenge => [[pc' st]|]; [case=> <-|].
Qed.

Definition specOf (c : call P) : spec (outcome P) :=
  Spec (matrixOf c) (if matrixOf c is Some _ then fun M => outcomeWith (fun _ _ => M) c else fun _ => alone c).
Lemma start_spec c : start N (specOf c) = progOf c.
Proof.
rewrite /start /specOf /matrixOf /progOf /=; case: (chasProj x) => //=.
by case: projConstOf.
Qed.
Lemma value_spec c : value (specOf c) = alone c.
Proof.
rewrite /value /specOf /matrixOf; case: (chasProj x); last exact: erefl.
by case E: projConstOf => [pc|]; [exact: esym (alone_matrix E)|exact: erefl].
Qed.
Lemma starts_spec cs : [seq progOf c | c <- cs] = starts N [seq specOf c | c <- cs].
Proof. by rewrite /starts -map_comp; apply: eq_map => c /=; rewrite start_spec. Qed.

(** the matrix has 128 rows of rank bits *)
Hypothesis xofShape : forall pc, shape (xofProj N pc) = nseq 128 N.

(** Every number of calls, every schedule and every content of the matrix before: a call during
    which only calls with the same matrix are active returns what it returns alone.  [s1] and
    [s3] are what is scheduled before its first and after its last step. *)
Theorem C48_window (cs : seq (call P)) m s1 s2 s3 i c d a :
  (i < size cs)%N -> nth d cs i = c -> i \notin s1 -> i \notin s3 ->
  (forall j, j \in s2 -> (j < size cs)%N -> j = i \/ matrixOf (nth d cs j) \in [:: None; matrixOf c]) ->
  resultOf i (runSched (s1 ++ s2 ++ s3) (m, [seq progOf c | c <- cs])) = Some a -> a = alone c.
Proof.
move=> hi ec n1 n3 h2; rewrite starts_spec.
have hi' : (i < size [seq specOf c | c <- cs])%N by rewrite size_map.
have en : nth (specOf c) [seq specOf c | c <- cs] i = specOf c by rewrite (nth_map d) // ec.
case E: (matrixOf c) => [M|]; last first.
  by move/(no_matrix hi' en _) => -> //; exact: value_spec.
have hM : shape M = nseq 128 N.
  by move: E; rewrite /matrixOf; case: (chasProj x) => //; case: projConstOf => // pc [<-].
have -> : alone c = sRes (specOf c) M by rewrite -value_spec /value /= E.
apply: (window hi' en _ hM n1 n3); first exact: E.
move=> j hj; case: (ltnP j (size cs)) => hs; last first.
  by right; rewrite nth_default ?size_map // /quiet /specOf /= E.
case: (h2 j hj hs) => [->|h]; [by left|right].
rewrite (nth_map d) // /quiet /specOf /=; move: h; rewrite !inE E.
by case: (matrixOf _) => [M'|] //=; rewrite /eq_op /=.
Qed.

(** In particular a circuit without AddApproxInfNormConstraint, or calls that agree on the
    matrix, may be run in any interleaving. *)
Theorem C48_same_matrix (cs : seq (call P)) m sched i d a : (i < size cs)%N ->
  (forall j, (j < size cs)%N -> matrixOf (nth d cs j) = matrixOf (nth d cs i)) ->
  resultOf i (runSched sched (m, [seq progOf c | c <- cs])) = Some a -> a = alone (nth d cs i).
Proof.
move=> hi h; rewrite -[sched]cats0 -[sched ++ [::]]cat0s => hr.
by apply: (C48_window hi erefl _ _ _ hr) => // j _ hj; right; rewrite h // !inE eqxx orbT.
Qed.
Theorem C48_no_projection (cs : seq (call P)) m sched i d a : chasProj x = false -> (i < size cs)%N ->
  resultOf i (runSched sched (m, [seq progOf c | c <- cs])) = Some a -> a = alone (nth d cs i).
Proof. by move=> hp hi; apply: C48_same_matrix => // j _; rewrite /matrixOf hp. Qed.
(** Calls made one after the other do not influence each other, whatever the matrix held before. *)
Theorem C48_sequential (cs : seq (call P)) m k i d a : (i < size cs)%N ->
  resultOf i (runSched (flatten [seq nseq k j | j <- iota 0 (size cs)]) (m, [seq progOf c | c <- cs])) = Some a ->
  a = alone (nth d cs i).
Proof.
move=> hi; have -> : flatten [seq nseq k j | j <- iota 0 (size cs)] =
    flatten [seq nseq k j | j <- iota 0 i] ++ nseq k i ++ flatten [seq nseq k j | j <- iota i.+1 (size cs - i.+1)].
  have {1}-> : size cs = (i + (size cs - i.+1).+1)%N by rewrite addnS -addSn subnKC.
  by rewrite iotaD map_cat flatten_cat add0n.
have nin s b : flatten [seq nseq k j | j <- iota s b] =i [pred j | (0 < k)%N && (j \in iota s b)].
  move=> j; rewrite inE; apply/flatten_mapP/andP.
  - by case=> j' h; rewrite mem_nseq => /andP[h1 /eqP ->].
  - by case=> h1 h; exists j => //; rewrite mem_nseq h1 eqxx.
apply: C48_window => //; rewrite ?nin ?inE ?mem_iota ?ltnn ?andbF //.
by move=> j; rewrite mem_nseq => /andP[_ /eqP ->] _; left.
Qed.
(** and every call ends *)
Theorem C48_ends (cs : seq (call P)) m sched i : (i < size cs)%N -> (256 * N <= count_mem i sched)%N ->
  exists a, resultOf i (runSched sched (m, [seq progOf c | c <- cs])) = Some a.
Proof.
move=> hi hc; rewrite starts_spec.
have /(finish m)/(_ hc) : (i < size [seq specOf c | c <- cs])%N by rewrite size_map.
by case: resultOf => // a _; exists a.
Qed.

(** For any two calls there is a schedule in which the first works with the matrix of the second. *)
Theorem C48_race c0 c1 M1 m : matrixOf c0 -> matrixOf c1 = Some M1 ->
  exists sched, resultOf 0 (runSched sched (m, [seq progOf c | c <- [:: c0; c1]])) =
    Some (outcomeWith (fun _ _ => M1) c0).
Proof.
rewrite /matrixOf => h0 h1; exists (raceSched N); rewrite /= /progOf.
move: h0 h1; case: (chasProj x) => //; case: projConstOf => [pc0|] // _; case: projConstOf => [pc1|] // [<-].
by rewrite race.
Qed.
End Calls.

(** * A race that rejects a good proof *)
Section Race.
Import GRing.Theory.
Local Open Scope ring_scope.
Variables (F : fieldType) (U : uint F).
(** the circuit of one AddApproxInfNormConstraint on witness 0, bound 1, rank 128 *)
Definition rcs : seq (cmd F) := [:: @CApprox F 0 1].
Definition rbase : seq F := [seq setBigInt U b | b <- [:: 64; 32; 16; 8; 4; 2; 1]%Z].
Definition rx : context F := Ctx 128 0 3 [:: 1; 2]%N 255 0 [::] [::] [::]
  [:: Chk (inr 0%N) (@OProj F); Chk (inr 2%N) (ORecomp rbase)]
  [:: (inr 0%N, [:: (1, 0)]%N); (inr 2%N, [:: (1, 2)]%N)] [::] [::] true [:: (0, 1)%N] [:: (1%N, (128%Z, 2%N))].
Lemma rx_compiled : compiled U 128 0 1 rcs rx.
Proof.
by split.
Qed.
(** the transparent scheme: a commitment is the polynomial *)
Definition clearPcs : pcs F := @Pcs F (seq F) unit unit unit 256
  (fun _ p => (p, tt)) (fun p => [seq Z.to_nat (bigInt U a) | a <- p])
  (fun _ pt ps _ _ => ([seq evalSlice p pt | p <- ps], tt))
  (fun pt cs es _ => es == [seq evalSlice p pt | p <- cs]).
(** the proofs for the witnesses (1,...,1) and (0,...,0) *)
Definition rpf (a : F) : proof clearPcs :=
  @Proof F clearPcs ([:: a] :: nseq 6 [:: 0]) 0 0 (a :: nseq 6 0) tt.
(** the matrices drawn from the two transcripts *)
Definition rxof (r : nat) (c : bytes) : seq (seq bool) :=
  if c == [:: 1%N] then nseq 128 (nseq r false) else nseq r true :: nseq 127 (nseq r false).
Variables (T TE : transformer F) (n : nat) (g : F).
Hypothesis K : keys U 128 0 1 rcs rx T TE n g.
Variables (marshal : F -> bytes) (e : F).
Hypothesis e0 : e != 0.
Let H (b : bytes) : bytes := b.
Let name (i : nat) : bytes := [::].
Let setBytes (b : bytes) : F := e.
Notation verifyWith xof a := (Verify U H name setBytes marshal xof T TE rx [::] [::] (rpf a)).

Lemma r_eval1 (a : F) : evalSlice [:: a] e = a.
Proof. by rewrite /evalSlice evalSliceE pevalE /= cons_poly_def mul0r add0r hornerC. Qed.
Lemma r_verify xof a : verifyWith xof a =
  Some (vrf_linCheck U T TE rx 256 (xof 128%N [:: Z.to_nat (bigInt U a)]) e e 0 e (Exp e 128 - setBigInt U 1) 0 0 0 0
         (a :: nseq 6 0)).
Proof.
rewrite /Verify VerifyCE.
have -> : VerifyE U H name setBytes marshal xof T TE rx [::] [::] (rpf a) =
  Some (vChecks U setBytes xof T TE rx [::] (rpf a) (vchs H name marshal rx (rpf a)), vchs H name marshal rx (rpf a)) by [].
rewrite /omap /obind /oapp; congr Some.
have pv : pVerify (setBytes (nth [::] (vchs H name marshal rx (rpf a)) 5)) (pfWitness (rpf a)) (pfEvals (rpf a)) (pfEval (rpf a)).
  by rewrite /= -[setBytes _]/e !r_eval1.
rewrite /vChecks pv -[hasArith rx]/false -[hasSum rx]/false -[hasLin rx]/true !implyFb implyTb andbT andTb.
rewrite -[nth [::] (vchs _ _ _ _ _) 0]/([:: Z.to_nat (bigInt U a)]).
by [].
Qed.
Let vec := linCheckVec U rx e.
Lemma r_lin proj a V : vrf_linCheck U T TE rx 256 proj e e 0 e V 0 0 0 0 (a :: nseq 6 0) =
  (evalSlice (encode T (trank TE) (proj_transpose proj (nseq 128 0) vec)) e * a == 0).
Proof.
rewrite /vrf_linCheck mulr0 eqxx /= mul0r !addr0 mul0r /vrf_linLoop -[clinChk rx]/[:: _; _] /=.
rewrite !mulr0 !mul0r !subr0 !addr0 add0r mulf_eq0 (negbTE e0) orbF mulf_eq0 (negbTE e0) orbF.
by [].
Qed.
Lemma r_const (c : F) : evalSlice (encode T (trank TE) (nseq 128 c)) e = c.
Proof.
have G := ks_G K; have hN := ks_N K.
have s1 : size (nseq 128 c) = (2 ^ n)%N by rewrite size_nseq -hN.
have hE : (2 ^ n <= trank TE)%N.
  by have [m [h [-> _]]] := Prop_Check.kE K; rewrite -hN; exact: ltnW (ks_lt K).
rewrite /evalSlice evalSliceE pevalE (Poly_encode G hE) // /interp.
have -> : nseq 128 c = evs n g (c%:P).
  apply: (@eq_from_nth _ 0); rewrite s1 ?size_evs // => i hi.
  by rewrite nth_evs // hornerC nth_nseq hN hi.
rewrite (inv_evs G) ?Poly_cf ?hornerC //.
all: by apply: leq_trans (size_polyC_leq1 c) _; rewrite expn_gt0.
Qed.
Let vec0 : vec`_0 = 1.
Proof. by rewrite /vec (@linCheckVecE F U TE rx n (kN2 K) (ltnW (kEN K))). Qed.
Lemma bigInt1 : bigInt U 1 = 1%Z.
Proof. by rewrite -(setBigInt_one U) bigInt_setBigInt Z.mod_small //; have := modulus_gt1 U; lia. Qed.
Lemma tr0 (k R : nat) (v : seq F) : proj_transpose (nseq k.+1 (nseq R false)) (nseq R 0) v = nseq R 0.
Proof.
have [|||h1 h2] := @proj_transposeP F (nseq k.+1 (nseq R false)) R (nseq R 0) v.
- by rewrite size_nseq.
- by rewrite all_nseq size_nseq eqxx.
- by rewrite size_nseq.
apply: (@eq_from_nth _ 0) => [|j]; first by rewrite h1 size_nseq.
rewrite h1 => hj; rewrite h2 // nth_nseq hj.
by rewrite size_nseq; apply: big1 => i _; rewrite nth_nseq (ltn_ord i) nth_nseq hj.
Qed.
Lemma tr1 (k R : nat) (v : seq F) : proj_transpose (nseq R true :: nseq k (nseq R false)) (nseq R 0) v = nseq R v`_0.
Proof.
have [|||h1 h2] := @proj_transposeP F (nseq R true :: nseq k (nseq R false)) R (nseq R 0) v.
- by [].
- by rewrite /= size_nseq all_nseq size_nseq eqxx orbT.
- by rewrite size_nseq.
apply: (@eq_from_nth _ 0) => [|j]; first by rewrite h1 size_nseq.
rewrite h1 => hj; rewrite h2 // nth_nseq hj.
rewrite [size _]/= size_nseq big_ord_recl /= nth_nseq hj big1 ?addr0 // => i _.
by rewrite nth_nseq (ltn_ord i) nth_nseq hj.
Qed.

(** Verify of the first proof, alone and with the matrix of the second *)
Lemma r_alone : verifyWith rxof 1 = Some true.
Proof.
rewrite r_verify r_lin bigInt1 -[rxof _ _]/(nseq 127.+1 (nseq 128 false)) tr0 r_const mul0r.
by rewrite eqxx.
Qed.
Lemma r_other : verifyWith (fun r _ => nseq 128 true :: nseq 127 (nseq 128 false)) 1 = Some false.
Proof. by rewrite r_verify r_lin tr1 vec0 r_const mulr1 oner_eq0. Qed.

Let c1 : call clearPcs := DoVerify [::] [::] (rpf 1).
Let c0 : call clearPcs := DoVerify [::] [::] (rpf 0).
Lemma bigInt0 : bigInt U 0 = 0%Z.
Proof. by rewrite -(sb0 U) bigInt_setBigInt. Qed.
Let r_pc a : projConstOf U H name T TE rx (DoVerify [::] [::] (rpf a)) = Some [:: Z.to_nat (bigInt U a)].
Proof. by []. Qed.
Lemma rxof_shape pc : shape (rxof (crank rx) pc) = nseq 128 (crank rx).
Proof.
rewrite /rxof -[crank rx]/128%N; case: (pc == _); first by rewrite /shape map_nseq size_nseq.
by rewrite /shape map_cons map_nseq size_nseq.
Qed.
Lemma r_race m : exists sched, resultOf 0 (runSched sched (m,
    [seq progOf U H name setBytes marshal rxof T TE rx c | c <- [:: c1; c0]])) = Some (inr (Some false)).
Proof.
have e1 : matrixOf U H name rxof T TE rx c1 = Some (rxof 128 [:: 1%N]).
  by rewrite /matrixOf r_pc bigInt1.
have e2 : matrixOf U H name rxof T TE rx c0 = Some (rxof 128 [:: 0%N]).
  by rewrite /matrixOf r_pc bigInt0.
have [|||sched hs] := @C48_race F U clearPcs H name setBytes marshal rxof T TE rx _ c1 c0 (rxof 128 [:: 0%N]) m.
- by move=> pc; exact: rxof_shape.
- by rewrite e1.
- by rewrite e2.
exists sched; rewrite hs; congr (Some (inr _)); exact: r_other.
Qed.
Lemma r_alone0 : verifyWith rxof 0 = Some true.
Proof. by rewrite r_verify r_lin mulr0 eqxx. Qed.
End Race.

Definition F7681 := [fieldType of 'F_7681].
Definition U7681 : uint F7681 := @uintFp 7681 isT.
Lemma cyc7681 r a k : r = (2 ^ a)%N -> (1 < r)%N -> (Z.of_nat (2 * r) * k = 7680)%Z ->
  exists T, NewCyclicTransformer U7681 r = Some T.
Proof.
move=> hr h1 hk; have h : ntt_rank U7681 r by exists a => //; exists k; rewrite Z.mul_comm hk.
by have [T [m [g [-> _ _]]]] := NewCyclicP h h1; exists T.
Qed.
Lemma keys7681 : exists T TE n g, keys U7681 128 0 1 (rcs F7681) (rx U7681) T TE n g.
Proof.
have [T hT] := @cyc7681 128 7 30 erefl isT erefl.
have [TE hTE] := @cyc7681 256 8 15 erefl isT erefl.
have [||n [g K]] := @keys_new _ U7681 128%N 0%N 1%N (rcs F7681) (rx U7681) T TE _ _ hT hTE isT.
- exact: rx_compiled.
- by move=> c [<-|[]].
by exists T, TE, n, g; exact: K.
Qed.

(** C48 for all calls and all schedules is false: a compiled circuit with one approximate norm
    constraint and two proofs that Verify accepts, and Verify of the first returns false when it
    is interleaved with Verify of the second. *)
Theorem C48_refuted : exists (F : fieldType) (U : uint F) (P : pcs F) (H : bytes -> bytes) (name : nat -> bytes)
    (setBytes : bytes -> F) (marshal : F -> bytes) (xof : nat -> bytes -> seq (seq bool))
    (T TE : transformer F) (cs : seq (cmd F)) (x : context F) (n : nat) (g : F) (pf1 pf2 : proof P),
  let V pf := DoVerify [::] [::] pf in
  [/\ keys U 128 0 1 cs x T TE n g, (forall pc, shape (xof (crank x) pc) = nseq 128 (crank x)),
      Verify U H name setBytes marshal xof T TE x [::] [::] pf1 = Some true,
      Verify U H name setBytes marshal xof T TE x [::] [::] pf2 = Some true
    & forall m, exists sched, resultOf 0 (runSched sched (m,
        [seq progOf U H name setBytes marshal xof T TE x c | c <- [:: V pf1; V pf2]])) = Some (inr (Some false))].
Proof.
have [T [TE [n [g K]]]] := keys7681.
have e0 : (1%R : F7681) != 0%R by exact: GRing.oner_neq0.
exists F7681, U7681, (clearPcs U7681), (fun b => b), (fun=> [::]), (fun=> 1%R), (fun=> [::]), rxof, T, TE,
  (rcs F7681), (rx U7681), n, g, (rpf U7681 1%R), (rpf U7681 0%R); split.
- exact: K.
- by move=> pc; exact: rxof_shape.
- exact: (r_alone K _ e0).
- exact: r_alone0.
- exact: (r_race K _ e0).
Qed.

Print Assumptions C48_window.
Print Assumptions C48_same_matrix.
Print Assumptions C48_no_projection.
Print Assumptions C48_sequential.
Print Assumptions C48_ends.
Print Assumptions C48_race.
Print Assumptions C48_refuted.
