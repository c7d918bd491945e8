(** Vectors of the generated field types: vector.go and vector_purego.go of the seven packages.
    Line numbers are those of buckler/internal/zp220/vector.go; the packages differ in the number
    of limbs only.

    Readers and writers are byte lists: a writer takes every byte, a reader holds the bytes to come
    and ends after the last.  An error of the reader other than the end is not modelled.  Memory
    sizes (capacities, slices.Grow) are not modelled, nor are the AVX512 variants of jindo/internal/zp
    and examples/bfv/zp (vector_amd64.s). *)
From Coq Require Import ZArith.
From mathcomp Require Import all_ssreflect.
From Verif Require Import JindoIntModel ZpModel.
Set Implicit Arguments. Unset Strict Implicit. Unset Printing Implicit Defensive.
Delimit Scope Z_scope with Z.

(** * execute *)

(** 363-371: the number of tasks asked for; [cpu] is runtime.NumCPU(), [maxCpus] the optional argument *)
Definition nbTasks (cpu : nat) (maxCpus : option Z) : nat :=
  if maxCpus is Some c then (if (c <? 1)%Z then 1%N else if (512 <? c)%Z then 512%N else Z.to_nat c) else cpu.

(** 392-405: the loop over the tasks; the intervals handed to work, in the order of the loop *)
Fixpoint spread (tasks i per extra offset : nat) : seq (nat * nat) :=
  if tasks is tasks'.+1 then
    let start := (i * per + offset)%N in
    let end_ := (start + per)%N in
    if (0 < extra)%N then (start, end_.+1) :: spread tasks' i.+1 per extra.-1 offset.+1
    else (start, end_) :: spread tasks' i.+1 per extra offset
  else [::].

(** 361-408: the calls of work *)
Definition execute (nbIterations cpu : nat) (maxCpus : option Z) : seq (nat * nat) :=
  let tasks := nbTasks cpu maxCpus in
  if tasks == 1%N then [:: (0%N, nbIterations)] else
  let per := (nbIterations %/ tasks)%N in
  let: (per, tasks) := if (per < 1)%N then (1%N, nbIterations) else (per, tasks) in
  spread tasks 0 per (nbIterations - tasks * per) 0.

(** * reading and writing *)

(** encoding/binary: BigEndian.PutUint32 of uint32(l), BigEndian.Uint32 *)
Definition putUint32 (l : Z) : seq Z :=
  mkseq (fun i => (Z.shiftr (l mod 2 ^ 32) (8 * Z.of_nat (3 - i)) mod 256)%Z) 4.

(** encoding/binary: LittleEndian.PutUint64, LittleEndian.Uint64 *)
Definition putLE (w : Z) : seq Z := mkseq (fun i => (Z.shiftr w (8 * Z.of_nat i) mod 256)%Z) 8.
Definition getLE (b : seq Z) : Z := foldr (fun d acc => Z.lor d (Z.shiftl acc 8)) 0%Z b.

(** io.ReadFull of k > 0 bytes: the bytes, the error, what the reader still holds *)
Inductive ioErr := EOF | UnexpectedEOF.
Definition readFull (k : nat) (s : seq Z) : seq Z * option ioErr * seq Z :=
  (take k s,
   if (k <= size s)%N then None else if s is [::] then Some EOF else Some UnexpectedEOF,
   drop k s).

(** the errors returned: the ones of io, less data than expected (elements read, elements
    expected), and the ones that name an element *)
Inductive readErr :=
  | IoErr of ioErr | LessData of Z & Z | ReadingElement of Z | DecodingElement of Z | FailedValidation of nat.

(** what a call leaves: the bytes counted, the error, the vector, what the reader still holds *)
Record readRes := ReadRes { rrTotal : Z; rrErr : option readErr; rrVec : seq (seq Z); rrRest : seq Z }.

Section Gen.
Variable g : gen.
Local Notation n := (Limbs g).
(** the constant Bytes of element.go *)
Definition Bytes : nat := (8 * n)%N.

(** element.go 1108-1121 and 1123-1129: LittleEndian.Element and LittleEndian.PutElement *)
Definition leElement (b : seq Z) : option (seq Z) :=
  let z := [seq getLE w | w <- reshape (nseq n 8) b] in
  if smallerThanModulus g z then Some (toMont g z) else None.
Definition lePutElement (e : seq Z) : seq Z := flatten [seq putLE w | w <- fromMont g e].

(** 53-71: the bytes written and the count returned *)
Definition WriteTo (vec : seq (seq Z)) : seq Z * Z :=
  foldl (fun st z => let buf := Marshal g z in (st.1 ++ buf, st.2 + Z.of_nat (size buf))%Z)
    (putUint32 (Z.of_nat (size vec)), 4%Z) vec.
(** 35-42 *)
Definition MarshalBinary (vec : seq (seq Z)) : seq Z := (WriteTo vec).1.

(** 223-240: [k] elements to come, the next is number [i] *)
Fixpoint readLoop (k : nat) (i header total : Z) (vec : seq (seq Z)) (s : seq Z) : readRes :=
  if k is k'.+1 then
    let: (buf, err, rest) := readFull Bytes s in
    let total := (total + Z.of_nat (size buf))%Z in
    match err with
    | Some UnexpectedEOF => ReadRes total (Some (LessData i header)) vec rest
    | Some EOF => ReadRes total (Some (ReadingElement i)) vec rest
    | None =>
        if beElement g buf is Some el then readLoop k' (i + 1)%Z header total (rcons vec el) rest
        else ReadRes total (Some (DecodingElement i)) vec rest
    end
  else ReadRes total None vec s.

(** 197-243: [old] is the vector before the call *)
Definition ReadFrom (old : seq (seq Z)) (s : seq Z) : readRes :=
  let: (buf, err, rest) := readFull 4 s in
  if err is Some e then ReadRes (Z.of_nat (size buf)) (Some (IoErr e)) old rest else
  let header := getBE buf in
  readLoop (Z.to_nat header) 0 header 4 [::] rest.
(** 45-49: the error and the vector *)
Definition UnmarshalBinary (old : seq (seq Z)) (data : seq Z) : option readErr * seq (seq Z) :=
  let r := ReadFrom old data in (rrErr r, rrVec r).

(** 109-114: the longest piece read at once, on a 64-bit machine *)
Definition maxAllocateSliceLength : Z := (2 ^ 32 / Z.of_nat Bytes)%Z.

(** the memory of a vector as bytes, and back: unsafe.Slice (133, 146) on a little-endian machine *)
Definition rawBytes (x : seq Z) : seq Z := flatten [seq putLE w | w <- x].
Definition rawLimbs (b : seq Z) : seq Z := [seq getLE w | w <- reshape (nseq n 8) b].
Definition rawVec (k : nat) (b : seq Z) : seq (seq Z) := [seq rawLimbs e | e <- reshape (nseq k Bytes) b].

(** 129-144: a piece is appended as zeros and the bytes are read over it; [fuel] bounds the number
    of pieces.  A piece that the reader cannot fill keeps zeros after the bytes that came. *)
Fixpoint asyncLoop (fuel : nat) (i header total : Z) (vec : seq (seq Z)) (s : seq Z) : readRes :=
  if ~~ (i <? header)%Z then ReadRes total None vec s else
  if fuel is fuel'.+1 then
    let len := Z.to_nat (Z.min (header - i) maxAllocateSliceLength) in
    let: (buf, err, rest) := readFull (len * Bytes) s in
    let total := (total + Z.of_nat (size buf))%Z in
    let vec := vec ++ rawVec len (buf ++ nseq (len * Bytes - size buf) 0%Z) in
    match err with
    | Some UnexpectedEOF =>
        ReadRes total (Some (LessData (i + Z.of_nat (size buf) / Z.of_nat Bytes) header)) vec rest
    | Some EOF => ReadRes total (Some (IoErr EOF)) vec rest
    | None => asyncLoop fuel' (i + maxAllocateSliceLength) header total vec rest
    end
  else ReadRes total None vec s.

(** 97-178 up to the goroutine: what is returned, and the vector as read *)
Definition AsyncReadFrom (old : seq (seq Z)) (s : seq Z) : readRes :=
  let: (buf, err, rest) := readFull 4 s in
  if err is Some e then ReadRes (Z.of_nat (size buf)) (Some (IoErr e)) old rest else
  let header := getBE buf in
  if (header =? 0)%Z then ReadRes 4 None [::] rest else
  asyncLoop (Z.to_nat header) 0 header 4 [::] rest.

(** 150-170: one task of execute is at element [tCur] of its interval; [tDone] when it has returned.
    The tasks run concurrently; a schedule names the task that handles its next element. *)
Record task := Task { tCur : nat; tEnd : nat; tDone : bool }.
Record conv := Conv { cVec : seq (seq Z); cTasks : seq task; cptErrors : nat }.
Definition taskStep (st : conv) (t : nat) : conv :=
  let k := nth (Task 0 0 true) (cTasks st) t in
  let put k' := set_nth (Task 0 0 true) (cTasks st) t k' in
  if tDone k then st else
  if ~~ (tCur k < tEnd k)%N then Conv (cVec st) (put (Task (tCur k) (tEnd k) true)) (cptErrors st) else
  let b := rawBytes (nth [::] (cVec st) (tCur k)) in
  let z := rev [seq getBE w | w <- reshape (nseq n 8) b] in
  if ~~ smallerThanModulus g z then
    Conv (cVec st) (put (Task (tCur k) (tEnd k) true)) (cptErrors st).+1
  else
    Conv (set_nth [::] (cVec st) (tCur k) (toMont g z)) (put (Task (tCur k).+1 (tEnd k) false)) (cptErrors st).

(** 147-176: the goroutine started over [vec], after the steps of a schedule *)
Definition convRun (vec : seq (seq Z)) (cpu : nat) (sched : seq nat) : conv :=
  foldl taskStep
    (Conv vec [seq Task se.1 se.2 false | se <- execute (size vec) cpu None] 0) sched.
(** 407: wg.Wait returns when every task has *)
Definition convDone (st : conv) : bool := all tDone (cTasks st).
(** 172-175: what the channel delivers before it is closed *)
Definition convErr (st : conv) : option readErr :=
  if (0 < cptErrors st)%N then Some (FailedValidation (cptErrors st)) else None.

(** * arithmetic

    The vectors of a call may share memory: [mem] is an array of elements and a vector is the
    interval (offset, length) of it.  None is the panic. *)
Definition slice : Type := (nat * nat)%type.
Definition at_ (mem : seq (seq Z)) (v : slice) (i : nat) : seq Z := nth [::] mem (v.1 + i).
Definition put_ (mem : seq (seq Z)) (v : slice) (i : nat) (x : seq Z) : seq (seq Z) :=
  set_nth [::] mem (v.1 + i) x.

(** 304-311, 313-320, 348-355: the three texts differ in the operation *)
Definition vecOp2 (op : seq Z -> seq Z -> seq Z) (mem : seq (seq Z)) (res a b : slice) : option (seq (seq Z)) :=
  if (a.2 != b.2) || (a.2 != res.2) then None else
  Some (foldl (fun mem i => put_ mem res i (op (at_ mem a i) (at_ mem b i))) mem (iota 0 a.2)).
Definition addVec := vecOp2 (Add g).
Definition subVec := vecOp2 (Sub g).
Definition mulVec := vecOp2 (Mul g).
(** 322-329: b is a pointer, here the position of the scalar in [mem] *)
Definition scalarMulVec (mem : seq (seq Z)) (res a : slice) (b : nat) : option (seq (seq Z)) :=
  if a.2 != res.2 then None else
  Some (foldl (fun mem i => put_ mem res i (Mul g (at_ mem a i) (nth [::] mem b))) mem (iota 0 a.2)).
(** 331-335 and vector_purego.go 27-30: the result starts as the zero value *)
Definition sumVec (a : seq (seq Z)) : seq Z := foldl (fun res x => Add g res x) (nseq n 0%Z) a.
(** 337-346 and vector_purego.go 34-37 *)
Definition innerProductVec (a b : seq (seq Z)) : option (seq Z) :=
  if size a != size b then None else
  Some (foldl (fun res i => Add g res (Mul g (nth [::] a i) (nth [::] b i))) (nseq n 0%Z) (iota 0 (size a))).
(** 300-302: slices.Equal compares lengths, then elements from the front, with == on the limb arrays *)
Definition equalVec (a b : seq (seq Z)) : bool := (size a == size b) && all (fun xy => all2 Z.eqb xy.1 xy.2) (zip a b).
End Gen.
