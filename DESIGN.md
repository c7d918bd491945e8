# Design

Subject: sp301415/ringo-snark at the pinned commit in /repo (Go).  The model and
proofs are in `rocq/theories` (Coq 8.16.1, mathcomp 1.x, Coq standard library).

## Method

* Field elements.  The Go code is generic over `bignum.Uint[E]`.  The model is
  polymorphic over a mathcomp `fieldType F`, and vectors (`[]E`) are `seq F`.
  Where the code converts between elements and integers (BigInt, SetBigInt, Slice)
  the model uses a record that bundles the conversion contract (`toZ`, `ofZ`,
  modulus `q`).  That contract is instantiated by `'F_p`, and the limb-level
  Montgomery code of the generated zp packages is modelled separately.
* Loops are transcribed as loops: `foldl` over the index range, or a fuelled
  iteration when the Go loop is a `while`; theorems then show that the fuel used
  suffices.  In-place update of a slice is list update.
* Panics are `None` (or an error constructor) where a property talks about them.
* Integer code (decompositions, RNS, limbs, sampling) uses `Z`.
* External code is not modelled from source: lattigo's ring arithmetic is
  `Z[X]/(X^d+1)` modulo Q with its documented meaning, gnark's Fiat-Shamir
  transcript is modelled from its documented behaviour over an arbitrary hash
  function, SHA/AES/SHAKE are arbitrary functions, `math/big` is `Z`, float64
  computations (Gaussian tables, parameter search) are abstract values.

File layout: `*Model.v` files contain definitions only, with a comment per
definition citing the Go lines.  `*Proofs.v` contain lemmas.  `Prop_*.v` contain
the final theorem statements, stated against small specifications (`Spec.v`),
each followed by a concrete instance and by `Print Assumptions`.

## Trusted base

* Coq 8.16.1 kernel (coqc, coqchk).
* The correspondence between the Go text and the Gallina definitions (by reading).
* What each theorem's `Print Assumptions` lists (table kept at the end of this
  file): nothing, except the standard library's axioms of the real numbers for C95-C97 and its 63-bit integers for C98 and C99.  No axioms of
  our own.
* The specifications: mathcomp polynomials, matrices, primitive roots; `Z`.

## Modelled and not modelled

Modelled from the Go text: math/bigpoly, buckler (walker, context, compile, prover, verifier,
checks), buckler's norm and linear checkers, jindo (encoder, challenge, RNS, commit, evaluate,
verify, commitment key, parameter loop), math/csprng (uniform, Twin-CDT, SampleFloat, rounded, COSAC), the seven
generated zp packages at the level of 64-bit words (element.go, element_purego.go, arith.go, vector.go,
vector_purego.go), the scalar assembly of
four of them (element_{2w,4w,7w}_amd64.s up to the vector routines, element_{2w,4w}_arm64.s; AsmModel.v
gives the instructions, AsmText*.v and ArmText*.v the programs, written by a script from the .s files), the
vector routines addVec and subVec (scalar), sumVec and innerProdVec (AVX512) of element_4w_amd64.s with vector_amd64.go
(AvxModel.v, AvxText.v, AvxEntry.v; a Z register is eight quadwords), and
jindo-modulus, and the circuits of examples/mult, examples/bfv and buckler_test.go.

Replaced by their meaning:
* lattigo `ring.Poly` in NTT and Montgomery form is an element of a ring `RQ` with the coefficient
  interface of `CycModel.cyc`; `cycQ` builds that ring as Z[X]/(X^d+1, Q).  The inner NTT, Montgomery
  and basis extension code of lattigo is not modelled.
* A SHAKE128 transcript is an arbitrary function of the list of written items.
* Gaussian samples in jindo are arbitrary integers; theorems that need them small say so.
* float64 norm bounds are integers, see the comment at `JindoModel.jparams`.
* Memory, in the assembly model, maps a pointer to the words of an element: two pointers are equal or do
  not overlap.  The flags that no program reads are arbitrary.
* AES-CTR in csprng is an arbitrary key stream; the weights of the Twin-CDT tables are arbitrary.
* In NewParameters the sizes, ranks and primes computed in floating point are arbitrary data.

Not modelled: ExpandMsgXmd of gnark-crypto, (except in examples/mult/zp) Legendre of element.go, mulVec and scalarMulVec of element_4w_amd64.s (from line 1050), the rounding errors of the rounded and COSAC samplers (float64 is
replaced by the reals there), serialization of proofs (there is none in the repository
outside ring.Poly's own).

## Plan per property

| id | modelled | proof idea |
|----|----------|------------|
| C01-C03, C06, C07 | ntt.go loops, tables, constructors | induction on the stage: the state after m stages is the list of remainders modulo the factors X^t - w; inverse stage undoes forward stage; unrolled loops equal the reference because blocks of butterflies on disjoint indices reorder |
| C04 | base_op.go MulTo, NTTTo | evaluation at all N roots is injective, evaluation is multiplicative |
| C05, C14 | vec.go blocks, pool buffer as explicit state; memory access log | loop invariants on block index |
| C08-C10 | cyclotomic.go | coefficient comparison modulo X^N+1; exponents modulo 2N |
| C11 | cyclic.go | loop invariant p = quo (X^N-1) + rem |
| C12 | cyclotomic.go ModSwitchTo over Z | division lemmas |
| C13, C16 | Horner loop, square-and-multiply | induction |
| C15 | counter loop of bitReverseInPlace | invariant j = rev i, swap argument |
| C17 | utils.go | induction on the base list; greedy invariant abs x <= remaining sum |
| C18-C22, C74 | context.go constraint generation and prover auxiliary witnesses | algebra over the field, integer bounds |
| C23-C25 | linear.go | explicit matrices; NTT transpose by root-of-unity symmetry |
| C26 | modInverse over Z mod 2^64 | extended Euclid invariant modulo m, m divides 2^64 |
| C27-C29 | compile.go walker over an inductive type of circuit values | induction on circuit value |
| C30, C31 | maxRank, embRank, batch, commitRank | degree bounds |
| C32-C38 | prover and verifier check functions | polynomial identities, root counting |
| C39-C41 | encoder.go, sumCheckMask | interpolation, bijectivity |
| C42-C44 | transcript operations as a list | equality of operation lists; independence of the public input |
| C45 | list-length reads of a malformed proof | witness of panic |
| C46, C47 | approximate norm constraints | algebra; witness of unsoundness |
| C48 | any number of Prove and Verify calls as programs over the shared projection matrix, one step per cell access, arbitrary schedules | invariant over the schedule: while only calls with the same matrix are active each cell read holds the own matrix; witness schedule for the refutation |
| C49-C55 | jindo encoder, challenge, RNS, params | Z arithmetic, ring quotient |
| C56-C59 | matrix layout, prover/verifier equations | double sums; counterexample for batch > 1 |
| C60, C61, C81 | NewCommitKey over the sampler model; NewParameters with the float results as arbitrary data | draw order induction, every key attained; loop invariant |
| C62-C66, C79, C80 | uniform.go with AES-CTR as an arbitrary key stream; Twin-CDT with arbitrary tables; SampleFloat on the standard library's bit-exact SpecFloat | counting, stream invariant, bijection from key stream to outputs, binary search |
| C67-C70, C82-C86 | the zp packages as lists of 64-bit words, one recursion per unrolled sequence | carry chains as equations over Z; Montgomery invariant; congruences modulo the modulus; the result of the binary gcd is guarded by the check in the code; its loop ends because each pass halves the product of the two numbers or both of them, whatever the rounding of the 64-bit approximations (ZpGcd.v, ZpTerm.v) |
| C87, C109 | word-by-word transcription of the Go statements of all seven packages (made by a script from the Go text); long functions are cut into their rounds, one definition each | symbolic execution of both sides, round by round |
| C88 | two arbitrary runs of VerifyC over one hash | chain of challenges unrolled backwards: equal hash gives a collision or equal, uniquely parsed input (fixed lengths); not bound: statement (C43), evaluations, evaluation proof |
| C89, C90, C92 | the structs, Define methods and assignments of examples/mult, examples/bfv and the test circuit, through the walk, define, Prove and Verify | sound: compiled constraints give the coordinatewise relation, evaluation at the NTT points turns it into the congruence mod X^N+1, C18 gives the norms; complete: honest run (C72) with the vectors the walk collects. lattigo's encryption is not modelled: any c0, c1, s, m, e |
| C91 | same | false: SecretKeyNTT has no linear or norm constraint, so it can be solved for |
| C93 | JindoModel.Evaluate and Verify under two hash functions | equal results when the two functions agree on two spelled-out inputs; these inputs are injective in what they contain |
| C94 | what main of examples/bfv computes from the ciphertext (ModSwitchTo, the scaled Delta, the error) | Q times the new error is the two roundings, times the key, plus (q*invT mod Q)*m + q*e over the integers; negacyclic coefficients of the product; then C90 |
| C95 | cosacStep, sampleRound, cosacSample over the reals | case analysis on the cell of y; exponential identities |
| C96 | the bit fields of a word on `Z`; normFloat over arbitrary tables | division and bit lemmas; induction on the words |
| C97 | init's tables with an arbitrary layer area, normFloat over the reals | monotonicity of the density; normalInv inverts normal |
| C98 | nothing of the code but the constants | criterion of Lucas, Pocklington and Lehmer (PockProofs.v) for N = b^m + 1 with b factored; a checker for the certificates on 63-bit integers, proved sound (PrimeCheck.v) |
| C99 | ZpModel's functions against the record `uint` of UintModel.v at 'F_p | C67-C70, C82-C86 read through the isomorphism; C06 for the ranks |
| C100 | ProtocolModel.ProveC over a finite field, with the drawn field elements as a finite type; a simulator without witness (Prop_Zk.v) | the opened values of an honest run in closed form (ZkProofs.v); for each run a bijection on the draws, affine in the blinding coins, that takes the prover's output to the simulator's; then counting |
| C101, C102 | vector.go over byte lists (VectorModel.v); AsyncReadFrom's tasks as a state machine over the vector's memory, one element per step, under an arbitrary schedule | a separate byte format `encodes`; injectivity of the encoding (C69); an invariant over all schedules with disjoint intervals from C102; a measure for termination |
| C103 | the loops over an array in which the vectors are intervals | induction over the loop, the part written so far against the part still to be read; C67, C68 |
| C104 | littleEndian of element.go | as C69, with the bytes reversed |
| C105 | Exp, Div of element.go | the square-and-multiply loop on limbs from the lemma of C83; the inverse is a parameter with the property that C98 proves of Inverse |
| C106 | Sqrt of element.go for the seven packages; Legendre of examples/mult/zp | limbs mapped to the prime field by C99; invariant y^2 = x b, b^(2^(r-1)) = 1, g^(2^(r-1)) = -1; the constants are checked by computation. Legendre of the other six packages is not modelled (a gcd with the rules of the Jacobi symbol) |
| C107 | Select, LexicographicallyLargest, BitLen | bit operations; borrow chain of C68 |
| C108 | Text, String, SetString, MarshalJSON, UnmarshalJSON | strconv.FormatUint and big.Int.Text are modelled as digit generation; big.Int.SetString is a parameter assumed to read decimal numerals |
| C71 | findModulus | loop postcondition |
| C72, C73, C78 | whole protocol over any PCS satisfying the completeness law, and with the jindo model plugged in (Prop_JindoBuckler.v: jindoPcs) | composition; C73 is refuted |
| C75, C76 | commitment relation | subtraction of accepting transcripts |
| C110, C111 | AsmModel.v: registers, flags, frame, memory, and the instructions used; programs in AsmText*.v, ArmText*.v; calls in AsmEntry.v | symbolic execution of each macro with arbitrary words, the linear relation of its carries, then the invariant of the Montgomery rounds |
| C112 | Butterfly of the assembly and _butterflyGeneric on one pointer | refuted: 2a against -a (C112_Butterfly_refuted, C112_Butterfly_same) |
| C113 | addVec and subVec of element_4w_amd64.s 465-567 (AvxText.v, transcribed by a script from the file), instructions with Z and mask registers in AvxModel.v, the methods of vector_amd64.go in AvxEntry.v | one turn of a loop run symbolically, induction on the length; the memory after i turns is that of the Go loop (AvxProofs.v), for any overlap |
| C114 | sumVec 570-777 and Sum | lanes hold the sums of the dwords modulo 2^64, exact below 2^32 elements; carries, Barrett quotient at most two too small, two conditional subtractions (AvxSum.v) |
| C115 | innerProdVec 780-1048 and InnerProduct; of the eight bytes a VPMULUDQ.BCST loads the model takes the low four, the ones multiplied | the sixteen accumulators hold the low and high halves of the products of dwords (AvxDot.v); the emitted dwords are the digits of the total; four Montgomery rounds, Barrett and two conditional subtractions (AvxInner.v) |
| C116 | the entries of vector_amd64.go against vector_purego.go | refuted by empty vectors (C116_Add_refuted, C116_InnerProduct_refuted) |
| C117 | Hash 721-749 (ApiModel.v); hash.ExpandMsgXmd is a parameter assumed to return an error or as many bytes as asked for; the products and lengths wrap at 64 bits | the blocks go through C69_SetBigInt; the lists of L bytes enumerate 0 .. 256^L-1 (allBytes_iota) and a counting lemma gives the share of each residue (C117_uniform) |
| C118 | Len, Less, Swap of vector.go 259-273; the sorting procedure itself is not modelled, only the swaps it makes | C70_Cmp; a swap is a permutation of the indices |
| C119 | SetInterface 136-183 over the dynamic types it distinguishes; big.Int.SetString is a parameter | case analysis over C69 and C108 |
| C120 | lists of calls to base_op.go 49-207 over a heap with one slice per object (EvalModel.v, on VecModel.v and BigpolyModel.v); scalars are not elements of objects (C77), one pooled buffer | refinement: the invariant `holds` gives each object a polynomial, as coefficients or as values at the roots (C03); each call keeps it (C05, uniqueness by roots for InvNTT). Without the condition on accumulating calls false (C120_mixed_refuted) |
| C121 | the norm constraints of context.go 112-228 and their filling in prover.go 89-97, 182-192 and verifier.go 49-58 (BucklerModel.v, DefineModel.v, ProtocolModel.v) | the number of digits is the rounded-up logarithm of the bound; the bound recorded by Define is followed through the remaining calls to the filling that panics |
| C122 | C120's heap and calls plus cyclotomic.go 29-82 with the writes to the pooled polynomial (EvalModel.v); bitReverseInPlace swaps values instead of element pointers | as C120; the automorphism in coefficients by C08, in values by C09 and the inverse transform |
| C123 | Prove and Verify of C72 with the map orders as explicit coins | the fillings of different entries write different vectors (invariant of Compile), so orders agree slot by slot; entries that do not fit panic in every order; Prove with two squared-norm constraints is refuted over F_193 |

Not expressible here: computational assumptions (MSIS/MLWE hardness, hash
collision resistance), statistical closeness of the float64 Gaussian samplers,
and the size optimisation of NewParameters.

## Findings

Each is a statement the code does not satisfy, proved on the model.

* Transforms and vector operations touch memory outside the slice for rank below 8:
  the loops always copy eight elements (C14_small_rank_refuted).
* ScalarMulTo and relatives go wrong when the scalar points into the output
  (C77_scalar_alias_refuted).
* decomposeBase for a power of two B only reaches B-1 (C17_power_of_two_refuted).  An honest
  witness with an entry equal to B = 2^k cannot be proved (C19_power_of_two_refuted).
* A negative bound given to AddInfNormConstraintBig adds no constraint
  (C20_negative_inf_bound_refuted, C20_negative_inf_program_refuted).  A negative bound given to
  AddSqNormConstraintBig is decomposed with negative weights and stays satisfiable
  (C20_negative_sq_bound_refuted).
* The running sum sqNm in Prove is not reset between two-norm constraints, so honest proofs of
  circuits with two of them are wrong (C22_two_constraints_refuted).
* A second infinity-norm constraint on the same witness overwrites the first map entry, and
  every non-zero witness then fails (C74_repeated_refuted).
* AddApproxInfNormConstraint does not constrain the digits, any vector is accepted
  (C46_any_witness_refuted).
* nttChecker.TransposeTo is wrong when the output aliases the input (C23_in_place_refuted).
* modInverse is wrong for moduli that do not divide 2^64 (C26_other_modulus_refuted; the code only
  calls it with powers of two).
* evalCircuit multiplies every constraint by the same batching constant, so violated constraints
  may cancel: w0^2 = 0 and -w0^2 = 0 are accepted for w0 = (1,...,1) at every challenge
  (C35_batch_refuted).
* The declared sums of the sum check are stored and never read.  Honest proofs of a non-zero sum
  are rejected for every non-zero batching constant (C34_nonzero_sum_refuted), and witnesses with
  total 0 are accepted whatever sum is declared (C37_declared_sum_refuted).
* The walkers drop the errors of nested calls: a witness of the wrong length inside a struct is
  never reported (C29_never_reported_refuted) and the witnesses after it move down one index
  (C29_shift_refuted).
* A witness held by an interface field is skipped by Compile (not settable) and counted by Prove
  (C28_interface_refuted).
* The public witnesses are not part of the transcript: the challenges are the same for every
  statement (C43_statement_unbound_refuted), and every accepted proof is also accepted for another
  statement, any one whose polynomials agree at the evaluation point (C44_collision_refuted,
  C44_other_statement_refuted).
* Verify panics, instead of returning false, on a proof with a wrong number of evaluations or
  commitments (C45_panics_refuted), or with a jindo proof whose lists have the wrong lengths
  (C45_jindo_panics_refuted).
* A circuit whose arithmetic constraints mention no witness cannot be proved: the quotient is empty
  and Commit panics (C72_degree_zero_refuted).
* End to end, Prove run on vectors that violate every constraint gives an accepted proof when the
  constraints cancel, or when only the declared sum is wrong, for all coins and hash functions
  (C78_false_statement_refuted, C78_false_sum_refuted).  Honest proofs of a non-zero sum are rejected
  (C72_nonzero_sum_refuted).
* encodeChallengeTo panics when exp = 1 or exp > 120 (the bound `1 << (120/exp)` wraps to 0 or is 1,
  halved to 0), and encodes every challenge to 0 for exp in 61..120
  (C53_exp_one_refuted, C53_exp_64_refuted).
* reconstructTo compares with `>=`: with several limbs the residues of (Q-1)/2 become (Q-1)/2 - Q
  (C54_off_by_one_refuted).
* newEncodeParameters does not terminate for p = 2 (C55_two_diverges_refuted).
* The evaluations a jindo proof claims are bound only through their sum weighted by the batching
  challenges, which do not depend on them.  With two or more polynomials every accepted list of
  evaluations has another accepted one (C59_refuted), with any chosen value at a chosen position as
  long as another weight is non-zero (C59_forge).  With one polynomial the value is unique
  (C59_batch_one).
* The norm of pf.Partial is not checked.  Special soundness (C76_special_soundness) extracts an
  opening of a column up to the challenge difference; reading it in the field (C76_decoded) needs
  the partial evaluation to be short.
* Because of this, a Buckler proof says nothing about circuits with a linear or sum check.  For every
  such circuit, every statement, all commitments and mask sums, and every choice of claimed witness
  evaluations, the quotient evaluations can be solved for after the challenges are known, and Verify
  accepts (C73_forged_refuted; C73_jindo_refuted with the jindo model as the scheme).
  C73_unsat_refuted is a concrete unsatisfiable circuit accepted from zero polynomials.  For circuits
  with arithmetic constraints only, one polynomial equation in the witness evaluations remains to be
  solved (C73_arith_refuted), and ex_C73_arith solves it for an unsatisfiable circuit.
* UniformSampler.Read xors the key stream into the caller's buffer instead of overwriting it: two
  different buffers always give different results, and a buffer reused between calls leaks its old
  contents into the new bytes (C64_refuted).  Sample has the same xor on its own buffer; its outputs
  stay uniform (C63_uniform).
* Twin-CDT: for a fraction of the centre above 127/128 the second table is that of centre 0 instead of
  centre 1 (C79_last_block_refuted).  For a fraction that rounds to 1, which happens for every tiny
  negative centre, all outputs are one too small (C79_fraction_one_refuted, ex_C79).  The
  distribution function is summed up to a table index instead of a value, so for all outputs from the
  centre upwards the second table is ignored (C80_first_candidate_refuted).  A random word equal to
  the first table entry gives a value outside the tail (C65_outside_tail_refuted).
* NewParameters: a round whose prime generation fails has already written rank, rows, cols and ranks,
  so these can be combined with the rings and norms of an earlier round (C61_mixed_refuted).  If every
  round fails the zero parameters are returned without an error (C61_silent_refuted).  Once q exceeds
  240 bits the loop over mu never ends (C81_diverges_refuted).
* The prover and the verifier of one Compile share one projection matrix, which every call of Prove
  and Verify overwrites and later reads.  Two proofs that Verify accepts, and Verify of the first
  returns false when interleaved with Verify of the second (C48_refuted).  For any two calls there
  is a schedule in which the first works with the matrix of the second (C48_race).  Calls that do
  not overlap, circuits without AddApproxInfNormConstraint, and calls with equal matrices are not
  affected (C48_window, C48_sequential, C48_no_projection, C48_same_matrix).
* examples/bfv: SecretKeyNTT occurs in the arithmetic constraint only.  Whenever c1 has no zero among
  its NTT values the key can be solved for, so every such ciphertext is accepted as an encryption of
  every message within the bounds (C91_any_message_refuted, ex_C90_C91).  The bound on the message is
  t-1 = 2^16, which the norm gadget reaches only up to 2^16-1 (C17); centred messages are far below.
* The Ziggurat tables of the rounded sampler never assign fn[0], which stays 0 instead of 1.  The wedge
  test of layer 1 then always succeeds: every word of layer 1 is used, also those whose point lies
  above the density (C97_first_layer_refuted).  All other layers from 2 on are exact
  (C97_layers_partial).
* COSAC compares yRound, not y, with 1/2 and -1/2.  So a pass can return 0, the value Sample
  has already decided about, and does so for every y with 1/2 < |y| < 3/2 and a matching bit, with a
  threshold above 1 (C95_zero_refuted).  All other values get their weight (C95_nonzero_partial).
* Neither Prove nor Verify excludes an evaluation point with pt^N = 1.  The blinding r(X^N-1) of a
  witness polynomial is zero there, and the opened values are witness entries (C100_on_domain,
  C100_every_point_refuted).  A random point is such with probability N/p.
* WriteTo of a zp vector keeps the length modulo 2^32, so a vector of 2^32 elements is written and read
  back, without an error, as the empty vector (C101_length_refuted).
* Add of a zp vector whose receiver starts inside an operand reads sums it has already written
  (C103_overlap_refuted).  ScalarMul by a pointer to an element of the receiver changes the
  factor on the way (C103_scalar_refuted).
* Butterfly(a, a) leaves 2a when the assembly is used and -a in the pure Go build
  (C112_Butterfly_same, C112_Butterfly_refuted).  No caller in the repository passes equal pointers.
* Vector.Add and Vector.Sub of the amd64 build take the address of element 0 and panic on empty
  vectors, where the pure Go build does nothing (C116_Add_refuted, C113_panics).  InnerProduct of an
  empty vector with a non-empty one returns zero on amd64, which tests the length 0 first, and panics in
  the pure Go build (C116_InnerProduct_refuted).
* innerProdVec (element_4w_amd64.s 814-828) multiplies dword 7 of an element with VPMULUDQ.BCST at offset 28,
  which loads eight bytes: for the last element of the first vector four bytes past its end.  The bytes do not
  enter the product (C115_InnerProduct), but a vector ending at the last mapped byte of a page would fault;
  the model has no page faults.
* ScalarMulAddTo, ScalarMulSubTo, MulAddTo and MulSubTo do not compare the IsNTT flag of pOut with that of
  the inputs (base_op.go 102-123, 144-171; checkBinaryOperable compares only the inputs): coefficients and
  values are added slot by slot and the sum gets the flag of the inputs, without a panic
  (C120_mixed_refuted).  A zero pOut is harmless (C120_cyclotomic_partial).
* A squared-norm constraint with bound 0 or 1 (or above 2^rank) compiles, but Prove and Verify always panic
  in decomposeBase or on an index, also for witnesses that satisfy the bound (C121_sq_norm_panics);
  AddInfNormConstraintBig treats 0 and 1 separately and is not affected.  An approximate bound of 0 panics in
  Define (C121_define_panics), and one whose 128 * ceil(log2(rank * bound)) digits do not fit into the rank
  makes every Prove panic (C121_approx_panics): at rank 2048 every bound above 32.

**Acceptance of an honest proof depends on Go's map order (C123).** With two squared-norm
constraints the running sum `sqNm` (prover.go 88-111) is not reset between map entries. For
w0 = 0 and w1 = (1,1,0,...) with both bounds 3 the proof is accepted if Go visits w0 first and
rejected if it visits w1 first (unless the batching challenge is zero), so the same honest prover
fails at random. `C123_prove_refuted` holds for every hash function, every commitment scheme
meeting `pcsComplete`, and all other coins. Verify itself never depends on the order.

## Print Assumptions

For each theorem below, except those of C95-C99, C105 and C106 marked with a star, `Print Assumptions` answers `Closed under the global context`: no axioms, of the
standard library or otherwise.  (The gate also lists module parameters of mathcomp, such as
`mathcomp.ssreflect.bigop.BigOp.bigop`; these are sealed definitions of that library, not axioms.)

The starred theorems of C95-C97 are about the standard library's real numbers and list its axioms
`ClassicalDedekindReals.sig_not_dec`, `ClassicalDedekindReals.sig_forall_dec`,
`FunctionalExtensionality.functional_extensionality_dep` and `Classical_Prop.classic`, and nothing else.
The starred theorems of C98, C99, C105 and C106 list the 63-bit integers of the standard library: the type and operations
`PrimInt63.int`, `add`, `sub`, `mul`, `div`, `mod`, `eqb`, `ltb`, `land`, `lsr` and the specifications
`Uint63.add_spec`, `sub_spec`, `mul_spec`, `div_spec`, `mod_spec`, `ltb_spec`, `eqb_correct`, `eqb_refl`, and nothing else.

| property | theorems |
|---|---|
| C01 | C01_cyclic_roundtrip, C01_cyclic_core_roundtrip |
| C02 | C02_cyclotomic_roundtrip, C02_cyclotomic_core_roundtrip |
| C03 | C03_cyclic_evaluations, C03_cyclotomic_evaluations |
| C04 | C04_cyclic_mul, C04_cyclotomic_mul |
| C05 | C05_Add, C05_Sub, C05_Neg, C05_ScalarMul, C05_ScalarMulAdd, C05_ScalarMulSub, C05_Mul, C05_MulAdd, C05_MulSub |
| C06 | C06_cyclic_constructor, C06_cyclotomic_constructor, C06_cyclotomic_root, C06_cyclic_root |
| C07 | C07_unroll_fwd, C07_unroll_inv |
| C08 | C08_aut_substitution, C08_aut_even_panics |
| C09 | C09_aut_ntt |
| C10 | C10_aut_compose, C10_aut_inverse, C10_aut_additive, C10_aut_multiplicative, C10_aut_multiplicative_ntt |
| C11 | C11_quorem, C11_quorem_unique |
| C12 | C12_modswitch |
| C13 | C13_evaluate |
| C14 | C14_copy_in_bounds_iff, C14_transform_in_bounds, C14_small_rank_refuted |
| C15 | C15_bitreverse |
| C16 | C16_exp |
| C17 | C17_decomposition_partial, C17_power_of_two_refuted |
| C18 | C18_inf_norm_sound |
| C19 | C19_filling_complete_partial, C19_power_of_two_refuted |
| C20 | C20_negative_inf_bound_refuted, C20_negative_inf_program_refuted, C20_negative_sq_bound_refuted |
| C21 | C21_two_norm_sound |
| C22 | C22_two_norm_complete_partial, C22_two_constraints_refuted |
| C23 | C23_ntt_transpose, C23_in_place_refuted |
| C24 | C24_aut_transpose |
| C25 | C25_proj_transpose, C25_recomp_transpose |
| C26 | C26_modInverse, C26_other_modulus_refuted |
| C27 | C27_roundtrip, C27_distinct |
| C28 | C28_same_numbering, C28_interface_refuted |
| C29 | C29_never_reported_refuted, C29_shift_refuted |
| C30 | C30_no_wraparound |
| C31 | C31_commit_count, C31_sizes_partial, C72_degree_zero_refuted |
| C32 | C32_arith_complete |
| C33 | C33_lin_complete |
| C34 | C34_sum_complete_partial, C34_nonzero_sum_refuted |
| C35 | C35_arith_sound_partial, C35_batch_refuted |
| C36 | C36_lin_sound |
| C37 | C37_sum_sound_partial, C37_declared_sum_refuted |
| C38 | C38_remHi_degree |
| C39 | C39_encode_values |
| C40 | C40_one_evaluation_hidden |
| C41 | C41_mask_sum |
| C42 | C42_same_challenges |
| C43 | C43_statement_unbound_refuted |
| C44 | C44_collision_refuted, C44_other_statement_refuted |
| C45 | C45_verify_total_partial, C45_panics_refuted, C45_jindo_total_partial, C45_jindo_panics_refuted, C45_jindo_accept_sizes |
| C46 | C46_any_witness_refuted |
| C47 | C47_approx_complete |
| C48 | C48_window, C48_same_matrix, C48_no_projection, C48_sequential, C48_ends, C48_race, C48_refuted |
| C49 | C49_divMod64, C49_panics |
| C50 | C50_encode_decode, C50_long |
| C51 | C51_rand_encode_decode |
| C52 | C52_add, C52_scale |
| C53 | C53_challenge, C53_distribution, C53_bound_zero, C53_bound_one, C53_exp_one_refuted, C53_exp_64_refuted |
| C54 | C54_reconstruct_partial, C54_round_trip, C54_off_by_one_refuted |
| C55 | C55_encode_parameters, C55_unique, C55_two_diverges_refuted |
| C56 | C56_vectors, C56_layout |
| C57 | C57_blinding |
| C58 | C58_verify, C58_total, C58_complete |
| C59 | C59_weighted, C59_batch_one, C59_refuted, C59_forge |
| C60 | C60_below, C60_function, C60_total, C60_attained |
| C61 | C61_rank, C61_one_round_partial, C61_mixed_refuted, C61_silent_refuted |
| C62 | C62_range, C62_first, C62_unbiased |
| C63 | C63_stream, C63_uniform |
| C64 | C64_position, C64_zero_buffer_partial, C64_refuted |
| C65 | C65_range, C65_index, C65_outside_tail_refuted |
| C66 | C66_value |
| C67 | C67_Mul, C67_mulGeneric, C67_Square |
| C68 | C68_Add, C68_Double, C68_Sub, C68_Neg |
| C69 | C69_BigInt, C69_SetBigInt, C69_SetUint64, C69_SetInt64, C69_Slice, C69_Marshal, C69_SetBytes, C69_SetBytesCanonical, C69_Uint64 |
| C70 | C70_Cmp |
| C71 | C71_sound, C71_complete |
| C72 | C72_honest_accepted_partial, C72_jindo_partial, C72_nonzero_sum_refuted, C72_degree_zero_refuted |
| C73 | C73_forged_refuted, C73_arith_refuted, C73_jindo_refuted, C73_unsat_refuted |
| C74 | C74_repeated_refuted, C18_inf_norm_sound |
| C75 | C75_outer_binding, C75_response_binding |
| C76 | C76_special_soundness, C76_decoded |
| C77 | C77_scalar_alias_refuted, C05_ScalarMul |
| C78 | C78_false_statement_refuted, C78_false_sum_refuted |
| C79 | C79_fraction_one_refuted, C79_last_block_refuted |
| C80 | C80_first_candidate_refuted, C80_refuted |
| C81 | C81_least_partial, C81_diverges_refuted |
| C82 | C82_Equal, C82_IsZero, C82_IsOne |
| C83 | C83_Inverse_ends, C83_Inverse, C83_InverseBig |
| C84 | C84_BatchInvert, C84_BatchInvert_Inverse |
| C85 | C85_SetRandom |
| C86 | C86_Halve |
| C87 | C87_zp110, C87_zp220, C87_zp440, C87_zp880, C87_multZp |
| C88 | C88_projConst, C88_batchConst, C88_evalPoint |
| C89 | C89_mult_sound, C89_mult_accepted |
| C90 | C90_bfv_sound, C90_bfv_accepted_partial |
| C91 | C91_any_message_refuted |
| C92 | C92_pk_sound, C92_pk_accepted |
| C93 | C93_verify_reads, C93_evaluate_reads, C93_binding |
| C94 | C94_error_bound, C94_main_accepted |
| C95 | C95_nonzero_partial*, C95_zero_refuted* |
| C96 | C96_parts, C96_sign, C96_symmetric*, C96_rounded* |
| C97 | C97_areas*, C97_layers_partial*, C97_first_layer_refuted* |
| C98 | C98_prime*, C98_Inverse*, C98_InverseBig*, C98_BatchInvert* |
| C99 | C99_modulus*, C99_bijective*, C99_conversions*, C99_operations*, C99_more_operations*, C99_Inverse*, C99_InverseBig*, C99_ranks* |
| C100 | C100_simulated, C100_witness_hidden, C100_on_domain, C100_every_point_refuted |
| C101 | C101_WriteTo, C101_ReadFrom, C101_roundtrip, C101_AsyncReadFrom, C101_AsyncReadFrom_ends, C101_length_refuted |
| C102 | C102_execute |
| C103 | C103_Add, C103_Sub, C103_Mul, C103_ScalarMul, C103_Sum, C103_InnerProduct, C103_Equal, C103_overlap_refuted, C103_scalar_refuted |
| C104 | C104_PutElement, C104_Element |
| C105 | C105_Exp, C105_Exp_negative, C105_Div, C105_Inverse*, C105_InverseBig* |
| C106 | C106_Sqrt*, C106_Legendre* |
| C107 | C107_Select, C107_LexicographicallyLargest, C107_BitLen |
| C108 | C108_Text, C108_SetString, C108_roundtrip, C108_JSON, C108_JSON_bound |
| C109 | C109_zp110, C109_zp220, C109_zp440, C109_zp880, C109_multZp |
| C110 | C110_Mul, C110_Square, C110_fromMont, C110_reduce, C110_MulBy3, C110_MulBy5, C110_MulBy13, C110_Butterfly |
| C111 | C111_Mul, C111_Square, C111_reduce, C111_Butterfly, C111_MulBy |
| C112 | C112_Butterfly_refuted, C112_Butterfly_same |
| C113 | C113_Add, C113_Sub, C113_elementwise, C113_purego, C113_panics |
| C114 | C114_Sum, C114_memory |
| C115 | C115_InnerProduct, C115_panics, C115_memory |
| C116 | C116_Add_refuted, C116_InnerProduct_refuted |
| C117 | C117_Hash, C117_wide, C117_uniform |
| C118 | C118_Less, C118_Swap, C118_sort |
| C119 | C119_SetInterface |
| C120 | C120_cyclotomic_partial, C120_cyclic_partial, C120_panics, C120_mixed_refuted |
| C121 | C121_define_panics, C121_sq_norm_panics, C121_approx_panics |
| C122 | C122_computes, C122_panics |
| C123 | C123_verify, C123_prove_partial, C123_prove_refuted |
