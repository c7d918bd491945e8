{"id": "C01", "title": "Cyclic NTT round trip", "statement": "For a CyclicTransformer of rank N, InvNTTTo after FwdNTTTo returns the input vector, and FwdNTTTo after InvNTTTo returns the input vector.", "quantifier": "every power-of-two rank N >= 8 (ranks 2 and 4 leave the slice in the block copy, see C14; for them the transform after the copy), every prime modulus p with 2N | p-1, every input vector of length N", "why_tests_cant": "the field is 110..880 bits wide and the vector space is astronomically large; a twiddle-table or loop-bound slip can hide at an untested rank", "anchors": ["math/bigpoly/ntt.go: NewCyclicTransformer, FwdNTTTo, InvNTTTo, nttInPlace, inttInPlace"]}
{"id": "C02", "title": "Cyclotomic NTT round trip", "statement": "For a CyclotomicTransformer of rank N, InvNTTTo and FwdNTTTo are mutually inverse.", "quantifier": "every power-of-two rank N >= 8 (ranks below 8: see C14; for them the transform after the copy), every prime p with 2N | p-1, every vector of length N", "why_tests_cant": "same as C01: all vectors of all ranks over all NTT-friendly primes", "anchors": ["math/bigpoly/ntt.go: NewCyclotomicTransformer, FwdNTTTo, InvNTTTo"]}
{"id": "C03", "title": "NTT output is the list of evaluations at the right points", "statement": "Entry i of the cyclic FwdNTT output is the value of the input polynomial at g^rev(i) for one fixed primitive N-th root of unity g; entry i of the cyclotomic output is the value at psi^(2*rev(i)+1) for one fixed primitive 2N-th root psi; rev is bit reversal on log2 N bits.", "quantifier": "every rank, every admissible prime, every vector, every output index", "why_tests_cant": "evaluation order is what the linear checkers and the encoder rely on for all vectors; samples cannot separate it from other orders at every rank", "anchors": ["math/bigpoly/ntt.go: nttInPlaceRef, nttInPlaceUnroll, tables in both constructors"]}
{"id": "C04", "title": "Mul in NTT form is ring multiplication", "statement": "InvNTT(Mul(NTT(a),NTT(b))) is a*b modulo X^N-1 for a CyclicEvaluator and modulo X^N+1 for a CyclotomicEvaluator.", "quantifier": "every rank, admissible prime, and pair of polynomials", "why_tests_cant": "must hold for every pair of polynomials", "anchors": ["math/bigpoly/base_op.go: MulTo, NTTTo, InvNTTTo", "math/bigpoly/ntt.go"]}
{"id": "C05", "title": "Fused operations ignore the pooled scratch buffer", "statement": "AddTo, SubTo, NegTo, ScalarMulTo, ScalarMulAddTo, ScalarMulSubTo, MulTo, MulAddTo, MulSubTo compute the coefficient-wise field operation they are named after, whatever the sync.Pool buffer contained before, including when the output is one of the inputs.", "quantifier": "every length (including lengths that are not multiples of 8), all operands, every previous content of the pooled buffer, every aliasing of output with inputs", "why_tests_cant": "stale-buffer bugs depend on the history of earlier calls on a shared pool", "anchors": ["math/bigpoly/base_op.go", "math/bigpoly/vec.go"]}
{"id": "C06", "title": "Transformer construction succeeds exactly when it can", "statement": "NewCyclicTransformer/NewCyclotomicTransformer panic when rank is not a power of two or 2*rank does not divide p-1, and otherwise their search always finds a root of unity of the exact required order.", "quantifier": "every rank >= 2 and every prime p", "why_tests_cant": "the search runs over all of the field; that it never falls through with g=0 is a theorem about all primes", "anchors": ["math/bigpoly/ntt.go: NewCyclicTransformer, NewCyclotomicTransformer"]}
{"id": "C07", "title": "Unrolled NTT equals the reference NTT", "statement": "For every power-of-two length >= 32 the unrolled forward and inverse in-place transforms give the same result as the reference loops, for any table contents.", "quantifier": "every length 2^k >= 32, every data vector, every twiddle table", "why_tests_cant": "all lengths; block bookkeeping (t, m, offsets) differs per length", "anchors": ["math/bigpoly/ntt.go: nttInPlaceRef, nttInPlaceUnroll, inttInPlaceRef, inttInPlaceUnroll"]}
{"id": "C08", "title": "Aut on coefficient form is substitution X -> X^idx", "statement": "For odd idx (positive or negative, any size that fits), Aut(p, idx) in coefficient form is p(X^idx) modulo X^N+1; for even idx it panics.", "quantifier": "every rank, every polynomial, every integer idx", "why_tests_cant": "all idx and all polynomials; sign wrap depends on i*idx mod 2N", "anchors": ["math/bigpoly/cyclotomic.go: AutTo, autTo"]}
{"id": "C09", "title": "Aut commutes with the NTT", "statement": "For p in NTT form, Aut(p, idx) equals NTT(Aut(InvNTT(p), idx)).", "quantifier": "every rank, admissible prime, polynomial, odd idx", "why_tests_cant": "index permutation must be right for every idx and rank", "anchors": ["math/bigpoly/cyclotomic.go: autNTTTo"]}
{"id": "C10", "title": "Automorphisms compose and invert", "statement": "Aut(Aut(p,i),j) = Aut(p,i*j), and Aut by idx followed by Aut by an inverse of idx mod 2N is the identity; Aut is additive and multiplicative.", "quantifier": "every rank, polynomial, and odd i, j", "why_tests_cant": "algebraic law over all indices", "anchors": ["math/bigpoly/cyclotomic.go: AutTo"]}
{"id": "C11", "title": "QuoRemByVanishing is Euclidean division by X^N-1", "statement": "quo and rem returned satisfy p = quo*(X^N-1) + rem with deg rem < N; they are the unique such pair.", "quantifier": "every evaluator rank, every 0 < N <= rank, every p", "why_tests_cant": "all polynomials, all N", "anchors": ["math/bigpoly/cyclic.go: QuoRemByVanishing"]}
{"id": "C12", "title": "ModSwitch rounds to nearest", "statement": "Each output coefficient is, modulo q, the integer nearest to pBig[i]*q/Q (error at most 1/2), for every integer input coefficient.", "quantifier": "every modulus Q > 0, every field modulus q, every (possibly negative) integer coefficient", "why_tests_cant": "unbounded integers; rounding ties and signs", "anchors": ["math/bigpoly/cyclotomic.go: ModSwitchTo"]}
{"id": "C13", "title": "Evaluate is polynomial evaluation", "statement": "Poly.Evaluate(x) is the sum of Coeffs[i]*x^i, and panics for polynomials in NTT form.", "quantifier": "every polynomial, every point", "why_tests_cant": "all inputs", "anchors": ["math/bigpoly/poly.go: Evaluate"]}
{"id": "C14", "title": "Copy loops never leave the slice", "statement": "FwdNTTTo, InvNTTTo and CopyFrom, which copy in blocks of 8 through unsafe pointers, only read and write inside the slices they are given.", "quantifier": "every rank accepted by the constructors", "why_tests_cant": "out-of-bounds access through unsafe pointers is silent at run time and is heap-layout dependent", "anchors": ["math/bigpoly/ntt.go: FwdNTTTo, InvNTTTo", "math/bigpoly/poly.go: CopyFrom"]}
{"id": "C15", "title": "Bit reversal is the bit-reversal permutation", "statement": "bitReverseInPlace moves entry i to the index whose log2(len) bits are reversed; doing it twice is the identity.", "quantifier": "every power-of-two length and every contents", "why_tests_cant": "all lengths", "anchors": ["math/bigpoly/vec.go: bitReverseInPlace"]}
{"id": "C16", "title": "Exp is exponentiation", "statement": "bignum.Exp(x, e) = x^e and does not modify x.", "quantifier": "every field element, every 64-bit exponent", "why_tests_cant": "2^64 exponents", "anchors": ["math/bignum/bignum.go: Exp"]}
{"id": "C17", "title": "Norm decomposition base covers the bound", "statement": "decomposeBase(B) returns a list of positive weights whose {-1,0,1}-combinations produce every integer in [-B,B] and nothing outside; decomposeBig finds the digits.", "quantifier": "every bound B >= 2, every integer", "why_tests_cant": "unbounded bounds; off-by-one at powers of two", "anchors": ["buckler/utils.go: decomposeBase, decomposeBig"]}
{"id": "C18", "title": "AddInfNormConstraint is sound", "statement": "Any assignment satisfying every constraint that AddInfNormConstraint(w,B) adds has every entry of w congruent to an integer in [-B,B].", "quantifier": "every bound B >= 0, every modulus, every assignment of w and of the auxiliary witnesses", "why_tests_cant": "quantifies over adversarial auxiliary witnesses", "anchors": ["buckler/context.go: AddInfNormConstraintBig"]}
{"id": "C19", "title": "AddInfNormConstraint is complete", "statement": "If every entry of w is in [-B,B] (centered), the auxiliary witnesses Prove computes satisfy every constraint added by AddInfNormConstraint(w,B).", "quantifier": "every bound B >= 0 with 2B < p, every w with entries in [-B,B]", "why_tests_cant": "all bounds and witnesses, in particular the extreme value B for each B", "anchors": ["buckler/context.go: AddInfNormConstraintBig", "buckler/prover.go: Prove (infDcmpWitness loop)"]}
{"id": "C20", "title": "An impossible norm bound is not silently accepted", "statement": "A negative bound passed to AddInfNormConstraintBig is unsatisfiable, so it must not leave the circuit satisfiable.", "quantifier": "every negative bound", "why_tests_cant": "the effect is the absence of a constraint for all witnesses", "anchors": ["buckler/context.go: AddInfNormConstraintBig"]}
{"id": "C21", "title": "AddSqTwoNormConstraint is sound", "statement": "Any assignment satisfying the constraints added by AddSqTwoNormConstraint(w,B) has sum of w_i^2 congruent mod p to an integer in [0,B].", "quantifier": "every bound B >= 2, every assignment", "why_tests_cant": "adversarial auxiliary witnesses", "anchors": ["buckler/context.go: AddSqNormConstraintBig", "buckler/verifier.go: Verify (twoDcmpBound loop)"]}
{"id": "C22", "title": "AddSqTwoNormConstraint is complete", "statement": "If the sum of w_i^2 over the integers is at most B, Prove's auxiliary witness satisfies the added constraints, for any number of such constraints in one circuit.", "quantifier": "every bound, every set of two-norm constraints, every map iteration order", "why_tests_cant": "depends on Go map iteration order and on the number of constraints", "anchors": ["buckler/prover.go: Prove (twoDcmpBound loop)"]}
{"id": "C23", "title": "NTT checker transposes correctly", "statement": "For the NTT LinearChecker, TransposeTo is the transpose of TransformTo: <M v, u> = <v, M^T u>.", "quantifier": "every rank, admissible prime, all vectors", "why_tests_cant": "linear-algebra identity over all vectors and ranks", "anchors": ["buckler/linear.go: nttChecker"]}
{"id": "C24", "title": "Automorphism checker transposes correctly", "statement": "For the automorphism LinearChecker (NTT or coefficient mode), <M v, u> = <v, M^T u>.", "quantifier": "every rank, odd idx, both modes, all vectors", "why_tests_cant": "as C23; needs the modular inverse to be right for every idx", "anchors": ["buckler/linear.go: autChecker, modInverse"]}
{"id": "C25", "title": "Projection checkers transpose correctly", "statement": "For the random projection and the recomposition checkers, <M v, u> = <v, M^T u>.", "quantifier": "every projection matrix, every base, all vectors", "why_tests_cant": "all matrices", "anchors": ["buckler/linear.go: projChecker, projRecomposeChecker"]}
{"id": "C26", "title": "modInverse inverts", "statement": "modInverse(x, m) with wrapping 64-bit arithmetic returns y with x*y = 1 mod m, for m a power of two and odd x.", "quantifier": "every odd x and every power-of-two m < 2^63", "why_tests_cant": "2^64 inputs with wrap-around", "anchors": ["buckler/linear.go: modInverse"]}
{"id": "C27", "title": "Witness identifiers are faithful", "statement": "witnessToID(idToWitness(id)) = id, and distinct ids give distinct placeholders; public and secret placeholders never collide.", "quantifier": "every id reachable by the walker, every field whose modulus exceeds the encoding", "why_tests_cant": "all ids", "anchors": ["buckler/compile.go: idToWitness, witnessToID"]}
{"id": "C28", "title": "Compile, Prove and Verify number witnesses identically", "statement": "For circuits of the same shape with full-length witnesses, the i-th placeholder assigned by Compile is the slot Prove (and Verify, for public ones) fills with that very field.", "quantifier": "every nested structure of structs, slices, arrays, pointers, interfaces and non-witness fields", "why_tests_cant": "all circuit shapes", "anchors": ["buckler/compile.go: firstWalk, prvWalk, vrfWalk"]}
{"id": "C29", "title": "Wrong-length witnesses are reported", "statement": "Prove returns an error, and Verify returns false, when some witness field does not have length rank.", "quantifier": "every circuit shape, every position of the offending field", "why_tests_cant": "error propagation through recursion for all shapes", "anchors": ["buckler/compile.go: prvWalk, vrfWalk"]}
{"id": "C30", "title": "The embedding rank is large enough", "statement": "For every circuit, the polynomial Prove builds for each check in the NTT domain of size embRank is the exact product polynomial: no wrap-around modulo X^embRank-1.", "quantifier": "every set of constraints, every witness, every blinding", "why_tests_cant": "degree accounting over all constraint shapes", "anchors": ["buckler/constraint.go: maxRank", "buckler/compile.go: Compile", "buckler/prover.go: evalCircuit, linCheck"]}
{"id": "C31", "title": "Commitment count and sizes match the parameters", "statement": "Prove commits exactly batch() polynomials, each of length at most the PCS rank, in the order in which Verify reads their evaluations.", "quantifier": "every circuit (any mix of constraint kinds)", "why_tests_cant": "index arithmetic over all combinations of checks", "anchors": ["buckler/context.go: batch, commitRank", "buckler/prover.go: Prove", "buckler/verifier.go: Verify"]}
{"id": "C32", "title": "Arithmetic check is complete", "statement": "If every arithmetic constraint holds at every slot, the verifier's arithmetic equation holds at every evaluation point and batching constant.", "quantifier": "every set of arithmetic constraints, satisfying assignment, blinding, challenge", "why_tests_cant": "all challenges and assignments", "anchors": ["buckler/prover.go: arithCheck", "buckler/verifier.go: arithCheck, evalCircuit"]}
{"id": "C33", "title": "Linear check is complete", "statement": "If wOut = M wIn for every linear constraint, both verifier equations of the linear check hold at every evaluation point and challenge.", "quantifier": "every list of checkers satisfying C23-C25, satisfying assignment, mask, blinding, challenges", "why_tests_cant": "all challenges", "anchors": ["buckler/prover.go: linCheck, sumCheckMask", "buckler/verifier.go: linCheck"]}
{"id": "C34", "title": "Sum check is complete", "statement": "If the slot-sum of each sum-check constraint equals the declared sum, both verifier equations of the sum check hold at every evaluation point.", "quantifier": "every list of sum-check constraints and declared sums, satisfying assignment, mask, blinding, challenge", "why_tests_cant": "all declared sums", "anchors": ["buckler/context.go: AddSumCheckConstraintBig", "buckler/prover.go: sumCheck", "buckler/verifier.go: sumCheck"]}
{"id": "C35", "title": "Arithmetic check is sound", "statement": "If some arithmetic constraint is violated at some slot by the committed witness polynomials, then whatever quotient is committed, only few (batching constant, evaluation point) pairs pass the verifier's arithmetic equation.", "quantifier": "every list of constraints, every committed witness and quotient polynomial", "why_tests_cant": "counts accepting challenges over the whole field for adversarial polynomials", "anchors": ["buckler/verifier.go: arithCheck, evalCircuit"]}
{"id": "C36", "title": "Linear check is sound", "statement": "If some linear constraint is violated by the committed polynomials, only few challenge tuples pass the verifier's linear equations.", "quantifier": "every list of linear constraints, every adversarial commitment", "why_tests_cant": "as C35", "anchors": ["buckler/verifier.go: linCheck"]}
{"id": "C37", "title": "Sum check is sound", "statement": "If the slot-sum of some sum-check constraint differs from the declared sum, only few challenge tuples pass the verifier's sum-check equations.", "quantifier": "every list of sum-check constraints, declared sums, adversarial commitments", "why_tests_cant": "as C35", "anchors": ["buckler/verifier.go: sumCheck"]}
{"id": "C38", "title": "The remHi test enforces the degree bound", "statement": "If remHi(x) = x^(R-(N-1)) remLo(x) at more than deg-many points for committed polynomials of rank R, then remLo has degree below N-1.", "quantifier": "every pair of committed polynomials, every N <= R", "why_tests_cant": "root counting over adversarial polynomials", "anchors": ["buckler/verifier.go: linCheck, sumCheck (remLoShiftEval)"]}
{"id": "C39", "title": "RandEncode preserves the witness", "statement": "The polynomial produced by Encode/RandEncode has degree at most N and takes the given values on the N-th roots of unity, whatever randomness is drawn.", "quantifier": "every vector, every random coin", "why_tests_cant": "all coins", "anchors": ["buckler/encoder.go: EncodeTo, RandEncodeTo"]}
{"id": "C40", "title": "RandEncode hides one evaluation", "statement": "For x outside the N-th roots of unity, the evaluation of RandEncode(v) at x is a bijective function of the random coin, so it is uniform and independent of v.", "quantifier": "every vector, every x with x^N != 1", "why_tests_cant": "distributional statement over all coins", "anchors": ["buckler/encoder.go: RandEncodeTo"]}
{"id": "C41", "title": "Masks have the advertised sum", "statement": "The mask polynomial and mask sum returned to the transcript satisfy: the slot-average of the mask is maskSum.", "quantifier": "every mask rank >= N, all coins", "why_tests_cant": "all coins and ranks", "anchors": ["buckler/prover.go: sumCheckMask"]}
{"id": "C42", "title": "Prover and verifier derive the same challenges", "statement": "For every circuit, the sequence of transcript operations of Prove and of Verify on the proof it outputs yield the same value for every challenge.", "quantifier": "every mix of constraint kinds, every hash function", "why_tests_cant": "ordering of Bind/ComputeChallenge for all combinations", "anchors": ["buckler/prover.go: Prove", "buckler/verifier.go: Verify"]}
{"id": "C43", "title": "Challenges bind the statement", "statement": "Changing the public witnesses changes what is hashed into the challenges (strong Fiat-Shamir).", "quantifier": "every circuit, every pair of distinct public assignments, every hash function", "why_tests_cant": "absence of a binding for all statements", "anchors": ["buckler/verifier.go: Verify", "README.md"]}
{"id": "C44", "title": "A proof is valid for one statement only", "statement": "There are no two distinct public assignments for which the verifier accepts one and the same proof by construction.", "quantifier": "every circuit using a public witness, every accepted proof", "why_tests_cant": "existence of another accepted statement for each proof", "anchors": ["buckler/verifier.go: Verify"]}
{"id": "C45", "title": "Verify is total on untrusted proofs", "statement": "Verify returns true or false, never panics, for every proof object a peer can send.", "quantifier": "every proof value, including wrong lengths and nil", "why_tests_cant": "malformed-input space is unbounded", "anchors": ["buckler/verifier.go: Verify", "jindo/verifier.go: Verify"]}
{"id": "C46", "title": "AddApproxInfNormConstraint is sound up to slack", "statement": "Any assignment satisfying the constraints added by AddApproxInfNormConstraint(w,B) has the projected vector bounded by rank*B.", "quantifier": "every bound, every assignment, every projection", "why_tests_cant": "adversarial auxiliary witnesses", "anchors": ["buckler/context.go: AddApproxInfNormConstraintBig"]}
{"id": "C47", "title": "AddApproxInfNormConstraint is complete", "statement": "If |w_i| <= B for all i, Prove's projected and decomposed witnesses satisfy both linear constraints.", "quantifier": "every projection matrix, every B, every such w", "why_tests_cant": "all projections", "anchors": ["buckler/prover.go: Prove (projChecker part)", "buckler/linear.go"]}
{"id": "C48", "title": "Concurrent use of one compiled circuit is safe", "statement": "Calls of Prove/Verify on provers and verifiers from one Compile may be interleaved without changing results.", "quantifier": "every interleaving of the steps of two calls", "why_tests_cant": "schedules", "anchors": ["buckler/prover.go: Prove", "buckler/verifier.go: Verify", "buckler/context.go: projChecker"]}
{"id": "C49", "title": "divMod64 is multi-word division", "statement": "divMod64(x,y) leaves floor(x/y) in x and returns x mod y.", "quantifier": "every little-endian word list, every 0 < y < 2^64", "why_tests_cant": "2^(64 n) inputs", "anchors": ["jindo/utils.go: divMod64"]}
{"id": "C50", "title": "Encoding decodes to the original vector", "statement": "DecodeTo(encode(v)) = v (padded with zeros) for vectors of at most slots field elements.", "quantifier": "every vector, every base/exp with p = base^exp+1, every slot count", "why_tests_cant": "all field elements including p-1", "anchors": ["jindo/encoder.go: baseEncodeTo, DecodeTo"]}
{"id": "C51", "title": "Randomized encoding decodes to the original vector", "statement": "For any samples drawn, the randomized encoding of v decodes to v as long as no coefficient wraps modulo Q.", "quantifier": "every vector, every sample vector with bounded coefficients", "why_tests_cant": "all Gaussian samples", "anchors": ["jindo/encoder.go: randEncodeTo, DecodeTo"]}
{"id": "C52", "title": "Decoding is homomorphic", "statement": "Decoding is additive, and decoding the product of a ring element with an encoding of a scalar (supported on multiples of slots) multiplies every slot by that scalar.", "quantifier": "every ring element, every scalar encoding, without wrap-around", "why_tests_cant": "algebraic law over the whole ring", "anchors": ["jindo/encoder.go: DecodeTo", "jindo/verifier.go: verifyEval"]}
{"id": "C53", "title": "Challenge encoding has bounded coefficients", "statement": "encodeChallengeTo writes exp coefficients, each at most ChallengeBound/2 in absolute value, the same integer in every RNS limb, and every digit string below the bound is reached equally often up to one.", "quantifier": "every 16-byte challenge, every parameter set", "why_tests_cant": "2^128 challenges", "anchors": ["jindo/utils.go: encodeChallengeTo", "jindo/params.go: ChallengeBound"]}
{"id": "C54", "title": "RNS reconstruction returns the centered representative", "statement": "reconstructTo returns, for every coefficient, the integer of least absolute value congruent to the residues.", "quantifier": "every list of pairwise coprime moduli, every residue vector", "why_tests_cant": "product of the moduli is up to 2^240", "anchors": ["jindo/rns.go: reconstructTo, toBalanced, setBigCoeffTo"]}
{"id": "C55", "title": "Encoding parameters satisfy p = base^exp + 1", "statement": "newEncodeParameters returns base, exp with base^exp + 1 = p and exp a power of two, base not a perfect square, or panics.", "quantifier": "every modulus p > 2", "why_tests_cant": "all moduli", "anchors": ["jindo/params.go: newEncodeParameters"]}
{"id": "C56", "title": "Matrix layout evaluates to the polynomial", "statement": "For the row/column layout used by Commit, left(x)^T * M * right(x) equals the committed polynomial at x, for any blinding row.", "quantifier": "every vector up to rank, every rows/cols/slots, every blinding row, every x", "why_tests_cant": "index layout for all sizes", "anchors": ["jindo/prover.go: genFirstLastRow, commitColTo", "jindo/utils.go: leftVec, rightVec"]}
{"id": "C57", "title": "The blinding row hides the first row", "statement": "For fixed committed vector, the map from blinding coins to first-row entries 1..cs-1 is a bijection.", "quantifier": "every vector, all coins", "why_tests_cant": "distributional", "anchors": ["jindo/prover.go: genFirstLastRow"]}
{"id": "C58", "title": "Jindo evaluation proofs verify (algebraic part)", "statement": "For an honest prover, the consistency equation holds exactly, the outer and inner residuals equal the rounding errors (bounded by the cut-offs), and the evaluation equation holds, provided no coefficient wraps around Q.", "quantifier": "every batch size, every committed vector, every randomness and challenge", "why_tests_cant": "all coins, all challenges", "anchors": ["jindo/prover.go: Evaluate, commitColTo, outerCommitTo", "jindo/verifier.go"]}
{"id": "C59", "title": "Jindo evaluations are binding", "statement": "For a fixed commitment, point and proof, Verify accepts at most one vector of claimed evaluations y.", "quantifier": "every batch size, every commitment, point, proof", "why_tests_cant": "adversarial y", "anchors": ["jindo/verifier.go: Verify, verifyEval"]}
{"id": "C60", "title": "The commitment key is a function of the CRS", "statement": "Two parties with the same parameters and CRS build the same commitment key and every coefficient is below its modulus.", "quantifier": "every CRS, every parameter set", "why_tests_cant": "all CRS strings", "anchors": ["jindo/entities.go: NewCommitKey"]}
{"id": "C61", "title": "Parameters can hold the requested polynomial", "statement": "For every requested size, rank = rows*cols*slots bookkeeping gives rank >= targetN and slots*exp = ring degree.", "quantifier": "every targetN >= 1, every exp (power of two)", "why_tests_cant": "all sizes", "anchors": ["jindo/params.go: NewParameters"]}
{"id": "C62", "title": "SampleN is in range and unbiased", "statement": "SampleN(n) returns a value in [0,n), and each value has the same number of accepted 64-bit preimages.", "quantifier": "every n >= 1", "why_tests_cant": "2^64 values of n", "anchors": ["math/csprng/uniform.go: SampleN"]}
{"id": "C63", "title": "Sample consumes the key stream in order", "statement": "The k-th Sample is the little-endian word at byte 8k of a byte sequence determined only by the seed; no word is returned twice or skipped.", "quantifier": "every number of calls, every key stream", "why_tests_cant": "unbounded histories", "anchors": ["math/csprng/uniform.go: Sample"]}
{"id": "C64", "title": "Read overwrites its buffer with random bytes", "statement": "Read(p) fills p with bytes determined by the seed and position, independent of the previous contents of p.", "quantifier": "every buffer contents and length", "why_tests_cant": "depends on prior buffer contents", "anchors": ["math/csprng/uniform.go: Read"]}
{"id": "C65", "title": "Twin-CDT output is near its centre", "statement": "Sample(center) returns a value whose distance to floor(center) is at most the tail cut (plus one).", "quantifier": "every center, every table, every random word", "why_tests_cant": "all random words", "anchors": ["math/csprng/gaussian_twin_cdt.go: Sample"]}
{"id": "C66", "title": "SampleFloat lies in [0,1)", "statement": "SampleFloat returns k/2^52 for k the low 52 bits of the sampled word.", "quantifier": "every 64-bit word", "why_tests_cant": "bit-level float identity over 2^52 values", "anchors": ["math/csprng/uniform.go: SampleFloat"]}
{"id": "C67", "title": "Montgomery multiplication is field multiplication", "statement": "For the generated zp types, Mul of two reduced Montgomery representatives is the reduced representative of the product.", "quantifier": "every pair of reduced elements", "why_tests_cant": "2^440..2^1760 input pairs; carry chains", "anchors": ["buckler/internal/zp220/element_purego.go: Mul", "buckler/internal/zp220/element.go: _mulGeneric"]}
{"id": "C68", "title": "Add, Sub, Neg, Double are field operations", "statement": "For the generated zp types, the limb-level Add, Sub, Neg, Double keep elements reduced and implement the field operation.", "quantifier": "every pair of reduced elements", "why_tests_cant": "carry chains over all inputs", "anchors": ["buckler/internal/zp220/element.go: Add, Sub, Neg, Double"]}
{"id": "C69", "title": "Conversions round-trip", "statement": "SetBigInt/BigInt/SetUint64/SetInt64/Slice/Marshal/SetBytes are mutually consistent: BigInt(SetBigInt(v)) = v mod p, Slice gives the canonical limbs, SetBytes(Marshal(x)) = x.", "quantifier": "every integer, every element", "why_tests_cant": "all integers", "anchors": ["buckler/internal/zp220/element.go: SetBigInt, BigInt, SetUint64, SetInt64, Slice, Marshal, SetBytes"]}
{"id": "C70", "title": "Cmp decides equality and order", "statement": "Cmp(x,y) is 0 exactly when x and y are the same field element, otherwise the sign of the comparison of their canonical integers.", "quantifier": "every pair of elements", "why_tests_cant": "all pairs", "anchors": ["buckler/internal/zp220/element.go: Cmp"]}
{"id": "C71", "title": "findModulus returns what it promises", "statement": "A modulus returned by findModulus(s,e) equals b^k+1 with k a power of two, has bit length in [s,e), base at most 2^25, and p-1 divisible by 2^31.", "quantifier": "every bit range, every primality oracle", "why_tests_cant": "all ranges", "anchors": ["jindo-modulus/main.go: findModulus"]}
{"id": "C72", "title": "Honest proofs are accepted end to end", "statement": "With an ideal polynomial commitment, for every circuit accepted by Compile and every satisfying assignment, Verify accepts the proof Prove outputs.", "quantifier": "every circuit, satisfying assignment, coins, hash function", "why_tests_cant": "composition of all components", "anchors": ["buckler/prover.go: Prove", "buckler/verifier.go: Verify"]}
{"id": "C73", "title": "No proof of a false statement by adjusting claimed evaluations", "statement": "A prover cannot make Verify accept an unsatisfiable circuit by choosing the claimed evaluations after seeing the challenge.", "quantifier": "every circuit, every adversarial prover", "why_tests_cant": "adversarial strategy", "anchors": ["buckler/verifier.go: Verify", "jindo/verifier.go: verifyEval"]}
{"id": "C74", "title": "Norm constraints may be repeated", "statement": "Adding two norm constraints (any bounds) on the same witness is complete: an assignment meeting both is provable.", "quantifier": "every pair of bounds on one witness", "why_tests_cant": "map overwrite depends on constraint history", "anchors": ["buckler/context.go: AddInfNormConstraintBig, AddSqNormConstraintBig"]}
{"id": "C75", "title": "Accepted short openings are binding (MSIS reduction)", "statement": "Two different short openings of one outer commitment accepted by the norm test yield a short non-zero solution of the public matrix relation.", "quantifier": "every commitment key, every pair of accepted openings", "why_tests_cant": "adversarial openings", "anchors": ["jindo/verifier.go: verifyOuterCommitment, verifyNorm"]}
{"id": "C76", "title": "Accepted responses fix the decoded evaluations (special soundness)", "statement": "Two accepting responses for the same first message and challenges that differ in one column give an opening of that column up to the challenge difference.", "quantifier": "every pair of accepting transcripts", "why_tests_cant": "adversarial transcripts", "anchors": ["jindo/verifier.go: verifyInnerCommitment, verifyConsistency"]}
{"id": "C77", "title": "ScalarMulTo with the scalar taken from the output", "statement": "ScalarMulTo(pOut, p, c) multiplies every coefficient by the value c had at the call, also when c is one of the coefficients of pOut.", "quantifier": "every length, heap and choice of pointer c", "why_tests_cant": "depends on pointer identity between a scalar and an element of the output", "anchors": ["math/bigpoly/vec.go: scalarMulVecTo", "math/bigpoly/base_op.go: ScalarMulTo"]}
{"id": "C78", "title": "Prove's output for a violated assignment is rejected", "statement": "If the assignment given to Prove violates some constraint of the circuit, Verify rejects the resulting proof, except for a small fraction of challenges.", "quantifier": "every circuit, violating assignment, coins, hash function", "why_tests_cant": "tests cover one violation at a time, not cancellation between constraints", "anchors": ["buckler/prover.go: Prove, evalCircuit", "buckler/verifier.go: Verify, evalCircuit"]}
{"id": "C79", "title": "Twin-CDT follows its centre", "statement": "Moving the centre by one moves every output of Sample by one, and the two tables used are those of the centres just below and just above the fraction.", "quantifier": "every centre, table and random word", "why_tests_cant": "the failing fractions lie in the last 1/128", "anchors": ["math/csprng/gaussian_twin_cdt.go: Sample"]}
{"id": "C80", "title": "Twin-CDT chooses between its candidates by the distribution function", "statement": "When the two tables give different candidates, Sample returns the smaller candidate x0 exactly when the random word is below the mass of tailLo..x0.", "quantifier": "every pair of tables, random word and weight function", "why_tests_cant": "needs the exact distribution", "anchors": ["math/csprng/gaussian_twin_cdt.go: Sample"]}
{"id": "C81", "title": "The search for the inner rank ends", "statement": "For every modulus and size, the loop over mu in NewParameters ends, with the least mu that findMSISRank confirms.", "quantifier": "every growth of log q and rank in mu", "why_tests_cant": "non-termination", "anchors": ["jindo/params.go: NewParameters"]}
{"id": "C82", "title": "Equal, IsZero and IsOne decide on the field element", "statement": "Equal(x,y) holds exactly when the canonical integers agree, IsZero(x) when it is 0, IsOne(x) when it is 1.", "quantifier": "every pair of reduced elements of the seven packages", "why_tests_cant": "all pairs", "anchors": ["buckler/internal/zp220/element.go: Equal, NotEqual, IsZero, IsOne"]}
{"id": "C83", "title": "Inverse gives the inverse, and 0 for 0", "statement": "Inverse returns, for every reduced element, the reduced element whose product with it is 1, and 0 for 0.", "quantifier": "every reduced element of every package", "why_tests_cant": "2^110..2^880 inputs; the binary gcd works on approximations with deferred factors", "anchors": ["buckler/internal/zp220/element.go: Inverse, inverseExp, approximate, linearComb, montReduceSigned, updateFactorsDecompose", "examples/mult/zp/element.go: Inverse"]}
{"id": "C84", "title": "BatchInvert inverts every entry", "statement": "BatchInvert(a) has in every position the inverse of the entry of a, and 0 where a has 0.", "quantifier": "every list of reduced elements", "why_tests_cant": "lists of every length and every placement of zeros", "anchors": ["buckler/internal/zp220/element.go: BatchInvert"]}
{"id": "C85", "title": "SetRandom is rejection sampling below the modulus", "statement": "SetRandom returns the first block of bytes of the source that, masked to the bit length of the modulus, is below the modulus; nothing else of the source is read.", "quantifier": "every byte source", "why_tests_cant": "needs all sources", "anchors": ["buckler/internal/zp220/element.go: SetRandom"]}
{"id": "C86", "title": "Halve divides by two", "statement": "Twice Halve(x) is x, and Halve(x) is reduced.", "quantifier": "every reduced element", "why_tests_cant": "all elements", "anchors": ["buckler/internal/zp220/element.go: Halve"]}
{"id": "C87", "title": "The generated text is the limb recursion", "statement": "The unrolled statements of Add, Sub, Double, Neg, _mulGeneric, Mul, Square and fromMont of each package compute the schoolbook carry chain, CIOS and Montgomery recursions over the limbs.", "quantifier": "all word inputs, reduced or not", "why_tests_cant": "all word inputs", "anchors": ["buckler/internal/zp{110,220,440,880}/element.go, element_purego.go", "jindo/internal/zp/element.go, element_purego.go", "examples/{bfv,mult}/zp/element.go, element_purego.go"]}
{"id": "C88", "title": "Challenges bind the messages sent before them", "statement": "If two runs of Verify (same circuit, any proofs, public inputs and oracles order) compute the same projConst, batching constant or evalPoint, then the hash function has a collision or the two proofs agree on every commitment, and on the mask sums, that were absorbed before that challenge; with the same evalPoint all six challenges agree.", "quantifier": "all circuits, proofs, public witnesses, hash functions of fixed output length", "why_tests_cant": "needs all pairs of proofs and an arbitrary hash", "anchors": ["buckler/verifier.go: Verify 60-170", "buckler/prover.go: Prove"]}
{"id": "C89", "title": "The multiplication example proves what it says", "statement": "examples/mult: if the compiled constraints hold of the vectors Prove reads from the struct, then Z = X*Y in the negacyclic ring and |X| <= 5, where Y is the polynomial behind the public YNTT. Conversely, for every X with |X| <= 5 and every Y, the values main assigns are accepted by Prove and Verify.", "quantifier": "all ranks NewNTTChecker accepts from 8 on, all X, Y, all coins, hashes and map orders", "why_tests_cant": "the example runs one pair X, Y at one rank", "anchors": ["examples/mult/main.go: 35-124", "buckler/compile.go", "buckler/context.go"]}
{"id": "C90", "title": "The BFV example proves its relation", "statement": "examples/bfv: if the compiled constraints hold, then c0 + c1*s = Delta*m + e in the negacyclic ring, |m| <= t-1 and |e| <= ErrBound. Conversely every solution of this relation is accepted by Prove and Verify.", "quantifier": "all ranks from 8 on, all t, Delta, ErrBound, ciphertexts, keys, messages, errors, coins and hashes", "why_tests_cant": "the example runs one ciphertext", "anchors": ["examples/bfv/main.go: 30-218"]}
{"id": "C91", "title": "An accepted BFV proof determines the message", "statement": "A ciphertext for which Verify accepts an honestly computed proof about message m is not accepted with an honestly computed proof about another message.", "quantifier": "all ciphertexts, messages and errors", "why_tests_cant": "needs all ciphertexts and all witnesses", "anchors": ["examples/bfv/main.go: 30-70"]}
{"id": "C92", "title": "The public key test circuit proves its relation", "statement": "buckler_test.go PublicKeyCircuit: if the compiled constraints hold, then pk1 = pk0*sk + noise in the negacyclic ring and sk and noise are ternary. Conversely every ternary sk and noise and every pk0 are accepted by Prove and Verify.", "quantifier": "all ranks from 8 on, all keys, noises, pk0, coins and hashes", "why_tests_cant": "the test samples one key", "anchors": ["buckler/buckler_test.go: 17-96"]}
{"id": "C93", "title": "Jindo's challenges bind what was said before them", "statement": "Evaluate and Verify of jindo read the hash function at two inputs only: the reference string, all commitments and the point (batching challenges), and these followed by the batching challenges, the partial evaluation and the mask (column challenges). Two runs with the same column challenges exhibit a collision of the hash function or agree on all of these.", "quantifier": "all hash functions, keys, points, batches and proofs", "why_tests_cant": "needs an arbitrary hash function and all pairs of runs", "anchors": ["jindo/prover.go: Evaluate 231-299", "jindo/verifier.go: Verify 66-97"]}
{"id": "C94", "title": "The error bound of the BFV example is large enough", "statement": "examples/bfv: for every ciphertext with c0 + c1*s = t^-1*m + e modulo Q and X^N+1, ternary s, |m| <= t/2 and |e| <= B, the error main computes after ModSwitch has infinity norm below N + t, if 2*q*B < Q*(N + t - 1); main's proof of it is then accepted.", "quantifier": "all ranks from 8 on, all Q, t, B, ciphertexts, keys, messages, errors, coins and hashes", "why_tests_cant": "the example runs one fresh ciphertext; the bound is a worst case over all", "anchors": ["examples/bfv/main.go: 131-218", "math/bigpoly/cyclotomic.go: ModSwitchTo"]}
{"id": "C95", "title": "One pass of COSAC gives every integer its weight", "statement": "CosacSampler.sampleRound, over the reals: for z other than 0 a pass returns z exactly for one value of the bit and one cell of length 1 of the normal value, with an acceptance threshold in (0,1] that turns the normal density into the weight of z at the distance z + cFrac from the centre. It never returns 0, about which Sample has already decided.", "quantifier": "all centres, deviations, normal values, bits and uniform values", "why_tests_cant": "a distribution over the reals; the tests check mean and deviation of a sample", "anchors": ["math/csprng/gaussian_cosac.go: sampleRound 24-47, Sample 50-59"]}
{"id": "C96", "title": "Sign, layer and position of a random word are independent and the sampler is symmetric", "statement": "RoundedGaussianSampler.normFloat: each triple of sign bit, layer below 128 and position below 2^52 comes from exactly 16 of the 2^64 words; the int64 conversion of (j^-b)+b is j or -j; flipping the sign bits of all words negates the result, for any tables; Sample returns the integer nearest to center + x*stdDev.", "quantifier": "all words, tables, uniform values, centres and deviations", "why_tests_cant": "2^64 words and all sequences of them", "anchors": ["math/csprng/gaussian_rounded.go: normFloat 80-119, Sample 125-131"]}
{"id": "C97", "title": "The Ziggurat accepts exactly the points under the density", "statement": "With the tables of init, over the reals: neighbouring layers have area v each and get narrower; a word of layer i >= 1 with uniform value u is used exactly when the point at its position and at the height u between the densities at the edges of the layer lies under exp(-x^2/2).", "quantifier": "all words, uniform values and layer areas for which the recurrence is defined", "why_tests_cant": "the wrong accepted region is a small part of one layer, invisible to tests of mean and deviation", "anchors": ["math/csprng/gaussian_rounded.go: init 22-43, normFloat 80-119"]}
{"id": "C98", "title": "The published moduli are prime", "statement": "The modulus of each of the seven generated element types is prime, so Inverse and BatchInvert invert every non-zero element with no assumption about the modulus.", "quantifier": "the seven packages; every reduced element", "why_tests_cant": "a composite modulus would show only at the zero divisors, which random tests never meet; ProbablyPrime is not a proof", "anchors": ["buckler/internal/zp110/element.go, zp220, zp440, zp880: modulus constants", "jindo/internal/zp/element.go", "examples/bfv/zp/element.go, examples/mult/zp/element.go"]}
{"id": "C99", "title": "The generated element types implement the field the generic code is written for", "statement": "Taking a reduced element to its integer modulo p is a bijection onto the prime field; under it Add, Sub, Mul, Neg, Double, Square, Halve, Inverse, the conversions and the tests are the operations of the field. The transforms over each type exist for exactly the powers of two below the power of two in p - 1.", "quantifier": "every element of every package, every rank", "why_tests_cant": "2^110..2^880 elements", "anchors": ["math/bignum/bignum.go: Uint 8-31", "all element.go files", "math/bigpoly/ntt.go: NewCyclicTransformer, NewCyclotomicTransformer"]}
{"id": "C100", "title": "A proof shows nothing of the witness, given hiding commitments", "statement": "If commitments and evaluation proofs show nothing but the opened values, the output of Prove (commitments, two mask sums, opened values, evaluation proof and challenges) is distributed exactly as the output of a simulator that is given the circuit and the public witnesses but no witness, over all draws whose evaluation point lies outside the evaluation domain. Two witnesses of one statement give the same distribution. At an evaluation point of the domain, which the code does not exclude, the proof shows witness entries in the clear.", "quantifier": "every circuit, satisfied statement, witness, hash function, and every property of the output", "why_tests_cant": "equality of distributions over p^(W+2N+M) draws", "anchors": ["buckler/prover.go: Prove 42-353, sumCheckMask 381-397", "buckler/encoder.go: RandEncode", "buckler/verifier.go: Verify 29-217"]}
{"id": "C101", "title": "Vector serialization is exact and agrees with the concurrent reader", "statement": "WriteTo writes the length in 4 bytes and each element in 8*Limbs bytes, most significant byte first, and returns the number of bytes. ReadFrom returns no error exactly when the reader starts with such an encoding of reduced elements, leaves that vector, counts its bytes and leaves the rest of the reader alone. AsyncReadFrom has the same outcome for every number of processors and every schedule of its tasks, which all return. Lengths of 2^32 and more are truncated: such a vector is read back as a shorter one without an error.", "quantifier": "all seven packages, vectors, byte strings, processor counts and schedules", "why_tests_cant": "schedules and byte strings are unbounded; 2^32 elements are never tried", "anchors": ["buckler/internal/zp220/vector.go: WriteTo 53-71, AsyncReadFrom 97-178, ReadFrom 197-243, execute 361-408"]}
{"id": "C102", "title": "execute splits the work without gaps or overlaps", "statement": "execute(n, work, maxCpus) calls work on consecutive intervals that make up [0,n), of lengths that differ by one at most, in at most NumCPU (or maxCpus clamped to 1..512) calls.", "quantifier": "all n, processor counts and maxCpus", "why_tests_cant": "all combinations of n and processor count", "anchors": ["buckler/internal/zp220/vector.go: execute 361-408"]}
{"id": "C103", "title": "Vector arithmetic is element-wise field arithmetic", "statement": "Vector Add, Sub, Mul and ScalarMul panic exactly if the lengths differ and otherwise leave the element-wise result in the receiver and nothing else changed, also when the receiver is one of the operands or overlaps one from the front; Sum and InnerProduct give the sum and inner product modulo p; Equal decides equality. Receivers that start inside an operand, or contain the scalar, give other values.", "quantifier": "all packages, vectors and positions in a shared array", "why_tests_cant": "all lengths, values and overlaps", "anchors": ["buckler/internal/zp220/vector.go: 299-355", "buckler/internal/zp220/vector_purego.go: 8-43"]}
{"id": "C104", "title": "Little-endian encoding of elements is exact", "statement": "LittleEndian.PutElement writes the integer of an element in 8*Limbs bytes, least significant first; LittleEndian.Element accepts exactly the encodings of integers below the modulus and is its inverse.", "quantifier": "all packages, elements and byte strings", "why_tests_cant": "all elements and all byte strings of 16 to 112 bytes", "anchors": ["buckler/internal/zp220/element.go: littleEndian 1108-1130"]}
{"id": "C105", "title": "Exp and Div are power and quotient of the field", "statement": "z.Exp(x,k) is x^k mod q for every big integer k >= 0 (with 0^0 = 1); for k < 0 it is the inverse of x^-k, and 0 for x = 0. z.Div(x,y) is the element whose product with y is x, and 0 for y = 0.", "quantifier": "all packages, elements and exponents of any size", "why_tests_cant": "all elements and unbounded exponents", "anchors": ["buckler/internal/zp220/element.go: Div 204-209, Exp 751-782"]}
{"id": "C106", "title": "Sqrt finds a root exactly when there is one", "statement": "z.Sqrt(x) always returns; it sets z to a root of x if x has one modulo q and returns nil otherwise. Legendre of examples/mult/zp is 0 for zero, 1 for the other squares and -1 for the rest.", "quantifier": "all seven packages and all elements", "why_tests_cant": "about 2^110 to 2^880 elements; the loop of Tonelli and Shanks has no bound in the code", "anchors": ["buckler/internal/zp220/element.go: Sqrt 1313-1377", "examples/mult/zp/element.go: Legendre 1020-1034"]}
{"id": "C107", "title": "Select, LexicographicallyLargest and BitLen", "statement": "Select(c,x0,x1) is x0 if c = 0 and x1 otherwise, for every int c; LexicographicallyLargest holds exactly if the integer of z is larger than that of -z; BitLen is the length in bits of the number formed by the words.", "quantifier": "all selectors, all elements of the seven packages, all words", "why_tests_cant": "all 2^64 selectors and all elements", "anchors": ["buckler/internal/zp220/element.go: LexicographicallyLargest 283-298, Select 467-476, BitLen 708-719"]}
{"id": "C108", "title": "Text, SetString and JSON", "statement": "Text(base) writes the integer of an element in lower-case digits without leading zeros for bases 2 to 36 and panics for others; in base 10 an element of which the negation is in 1..65535 is written as that number with a minus sign. SetString gives the number read modulo q, or an error. Reading what String or MarshalJSON wrote gives the element back; JSON longer than 3*Bits is refused.", "quantifier": "all packages, elements, bases and strings", "why_tests_cant": "all elements; all strings", "anchors": ["buckler/internal/zp220/element.go: String 799, Text 820-846, SetString 998-1012, MarshalJSON 1016-1030, UnmarshalJSON 1034-1060"]}
{"id": "C109", "title": "The rest of the generated text is the limb recursion", "statement": "The unrolled statements of NotEqual, FitsOnOneWord, Cmp, BitLen, Select and Halve of each package, and of negL, mulWNonModular, linearCombNonModular, montReduceSigned and the two right shifts of Inverse of each package with the binary gcd, compute the recursions over the limbs about which C70, C82, C83, C86 and C107 are proved.", "quantifier": "all word inputs, reduced or not, all int64 factors", "why_tests_cant": "all word inputs; montReduceSigned's rare negative branch (b != 0) is hit with probability about 2^-64", "anchors": ["buckler/internal/zp{110,220,440,880}/element.go", "jindo/internal/zp/element.go", "examples/{bfv,mult}/zp/element.go"]}
{"id": "C110", "title": "The amd64 assembly computes the field operations", "statement": "On amd64 the assembly functions mul, fromMont, reduce, MulBy3, MulBy5, MulBy13 and Butterfly of zp110, zp440, jindo/internal/zp and examples/bfv/zp leave the right element at the target pointer and change nothing else: mul and Square the reduced Montgomery product (equal to the pure Go Mul), also when the second operand is not reduced; fromMont the reduced integer; reduce the residue of any value below twice the modulus; MulByk the k-fold; Butterfly the sum and the difference, equal to the pure Go function when the pointers differ. The result does not depend on the registers, flags or frame at the call, nor on whether the CPU has ADX.", "quantifier": "all operand words, all pointers and overlaps of arguments (Butterfly: distinct pointers for the difference), all initial machine states, with and without ADX", "why_tests_cant": "rare carry patterns have probability about 2^-64; tests run on one CPU and one initial register state", "anchors": ["buckler/internal/zp110/asm/element_2w/element_2w_amd64.s", "jindo/internal/zp/asm/element_4w/element_4w_amd64.s", "examples/bfv/zp/asm/element_4w/element_4w_amd64.s", "buckler/internal/zp440/asm/element_7w/element_7w_amd64.s"]}
{"id": "C111", "title": "The arm64 assembly computes the field operations", "statement": "On arm64 the assembly functions mul, reduce and Butterfly of zp110, jindo/internal/zp and examples/bfv/zp leave the same elements as the pure Go functions and change nothing else; MulBy3, MulBy5 and MulBy13 of the Go files multiply by 3, 5 and 13.", "quantifier": "all operand words, all pointers and overlaps of arguments, all initial machine states", "why_tests_cant": "rare carry patterns have probability about 2^-64; the tests of an amd64 machine never run this text", "anchors": ["buckler/internal/zp110/asm/element_2w/element_2w_arm64.s", "jindo/internal/zp/asm/element_4w/element_4w_arm64.s", "examples/bfv/zp/asm/element_4w/element_4w_arm64.s"]}
{"id": "C112", "title": "Butterfly on equal pointers", "statement": "Butterfly(a, a) leaves the same element in every build.", "quantifier": "all elements", "why_tests_cant": "no test passes the same pointer twice; the builds have to be compared with each other", "anchors": ["buckler/internal/zp110/element.go:569-573", "buckler/internal/zp110/asm/element_2w/element_2w_amd64.s:116-143"]}
{"id": "C113", "title": "Vector.Add and Vector.Sub of the amd64 build", "statement": "On amd64 Vector.Add and Vector.Sub of jindo/internal/zp and examples/bfv/zp leave, for non-empty vectors of equal length, what the loop over the elements from the front leaves, whatever the overlap: element i of the vector is the reduced sum or difference of what element i of a and of b then are, and nothing else changes. The pure Go build leaves the same elements.", "quantifier": "all reduced elements, all lengths, all addresses and overlaps at whole elements, all initial machine states", "why_tests_cant": "a carry out of the fourth limb or an equal reduction needs special elements; tests use a few lengths and no overlap", "anchors": ["jindo/internal/zp/vector_amd64.go:17-38", "jindo/internal/zp/asm/element_4w/element_4w_amd64.s:465-567"]}
{"id": "C114", "title": "Vector.Sum of the amd64 build", "statement": "On amd64 Vector.Sum of jindo/internal/zp and examples/bfv/zp returns the reduced sum of the elements modulo p, with AVX512 and without, equal to what the pure Go build returns.", "quantifier": "all vectors of reduced elements in the address space, all initial machine states", "why_tests_cant": "the lanes overflow only after 2^32 elements and the Barrett quotient is off by two only for rare sums", "anchors": ["jindo/internal/zp/vector_amd64.go:73-91", "jindo/internal/zp/asm/element_4w/element_4w_amd64.s:570-777"]}
{"id": "C115", "title": "Vector.InnerProduct of the amd64 build", "statement": "On amd64 Vector.InnerProduct of jindo/internal/zp and examples/bfv/zp returns, for two vectors of equal length, the reduced sum of the products of their elements modulo p, with AVX512 and without, equal to what the pure Go build returns; it panics on a non-empty vector and one of another length; the vector program writes nothing but the result.", "quantifier": "all pairs of vectors of reduced elements in the address space, all initial machine states", "why_tests_cant": "the carries between the sixteen accumulators, the Montgomery rounds on the dropped fifth word and the Barrett quotient fail only on rare values or very long vectors", "anchors": ["jindo/internal/zp/vector_amd64.go:95-113", "jindo/internal/zp/asm/element_4w/element_4w_amd64.s:780-1048"]}
{"id": "C116", "title": "The builds agree on empty vectors", "statement": "Vector.Add and Vector.InnerProduct panic in the amd64 build exactly when they panic in the pure Go build.", "quantifier": "all vectors", "why_tests_cant": "the tests run one build and no empty vectors", "anchors": ["jindo/internal/zp/vector_amd64.go:17-23", "jindo/internal/zp/vector_amd64.go:95-113", "jindo/internal/zp/vector_purego.go"]}
{"id": "C117", "title": "Hash to field elements", "statement": "Hash(msg, dst, count) of every generated field package returns the error of ExpandMsgXmd or count reduced elements, the i-th being block i of the expanded message read big-endian modulo p; the blocks are so long that over uniformly random blocks the share of every residue differs from 1/p by at most 2^-128/p.", "quantifier": "all seven packages, all messages, tags, counts whose byte count fits an int, all expanders that return as many bytes as asked for, all residues", "why_tests_cant": "a bias of the output or a block read at a wrong offset is invisible to single test vectors", "anchors": ["jindo/internal/zp/element.go:721-749", "buckler/internal/zp110/element.go:586"]}
{"id": "C118", "title": "Vectors sort by value", "statement": "Less(i, j) of Vector compares the integer values of the two elements, not their Montgomery words; Swap exchanges two elements and nothing else; after any sequence of swaps that leaves no element Less than its predecessor the vector is the old one in ascending order of the values.", "quantifier": "all vectors of reduced elements, all indices, all sequences of swaps", "why_tests_cant": "comparing Montgomery words agrees with comparing values on many samples", "anchors": ["jindo/internal/zp/vector.go:259-273"]}
{"id": "C119", "title": "SetInterface", "statement": "SetInterface sets z to the integer its argument holds modulo p when that is an element, a machine integer, a readable string, a big integer or bytes, and returns an error otherwise, nil pointers included.", "quantifier": "all arguments, all seven packages", "why_tests_cant": "negative and extreme integers of each machine type would have to be tried", "anchors": ["jindo/internal/zp/element.go:136-183"]}
{"id": "C120", "title": "Programs of evaluator calls compute in the ring", "statement": "A sequence of evaluator calls (AddTo, SubTo, NegTo, ScalarMulTo, ScalarMulAddTo, ScalarMulSubTo, MulTo, MulAddTo, MulSubTo, NTTTo, InvNTTTo) panics exactly when lengths or forms do not fit, which the flags alone decide; one that does not panic leaves in every object the polynomial that the same computation in F[X]/(X^N+1), resp. F[X]/(X^N-1), gives, in coefficients or in values at the roots according to its IsNTT flag.", "quantifier": "all programs over any number of objects, with outputs equal to inputs, all ranks >= 8 the constructors accept, all contents, both evaluators", "why_tests_cant": "tests try single calls on objects in matching form, not arbitrary sequences with reused and aliased objects", "anchors": ["math/bigpoly/base_op.go:49-207", "math/bigpoly/poly.go:105-121"]}
{"id": "C121", "title": "Bounds that norm constraints can take", "statement": "Define accepts every bound of an exact infinity-norm or squared-norm constraint and panics on an approximate one exactly when rank*bound is 0 or 1. If the last squared-norm bound given for a witness is 0, 1 or above 2^rank, every Prove and every Verify of the circuit panics; if the digits of an approximate bound, 128*ceil(log2(rank*bound)) of them, exceed the rank, every Prove panics.", "quantifier": "all circuits, ranks, non-negative bounds, witnesses, public witnesses, proofs, coins and hash functions", "why_tests_cant": "tests use a few bounds of middle size; the failing ones are accepted when the circuit is compiled", "anchors": ["buckler/context.go:112-228", "buckler/utils.go:7-32", "buckler/prover.go:89-97,182-192", "buckler/verifier.go:49-58"]}
{"id": "C122", "title": "Programs with automorphisms compute in the cyclotomic ring", "statement": "A sequence of cyclotomic evaluator calls, including AutTo with any index and in place, panics exactly when lengths or forms do not fit or an index is even; one that does not panic, and accumulates only into objects of the form of the summand or zero, leaves in every object the polynomial that the same computation in F[X]/(X^N+1) gives, AutTo substituting X^idx for X, in coefficients or in values at the roots according to its IsNTT flag.", "quantifier": "all programs over any number of objects, with outputs equal to inputs, all ranks >= 8 the constructor accepts, all indices including negative ones, all contents", "why_tests_cant": "tests try Aut once per form on separate objects, not after and between other calls and not in place", "anchors": ["math/bigpoly/cyclotomic.go:29-82", "math/bigpoly/base_op.go:49-207"]}
{"id": "C123", "title": "Nothing depends on Go's map iteration order", "statement": "Prove returns the same proof, and Verify the same answer, whatever order Go iterates the constraint maps in, all other randomness being equal.", "quantifier": "all circuits Compile accepts, all map orders, all coins, all hash functions, commitment schemes, statements and witnesses of the declared lengths", "why_tests_cant": "Go picks the order at random in each run, and the tests use at most one squared-norm constraint per circuit", "anchors": ["buckler/prover.go:77-111", "buckler/prover.go:178-193", "buckler/verifier.go:49-60"]}
