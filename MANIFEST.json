{
 "claims": [
  {
   "property": "C01",
   "status": "proved",
   "theorems": [
    "C01_cyclic_roundtrip",
    "C01_cyclic_core_roundtrip"
   ],
   "note": "API level for ranks >= 8; ranks 2 and 4 fault in the block copies (C14), the transform itself is shown for every rank"
  },
  {
   "property": "C02",
   "status": "proved",
   "theorems": [
    "C02_cyclotomic_roundtrip",
    "C02_cyclotomic_core_roundtrip"
   ],
   "note": "as C01"
  },
  {
   "property": "C03",
   "status": "proved",
   "theorems": [
    "C03_cyclic_evaluations",
    "C03_cyclotomic_evaluations"
   ],
   "note": ""
  },
  {
   "property": "C04",
   "status": "proved",
   "theorems": [
    "C04_cyclic_mul",
    "C04_cyclotomic_mul"
   ],
   "note": ""
  },
  {
   "property": "C05",
   "status": "proved",
   "theorems": [
    "C05_Add",
    "C05_Sub",
    "C05_Neg",
    "C05_ScalarMul",
    "C05_ScalarMulAdd",
    "C05_ScalarMulSub",
    "C05_Mul",
    "C05_MulAdd",
    "C05_MulSub"
   ],
   "note": "pointer-level model; the scalar must not be an element of the output, see C77"
  },
  {
   "property": "C06",
   "status": "proved",
   "theorems": [
    "C06_cyclic_constructor",
    "C06_cyclotomic_constructor",
    "C06_cyclotomic_root",
    "C06_cyclic_root"
   ],
   "note": ""
  },
  {
   "property": "C07",
   "status": "proved",
   "theorems": [
    "C07_unroll_fwd",
    "C07_unroll_inv"
   ],
   "note": ""
  },
  {
   "property": "C08",
   "status": "proved",
   "theorems": [
    "C08_aut_substitution",
    "C08_aut_even_panics"
   ],
   "note": ""
  },
  {
   "property": "C09",
   "status": "proved",
   "theorems": [
    "C09_aut_ntt"
   ],
   "note": ""
  },
  {
   "property": "C10",
   "status": "proved",
   "theorems": [
    "C10_aut_compose",
    "C10_aut_inverse",
    "C10_aut_additive",
    "C10_aut_multiplicative",
    "C10_aut_multiplicative_ntt"
   ],
   "note": ""
  },
  {
   "property": "C11",
   "status": "proved",
   "theorems": [
    "C11_quorem",
    "C11_quorem_unique"
   ],
   "note": ""
  },
  {
   "property": "C12",
   "status": "proved",
   "theorems": [
    "C12_modswitch"
   ],
   "note": ""
  },
  {
   "property": "C13",
   "status": "proved",
   "theorems": [
    "C13_evaluate"
   ],
   "note": ""
  },
  {
   "property": "C14",
   "status": "partial",
   "theorems": [
    "C14_copy_in_bounds_iff",
    "C14_transform_in_bounds",
    "C14_small_rank_refuted"
   ],
   "note": "false as stated: in bounds exactly when the rank is >= 8; refuted for rank 4"
  },
  {
   "property": "C15",
   "status": "proved",
   "theorems": [
    "C15_bitreverse"
   ],
   "note": ""
  },
  {
   "property": "C16",
   "status": "proved",
   "theorems": [
    "C16_exp"
   ],
   "note": ""
  },
  {
   "property": "C17",
   "status": "partial",
   "theorems": [
    "C17_decomposition_partial",
    "C17_power_of_two_refuted"
   ],
   "note": "false as stated: for powers of two the reachable integers stop at B-1 (refuted); everything else is proved for every B >= 2"
  },
  {
   "property": "C18",
   "status": "proved",
   "theorems": [
    "C18_inf_norm_sound"
   ],
   "note": "any program around the call, any assignment"
  },
  {
   "property": "C19",
   "status": "partial",
   "theorems": [
    "C19_filling_complete_partial",
    "C19_power_of_two_refuted"
   ],
   "note": "proved for whole programs with the bound reached by decomposeBase and one constraint of each kind per witness; refuted at |w| = B = 2^k"
  },
  {
   "property": "C20",
   "status": "partial",
   "theorems": [
    "C20_negative_inf_bound_refuted",
    "C20_negative_inf_program_refuted",
    "C20_negative_sq_bound_refuted"
   ],
   "note": "refuted: negative bounds are accepted"
  },
  {
   "property": "C21",
   "status": "proved",
   "theorems": [
    "C21_two_norm_sound"
   ],
   "note": ""
  },
  {
   "property": "C22",
   "status": "partial",
   "theorems": [
    "C22_two_norm_complete_partial",
    "C22_two_constraints_refuted"
   ],
   "note": "one two-norm constraint per circuit; refuted for two (sqNm is not reset)"
  },
  {
   "property": "C23",
   "status": "proved",
   "theorems": [
    "C23_ntt_transpose",
    "C23_in_place_refuted"
   ],
   "note": "distinct output buffer; refuted in place"
  },
  {
   "property": "C24",
   "status": "proved",
   "theorems": [
    "C24_aut_transpose"
   ],
   "note": ""
  },
  {
   "property": "C25",
   "status": "proved",
   "theorems": [
    "C25_proj_transpose",
    "C25_recomp_transpose"
   ],
   "note": ""
  },
  {
   "property": "C26",
   "status": "proved",
   "theorems": [
    "C26_modInverse",
    "C26_other_modulus_refuted"
   ],
   "note": ""
  },
  {
   "property": "C27",
   "status": "proved",
   "theorems": [
    "C27_roundtrip",
    "C27_distinct"
   ],
   "note": "identifiers for which (id+1)*2+1 fits the field and 64 bits"
  },
  {
   "property": "C28",
   "status": "proved",
   "theorems": [
    "C28_same_numbering",
    "C28_interface_refuted"
   ],
   "note": "circuits whose witnesses sit in settable fields; a witness held by an interface field is counted by Prove and not by Compile (refuted)"
  },
  {
   "property": "C29",
   "status": "partial",
   "theorems": [
    "C29_never_reported_refuted",
    "C29_shift_refuted"
   ],
   "note": "refuted: the error is dropped, later witnesses shift by one"
  },
  {
   "property": "C30",
   "status": "proved",
   "theorems": [
    "C30_no_wraparound"
   ],
   "note": "every program, every assignment; keys = what Compile sets up when embRank > rank"
  },
  {
   "property": "C31",
   "status": "partial",
   "theorems": [
    "C31_commit_count",
    "C31_sizes_partial",
    "C72_degree_zero_refuted"
   ],
   "note": "count and order for every proof returned; that no Commit is refused is proved for honest runs; refuted for circuits whose arithmetic constraints contain no witness (empty quotient, panic)"
  },
  {
   "property": "C32",
   "status": "proved",
   "theorems": [
    "C32_arith_complete"
   ],
   "note": "carithMax >= rank, which excludes circuits whose arithmetic constraints have degree 0"
  },
  {
   "property": "C33",
   "status": "proved",
   "theorems": [
    "C33_lin_complete"
   ],
   "note": ""
  },
  {
   "property": "C34",
   "status": "partial",
   "theorems": [
    "C34_sum_complete_partial",
    "C34_nonzero_sum_refuted"
   ],
   "note": "the declared sums are never used: proved when they add up to 0, refuted otherwise"
  },
  {
   "property": "C35",
   "status": "partial",
   "theorems": [
    "C35_arith_sound_partial",
    "C35_batch_refuted"
   ],
   "note": "proved when the constraints do not add up to 0 at some slot (one constraint: full statement); refuted for several, they share one batching constant"
  },
  {
   "property": "C36",
   "status": "proved",
   "theorems": [
    "C36_lin_sound"
   ],
   "note": ""
  },
  {
   "property": "C37",
   "status": "partial",
   "theorems": [
    "C37_sum_sound_partial",
    "C37_declared_sum_refuted"
   ],
   "note": "proved for a non-zero total; refuted for non-zero declared sums"
  },
  {
   "property": "C38",
   "status": "proved",
   "theorems": [
    "C38_remHi_degree"
   ],
   "note": ""
  },
  {
   "property": "C39",
   "status": "proved",
   "theorems": [
    "C39_encode_values"
   ],
   "note": ""
  },
  {
   "property": "C40",
   "status": "proved",
   "theorems": [
    "C40_one_evaluation_hidden"
   ],
   "note": ""
  },
  {
   "property": "C41",
   "status": "proved",
   "theorems": [
    "C41_mask_sum"
   ],
   "note": ""
  },
  {
   "property": "C42",
   "status": "proved",
   "theorems": [
    "C42_same_challenges"
   ],
   "note": "every hash, every circuit, every returned proof"
  },
  {
   "property": "C43",
   "status": "partial",
   "theorems": [
    "C43_statement_unbound_refuted"
   ],
   "note": "refuted: the challenges do not depend on the public witnesses"
  },
  {
   "property": "C44",
   "status": "partial",
   "theorems": [
    "C44_collision_refuted",
    "C44_other_statement_refuted"
   ],
   "note": "refuted: every accepted proof of a circuit with a public witness is accepted for another statement"
  },
  {
   "property": "C45",
   "status": "partial",
   "theorems": [
    "C45_verify_total_partial",
    "C45_panics_refuted",
    "C45_jindo_total_partial",
    "C45_jindo_panics_refuted",
    "C45_jindo_accept_sizes"
   ],
   "note": "Verify answers iff the lists have the lengths of an honest proof; refuted: panics otherwise, at both levels"
  },
  {
   "property": "C46",
   "status": "partial",
   "theorems": [
    "C46_any_witness_refuted"
   ],
   "note": "refuted: any vector satisfies the added constraints"
  },
  {
   "property": "C47",
   "status": "proved",
   "theorems": [
    "C47_approx_complete"
   ],
   "note": "N*B a power of two needs a row of the matrix that is not all ones"
  },
  {
   "property": "C48",
   "status": "partial",
   "theorems": [
    "C48_window",
    "C48_same_matrix",
    "C48_no_projection",
    "C48_sequential",
    "C48_ends",
    "C48_race",
    "C48_refuted"
   ],
   "note": "refuted in general (shared projection matrix); proved for calls whose windows do not overlap with calls using another matrix; sequential consistency assumed"
  },
  {
   "property": "C49",
   "status": "proved",
   "theorems": [
    "C49_divMod64",
    "C49_panics"
   ],
   "note": "every word list; panics exactly for y = 0"
  },
  {
   "property": "C50",
   "status": "proved",
   "theorems": [
    "C50_encode_decode",
    "C50_long"
   ],
   "note": "every field with p = base^exp + 1, every slot count, 2*base < Q-1; longer vectors panic"
  },
  {
   "property": "C51",
   "status": "proved",
   "theorems": [
    "C51_rand_encode_decode"
   ],
   "note": "every vector and sample list with |s_i| <= B and 2(base + (base+1)B) < Q-1"
  },
  {
   "property": "C52",
   "status": "proved",
   "theorems": [
    "C52_add",
    "C52_scale"
   ],
   "note": "every ring element; no-wrap conditions on the integer coefficients"
  },
  {
   "property": "C53",
   "status": "partial",
   "theorems": [
    "C53_challenge",
    "C53_distribution",
    "C53_bound_zero",
    "C53_bound_one",
    "C53_exp_one_refuted",
    "C53_exp_64_refuted"
   ],
   "note": "proved for 2 <= exp <= 120; refuted outside (panic) and degenerate (always 0) for exp in 61..120"
  },
  {
   "property": "C54",
   "status": "partial",
   "theorems": [
    "C54_reconstruct_partial",
    "C54_round_trip",
    "C54_off_by_one_refuted"
   ],
   "note": "residues always right; least absolute value except at (Q-1)/2 with several limbs, refuted there"
  },
  {
   "property": "C55",
   "status": "proved",
   "theorems": [
    "C55_encode_parameters",
    "C55_unique",
    "C55_two_diverges_refuted"
   ],
   "note": "every p > 2; for p = 2 the loop does not end"
  },
  {
   "property": "C56",
   "status": "proved",
   "theorems": [
    "C56_vectors",
    "C56_layout"
   ],
   "note": "every vector 1 <= size <= rank, blinding row and samples; read off the opening Commit returns"
  },
  {
   "property": "C57",
   "status": "proved",
   "theorems": [
    "C57_blinding"
   ],
   "note": "every target first row has exactly one blinding row"
  },
  {
   "property": "C58",
   "status": "proved",
   "theorems": [
    "C58_verify",
    "C58_total",
    "C58_complete"
   ],
   "note": "every batch size, vectors, samples within B/BL, hash function; the numeric no-wrap and norm conditions are the record jnums"
  },
  {
   "property": "C59",
   "status": "partial",
   "theorems": [
    "C59_weighted",
    "C59_batch_one",
    "C59_refuted",
    "C59_forge"
   ],
   "note": "unique for one polynomial; refuted for two or more: only the weighted sum is checked"
  },
  {
   "property": "C60",
   "status": "proved",
   "theorems": [
    "C60_below",
    "C60_function",
    "C60_total",
    "C60_attained"
   ],
   "note": "every key stream; a key exists when words below 2^63 keep coming; every reduced key is attained"
  },
  {
   "property": "C61",
   "status": "partial",
   "theorems": [
    "C61_rank",
    "C61_one_round_partial",
    "C61_mixed_refuted",
    "C61_silent_refuted"
   ],
   "note": "rank, rows, cols, slots proved for every outcome of the float computations; refuted: fields of different rounds can mix, and the zero value is returned silently"
  },
  {
   "property": "C62",
   "status": "proved",
   "theorems": [
    "C62_range",
    "C62_first",
    "C62_unbiased"
   ],
   "note": "every n, state and key stream; n = 0 panics"
  },
  {
   "property": "C63",
   "status": "proved",
   "theorems": [
    "C63_stream",
    "C63_uniform"
   ],
   "note": "every number of calls and key stream"
  },
  {
   "property": "C64",
   "status": "partial",
   "theorems": [
    "C64_position",
    "C64_zero_buffer_partial",
    "C64_refuted"
   ],
   "note": "position fixed by the history; refuted: the old contents of the buffer are xored into the output"
  },
  {
   "property": "C65",
   "status": "proved",
   "theorems": [
    "C65_range",
    "C65_index",
    "C65_outside_tail_refuted"
   ],
   "note": "every table and word; the value just outside the tail is attained"
  },
  {
   "property": "C66",
   "status": "proved",
   "theorems": [
    "C66_value"
   ],
   "note": "bit exact, every word"
  },
  {
   "property": "C67",
   "status": "proved",
   "theorems": [
    "C67_Mul",
    "C67_mulGeneric",
    "C67_Square"
   ],
   "note": "all seven packages, Go text without assembly"
  },
  {
   "property": "C68",
   "status": "proved",
   "theorems": [
    "C68_Add",
    "C68_Double",
    "C68_Sub",
    "C68_Neg"
   ],
   "note": "all seven packages"
  },
  {
   "property": "C69",
   "status": "proved",
   "theorems": [
    "C69_BigInt",
    "C69_SetBigInt",
    "C69_SetUint64",
    "C69_SetInt64",
    "C69_Slice",
    "C69_Marshal",
    "C69_SetBytes",
    "C69_SetBytesCanonical",
    "C69_Uint64"
   ],
   "note": "all seven packages, every integer and byte list"
  },
  {
   "property": "C70",
   "status": "proved",
   "theorems": [
    "C70_Cmp"
   ],
   "note": "all seven packages"
  },
  {
   "property": "C71",
   "status": "proved",
   "theorems": [
    "C71_sound",
    "C71_complete"
   ],
   "note": "every primality oracle; completeness for exact roots"
  },
  {
   "property": "C72",
   "status": "partial",
   "theorems": [
    "C72_honest_accepted_partial",
    "C72_jindo_partial",
    "C72_nonzero_sum_refuted",
    "C72_degree_zero_refuted"
   ],
   "note": "proved for programs with the restrictions listed in honest/setting and declared sums adding up to 0, over any complete scheme and over the jindo model; refuted otherwise"
  },
  {
   "property": "C73",
   "status": "partial",
   "theorems": [
    "C73_forged_refuted",
    "C73_arith_refuted",
    "C73_jindo_refuted",
    "C73_unsat_refuted"
   ],
   "note": "refuted: evaluations are bound only through a weighted sum known before they are sent"
  },
  {
   "property": "C74",
   "status": "partial",
   "theorems": [
    "C74_repeated_refuted",
    "C18_inf_norm_sound"
   ],
   "note": "refuted: every non-zero witness fails; soundness is kept"
  },
  {
   "property": "C75",
   "status": "proved",
   "theorems": [
    "C75_outer_binding",
    "C75_response_binding"
   ],
   "note": "two accepted openings give an explicit short nonzero solution of the outer or inner public relation"
  },
  {
   "property": "C76",
   "status": "proved",
   "theorems": [
    "C76_special_soundness",
    "C76_decoded"
   ],
   "note": "every pair of accepting transcripts; the decoded form needs a short partial evaluation, which the verifier does not check"
  },
  {
   "property": "C77",
   "status": "partial",
   "theorems": [
    "C77_scalar_alias_refuted",
    "C05_ScalarMul"
   ],
   "note": "refuted; holds when the scalar is not an element of the output (C05_ScalarMul)"
  },
  {
   "property": "C78",
   "status": "partial",
   "theorems": [
    "C78_false_statement_refuted",
    "C78_false_sum_refuted"
   ],
   "note": "refuted: violated constraints can cancel, declared sums are ignored"
  },
  {
   "property": "C79",
   "status": "partial",
   "theorems": [
    "C79_fraction_one_refuted",
    "C79_last_block_refuted"
   ],
   "note": "refuted above the fraction 127/128"
  },
  {
   "property": "C80",
   "status": "partial",
   "theorems": [
    "C80_first_candidate_refuted",
    "C80_refuted"
   ],
   "note": "refuted: the sum runs to the table index instead of the value"
  },
  {
   "property": "C81",
   "status": "partial",
   "theorems": [
    "C81_least_partial",
    "C81_diverges_refuted"
   ],
   "note": "proved for q within 240 bits and a monotone rank; refuted: the loop never ends once q exceeds 240 bits"
  },
  {
   "property": "C82",
   "status": "proved",
   "theorems": [
    "C82_Equal",
    "C82_IsZero",
    "C82_IsOne"
   ],
   "note": "all seven packages"
  },
  {
   "property": "C83",
   "status": "proved",
   "theorems": [
    "C83_Inverse_ends",
    "C83_Inverse",
    "C83_InverseBig"
   ],
   "note": "the loop of the binary gcd ends within (64n+2)^2 passes for every element, without using primality; the result is the inverse given that the modulus is prime"
  },
  {
   "property": "C84",
   "status": "proved",
   "theorems": [
    "C84_BatchInvert",
    "C84_BatchInvert_Inverse"
   ],
   "note": "all seven packages, any inverse function that inverts; the modulus is assumed prime"
  },
  {
   "property": "C85",
   "status": "proved",
   "theorems": [
    "C85_SetRandom"
   ],
   "note": "all seven packages, every source"
  },
  {
   "property": "C86",
   "status": "proved",
   "theorems": [
    "C86_Halve"
   ],
   "note": "all seven packages"
  },
  {
   "property": "C87",
   "status": "proved",
   "theorems": [
    "C87_zp110",
    "C87_zp220",
    "C87_zp440",
    "C87_zp880",
    "C87_multZp"
   ],
   "note": "all seven packages; the assembly versions are not modelled"
  },
  {
   "property": "C88",
   "status": "proved",
   "theorems": [
    "C88_projConst",
    "C88_batchConst",
    "C88_evalPoint"
   ],
   "note": "hash values, commitments and marshalled elements have fixed lengths; statement (C43), evaluations and evaluation proof are not bound by the code"
  },
  {
   "property": "C89",
   "status": "proved",
   "theorems": [
    "C89_mult_sound",
    "C89_mult_accepted"
   ],
   "note": "relation over the NTT of C03; acceptance for any complete commitment scheme"
  },
  {
   "property": "C90",
   "status": "partial",
   "theorems": [
    "C90_bfv_sound",
    "C90_bfv_accepted_partial"
   ],
   "note": "missing: messages or errors equal to a bound that is a power of two are rejected by the norm gadget (C17), so completeness is up to what decomposeBase reaches"
  },
  {
   "property": "C91",
   "status": "partial",
   "theorems": [
    "C91_any_message_refuted"
   ],
   "note": "refuted: the secret key is unconstrained, any ciphertext whose c1 is invertible is accepted for every message"
  },
  {
   "property": "C92",
   "status": "proved",
   "theorems": [
    "C92_pk_sound",
    "C92_pk_accepted"
   ],
   "note": ""
  },
  {
   "property": "C93",
   "status": "proved",
   "theorems": [
    "C93_verify_reads",
    "C93_evaluate_reads",
    "C93_binding"
   ],
   "note": "the serialisation of ring elements is taken to be injective; InCommit, the responses and the claimed values are not absorbed"
  },
  {
   "property": "C94",
   "status": "proved",
   "theorems": [
    "C94_error_bound",
    "C94_main_accepted"
   ],
   "note": "lattigo's encryption is a hypothesis: the ring equation and the sizes of key, message and error"
  },
  {
   "property": "C95",
   "status": "partial",
   "theorems": [
    "C95_nonzero_partial",
    "C95_zero_refuted"
   ],
   "note": "float64 is replaced by the real numbers. False for 0: the comparison uses yRound instead of y, so 0 is returned for every y with 1/2 < |y| < 3/2 and a matching bit; the threshold exceeds 1 there"
  },
  {
   "property": "C96",
   "status": "proved",
   "theorems": [
    "C96_parts",
    "C96_sign",
    "C96_symmetric",
    "C96_rounded"
   ],
   "note": "float64 is replaced by the real numbers in C96_symmetric and C96_rounded"
  },
  {
   "property": "C97",
   "status": "partial",
   "theorems": [
    "C97_areas",
    "C97_layers_partial",
    "C97_first_layer_refuted"
   ],
   "note": "float64 is replaced by the real numbers. False for layer 1: fn[0] is never assigned, so every word of layer 1 is used. Layer 0 with its tail is not covered"
  },
  {
   "property": "C98",
   "status": "proved",
   "theorems": [
    "C98_prime",
    "C98_Inverse",
    "C98_InverseBig",
    "C98_BatchInvert"
   ],
   "note": "certificates checked with the 63-bit integers of the standard library, whose primitives and specifications are listed as assumptions"
  },
  {
   "property": "C99",
   "status": "proved",
   "theorems": [
    "C99_modulus",
    "C99_bijective",
    "C99_conversions",
    "C99_operations",
    "C99_more_operations",
    "C99_Inverse",
    "C99_InverseBig",
    "C99_ranks"
   ],
   "note": "the limb types as an instance of the record uint used by the generic model; Marshal, SetBytes, Slice and MustSetRandom are C69 and C85"
  },
  {
   "property": "C100",
   "status": "proved",
   "theorems": [
    "C100_simulated",
    "C100_witness_hidden",
    "C100_on_domain",
    "C100_every_point_refuted"
   ],
   "note": "perfect hiding of the commitment layer is assumed (jindo hides only computationally and is not covered); the restriction to evaluation points outside the domain is needed, see C100_every_point_refuted"
  },
  {
   "property": "C101",
   "status": "proved",
   "theorems": [
    "C101_WriteTo",
    "C101_ReadFrom",
    "C101_roundtrip",
    "C101_AsyncReadFrom",
    "C101_AsyncReadFrom_ends",
    "C101_length_refuted"
   ],
   "note": "lengths below 2^32; the truncation above is C101_length_refuted; readers fail only by ending"
  },
  {
   "property": "C102",
   "status": "proved",
   "theorems": [
    "C102_execute"
   ],
   "note": ""
  },
  {
   "property": "C103",
   "status": "proved",
   "theorems": [
    "C103_Add",
    "C103_Sub",
    "C103_Mul",
    "C103_ScalarMul",
    "C103_Sum",
    "C103_InnerProduct",
    "C103_Equal",
    "C103_overlap_refuted",
    "C103_scalar_refuted"
   ],
   "note": "the pure Go variants; the overlaps that give other values are refuted separately"
  },
  {
   "property": "C104",
   "status": "proved",
   "theorems": [
    "C104_PutElement",
    "C104_Element"
   ],
   "note": ""
  },
  {
   "property": "C105",
   "status": "proved",
   "theorems": [
    "C105_Exp",
    "C105_Exp_negative",
    "C105_Div",
    "C105_Inverse",
    "C105_InverseBig"
   ],
   "note": "Inverse is a parameter of Exp and Div; C105_Inverse and C105_InverseBig give its property for the packages"
  },
  {
   "property": "C106",
   "status": "proved",
   "theorems": [
    "C106_Sqrt",
    "C106_Legendre"
   ],
   "note": ""
  },
  {
   "property": "C107",
   "status": "proved",
   "theorems": [
    "C107_Select",
    "C107_LexicographicallyLargest",
    "C107_BitLen"
   ],
   "note": ""
  },
  {
   "property": "C108",
   "status": "proved",
   "theorems": [
    "C108_Text",
    "C108_SetString",
    "C108_roundtrip",
    "C108_JSON",
    "C108_JSON_bound"
   ],
   "note": "big.Int.SetString is assumed to read decimal numerals with a sign"
  },
  {
   "property": "C109",
   "status": "proved",
   "theorems": [
    "C109_zp110",
    "C109_zp220",
    "C109_zp440",
    "C109_zp880",
    "C109_multZp"
   ],
   "note": "examples/mult/zp has no binary gcd"
  },
  {
   "property": "C110",
   "status": "proved",
   "theorems": [
    "C110_Mul",
    "C110_Square",
    "C110_fromMont",
    "C110_reduce",
    "C110_MulBy3",
    "C110_MulBy5",
    "C110_MulBy13",
    "C110_Butterfly"
   ],
   "note": ""
  },
  {
   "property": "C111",
   "status": "proved",
   "theorems": [
    "C111_Mul",
    "C111_Square",
    "C111_reduce",
    "C111_Butterfly",
    "C111_MulBy"
   ],
   "note": ""
  },
  {
   "property": "C112",
   "status": "partial",
   "theorems": [
    "C112_Butterfly_refuted",
    "C112_Butterfly_same"
   ],
   "note": "false: the assembly leaves 2a, the Go function -a; C110_Butterfly and C111_Butterfly cover distinct pointers"
  },
  {
   "property": "C113",
   "status": "proved",
   "theorems": [
    "C113_Add",
    "C113_Sub",
    "C113_elementwise",
    "C113_purego",
    "C113_panics"
   ],
   "note": ""
  },
  {
   "property": "C114",
   "status": "proved",
   "theorems": [
    "C114_Sum",
    "C114_memory"
   ],
   "note": ""
  },
  {
   "property": "C115",
   "status": "proved",
   "theorems": [
    "C115_InnerProduct",
    "C115_panics",
    "C115_memory"
   ],
   "note": ""
  },
  {
   "property": "C116",
   "status": "partial",
   "theorems": [
    "C116_Add_refuted",
    "C116_InnerProduct_refuted"
   ],
   "note": "false: with empty vectors Add and Sub of the amd64 build panic and those of the pure Go build do not, and InnerProduct of an empty and a non-empty vector returns zero on amd64 and panics in pure Go; C113_purego, C114_Sum and C115_InnerProduct cover non-empty vectors"
  },
  {
   "property": "C117",
   "status": "proved",
   "theorems": [
    "C117_Hash",
    "C117_wide",
    "C117_uniform"
   ],
   "note": "ExpandMsgXmd is a parameter"
  },
  {
   "property": "C118",
   "status": "proved",
   "theorems": [
    "C118_Less",
    "C118_Swap",
    "C118_sort"
   ],
   "note": ""
  },
  {
   "property": "C119",
   "status": "proved",
   "theorems": [
    "C119_SetInterface"
   ],
   "note": ""
  },
  {
   "property": "C120",
   "status": "partial",
   "theorems": [
    "C120_cyclotomic_partial",
    "C120_cyclic_partial",
    "C120_panics",
    "C120_mixed_refuted"
   ],
   "note": "false as stated: ScalarMulAddTo, ScalarMulSubTo, MulAddTo and MulSubTo do not check the form of pOut (refuted); proved when pOut has the form of the summand or is zero"
  },
  {
   "property": "C121",
   "status": "proved",
   "theorems": [
    "C121_define_panics",
    "C121_sq_norm_panics",
    "C121_approx_panics"
   ],
   "note": ""
  },
  {
   "property": "C122",
   "status": "proved",
   "theorems": [
    "C122_computes",
    "C122_panics"
   ],
   "note": ""
  },
  {
   "property": "C123",
   "status": "partial",
   "theorems": [
    "C123_verify",
    "C123_prove_partial",
    "C123_prove_refuted"
   ],
   "note": "Verify: proved for every circuit. Prove: proved for circuits with at most one squared-norm constraint; false with two, as the running sum sqNm is not reset: one order gives an accepted proof and the other a rejected one."
  }
 ]
}