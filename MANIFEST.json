{
 "claims": [
  {
   "property": "C01",
   "status": "proved",
   "theorems": [
    "C01_field_add_sub_neg"
   ],
   "note": ""
  },
  {
   "property": "C02",
   "status": "proved",
   "theorems": [
    "C02_barrett_mul",
    "C02_full_range_refuted"
   ],
   "note": "The second theorem shows why the bound 2^14 is part of the claim."
  },
  {
   "property": "C03",
   "status": "proved",
   "theorems": [
    "C03_inverse_division"
   ],
   "note": ""
  },
  {
   "property": "C04",
   "status": "proved",
   "theorems": [
    "C04_power"
   ],
   "note": ""
  },
  {
   "property": "C05",
   "status": "proved",
   "theorems": [
    "C05_ntt_evaluates",
    "C05_points_are_roots"
   ],
   "note": ""
  },
  {
   "property": "C06",
   "status": "proved",
   "theorems": [
    "C06_ntt_intt_inverse"
   ],
   "note": ""
  },
  {
   "property": "C07",
   "status": "proved",
   "theorems": [
    "C07_ntt_product"
   ],
   "note": ""
  },
  {
   "property": "C08",
   "status": "proved",
   "theorems": [
    "C08_invertibility_test"
   ],
   "note": ""
  },
  {
   "property": "C09",
   "status": "proved",
   "theorems": [
    "C09_public_key"
   ],
   "note": ""
  },
  {
   "property": "C10",
   "status": "proved",
   "theorems": [
    "C10_pkey_encode_decode"
   ],
   "note": ""
  },
  {
   "property": "C11",
   "status": "proved",
   "theorems": [
    "C11_pkey_decode_encode"
   ],
   "note": ""
  },
  {
   "property": "C12",
   "status": "partial",
   "theorems": [
    "C12_canonical_refuted",
    "C12_alias_refuted",
    "C12_alias_same_verdict"
   ],
   "note": "The expected property is false of the code: decode_pkey accepts coefficients in [q, 2^14)."
  },
  {
   "property": "C13",
   "status": "proved",
   "theorems": [
    "C13_skey_round_trip_iff_fits"
   ],
   "note": ""
  },
  {
   "property": "C14",
   "status": "proved",
   "theorems": [
    "C14_skey_decode_encode"
   ],
   "note": ""
  },
  {
   "property": "C15",
   "status": "partial",
   "theorems": [
    "C13_skey_round_trip_iff_fits",
    "C15_skey_lossless_refuted"
   ],
   "note": "Losslessness is false; the iff theorem gives the exact domain on which it holds."
  },
  {
   "property": "C53",
   "status": "partial",
   "theorems": [
    "C53_pkey_layout",
    "C53_skey_layout",
    "C53_msb_first_refuted"
   ],
   "note": "The layout is proved; agreement with the MSB-first format of the specification is refuted."
  },
  {
   "property": "C16",
   "status": "proved",
   "theorems": [
    "C16_compress"
   ],
   "note": ""
  },
  {
   "property": "C17",
   "status": "proved",
   "theorems": [
    "C17_compress_in_bounds",
    "C17_all_vectors_refuted"
   ],
   "note": "The second theorem is the witness that the norm precondition is needed."
  },
  {
   "property": "C18",
   "status": "partial",
   "theorems": [
    "C18_round_trip_iff",
    "C18_round_trip_refuted"
   ],
   "note": "The unrestricted round trip is false of the code; the iff theorem gives the exact domain."
  },
  {
   "property": "C19",
   "status": "partial",
   "theorems": [
    "C19_short_unique",
    "C19_unique_refuted",
    "C19_same_s2_same_verdict",
    "C19_strong_unforgeability_refuted"
   ],
   "note": "Uniqueness is false of the code; proved for bodies without runs of 8 or more zeros."
  },
  {
   "property": "C20",
   "status": "proved",
   "theorems": [
    "C20_accepted_language",
    "C20_decode_sig"
   ],
   "note": ""
  },
  {
   "property": "C21",
   "status": "partial",
   "theorems": [
    "C21_slack_irrelevant",
    "C21_exact_buffer",
    "C21_in_bounds_refuted"
   ],
   "note": "In-bounds reading is false of the code; proved that two slack bytes suffice and never influence the result."
  },
  {
   "property": "C22",
   "status": "proved",
   "theorems": [
    "C22_hash_to_point",
    "C22_hashed_unique"
   ],
   "note": ""
  },
  {
   "property": "C23",
   "status": "proved",
   "theorems": [
    "C23_uniform",
    "C23_hash"
   ],
   "note": ""
  },
  {
   "property": "C24",
   "status": "proved",
   "theorems": [
    "C24_verify",
    "C24_accepts_iff"
   ],
   "note": ""
  },
  {
   "property": "C25",
   "status": "partial",
   "theorems": [
    "C25_sound_refuted",
    "C25_shake256_refuted",
    "C25_forgery_condition",
    "C25_zero_s2_any_key",
    "C24_accepts_iff"
   ],
   "note": "Soundness is false of the code: the int32 norm accumulator overflows. C24_accepts_iff is the soundness statement for executions without overflow."
  },
  {
   "property": "C26",
   "status": "partial",
   "theorems": [
    "C26_lift_least",
    "C26_normalize_is_lift",
    "C26_lift_least_refuted",
    "C26_falcon512_unaffected",
    "C26_falcon1024_refuted"
   ],
   "note": "False for the residue 6144 only; the effect on verdicts is characterised for both parameter sets."
  },
  {
   "property": "C27",
   "status": "proved",
   "theorems": [
    "C27_wrong_header",
    "C27_sign_wrong_header"
   ],
   "note": "Signing side for any floating point behaviour."
  },
  {
   "property": "C28",
   "status": "proved",
   "theorems": [
    "C28_completeness"
   ],
   "note": ""
  },
  {
   "property": "C37",
   "status": "proved",
   "theorems": [
    "C37_arith",
    "C37_bytes",
    "C37_bytes_inv"
   ],
   "note": ""
  },
  {
   "property": "C38",
   "status": "proved",
   "theorems": [
    "C38_base_sampler",
    "C38_total"
   ],
   "note": "pdt in Spec.v is the Falcon specification's table in decimal, independent of the code's limbs."
  },
  {
   "property": "C39",
   "status": "proved",
   "theorems": [
    "C39_full_mul"
   ],
   "note": "Both the portable and the __int128 branch."
  },
  {
   "property": "C40",
   "status": "proved",
   "theorems": [
    "C40_exp_core",
    "C40_corner",
    "C40_threshold"
   ],
   "note": "C40_threshold is in exact real arithmetic (rounding of the double operations before the cast is not modelled)."
  },
  {
   "property": "C41",
   "status": "proved",
   "theorems": [
    "C41_ber_exp"
   ],
   "note": "Holds for any floating point behaviour."
  },
  {
   "property": "C42",
   "status": "proved",
   "theorems": [
    "C42_samplerz",
    "C42_exact",
    "C42_defined"
   ],
   "note": "C42_samplerz holds for any floating point behaviour; C42_exact and C42_defined are in exact arithmetic."
  },
  {
   "property": "C43",
   "status": "partial",
   "theorems": [
    "C43_in_bounds_refuted",
    "C43_silent_zero"
   ],
   "note": "The stated expectation is false of the code; the theorems refute it for every center, deviation and floating point behaviour."
  },
  {
   "property": "C31",
   "status": "proved",
   "theorems": [
    "C31_xgcd"
   ],
   "note": "mpz arithmetic as unbounded Z; termination proved with fuel |y|."
  },
  {
   "property": "C32",
   "status": "proved",
   "theorems": [
    "C32_karatsuba",
    "C32_karamul"
   ],
   "note": "All power-of-two sizes, unbounded integers."
  },
  {
   "property": "C33",
   "status": "proved",
   "theorems": [
    "C33_lift",
    "C33_galois_conjugate",
    "C33_field_norm",
    "C33_lift_multiplicative"
   ],
   "note": ""
  },
  {
   "property": "C34",
   "status": "proved",
   "theorems": [
    "C34_solution_correct",
    "C34_failure_iff"
   ],
   "note": "For any floating point behaviour and FFT table. Termination of reduce's loop is not claimed (fuel)."
  },
  {
   "property": "C35",
   "status": "proved",
   "theorems": [
    "C35_ntru_gen"
   ],
   "note": "For any floating point behaviour in which small integers are exact. Stronger than listed: F,G satisfy the equation mod 2^32 always and exactly when |coefficients| <= 27000. Termination not claimed."
  },
  {
   "property": "C36",
   "status": "proved",
   "theorems": [
    "C36_keygen"
   ],
   "note": ""
  },
  {
   "property": "C44",
   "status": "proved",
   "theorems": [
    "C44_fft",
    "C44_ifft_fft",
    "C44_fft_ifft",
    "C44_points",
    "C44_pointwise"
   ],
   "note": "Exact real arithmetic and exact roots of unity; rounding is not modelled. All sizes the 1024-entry table supports."
  },
  {
   "property": "C45",
   "status": "proved",
   "theorems": [
    "C45_split",
    "C45_merge",
    "C45_split_merge",
    "C45_merge_split",
    "C45_adjoint",
    "C45_norm"
   ],
   "note": "Exact real arithmetic and exact roots of unity."
  },
  {
   "property": "C46",
   "status": "proved",
   "theorems": [
    "C46_gram",
    "C46_ldl"
   ],
   "note": "Exact arithmetic."
  },
  {
   "property": "C47",
   "status": "proved",
   "theorems": [
    "C47_ffldl",
    "C47_normalize",
    "C47_sampling"
   ],
   "note": "For any floating point behaviour."
  },
  {
   "property": "C48",
   "status": "proved",
   "theorems": [
    "C48_leaves"
   ],
   "note": "Exact arithmetic. Stronger than listed: two-sided bounds on the leaves by the Gram-Schmidt norm."
  },
  {
   "property": "C54",
   "status": "proved",
   "theorems": [
    "C54_test_is_norm",
    "C54_generated_keys_short",
    "C54_leaf_range"
   ],
   "note": "Exact arithmetic. For N=512 the lower bound is 2e-10 below the code's sigma_min literal: 165.736617183/(1.17*sqrt(12289)) = 1.27783369691 < 1.277833697."
  },
  {
   "property": "C29",
   "status": "proved",
   "theorems": [
    "C29_signing_algebra"
   ],
   "note": "Exact arithmetic; for every tree T, so the tree only influences the distribution. Termination not claimed."
  },
  {
   "property": "C30",
   "status": "proved",
   "theorems": [
    "C30_layout"
   ],
   "note": "For any floating point behaviour."
  },
  {
   "property": "C49",
   "status": "proved",
   "theorems": [
    "C49_integral"
   ],
   "note": "Exact arithmetic, every tree, target and random stream."
  },
  {
   "property": "C50",
   "status": "proved",
   "theorems": [
    "C50_recompute_G",
    "C50_generated"
   ],
   "note": "Exact arithmetic; G must fit int32."
  },
  {
   "property": "C55",
   "status": "proved",
   "theorems": [
    "C55_sign_then_verify",
    "C55_keygen_sign_verify"
   ],
   "note": "Exact arithmetic in signing; verification is integer code. For |s2_i| >= 1024 see C16; for the N=1024 coefficient 6144 see C26."
  },
  {
   "property": "C51",
   "status": "proved",
   "theorems": [
    "C51_keys",
    "C51_salts",
    "C51_repeats",
    "C51_all_seeds_refuted",
    "C51_seed_buffer"
   ],
   "note": "For every engine, distribution, XOF and floating point behaviour. random_device's unsigned int is taken as 32 bits."
  },
  {
   "property": "C52",
   "status": "proved",
   "theorems": [
    "C52_round_trip",
    "C52_round_trip_string",
    "C52_text",
    "C52_value"
   ],
   "note": "iostream formatting and strtol written out from the C/C++ standard."
  },
  {
   "property": "C56",
   "status": "partial",
   "theorems": [
    "C56_rejects_malformed_refuted",
    "C56_in_bounds"
   ],
   "note": "The stated expectation is false of the code."
  },
  {
   "property": "C57",
   "status": "proved",
   "theorems": [
    "C57_energy",
    "C57_signature"
   ],
   "note": "Exact arithmetic. The density statement is about the quadratic form; the sampler itself is C38-C42."
  },
  {
   "property": "C58",
   "status": "proved",
   "theorems": [
    "C58_samplerz",
    "C58_samplerz_near",
    "C58_sign_bt",
    "C58_sign",
    "C58_keygen_sign"
   ],
   "note": "Exact arithmetic; |G| <= 27000 is a hypothesis (implied for F by C16's condition)."
  },
  {
   "property": "C59",
   "status": "proved",
   "theorems": [
    "C59_table"
   ],
   "note": "About the literals as real numbers; their conversion to binary64 adds at most half an ulp each."
  },
  {
   "property": "C60",
   "status": "proved",
   "theorems": [
    "C60_sign_bt",
    "C60_sign"
   ],
   "note": "Exact arithmetic. The test of key generation allows a squared norm of up to 16822.4121; above 16822 the smallest standard deviation of N = 512 can fall below the sigma_min literal. C60_sat is a key meeting the hypotheses, C60_run an actual run; they also serve C29, C55 and C58."
  },
  {
   "property": "C61",
   "status": "proved",
   "theorems": [
    "C61_ieee",
    "C61_table",
    "C61_fft",
    "C61_ifft",
    "C61_round_trip"
   ],
   "note": "The standard model is the hypothesis `accurate` of SpecF.v, proved of binary64 (F64) with Flocq; complex products and quotients by the textbook formulas there."
  },
  {
   "property": "C62",
   "status": "proved",
   "theorems": [
    "C62_product"
   ],
   "note": "As C61."
  },
  {
   "property": "C63",
   "status": "proved",
   "theorems": [
    "C63_matrix",
    "C63_signature",
    "C63_norm"
   ],
   "note": "The bounds on the values at the roots in the last part are hypotheses on the key, not derived from key generation. C63_sat: a key meeting all hypotheses."
  },
  {
   "property": "C64",
   "status": "proved",
   "theorems": [
    "C64_recompute_G"
   ],
   "note": "|f(zeta)| >= 1/1000 is a hypothesis; C64_sat: recompute_G in binary64 with the table of the source on a concrete key."
  },
  {
   "property": "C65",
   "status": "proved",
   "theorems": [
    "C65_sign_then_verify",
    "C65_keygen_sign_verify"
   ],
   "note": "Bounds on the key are hypotheses (as C63, C64); the two conditions on the signature are those of C16 and C26."
  },
  {
   "property": "C66",
   "status": "proved",
   "theorems": [
    "C66_gs_test",
    "C66_keygen",
    "C66_accepts"
   ],
   "note": ""
  },
  {
   "property": "C67",
   "status": "proved",
   "theorems": [
    "C67_samplerz",
    "C67_defined",
    "C67_near",
    "C67_ber_exp"
   ],
   "note": "Specific to binary64 with round-to-nearest-even (F64), not the abstract standard model: uses monotone rounding and a check of 263 doubles."
  },
  {
   "property": "C68",
   "status": "proved",
   "theorems": [
    "C68_tree"
   ],
   "note": "Binary64 with round-to-nearest-even (F64). The bounds on |F|^2, |G|^2 hold for every F that fits the 8-bit encoding."
  },
  {
   "property": "C69",
   "status": "proved",
   "theorems": [
    "C69_samplerz",
    "C69_sign_bt",
    "C69_sign",
    "C69_keygen_sign"
   ],
   "note": "Binary64 with round-to-nearest-even (F64). The loop of signing and the rejection loop of the sampler have fuel: the theorems say that no execution of any length meets an undefined operation. The hypothesis |f(zeta)| >= 1/1000 is needed only where G is recomputed from (f, g, F)."
  },
  {
   "property": "C70",
   "status": "proved",
   "theorems": [
    "C70_table",
    "C70_distribution"
   ],
   "note": "Binary64 with round-to-nearest-even (F64). Probability is counting over all byte strings of a given length; that the caller's generator is uniform is not modelled."
  },
  {
   "property": "C71",
   "status": "proved",
   "theorems": [
    "C71_joint"
   ],
   "note": "Exact arithmetic (RF). Probability is counting over all byte strings of a given length. For N = 512 the hypothesis sigma_min^2 gs_norm <= sigma^2 is stronger than the key-generation test by one part in 10^9: the literal sigma_min is rounded up, and a leaf below it can make 2 * approx_exp - 1 in ber_exp wrap modulo 2^64."
  },
  {
   "property": "C72",
   "status": "proved",
   "theorems": [
    "C72_centre_free",
    "C72_lattice_gaussian",
    "C72_mass"
   ],
   "note": "Exact arithmetic (RF); the hypothesis on the key is that of C71."
  },
  {
   "property": "C73",
   "status": "proved",
   "theorems": [
    "C73_coset_gaussian",
    "C73_key_free"
   ],
   "note": "Exact arithmetic (RF); the hypotheses on the key are those of C71 plus: f invertible, coefficients of f and g below q in size (sound_key).  The rejection of long vectors by sign() is not part of this claim."
  },
  {
   "property": "C74",
   "status": "proved",
   "theorems": [
    "C74_signature_law",
    "C74_key_free"
   ],
   "note": "Exact arithmetic (RF); the hypotheses on the key are those of C73. The ratio WA / W is not bounded from below except by WA > 0."
  },
  {
   "property": "C75",
   "status": "proved",
   "theorems": [
    "C75_norm_test",
    "C75_rarely_long",
    "C75_long_mass"
   ],
   "note": "Exact arithmetic (RF); the hypotheses on the key are those of C73. How often the compressed form fails to fit is bounded in C85."
  },
  {
   "property": "C76",
   "status": "partial",
   "theorems": [
    "C76_keygen_defined_refuted",
    "C76_probability"
   ],
   "note": "The stated expectation is false of the code for N = 512: some random bytes lead to the conversion of a NaN to an integer, with positive (negligible) probability. Refuted for N = 512 only; the same computation goes through for N = 1024 but is too slow for the checker."
  },
  {
   "property": "C77",
   "status": "proved",
   "theorems": [
    "C77_gen_poly",
    "C77_deviation"
   ],
   "note": "Binary64. The sum of the 4096/N samples is compared with the discrete Gaussian of the wider deviation; the bound 2^-15 is not tight."
  },
  {
   "property": "C78",
   "status": "proved",
   "theorems": [
    "C78_key_pair"
   ],
   "note": "Binary64. The probability r that a pass is repeated is not bounded away from 1, nor is the probability that all passes fail or that a pass has undefined behaviour (C76)."
  },
  {
   "property": "C79",
   "status": "proved",
   "theorems": [
    "C79_attempts"
   ],
   "note": "Binary64. About the number of attempts; the time of one attempt is not modelled."
  },
  {
   "property": "C80",
   "status": "proved",
   "theorems": [
    "C80_ber_exp"
   ],
   "note": "For every arithmetic on doubles (any instance of the record fops)."
  },
  {
   "property": "C81",
   "status": "partial",
   "theorems": [
    "C81_bytes_refuted"
   ],
   "note": "The stated expectation is false of the code: with s = 3/2, the probability of consuming 11 bytes differs by at least 1/600 between the centres 5/64 and 31/32. The specification's own BerExp compares bytes the same way."
  },
  {
   "property": "C82",
   "status": "proved",
   "theorems": [
    "C82_array_of_stream",
    "C82_stream_of_array"
   ],
   "note": "For every arithmetic on doubles. When the array is used up exactly, the array overload may also have run out (C43)."
  },
  {
   "property": "C83",
   "status": "proved",
   "theorems": [
    "C83_uniform"
   ],
   "note": "SHAKE256 is replaced by a uniformly random byte string; the bound on the probability of ending is not tight."
  },
  {
   "property": "C84",
   "status": "proved",
   "theorems": [
    "C84_simulation"
   ],
   "note": "Exact arithmetic for the sampler; SHAKE256 and the generator are replaced by uniformly random bytes. One pass of the signing loop, before the tests on norm and length."
  },
  {
   "property": "C85",
   "status": "proved",
   "theorems": [
    "C85_compressed_size",
    "C85_first_pass",
    "C85_rarely_restarts"
   ],
   "note": "Exact arithmetic (RF); SHAKE256 and the generator are replaced by uniformly random bytes; the key is sound in the sense of C73. The bounds are not tight: they come from an exponential moment, with 1.3 and 9/8 as base."
  },
  {
   "property": "C86",
   "status": "proved",
   "theorems": [
    "C86_large_coefficients",
    "C86_sign_then_verify",
    "C86_nearly_always"
   ],
   "note": "Signing in exact arithmetic (RF), verification is the integer code; SHAKE256 and the generator are replaced by uniformly random bytes; the key is sound in the sense of C73. The restarts are not used: the bound is that of a single pass."
  },
  {
   "property": "C87",
   "status": "proved",
   "theorems": [
    "C87_guess_rejected"
   ],
   "note": "SHAKE256 is replaced by uniformly random bytes. Runs with signed overflow (undefined behaviour) do not count as acceptance; see C88 for what they do under wrap-around."
  },
  {
   "property": "C88",
   "status": "partial",
   "theorems": [
    "C88_guess_rejected_refuted",
    "C88_tries"
   ],
   "note": "False of the code: universal forgery without the secret key. SHAKE256 is replaced by uniformly random bytes; the runs of C88_tries read disjoint pieces of one uniformly random string. C25_shake256_refuted exhibits concrete instances with the real SHAKE256."
  },
  {
   "property": "C89",
   "status": "partial",
   "theorems": [
    "C89_one_signature_refuted",
    "C89_twist"
   ],
   "note": "False of the code: strong unforgeability fails for nearly every signature (C19 gives the reason, a second form of small coefficients that decompress_sig accepts). Signing in exact arithmetic (RF), verification is the integer code; SHAKE256 and the generator are replaced by uniformly random bytes; the key is sound in the sense of C73."
  },
  {
   "property": "C90",
   "status": "proved",
   "theorems": [
    "C90_simulated_signature"
   ],
   "note": "Signing in exact arithmetic (RF); SHAKE256 and the generator are replaced by uniformly random bytes, the salt is given; the key is sound in the sense of C73. The bound is the share of vectors that signing rejects (norm, compressed length) plus the errors of C84; it is an upper bound, not the true distance."
  },
  {
   "property": "C91",
   "status": "proved",
   "theorems": [
    "C91_adaptive_requests"
   ],
   "note": "As C90. Each request has hash output of its own, as is the case for distinct pairs of salt and message; no other queries to the hash function are modelled."
  },
  {
   "property": "C92",
   "status": "proved",
   "theorems": [
    "C92_remainders",
    "C92_outside",
    "C92_inside"
   ],
   "note": "Signing in exact arithmetic (RF); SHAKE256 and the generator are replaced by uniformly random bytes, the salt is given; the key is sound in the sense of C73. A read outside the list that models the buffer is the outcome UB; what an actual read past the end of an allocation does is not modelled."
  },
  {
   "property": "C93",
   "status": "proved",
   "theorems": [
    "C93_more_memory",
    "C93_one_enough",
    "C93_two_needed"
   ],
   "note": "A read outside the list that models the readable memory is the outcome UB."
  },
  {
   "property": "C94",
   "status": "proved",
   "theorems": [
    "C94_hash_and_sign_requests"
   ],
   "note": "As C90 and C91; hash requests and repeated inputs are covered. SHAKE256 is a table of uniformly random bytes (136 k for each input), the bytes of the generator are uniformly random and fresh for each request; signing in exact arithmetic (RF). A run in which hashing or signing does not end within its bound counts as no."
  },
  {
   "property": "C95",
   "status": "proved",
   "theorems": [
    "C95_forging"
   ],
   "note": "The forger is a function; nothing is said about running times. As C94 for the hash table and the generator; signing in exact arithmetic (RF), verify as modelled with overflow excluded (Strict). The named hash must have been asked for as a new input by a hash request; a repeated hash request gets an empty answer. Whether short vectors are hard to find is not part of the claim."
  },
  {
   "property": "C96",
   "status": "proved",
   "theorems": [
    "C96_two_signatures"
   ],
   "note": "Deterministic, for any hash function. Signatures in buffers with two more readable bytes; accumulator overflow excluded (Strict)."
  },
  {
   "property": "C97",
   "status": "proved",
   "theorems": [
    "C97_strong_forging"
   ],
   "note": "As C95. Two signatures count as different if their bodies decode to different vectors; that the same vector has several byte strings is C19 and C89."
  },
  {
   "property": "C98",
   "status": "proved",
   "theorems": [
    "C98_salts_repeat",
    "C98_one_in_three",
    "C98_keys_repeat"
   ],
   "note": "Counts sequences of random_device values; that the device is uniform is not assumed. All calls of keygen start from the same buffers."
  },
  {
   "property": "C99",
   "status": "proved",
   "theorems": [
    "C99_random_law",
    "C99_rest"
   ],
   "note": "Distribution over uniformly random 16-bit draws; the engine that makes the draws is not modelled."
  },
  {
   "property": "C100",
   "status": "proved",
   "theorems": [
    "C100_check_exact",
    "C100_test_passes"
   ],
   "note": "Holds for every arithmetic within the error bounds of binary64 (which binary64 is proved to satisfy). Failing malloc is not modelled. That ntru_gen ends is not claimed."
  },
  {
   "property": "C101",
   "status": "proved",
   "theorems": [
    "C101_count",
    "C101_share"
   ],
   "note": ""
  },
  {
   "property": "C102",
   "status": "proved",
   "theorems": [
    "C102_rounds",
    "C102_test"
   ],
   "note": "exact arithmetic in signing; bytes of salts, hash output and sampler uniformly random in every round"
  },
  {
   "property": "C103",
   "status": "proved",
   "theorems": [
    "C103_field",
    "C103_transform"
   ],
   "note": ""
  },
  {
   "property": "C104",
   "status": "proved",
   "theorems": [
    "C104_test",
    "C104_norm"
   ],
   "note": ""
  },
  {
   "property": "C105",
   "status": "proved",
   "theorems": [
    "C105_test",
    "C105_norm",
    "C105_zero",
    "C105_every_draw_refuted"
   ],
   "note": "C105_every_draw_refuted: the unconditional form, for all draws, is false; complex quotients by the textbook formula (0/0 is NaN in the scaled forms too)"
  },
  {
   "property": "C106",
   "status": "proved",
   "theorems": [
    "C106_pkey",
    "C106_skey"
   ],
   "note": ""
  },
  {
   "property": "C107",
   "status": "proved",
   "theorems": [
    "C107_passes",
    "C107_all_bytes_refuted",
    "C107_in_bounds_refuted"
   ],
   "note": ""
  },
  {
   "property": "C108",
   "status": "proved",
   "theorems": [
    "C108_passes",
    "C108_short_vectors_refuted"
   ],
   "note": ""
  }
 ]
}