# Formal model of itzmeanjan/falcon in Coq 8.16.1 — design and trusted base

Source: `/repo/include/*.hpp` (header-only C++20). Nothing is built or run here; the model is a hand
translation, each definition citing the file and lines it stands for.

## Conventions of the model

* **Integers.** C++ integers are `Z`. Every narrowing store is explicit (`u8`, `u16`, `u32`, `u64`, `i32`…).
  Signed 32-bit arithmetic that the code can overflow (the norm accumulator of `verify`) goes through
  a checked operation with two semantics, selected by an argument: `UB` (the C++ standard) or wrap-around (what
  compilers usually emit).
* **Memory.** Arrays are `list`s. Accesses in loops go through `rd`/`wr`, which return `UB` outside the list, so
  `… = Ok r` in a theorem includes "no out-of-bounds access". Buffers of the caller have an explicit length.
  Uninitialised arrays are modelled as arrays of zeros (every cell is written before it is read; the model files say so
  where it applies). Pointers marked `__restrict` do not alias.
* **Outcome.** `res A = Ok a | UB | Fuel`. `UB`: undefined behaviour (out of bounds, signed overflow, conversion of
  an unrepresentable double, invalid shift). `Fuel`: a `while (true)` loop whose termination depends on the random
  stream, the hash output or on rounding did not finish within the given number of rounds. Fuel is universally quantified;
  theorems either show it is not exhausted, or speak about returned results only and say so.
* **External code.** SHAKE256 (git submodule `sha3`, not present in /repo) is an argument: any function from absorbed
  bytes to an infinite byte stream. The one exception is M_shake (SHAKE256 written from FIPS 202, checked against a
  reference implementation outside Coq), used only to exhibit the concrete forgery of C25. The generator `prng_t` is a stream of bytes plus a position; its constructor
  (`random_device`, `mt19937`, distribution, SHAKE256) is modelled with the engine and distribution as arbitrary
  functions of the 32-bit seed. GMP integers are `Z`.
* **Floating point.** Code over `double` is written once, parametric in a record of operations (`M_float.v`), and used at
  1. *any* instance: theorems that hold whatever rounding does (C27, C30, C34–C36, C41–C43, C47, C51);
  2. exact real arithmetic (`M_exact.v`, `RF`) with exact roots of unity: theorems that say "exact arithmetic";
  3. IEEE binary64 from the standard library's `SpecFloat` (`M_ieee.v`, `F64`).
  4. any arithmetic satisfying the standard model of rounding (`accurate` in SpecF.v: relative error 2^-53 per operation away
     from over- and underflow), which C61_ieee proves of F64: theorems that say "rounded arithmetic".
  C59 bounds the distance of the literals of the table to the exact roots.
* **Templates.** Template recursion on N = 2^lg is structural recursion on `lg`. Theorems are for all `lg` up to 10 where the
  code is generic and for both parameter sets (`falcon_lg lg`: lg = 9 or 10) otherwise.

## Layout (`rocq/theories`)

`Base.v` outcome monad, memory, loops · `Spec.v`, `SpecR.v`, `SpecS.v`, `SpecF.v`, `SpecG.v`, `SpecJ.v`, `SpecK.v` independent specification (short; read these) ·
`Ring.v`, `Poly.v`, `Zq.v` algebra · `M_*.v` models (definitions only) · `P_*.v` proofs · `T_*.v` property
theorems only, each closed by `exact`, with `Print Assumptions` beneath and `Example`s that a concrete case meets
the hypotheses.

## What is modelled, file by file

| file | modelled | in | not modelled |
|---|---|---|---|
| ff.hpp | all operators of `ff_t`, `xgcd`, `inv`, `^`, shifts, comparisons; `random()` for an arbitrary sequence of draws | M_ff | `operator<<` to ostream; the engine behind `random()` |
| ntt.hpp | `bit_rev`, power tables, `ntt`, `intt` | M_xform, M_ntt | — |
| polynomial.hpp | all routines, over `ff_t` and complex | M_ntt, M_fft | — |
| encoding.hpp, decoding.hpp | all routines | M_codec, M_sig | — |
| utils.hpp | the three length functions | M_codec | — |
| hashing.hpp | `hash_to_point` | M_verify | inside of SHAKE256 (written out in M_shake from FIPS 202, for C25 only) |
| verification.hpp | `verify` | M_verify | — |
| u72.hpp | all operators and conversions | M_samp | — |
| samplerz.hpp | tables, `base_sampler`, `full_mul_u64` (both branches), `approx_exp`, `ber_exp`, `samplerz`, in the generator and in the byte-array overloads | M_samp | — |
| prng.hpp | constructor and `read` | M_util, M_samp | quality of `random_device`; the formulas of the engine; `std::uniform_int_distribution<uint8_t>`, which the C++ standard does not provide for 8-bit types ([rand.req.genl]), stands for any function of the engine |
| fft.hpp | table, `fft`, `ifft`, `split_fft`, `merge_fft`, `adj_poly` | M_table, M_xform, M_fft | compile-time helper `computeζ` |
| karatsuba.hpp | `karatsuba`, `karamul` | M_ntru | — |
| ntru_gen.hpp | all routines | M_ntru | GMP allocation |
| keygen.hpp | Gram matrix, public key, `keygen` | M_tree, M_ntt | — |
| falcon_tree.hpp | `ldl`, `ffldl`, `normalize_tree` | M_tree | — |
| ffsampling.hpp | `ff_sampling` | M_tree | — |
| signing.hpp | `sign` | M_tree | — |
| falcon.hpp | `keygen`, `recompute_G`, `compute_matrix_B`, `compute_falcon_tree`, both `sign`, `verify` | M_tree, M_verify | — |
| tests/check_ntru_eq.hpp | `check_ntru_eq` | M_check | failing `malloc` |
| tests/test_ff.cpp, tests/test_ntt.cpp | one round; `test_ntt` | M_testf | the drawn elements and exponents are arguments |
| tests/test_fft.cpp | `split`, `test_fft_split_merge`; `test_fft` | M_testg; M_testh | the drawn coefficients are arguments; the loop that rounds both halves is two loops; `==` on doubles is `<=` both ways; `merge` (unused there) is not modelled |
| tests/test_encoding.cpp | `test_encoding_pkey`, `test_encoding_skey`, `test_sig_decompression`, the end of `test_sig_compression` | M_teste, M_testd, M_testc | the drawn elements, the generated key and the random bytes are arguments; of `test_sig_compression` what comes before the compression is not modelled, the sampled vector is an argument |
| tests/test_signing.cpp | loop of `test_keygen_sign_verify` | M_test | the key pair and the messages are arguments |
| common.hpp | `to_hex`, `to_byte_array` | M_util | `log2` (template arithmetic) |

Not modelled anywhere: timing and other side channels, allocation and stack, the
statistical quality of randomness, compiler deviations from the standard, the other tests, benchmarks and examples of /repo.

Simplifications are recorded in comments at the definitions. The main ones: `for (start…; start += 2*len)` loops are loops over
block numbers; sub-arrays passed as `p + off` are cut out and written back, bounds-checked; decimal literals m·10^-k
are the quotient m/10^k of the floating point record; complex product and quotient are operations of the
record, because `std::complex` fixes their value but not the order of roundings.

The sampler model was also run, outside the development and with Coq's primitive floats, on the 3072 known-answer vectors of
`/repo/tests/test_samplerz.cpp`: all agree. That is a test of the translation, not part of any proof.

## Properties and how they are proved

| id | model | method |
|----|-------|--------|
| C01,C02 | `ff_t` operators with 16/32/64-bit truncation | linear arithmetic with div/mod equations |
| C03 | `xgcd`, `inv` in 16-bit arithmetic | loop invariant; kernel computation over all 12289 values where the domain is finite |
| C04 | square-and-multiply loop over 64 bits | induction on bits |
| C05–C07 | `ntt`, `intt` as triple loops | layer lemma by loop invariant over a heap-indexed tree of roots; algebra over an abstract commutative ring |
| C08,C09 | `is_poly_invertible`, `compute_public_key` | the NTT is a ring isomorphism |
| C10–C15,C53 | `encode_*`/`decode_*` | bit lemmas per group, loop invariant; refutations by witness |
| C16–C21 | `compress_sig`/`decompress_sig` on byte buffers | refinement to a bit-list grammar; witnesses for refutations |
| C22,C23 | `hash_to_point` over an output stream | induction on words; counting |
| C24–C28 | `decode_sig`, `verify`, end to end | NTT and codec theorems; witnesses |
| C29,C30,C49,C55 | `ff_sampling`, `sign` | induction over the recursion, split/merge theorems; loop invariant |
| C31–C36 | `ntru_solve` over `Z`, rounding in `reduce` arbitrary | induction on size, ring identities |
| C37–C43 | `u72`, tables, sampler | carry arithmetic; interval counting; bound propagation and error analysis against exp |
| C44,C45 | FFT, split, merge, adjoint, norm over exact complexes | the generic transform theorem of the NTT at another ring |
| C46–C48,C54 | Gram matrix, LDL, tree, normalisation, norm test | induction over the tree; Gram–Schmidt identities |
| C50 | `recompute_G` | evaluation at the roots |
| C51 | `prng_t` constructor with abstract engine | pigeonhole |
| C52,C56 | hex helpers | induction; witness |
| C57 | `ff_sampling` on the tree of a key | induction over the tree, Parseval |
| C58 | all of signing | centres bounded through C57, conversions in range |
| C59 | table of fft.hpp | half-angle recurrence, integer computation over all entries |
| C61,C62 | fft, ifft, products in rounded arithmetic | standard model of floating point (proved of binary64 with Flocq), 2-norm error propagation layer by layer |
| C63,C64,C65 | signing in rounded arithmetic | errors of transforms, target, `merge` over integer leaves and products in the 2-norm; rounding to the lattice vector; norm test |
| C66 | the Gram-Schmidt test in rounded arithmetic | 2-norm errors, two steps: rows of the computed transforms first, then the exact rows; a row of an NTRU key is bounded below by |q| / |(F, G)| |
| C67 | samplerz in binary64 | monotone, correctly rounded operations (Flocq) for signs and ranges; error analysis for the thresholds; a check of 263 doubles for the sign of x - floor(x/ln 2) ln 2 |
| C68 | the tree in binary64 | relative error of the real diagonal entries (imaginary parts are exactly zero), weighted error of the off-diagonal ones; 3e-8 lost per level, one cancellation at the root |
| C69 | all of signing in binary64 | run of the tree: every subtree near the exact tree keeps its targets near the exact ones, centres bounded by the norm of the target times the condition of the basis; C67, C68 and C63 at the ends |
| C70 | distribution of samplerz in binary64 | table: fixed-point interval evaluation of exp with a geometric tail; counting: sums over byte strings, digit by digit, then a geometric series over attempts; comparison with the infinite Gaussian sums |
| C71 | joint distribution of ff_sampling's integers, exact arithmetic | ff_sampling as a tree of calls; induction over the calls (each conditionally C70-like in exact arithmetic, with total variation 2^-35 + (11/12)^k); bijection between call outcomes and pairs of integer polynomials by induction over the tree levels; energy = norm (C57) |
| C72 | the samples of signing follow the discrete Gaussian on the lattice of the key, exact arithmetic | C71, and: the sum of the Gaussian weights of the integers is the same for all centres up to 2^-37 (P_theta.v: theta_k(c) theta_k(c') splits into theta_2k and its half shift, which makes the relative deviation small by iteration); hence the 2N normalisations are nearly constant, and the weights of all pairs have a finite sum |
| C73 | the vector signing draws depends on the public key and the message alone, exact arithmetic | C72 moved along the bijection between the pairs (z0, z1) and the pairs (s1, s2) with s1 = c - s2 h mod q (P_coset.v: from the NTRU equation and f h = g mod q, z0 and z1 are exact quotients by q) |
| C74 | the signatures of sign follow a distribution given by public key, message and salt, exact arithmetic | the loop as a tree of sampler calls; expected values over reachable results; geometric series over the passes (P_loop.v); the encodings of two bodies differ (encs is injective also with its padding); conditioning of a law known up to total distance; nearest-plane rounding gives one accepted vector, so WA > 0 |
| C75 | the vector of one signing pass passes the norm test with probability above 1 - 0.981^N, exact arithmetic | sums of Gaussian weights at deviations s and 1.1 s compared through the residue classes modulo 10 and 11 of the sum at deviation 11 s (P_wide.v); products along the tree of sampler calls bound the sum of the weights of the lattice at deviation 1.1 sigma; Chernoff's bound (P_widek.v) |
| C76 | keygen is free of undefined behaviour in binary64 (refuted for N = 512) | f = 1 + x^256 and g = 79 - 65 x^128 - 66 x^256 - 39 x^384 pass both tests (P_kub.v, P_fgsu.v); in `reduce` at degree 4 the truncated f is 0 and the transform of the truncated g vanishes at a point: 0 / 0, and the NaN is converted to `long`. The law of the key polynomials (P_genlaw.v, P_genpoly.v) makes the probability of the pair positive (P_kubx.v) |
| C77 | gen_poly draws independent discrete Gaussians, binary64 | each call of samplerz as in C70; the sum of two discrete Gaussians of one deviation is one of the deviation times sqrt 2 up to the difference of theta sums at centres 0 and 1/2 (P_conv.v), doubled to 4096/N terms (P_convx.v); product over coefficients (P_genx.v) |
| C78 | ntru_gen returns f, g as drawn, conditioned on its tests, binary64 | the pass as a computation on random bytes with a law for each pair; induction over the passes gives a geometric sum common to all pairs (P_ngen.v) |
| C79 | the number of attempts of samplerz does not depend on centre and deviation, binary64 | two doubles have a common unit, so the Gaussian sums divided by the deviations are compared through one finer sum (residue classes, P_wide) and independence of the centre (P_theta); acceptance probability = constant times that quotient up to 2^-38; geometric laws with close parameters |
| C80 | bytes consumed by ber_exp: same law for all arguments | induction over the bytes left |
| C81 | bytes consumed by samplerz: law depends on the centre (refuted) | probability of 11 bytes as a sum over the 38 thresholds, computed for two centres |
| C82 | array and generator overloads of samplerz agree | induction on the attempts; the relation `turned` between the two byte orders |
| C83 | hash_to_point uniform over Z_q^N on random bytes | recurrences for the probabilities of a match and of an end in the number of words; each residue has 5 words; Chernoff-type induction |
| C84 | joint law of hash and signature vector, without the secret key | C73 for each hashed message, C83 for the hash, C72's flat coset masses; sums grouped by the hash over all q^N polynomials |
| C85 | how often signing restarts, and how often the compressed form does not fit | exponential moment of the unary part of one Gaussian integer (P_fit, P_fitn), product over the coefficients (P_fitm), C75 for the norm, C84 for the joint law, the loop of C74 (P_fits) |
| C86 | how often an honest signature is returned and accepted | tail of one Gaussian integer beyond 1024, product over the coefficients by the weights 2^[large] (P_ver), the general form of C85 for an event on the returned body (P_fits), C55 for verification (P_vers) |
| C87 | fixed signature bytes against a random hash, no overflow | the hash is uniform (C83), subtracting s2 h permutes the polynomials, exponential moment of the squared norm with exp(-16384 k) = 7/8 (P_blind, P_forge) |
| C88 | the same with wrap-around: fails | mean and variance of the squared norm over all polynomials in closed form, one-sided Chebyshev inequality on both sides of the accepted window (P_blind), vector with 55 coefficients 1023 and 457 coefficients 127, or 0 (P_forge) |
| C89 | a second valid signature without the key: nearly always possible | weight of the Gaussian vectors whose encoding leaves fewer than 17 bits of padding (P_fitm, exponential moments), packing of the re-encoded bits (P_twist), signatures with equal s2 verify alike |
| C90 | hash and signature bytes against a simulator with the public key only | lower bounds for a test and its negation from C84 and the accepted share (P_fits, P_simsig), signature bytes are determined by s2 |
| C91 | the same for any number of adaptive requests | induction on the number of requests: exchange of averages, totals of averages (P_adapt) |
| C92 | verify in a buffer of the exact length reads outside it about once in eight times | weights of the remainders modulo 8 of the length: bands of width 128, convolution of 32 coordinates in millionths, the rest keeps the minimum (P_resn, P_res); C21 on the signature in the buffer (P_oob) |
| C93 | one readable byte after the signature suffices for what is accepted, two are needed otherwise | the readers are monotone in the memory; completeness of the decoder with one byte (C20 proof); a body whose last coefficient starts in the last byte (P_slack) |
| C94 | hashes and signatures on request, one hash table: simulated from the public key | induction on the requests over related tables of bytes and points; explicit bytes that hash to a given point; a fresh salt meets the table with probability at most r/256^40; C90 for the single signature (P_rom) |
| C95 | forging gives short vectors of the public lattice | C94's experiment with the drawn vectors kept; an accepted forgery gives a preimage of the same point; the drawn preimage equals it with probability at most 12289^N/W per draw, below C90's distance (P_solve, P_guess, P_play, P_reduce) |
| C96 | two accepted signatures, one salt and message: short vector | verify's exact accepted set (C24), uniqueness of decoding, parallelogram bound on the difference (P_coll) |
| C97 | forging or changing signatures gives short vectors | C95, and for a changed signature C96 with the point kept in the table (P_strong) |
| C98 | key pairs and salts repeat after about 2^16 calls | the salt is a function of the 32-bit value (C51); counting lists without repetitions, 1 - x <= exp(-x) (P_birth) |
| C99 | law of `ff_t::random` | one draw at a time: 1/65536 for the element, 53247/65536 to go on (P_rand) |
| C100 | `check_ntru_eq` of the tests in rounded arithmetic (M_check) | errors of the two products, their difference and the inverse transform in the 2-norm, rounding to the integer (P_check); C35 and C66 for generated keys (P_checkx) |
| C101 | number of polynomials that pass the invertibility test | the NTT is a bijection (C06) and the test looks for a zero in the transform (P_units) |
| C102 | loop of the end-to-end test (M_test), exact arithmetic in signing | C92 in every round, as signing keeps the length of the buffer; the rounds are split one by one (P_rounds) |
| C103 | bodies of two tests (M_testf) | C01 to C04 for the field; C06, C08 and division element by element for the transform (P_testf) |
| C104 | `test_fft_split_merge` (M_testg) | error bounds of fft, split_fft, merge_fft and ifft joined through the polynomial whose values the rounded transform has (P_testg) |
| C105 | `test_fft` (M_testh) | error of quotient times divisor, then of ifft (P_testh); classes zero and NaN are kept by the loops of the transforms (P_testhz) |
| C106 | tests of the key codecs (M_teste) | C10, C13 and C14 (P_teste) |
| C107 | test of decompressing random bytes (M_testd) | C19, C20 and C21 (P_testd) |
| C108 | end of the test of compressing signatures (M_testc) | C16 and C18 (P_testc) |
| C60 | all of signing | nearest-plane choice at every leaf bounds the norm; sampler run on explicit bytes |

Properties of status *partial* are those the faithful model violates: a `…_refuted` theorem gives the witness, and the other
theorems of the claim give the exact domain on which the property does hold. Nothing is "not applicable".

## Disagreements between code and expectation (findings)

* if both computed transforms vanish at a root, `gram_schmidt_norm` divides 0 by 0 and `std::max(a, NaN)` is a, so the test would pass; C66 shows that no usable key is in this case.
* `decode_pkey` accepts coefficients in [q, 2^14) (C12); `encode_skey` silently wraps coefficients that do not fit (C15).
* Key encodings are not MSB-first as in the Falcon specification (C53).
* a coefficient |s| ≥ 1024 that `compress_sig` accepts is not read back by `decompress_sig`, and most vectors have several accepted bodies (C18, C19).
* `decompress_sig` can read up to two bytes past the signature (C21).
* `verify` accumulates the norm in int32: overflow lets a signature with huge s2 pass (C25). With two's-complement
  wrap-around the all-zero s2 is accepted under *every* public key whenever the hashed point's squared norm is large
  enough to wrap; this is met by concrete salts under the real SHAKE256 (C25_shake256_refuted), and a random hash meets
  it often: fixed signature bytes pass with probability at least 1/21 or 1/140 for every key and message (C88), so that
  anyone forges by trying salts.
* The centred lift sends 6144 to −6145, which changes a verdict for N = 1024 only (C26).
* The byte-array overload of `samplerz` reads out of bounds and its `ber_exp` returns a silent 0 (C43).
* The generator takes 32 bits of entropy: two runs repeat keys or salts (C51).
* `to_byte_array` accepts any text (C56).
* For N = 512 the smallest leaf that key generation can produce is 2e-10 below the literal for sigma_min (C54).

## Trusted base

* Coq 8.16.1's kernel (with `vm_compute`; the result is also checked by `coqchk`).
* The reading of the C++ in the `M_*.v` files and the specification in `Spec.v`, `SpecR.v`, `SpecS.v`, `SpecF.v`, `SpecG.v`, `SpecJ.v`, `SpecK.v`, `SpecA.v`, `SpecH.v`, `SpecM.v`, `SpecT.v`, `SpecU.v`, `SpecV.v`, `SpecW.v`, `SpecX.v`, `SpecY.v`.
  As a test of that reading, the model of samplerz run in binary64 gives the expected integer and number of bytes on all 3072
  known answers of `/repo/tests/test_samplerz.cpp` (`tests/samplerz_kats.py` writes the Coq file; about two minutes, not part of
  the build).
* Axioms of the standard library only, listed below. No axioms are added, no kernel check is switched off, there are no functors
  or module types, no `Admitted`. `coqchk` additionally lists axioms of standard-library modules that are loaded but not used
  (e.g. `ssrunder`).

## What `Print Assumptions` lists

Every property theorem has `Print Assumptions` beneath it in its `T_*.v` file; this table is generated from that output.

**Closed under the global context (no axioms)** — 111 theorems:

* `T_arr`: C82_array_of_stream, C82_stream_of_array
* `T_coll`: C96_two_signatures
* `T_ff`: C01_field_add_sub_neg, C02_barrett_mul, C02_full_range_refuted, C03_inverse_division, C04_power, ff_eq_iff, ff_shl_is_mul_small, ff_shl_is_mul_refuted, ff_random_in_range
* `T_keys`: C10_pkey_encode_decode, C11_pkey_decode_encode, C12_canonical_refuted, C12_alias_refuted, C13_skey_round_trip_iff_fits, C14_skey_decode_encode, C15_skey_lossless_refuted, C53_pkey_layout, C53_skey_layout, C53_msb_first_refuted
* `T_ntru`: C31_xgcd, C32_karatsuba, C32_karamul, C33_lift, C33_galois_conjugate, C33_field_norm, C33_lift_multiplicative, C34_solution_correct, C34_failure_iff, C35_ntru_gen, C36_keygen
* `T_ntt`: C05_ntt_evaluates, C05_points_are_roots, C06_ntt_intt_inverse, C07_ntt_product, C08_invertibility_test, C09_public_key
* `T_samp`: C37_arith, C37_bytes, C37_bytes_inv, C38_base_sampler, C38_total, C39_full_mul, C40_corner, C41_ber_exp, C42_samplerz, C43_in_bounds_refuted
* `T_shake`: C25_forgery_condition, C25_shake256_refuted
* `T_sig`: C16_compress, C17_compress_in_bounds, C17_all_vectors_refuted, C18_round_trip_iff, C18_round_trip_refuted, C19_short_unique, C19_unique_refuted, C20_accepted_language, C20_decode_sig, C21_slack_irrelevant, C21_exact_buffer, C21_in_bounds_refuted
* `T_sign`: C27_sign_wrong_header, C30_layout
* `T_slack`: C93_more_memory, C93_one_enough, C93_two_needed
* `T_testc`: C108_passes, C108_short_vectors_refuted
* `T_testd`: C107_passes, C107_all_bytes_refuted, C107_in_bounds_refuted
* `T_teste`: C106_pkey, C106_skey
* `T_testf`: C103_field, C103_transform
* `T_tree`: C47_ffldl, C47_normalize, C47_sampling
* `T_units`: C101_count, C101_share
* `T_util`: C51_keys, C51_salts, C51_repeats, C51_all_seeds_refuted, C51_seed_buffer, C52_round_trip, C52_round_trip_string, C52_text, C52_value, C56_rejects_malformed_refuted, C56_in_bounds
* `T_verify`: C22_hash_to_point, C22_hashed_unique, C23_uniform, C23_hash, C24_verify, C24_accepts_iff, C25_sound_refuted, C25_zero_s2_any_key, C26_lift_least, C26_normalize_is_lift, C26_lift_least_refuted, C26_falcon512_unaffected, C26_falcon1024_refuted, C27_wrong_header, C12_alias_same_verdict, C19_same_s2_same_verdict, C19_strong_unforgeability_refuted, C28_completeness

**`ClassicalDedekindReals.sig_forall_dec`, `FunctionalExtensionality.functional_extensionality_dep`** — 7 theorems:

* `T_blind`: C88_guess_rejected_refuted, C88_tries
* `T_bytes`: C80_ber_exp
* `T_hash`: C83_uniform
* `T_iso`: C79_sat
* `T_rand`: C99_random_law, C99_rest

**`ClassicalDedekindReals.sig_forall_dec`, `ClassicalDedekindReals.sig_not_dec`, `FunctionalExtensionality.functional_extensionality_dep`** — 52 theorems:

* `T_check`: C100_check_exact, C100_test_passes
* `T_def`: C58_samplerz, C58_samplerz_near, C58_sign_bt, C58_sign, C58_keygen_sign
* `T_fft`: C44_fft, C44_ifft_fft, C44_fft_ifft, C44_points, C44_pointwise, C45_split, C45_merge, C45_split_merge, C45_merge_split, C45_adjoint, C45_norm
* `T_fgs`: C66_gs_test, C66_keygen
* `T_float`: C61_table, C61_fft, C61_ifft, C61_round_trip, C62_product
* `T_fsign`: C63_matrix, C63_signature, C63_norm, C64_recompute_G, C65_sign_then_verify, C65_keygen_sign_verify
* `T_genlaw`: C77_deviation
* `T_norm`: C57_energy, C57_signature
* `T_samp`: C40_exp_core
* `T_sign`: C49_integral, C29_signing_algebra, C50_recompute_G, C50_generated, C55_sign_then_verify, C55_keygen_sign_verify
* `T_table`: C59_table
* `T_testg`: C104_test, C104_norm
* `T_testh`: C105_test, C105_norm
* `T_tree`: C46_gram, C46_ldl, C48_leaves, C54_test_is_norm, C54_generated_keys_short, C54_leaf_range

**`ClassicalDedekindReals.sig_forall_dec`, `ClassicalDedekindReals.sig_not_dec`, `Classical_Prop.classic`, `FunctionalExtensionality.functional_extensionality_dep`** — 61 theorems:

* `T_adapt`: C91_adaptive_requests
* `T_birth`: C98_salts_repeat, C98_one_in_three, C98_keys_repeat
* `T_blind`: C87_guess_rejected
* `T_bytes`: C81_bytes_refuted
* `T_coset`: C73_coset_gaussian, C73_key_free
* `T_dist`: C70_table, C70_distribution
* `T_fgs`: C66_accepts
* `T_fit`: C85_compressed_size, C85_first_pass, C85_rarely_restarts
* `T_float`: C61_ieee
* `T_fsafe`: C69_samplerz, C69_sign_bt, C69_sign, C69_keygen_sign
* `T_fsamp`: C67_samplerz, C67_defined, C67_near, C67_ber_exp
* `T_ftree`: C68_tree
* `T_gauss`: C72_centre_free, C72_lattice_gaussian, C72_mass
* `T_genlaw`: C77_gen_poly
* `T_iso`: C79_attempts
* `T_joint`: C71_joint
* `T_kub`: C76_keygen_defined_refuted, C76_probability
* `T_live`: C60_sign_bt, C60_sign
* `T_loop`: C74_signature_law, C74_key_free
* `T_ngen`: C78_key_pair
* `T_oob`: C92_remainders, C92_outside, C92_inside
* `T_reduce`: C95_forging
* `T_rom`: C94_hash_and_sign_requests
* `T_rounds`: C102_rounds, C102_test
* `T_samp`: C40_threshold, C42_exact, C42_defined, C43_silent_zero
* `T_sim`: C84_simulation
* `T_simsig`: C90_simulated_signature
* `T_strong`: C97_strong_forging
* `T_testh`: C105_zero, C105_every_draw_refuted
* `T_twist`: C89_one_signature_refuted, C89_twist
* `T_ver`: C86_large_coefficients, C86_sign_then_verify, C86_nearly_always
* `T_wide`: C75_norm_test, C75_rarely_long, C75_long_mass

