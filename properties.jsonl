{"id": "C01", "title": "Field add/sub/neg are exact mod q", "statement": "For canonical field elements a,b in [0,12289): a+b, a+=b, a-b and -a return the canonical representative of the integer sum, difference and negation modulo 12289; ff_t(v) is v mod 12289 for every 16-bit v.", "quantifier": "all canonical a,b (and every uint16 v for the constructor)", "why_tests_cant": "151 million operand pairs, with wrap-around cases (a+b=q, -0) that random sampling rarely hits; 16-bit truncation must be shown harmless on all of them.", "anchors": ["include/ff.hpp: ff_t::ff_t, operator+, operator+=, operator-"]}
{"id": "C02", "title": "Field multiplication (Barrett) is exact mod q", "statement": "For every pair of values a,b below 2^14 (canonical or not), a*b and a*=b return the canonical representative of a*b mod 12289; the 32-bit and 64-bit intermediates never lose bits.", "quantifier": "all a,b < 2^14", "why_tests_cant": "2^28 pairs; an error in the Barrett constant or in the final conditional subtraction is visible only for a thin set of products.", "anchors": ["include/ff.hpp: operator*, operator*=, R, Q"]}
{"id": "C03", "title": "Field inverse and division", "statement": "For every canonical a != 0, a.inv() is canonical and a*a.inv() = 1 mod q; 0.inv() = 0; a/b is the unique canonical c with c*b = a when b != 0, and is 0 when b = 0. The 16-bit extended-gcd loop terminates and never truncates.", "quantifier": "all canonical a, b", "why_tests_cant": "Correctness depends on the sign and magnitude of every intermediate of a data-dependent loop in 16-bit arithmetic.", "anchors": ["include/ff.hpp: xgcd, inv, operator/"]}
{"id": "C04", "title": "Field exponentiation", "statement": "a ^ n is the canonical representative of a^n mod q for every canonical a and every 64-bit n, including n = 0 (result 1).", "quantifier": "all canonical a and all 0 <= n < 2^64", "why_tests_cant": "The exponent space is 2^64; tests stop at 2^20.", "anchors": ["include/ff.hpp: operator^"]}
{"id": "C05", "title": "NTT computes evaluations in bit-reversed order", "statement": "ntt<LOG2N> replaces the coefficients a_0..a_{N-1} by y with y_i = sum_j a_j * zeta^((2*brv(i)+1)*j) mod q, zeta = 49 (N=512) or 7 (N=1024), brv = LOG2N-bit reversal; all accesses stay inside the N-element array.", "quantifier": "all arrays of N canonical elements, N in {512,1024}", "why_tests_cant": "12289^512 inputs; tests only check multiply-then-divide round trips, which a wrongly ordered transform also passes.", "anchors": ["include/ntt.hpp: ntt, bit_rev, compute_powers_of_ζ"]}
{"id": "C06", "title": "NTT and inverse NTT are mutually inverse", "statement": "intt(ntt(a)) = a and ntt(intt(y)) = y for all canonical arrays, and both always return canonical arrays.", "quantifier": "all canonical arrays of N elements", "why_tests_cant": "Must hold for all 12289^N arrays.", "anchors": ["include/ntt.hpp: ntt, intt, compute_neg_powers_of_ζ, INV_FALCON512_N"]}
{"id": "C07", "title": "NTT-domain product is multiplication in Z_q[x]/(x^N+1)", "statement": "intt(mul(ntt a, ntt b)) is the negacyclic product of a and b reduced mod q; the product also is correct when an operand holds unreduced values below 2^14.", "quantifier": "all a, b", "why_tests_cant": "Algebraic law over an exponentially large domain.", "anchors": ["include/ntt.hpp", "include/polynomial.hpp: mul"]}
{"id": "C08", "title": "Invertibility test decides invertibility", "statement": "is_poly_invertible(f) returns true if and only if f has an inverse in Z_q[x]/(x^N+1).", "quantifier": "all integer polynomials f with coefficients in (-q,q)", "why_tests_cant": "Non-invertible f are rare (about N/q of all), so tests almost never see the false branch, and 'no inverse exists' is a universal statement.", "anchors": ["include/ntru_gen.hpp: is_poly_invertible"]}
{"id": "C09", "title": "Public key computation h = g/f", "statement": "Whenever f is invertible mod q, compute_public_key returns the unique canonical h with h*f = g in Z_q[x]/(x^N+1).", "quantifier": "all f, g with coefficients in (-q,q) and f invertible", "why_tests_cant": "Universal over keys; uniqueness is not testable.", "anchors": ["include/keygen.hpp: compute_public_key", "include/polynomial.hpp: div"]}
{"id": "C10", "title": "Public key bytes round trip (encode then decode)", "statement": "decode_pkey(encode_pkey(h)) succeeds and returns h; the encoding is exactly 1+14N/8 bytes, starts with log2 N, and neither routine touches memory outside these arrays.", "quantifier": "all h with coefficients below 2^14, N in {512,1024}", "why_tests_cant": "Must hold for every coefficient value at every position within a 7-byte group.", "anchors": ["include/encoding.hpp: encode_pkey", "include/decoding.hpp: decode_pkey"]}
{"id": "C11", "title": "Public key bytes round trip (decode then encode), header rejection", "statement": "If the first byte is not log2 N decode_pkey returns false and sets h to zero; otherwise it returns true and re-encoding the result reproduces the input bytes, so distinct byte strings give distinct arrays.", "quantifier": "all byte strings of public key length", "why_tests_cant": "Universal over 256^897 byte strings.", "anchors": ["include/decoding.hpp: decode_pkey"]}
{"id": "C12", "title": "Decoded public keys are canonical (expected; violated)", "statement": "A successfully decoded public key has all coefficients below q, so that two different public key byte strings never denote the same key. The code does not check the range: the property is refuted, and verification provably treats a coefficient v and v-q as the same key.", "quantifier": "all byte strings accepted by decode_pkey", "why_tests_cant": "Tests only decode keys they encoded.", "anchors": ["include/decoding.hpp: decode_pkey", "include/verification.hpp: verify"]}
{"id": "C13", "title": "Secret key bytes round trip on the representable range", "statement": "For f,g in [-32,31] (N=512) or [-16,15] (N=1024) and F in [-128,127], decode_skey(encode_skey(f,g,F)) succeeds and returns f,g,F; length is 1+2*(bits*N/8)+N and accesses are in bounds.", "quantifier": "all f,g,F in range", "why_tests_cant": "Every coefficient value at every position in the packed group.", "anchors": ["include/encoding.hpp: encode_skey", "include/decoding.hpp: decode_skey"]}
{"id": "C14", "title": "Secret key decode is total and injective", "statement": "decode_skey rejects exactly the strings whose first byte is not 0x50|log2 N (zeroing f,g,F); for all others encode_skey(decode_skey(sk)) = sk and the decoded coefficients lie in the representable range.", "quantifier": "all byte strings of secret key length", "why_tests_cant": "Universal over byte strings.", "anchors": ["include/decoding.hpp: decode_skey"]}
{"id": "C15", "title": "Secret key encoding never loses information (expected; violated)", "statement": "Encoding a secret key that the library can generate and decoding it returns the same polynomials. Refuted for out-of-range coefficients: encode_skey silently truncates, and key generation performs no range check.", "quantifier": "all int32 f, g, F", "why_tests_cant": "Out-of-range coefficients are rare events of the sampler.", "anchors": ["include/encoding.hpp: encode_skey", "include/falcon.hpp: keygen", "include/ntru_gen.hpp: ntru_gen"]}
{"id": "C16", "title": "Compression writes the spec bit string", "statement": "compress_sig(s) returns true iff sum_i (9 + floor(|s_i|/128)) < 8*sbytelen-328, and then bytes 41.. of the signature are exactly the bit string of Algorithm 17 (sign, 7 low bits, unary high part) padded with zero bits; on failure these bytes are zero. Bytes 0..40 are never modified.", "quantifier": "all integer vectors s whose bit string fits the internal buffer", "why_tests_cant": "Every magnitude and every bit alignment.", "anchors": ["include/encoding.hpp: compress_sig"]}
{"id": "C17", "title": "Compression never overruns its internal buffer on short vectors", "statement": "If the squared norm of s is at most beta^2 (34034726 / 70265242) compress_sig performs no out-of-bounds access; without that precondition it can (witness).", "quantifier": "all int32 vectors s with squared norm at most beta^2", "why_tests_cant": "A worst-case (Cauchy-Schwarz) argument over all vectors.", "anchors": ["include/encoding.hpp: compress_sig", "include/signing.hpp: sign"]}
{"id": "C18", "title": "Decompression inverts compression (expected; holds only for |s_i| <= 1023)", "statement": "If compress_sig(s) returns true then decompress_sig of the result returns true with s. Proved for all s with |s_i| <= 1023; refuted in general: the branch for unary runs of 8 or more zeros never adds the high part and advances past the terminating bit incorrectly.", "quantifier": "all s accepted by compress_sig", "why_tests_cant": "A coefficient of 1024 or more has probability about 1e-9 per sample, so honest-signature tests never reach the branch.", "anchors": ["include/decoding.hpp: decompress_sig", "include/encoding.hpp: compress_sig"]}
{"id": "C19", "title": "Signature bodies are uniquely decodable / non-malleable (expected; violated)", "statement": "At most one signature body decompresses to a given polynomial. Refuted: runs of 8 or more zeros make several different bodies decode to the same polynomial; proved for bodies whose unary runs are all shorter than 8.", "quantifier": "all pairs of signature byte strings", "why_tests_cant": "Random byte strings are almost never accepted, so the existing fuzz-style test never exercises it.", "anchors": ["include/decoding.hpp: decompress_sig"]}
{"id": "C20", "title": "Exact accepted language of decompression", "statement": "decompress_sig accepts a body with result s if and only if its bits are a concatenation of N codewords of the (stated) grammar denoting s, followed by at least one zero bit and only zero bits; -0 is rejected; on rejection the output is all zero.", "quantifier": "all byte strings of signature length (plus readable slack)", "why_tests_cant": "Full functional characterisation over all inputs.", "anchors": ["include/decoding.hpp: decompress_sig, extract_8_contiguous_bits, extract_rem_contiguous_bits_in_byte"]}
{"id": "C21", "title": "Decompression reads only the signature (expected; violated)", "statement": "decompress_sig/verify read no byte outside the sbytelen-byte signature. Refuted: 1 or 2 bytes past the end are read, even for honest signatures. Proved: it never reads beyond 2 bytes past the end and the result never depends on those bytes.", "quantifier": "all byte strings of signature length", "why_tests_cant": "Out-of-bounds reads of one byte do not change results and are invisible without instrumentation.", "anchors": ["include/decoding.hpp: decompress_sig, extract_8_contiguous_bits"]}
{"id": "C22", "title": "Hash-to-point is Algorithm 3", "statement": "hash_to_point returns the first N big-endian 16-bit words below 61445 of the SHAKE256 output of salt||msg, each reduced mod q; the result is canonical, exactly N long and independent of the block size in which output is read.", "quantifier": "all salts, messages and XOF outputs", "why_tests_cant": "Universal over XOF outputs (e.g. rejections straddling block boundaries).", "anchors": ["include/hashing.hpp: hash_to_point"]}
{"id": "C23", "title": "Hash-to-point rejection sampling is unbiased", "statement": "Each residue class mod q is hit by exactly 5 of the accepted 16-bit words.", "quantifier": "all residues r in [0,q)", "why_tests_cant": "Counting statement over the full word space and every residue.", "anchors": ["include/hashing.hpp: hash_to_point"]}
{"id": "C24", "title": "Verification implements the Falcon acceptance condition", "statement": "When the squared norm does not overflow 32 bits, verify(pk,msg,sig) returns true iff the header bytes are right, the body decodes to s2 and ||(c - s2*h mod q, s2)||^2 <= beta^2 with s1 lifted to [-6145,6143] and c the hash of salt||msg.", "quantifier": "all public keys, messages and signatures", "why_tests_cant": "Needs the algebra of the NTT for all inputs.", "anchors": ["include/verification.hpp: verify", "include/falcon.hpp: verify"]}
{"id": "C25", "title": "Verification is sound: accepted implies short (expected; violated)", "statement": "verify returns true only if (s1,s2) is short. Refuted: the int32 accumulator overflows (undefined behaviour) for almost all invalid signatures, and with the usual two's complement wrap-around a signature with s2 = 0 is accepted for every public key.", "quantifier": "all public keys, messages and signatures", "why_tests_cant": "Tests never verify an invalid signature; the failing behaviour is an arithmetic overflow.", "anchors": ["include/verification.hpp: verify (sqrd_norm)"]}
{"id": "C26", "title": "Centred lift uses the least representative (expected; violated at 6144)", "statement": "s1 coefficients are lifted to the representative of least absolute value. Refuted for 6144 (lifted to -6145); proved for all other residues; for Falcon512 the deviation provably never changes the verdict, for Falcon1024 it can.", "quantifier": "all residues; all vectors", "why_tests_cant": "A single residue out of 12289.", "anchors": ["include/verification.hpp: verify (qby2)"]}
{"id": "C27", "title": "Wrong header is always rejected", "statement": "verify returns false whenever the first public key byte is not log2 N or the first signature byte is not 0x30|log2 N, whatever the other bytes; sign(skey,..) returns false without touching the signature buffer whenever the first secret key byte is not 0x50|log2 N.", "quantifier": "all byte strings with a wrong first byte", "why_tests_cant": "Universal over the remaining bytes.", "anchors": ["include/falcon.hpp: verify, sign", "include/decoding.hpp: decode_sig"]}
{"id": "C28", "title": "Completeness: honest signatures verify", "statement": "For a key with f*G - g*F = q and h = g/f mod q: any s2 = z0*f + z1*F with s1 = c - z0*g - z1*G, ||(s1,s2)||^2 <= beta^2, |s2_i| <= 1023 and successful compression yields signature bytes that verify accepts without overflow.", "quantifier": "all keys, messages, salts and sampled integer vectors z0,z1", "why_tests_cant": "Universal over keys and sampler outcomes.", "anchors": ["include/signing.hpp: sign", "include/verification.hpp: verify", "include/falcon.hpp"]}
{"id": "C29", "title": "Signing algebra (exact arithmetic)", "statement": "In exact arithmetic the vector computed by sign satisfies s0 + s1*h = c mod q and both components have integer coefficients, whatever integers the sampler returns.", "quantifier": "all keys satisfying the NTRU equation, all c, all sampler outputs", "why_tests_cant": "Universal over sampler outcomes.", "anchors": ["include/signing.hpp: sign", "include/ffsampling.hpp: ff_sampling"]}
{"id": "C30", "title": "Signature layout", "statement": "Whenever sign returns, the signature is header 0x30|log2 N, the 40 salt bytes read first from the generator, and a body that compress_sig produced successfully for a vector whose computed norm passed the bound; only sbytelen bytes are written.", "quantifier": "all keys, messages and random streams, any floating point behaviour", "why_tests_cant": "Universal over random streams and rejection histories.", "anchors": ["include/signing.hpp: sign", "include/falcon.hpp: sign"]}
{"id": "C31", "title": "Big-integer extended gcd", "statement": "xgcd(x,y) terminates and returns (a,b,g) with a*x+b*y = g and |g| = gcd(x,y).", "quantifier": "all integers x, y", "why_tests_cant": "Unbounded integers.", "anchors": ["include/ntru_gen.hpp: xgcd"]}
{"id": "C32", "title": "Karatsuba multiplication is polynomial multiplication", "statement": "karatsuba returns the 2N coefficients of the product and karamul the product mod x^N+1.", "quantifier": "all integer polynomials of power-of-two length", "why_tests_cant": "Unbounded coefficients, all sizes.", "anchors": ["include/karatsuba.hpp: karatsuba, karamul"]}
{"id": "C33", "title": "Field norm, lift and conjugate identities", "statement": "lift(field_norm(f)) = f * galois_conjugate(f) mod x^N+1; lift is multiplicative.", "quantifier": "all integer polynomials of even power-of-two length", "why_tests_cant": "Algebraic law.", "anchors": ["include/ntru_gen.hpp: field_norm, lift, galois_conjugate"]}
{"id": "C34", "title": "NTRU solver is sound", "statement": "If ntru_solve reports a solution (F,G) for (f,g) then f*G - g*F = q in Z[x]/(x^N+1) exactly, whatever the floating point computations in reduce produce.", "quantifier": "all f,g, all sizes, all floating point behaviour", "why_tests_cant": "Universal over inputs and rounding behaviour.", "anchors": ["include/ntru_gen.hpp: ntru_solve, reduce"]}
{"id": "C35", "title": "NTRU key generation output", "statement": "When ntru_gen returns: f is invertible mod q, every coefficient of f,g is bounded by 19*4096/N, and if F,G fit in int32 then f*G - g*F = q mod x^N+1.", "quantifier": "all random streams", "why_tests_cant": "Universal over random streams.", "anchors": ["include/ntru_gen.hpp: ntru_gen, gen_poly"]}
{"id": "C36", "title": "Key pair consistency", "statement": "The public key bytes produced by keygen decode to h with h*f = g mod q for the generated f,g; the secret key bytes decode to the same f,g,F if these are in the representable range.", "quantifier": "all random streams", "why_tests_cant": "Universal over generated keys.", "anchors": ["include/falcon.hpp: keygen"]}
{"id": "C37", "title": "u72 arithmetic", "statement": "u72 +, -, unary - are arithmetic mod 2^72, < and > are the numeric order, and the byte conversions are the exact big/little-endian encodings and mutually inverse.", "quantifier": "all 72-bit values / all 9-byte strings", "why_tests_cant": "2^144 pairs; carries at the 64-bit boundary.", "anchors": ["include/u72.hpp: u72_t"]}
{"id": "C38", "title": "Base sampler distribution is exactly the table", "statement": "base_sampler returns a value in [0,18] and exactly PDT[i] of the 2^72 possible 9-byte inputs give i.", "quantifier": "all 2^72 inputs", "why_tests_cant": "Counting over 2^72 inputs.", "anchors": ["include/samplerz.hpp: base_sampler, PDT, CDT, RCDT"]}
{"id": "C39", "title": "64x64 multiplication", "statement": "full_mul_u64(a,b) = (hi,lo) with hi*2^64+lo = a*b; top_63_bits extracts bits 63..125 of the product.", "quantifier": "all 64-bit a, b", "why_tests_cant": "2^128 pairs.", "anchors": ["include/samplerz.hpp: full_mul_u64, top_63_bits"]}
{"id": "C40", "title": "approx_exp fixed-point core", "statement": "For fixed-point inputs x in [0, 0.695] and ccs in [0,1] the result divided by 2^63 is within 2^-51 of ccs*exp(-x), except in the corner x <= 2^-63, ccs = 1 where the 63-bit mask makes it 0; ber_exp's threshold (in exact arithmetic, x in [0,2^60], ccs in [2^-20,1]) is within 2^-48*exp(-x)+2^-63 of ccs*exp(-x) in every case, the corner included.", "quantifier": "all fixed-point inputs", "why_tests_cant": "2^63 inputs; an accuracy bound is a real-analysis statement.", "anchors": ["include/samplerz.hpp: approx_exp, C"]}
{"id": "C41", "title": "Bernoulli comparison", "statement": "ber_exp's loop returns 1 iff the big-endian integer of (up to) 8 random bytes is below the 64-bit threshold, reading only as many bytes as needed (1..8), so acceptance probability is exactly threshold/2^64.", "quantifier": "all thresholds and random byte strings", "why_tests_cant": "2^128 combinations.", "anchors": ["include/samplerz.hpp: ber_exp"]}
{"id": "C42", "title": "SamplerZ range", "statement": "samplerz returns floor(mu)+z with -18 <= z <= 19 for every random stream, and consumes at least 11 bytes per attempt.", "quantifier": "all centers, deviations, random streams", "why_tests_cant": "Universal over random streams.", "anchors": ["include/samplerz.hpp: samplerz"]}
{"id": "C43", "title": "Deterministic samplerz stays inside its random byte array (expected; violated)", "statement": "The byte-array variants never read beyond rblen. Refuted: after a rejected attempt the next 10 bytes are read unconditionally.", "quantifier": "all byte arrays", "why_tests_cant": "Known-answer tests supply exactly enough bytes.", "anchors": ["include/samplerz.hpp: samplerz (array variant), ber_exp (array variant)"]}
{"id": "C44", "title": "FFT is evaluation and ifft inverts it (exact arithmetic)", "statement": "In exact arithmetic fft gives the evaluations at the N complex roots of x^N+1 in bit-reversed order, ifft(fft a) = a and fft(ifft y) = y, and pointwise product is multiplication mod x^N+1.", "quantifier": "all complex vectors of length 2^k, 1 <= k <= 10", "why_tests_cant": "Algebraic law over C; tests compare with tolerance on samples.", "anchors": ["include/fft.hpp: fft, ifft, POWERS_OF_ζ"]}
{"id": "C45", "title": "Split and merge (exact arithmetic)", "statement": "split_fft of the FFT of f is the FFT of its even and odd coefficients, merge_fft is its two-sided inverse, conjugation is the adjoint, and the FFT-domain squared norm equals the coefficient squared norm.", "quantifier": "all complex/real vectors of length 2^k", "why_tests_cant": "Algebraic law.", "anchors": ["include/fft.hpp: split_fft, merge_fft, adj_poly", "include/ntru_gen.hpp: sqrd_norm"]}
{"id": "C46", "title": "Gram matrix and LDL* (exact arithmetic)", "statement": "compute_gram_matrix returns B*B^adj, ldl returns L,D with L D L* = G for every self-adjoint G with nonzero G00, and the determinant is preserved.", "quantifier": "all B, G", "why_tests_cant": "Algebraic law.", "anchors": ["include/keygen.hpp: compute_gram_matrix", "include/falcon_tree.hpp: ldl"]}
{"id": "C47", "title": "Falcon tree memory layout", "statement": "Building, normalising and walking the tree of height k touches only the first (k+1)*2^k cells; ffldl writes every cell and normalize_tree changes exactly the 2^k leaf cells.", "quantifier": "all heights k >= 1", "why_tests_cant": "Offset arithmetic over all recursion paths.", "anchors": ["include/falcon_tree.hpp: ffldl, normalize_tree", "include/ffsampling.hpp: ff_sampling"]}
{"id": "C48", "title": "Tree leaves are positive (exact arithmetic)", "statement": "For every key with f*G - g*F = q the values whose square root is taken in normalize_tree are real and strictly positive.", "quantifier": "all keys satisfying the NTRU equation", "why_tests_cant": "Universal over keys.", "anchors": ["include/falcon_tree.hpp: ffldl, normalize_tree"]}
{"id": "C49", "title": "ffSampling returns integer polynomials (exact arithmetic)", "statement": "z0 and z1 returned by ff_sampling are FFTs of polynomials with integer coefficients, for every target, tree and sampler behaviour.", "quantifier": "all targets, trees, random streams", "why_tests_cant": "Universal over random streams.", "anchors": ["include/ffsampling.hpp: ff_sampling"]}
{"id": "C50", "title": "Recomputed G (exact arithmetic)", "statement": "recompute_G(f,g,F) returns the G of the NTRU equation whenever it exists and f has no complex root in common with x^N+1.", "quantifier": "all f,g,F,G with f*G - g*F = q", "why_tests_cant": "Universal over keys.", "anchors": ["include/falcon.hpp: recompute_G"]}
{"id": "C51", "title": "Key space is limited by a 32-bit seed (entropy expectation violated)", "statement": "The generator state, hence keygen's key pair, is a function of one 32-bit random_device value, so at most 2^32 different key pairs / salts streams can ever be produced although the seed buffer is 256 bits.", "quantifier": "all possible runs", "why_tests_cant": "A statement about the set of all runs.", "anchors": ["include/prng.hpp: prng_t::prng_t"]}
{"id": "C52", "title": "Hex helpers round trip", "statement": "to_byte_array(to_hex(b)) = b for every byte array; each pair of hexadecimal digits, lower case or capitals, is read as its value.", "quantifier": "all byte arrays", "why_tests_cant": "Universal over arrays.", "anchors": ["include/common.hpp: to_hex, to_byte_array"]}
{"id": "C53", "title": "Byte layout of keys (MSB-first expectation violated)", "statement": "The public key body, read as a little-endian number, equals sum h_i*2^(14i); likewise f and g in base 64 or 32, and F one byte per coefficient. It is therefore not the most-significant-bit-first packing of the Falcon specification.", "quantifier": "all polynomials with representable coefficients", "why_tests_cant": "The layout identity ranges over all polynomials; round-trip tests cannot see a bit-order mismatch.", "anchors": ["include/encoding.hpp: encode_pkey, encode_skey"]}
{"id": "C54", "title": "Gram-Schmidt test bounds the standard deviations given to the sampler (exact arithmetic)", "statement": "gram_schmidt_norm returns the squared Gram-Schmidt norm max(|f|^2+|g|^2, q^2*mean 1/(|f|^2+|g|^2)) of the NTRU basis; every key returned by ntru_gen has squared norm at most 1.17^2*q; and for every NTRU key within that bound each of the N leaves of the normalised tree is real and lies in [1.2778336968, 1.7493] (N=512) resp. [1.298280334, 1.7773] (N=1024), so below sigma_max = 1.8205.", "quantifier": "all keys satisfying the NTRU equation; all runs of ntru_gen", "why_tests_cant": "The leaves are produced by a recursion of depth 10 over all keys; the margin to sigma_min is 1e-10.", "anchors": ["include/ntru_gen.hpp: gram_schmidt_norm, ntru_gen", "include/falcon_tree.hpp: ffldl, normalize_tree"]}
{"id": "C55", "title": "Sign then verify (exact arithmetic)", "statement": "For every secret key whose decoded f, g, F complete to a solution of the NTRU equation with f invertible mod q, every message and random stream: if sign returns then it returns true, the produced vector satisfies s1 + s2*h = Hash(salt||msg) mod q with |(s1,s2)|^2 <= beta^2, and verify(pkey,msg,sig) returns true provided the coefficients of s2 are at most 1023 in absolute value and, for N=1024, no coefficient of s1 is 6144. The same holds for the keys written by keygen.", "quantifier": "all keys, messages, random streams, signature buffers", "why_tests_cant": "Joins key decoding, G recomputation, FFT signing, compression, decompression and NTT verification over all keys and random choices.", "anchors": ["include/falcon.hpp: keygen, sign, verify"]}
{"id": "C56", "title": "Malformed hex text is rejected (violated)", "statement": "to_byte_array should not accept text that is not hexadecimal. It does: it never reports an error, and for instance \"zz\" yields the byte 0. It never writes outside a buffer of at least length/2 bytes.", "quantifier": "all strings and buffers", "why_tests_cant": "The in-bounds part ranges over all strings.", "anchors": ["include/common.hpp: to_byte_array"]}
{"id": "C57", "title": "ff_sampling's quadratic form is the norm of the signature vector", "statement": "In exact arithmetic, for every NTRU key, integer target and random stream, a run of ff_sampling on the tree of the key makes exactly 2N calls to the integer sampler, in the order of the generator stream, with the N leaves (last to first, each twice) as standard deviations, and the sum of (z-mu)^2/(2 sigma_i^2) over the calls equals (|s1|^2+|s2|^2)/(2 sigma^2) for the vector signing computes from the result; so the acceptance test bounds that sum, and no other function of the secret basis enters the density.", "quantifier": "All N = 2^lg with 1 <= lg <= 10, all NTRU quadruples, all integer targets, all generator streams, all successful runs.", "why_tests_cant": "A sampler with a wrong tree index, a wrong sign in the back substitution or a wrong conjugate still returns short-looking integer vectors that verify; only the identity over all runs rules out leakage of the basis through the norm distribution.", "anchors": ["include/ffsampling.hpp: ff_sampling", "include/falcon_tree.hpp: ffldl, normalize_tree", "include/signing.hpp: sign"]}
{"id": "C58", "title": "Signing executes no undefined operation", "statement": "In exact arithmetic, signing with a key that satisfies the NTRU equation, passes the Gram-Schmidt norm test and has |F|, |G| <= 27000 performs no undefined operation: no double-to-integer conversion out of range, no signed overflow, no out-of-bounds access and no undefined shift, in hash_to_point, ff_sampling, samplerz, the rounding of s2, or compress, whatever the message, hash function and random stream and however many attempts are rejected. A sample returned by samplerz is within 19 of its centre.", "quantifier": "Both parameter sets, all such keys, messages, hash functions, generator streams, signature buffers of at least the standard length, all numbers of retries.", "why_tests_cant": "The conversion of the centre to int32_t inside the sampler is undefined for large centres; centres depend on all of the key, the message and the previous samples, and bounding them needs the Gram-Schmidt structure of the tree.", "anchors": ["include/samplerz.hpp: samplerz, ber_exp, approx_exp", "include/ffsampling.hpp: ff_sampling", "include/signing.hpp: sign", "include/falcon.hpp: sign"]}
{"id": "C59", "title": "The FFT's table of constants is the table of roots of unity", "statement": "Each of the 1024 pairs of decimal literals of the FFT table, read as exact decimals, lies within 10^-15 (Euclidean distance) of e^(i pi brv10(k)/1024), where brv10 reverses ten bits.", "quantifier": "All 1024 entries (the whole table).", "why_tests_cant": "A wrong digit in one entry perturbs transforms slightly and only for some sizes and inputs; tests with tolerances or round trips do not notice.", "anchors": ["include/fft.hpp: POWERS_OF_ζ, computeζ, bit_rev"]}
{"id": "C60", "title": "Signing can succeed", "statement": "In exact arithmetic, for both parameter sets, every NTRU key with squared Gram-Schmidt norm at most 16822 and |F|, |G| <= 27000, every message, salt and generator position: if the hash of salt and message is defined, there are 22 N bytes such that every generator stream that continues with the salt and these bytes makes signing return a signature at the first attempt, with one trial per sample, consuming exactly those bytes. So no such key makes the signing loop run forever on all streams. The same holds for sign() on the encoded secret key.", "quantifier": "Both parameter sets, all such keys, messages, salts, hash functions, generator positions, signature buffers.", "why_tests_cant": "A termination claim about a random rejection loop: a run that does not end proves nothing, and a run that ends says nothing about the other keys and messages.", "anchors": ["include/falcon.hpp: sign", "include/signing.hpp: sign", "include/ffsampling.hpp: ff_sampling", "include/samplerz.hpp: samplerz"]}
{"id": "C61", "title": "The FFT's rounding error is bounded, and integer vectors survive a round trip", "statement": "In any double arithmetic satisfying the standard model (relative error 2^-53 per operation; proved of IEEE binary64 with round to nearest), with the table of fft.hpp, for every N = 2^lg <= 1024 and every vector at distance e from v: fft returns finite values within sqrt(N) (e + lg 2e-15 |v|) of the exact transform of v, ifft within (e + (lg+1) 2e-15 |values|)/sqrt(N) of the exact inverse; and fft, ifft, std::round returns every vector of 32-bit integers (-2^31 excepted) unchanged.", "quantifier": "All lg <= 10, all vectors (norm up to 10^37), all arithmetics of the model, IEEE binary64 in particular.", "why_tests_cant": "Worst-case error over all inputs; sampled inputs show typical error only.", "anchors": ["include/fft.hpp: fft, ifft, POWERS_OF_ζ"]}
{"id": "C62", "title": "Products of integer polynomials through the FFT are exact", "statement": "In IEEE binary64 (and any arithmetic of the standard model): converting two non-zero integer polynomials a, b with |a|^2 |b|^2 <= 10^22 to double, fft, pointwise product, ifft and rounding returns exactly a*b mod x^N + 1, provided the result fits in 32 bits.", "quantifier": "All lg <= 10, all such a, b.", "why_tests_cant": "Worst-case rounding over all pairs of polynomials.", "anchors": ["include/fft.hpp: fft, ifft", "include/polynomial.hpp: mul"]}
{"id": "C63", "title": "Rounding errors cannot spoil a signature", "statement": "In IEEE binary64 (and any arithmetic of the standard model), for both parameter sets and every NTRU key with |f|^2, |g|^2 <= 131^2 and |F|^2, |G|^2 <= 4096^2 (which every 8-bit F meets): compute_matrix_B returns the transforms of g, -f, G, -F within 1e-10 resp. 3e-9 (Euclidean norm of the whole vector), and whenever sign(B, T, msg) returns, for any tree T and any random bytes, the encoded s2 equals z0 f + z1 F for integer polynomials z0, z1 exactly, and the exact squared norm of (c - z0 g - z1 G, s2) is at most beta^2 + 53. If moreover |F|^2, |G|^2 <= 1500^2 and the values of f, g (F, G) at the roots are at most 400 (6000), it is at most beta^2, the bound verification applies.", "quantifier": "Both parameter sets, all such keys, all trees, messages, random streams, hash functions.", "why_tests_cant": "Needs the worst case of about 10^5 rounding errors per signature over all keys and random choices.", "anchors": ["include/falcon.hpp: compute_matrix_B, sign", "include/signing.hpp: sign", "include/ffsampling.hpp: ff_sampling", "include/fft.hpp: fft, ifft, merge"]}
{"id": "C64", "title": "The fourth key polynomial is recomputed exactly in binary64", "statement": "In IEEE binary64 (and any arithmetic of the standard model), for both parameter sets and all f, g, F, G solving the NTRU equation with |f|^2, |g|^2 <= 131^2, |F|^2, |G|^2 <= 4096^2 and |f(zeta)| >= 1/1000 at every root zeta of x^N + 1, recompute_G returns exactly G.", "quantifier": "Both parameter sets, all such polynomials.", "why_tests_cant": "Division by values that may be small amplifies errors; the worst case is not met by sampled keys.", "anchors": ["include/falcon.hpp: recompute_G"]}
{"id": "C65", "title": "Signatures made in binary64 verify", "statement": "In IEEE binary64 (and any arithmetic of the standard model): if sign() with an encoded secret key (f, g, F) whose norms and values at the roots are within the bounds of the two preceding properties returns, it returns true, the signature consists of the header, the salt and the encoding of some s2 with s1 + s2 h = c mod q and |s1|^2 + |s2|^2 <= beta^2, and verify() with the public key of f, g accepts it, provided |s2| <= 1023 coefficientwise and, for N = 1024, s1 has no coefficient 6144 (the defects of the compression and of the norm test). The same for the pair of byte strings keygen() returns.", "quantifier": "Both parameter sets, all such keys, messages, random streams, hash functions.", "why_tests_cant": "Covers every message and every random choice under worst-case rounding.", "anchors": ["include/falcon.hpp: keygen, sign, verify, recompute_G, compute_matrix_B", "include/signing.hpp: sign", "include/verification.hpp: verify"]}
{"id": "C66", "title": "The Gram-Schmidt test of key generation is reliable in binary64", "statement": "In IEEE binary64 (and any arithmetic of the standard model): every (f, g) that passes the test max(|f|^2 + |g|^2, |second Gram-Schmidt vector|^2) <= 1.17^2 q as computed by ntru_gen satisfies |f|^2 + |g|^2 <= 16822 exactly, and, if |f(zeta)|^2 + |g(zeta)|^2 >= 1e-18 at every root of x^N + 1, the exact Gram-Schmidt norm of the key is at most 16822.4122 (the threshold is 16822.4121). Every key ntru_gen returns whose 32-bit F, G satisfy the NTRU equation meets that condition.", "quantifier": "Both parameter sets, all f, g with coefficients up to 200, all random streams.", "why_tests_cant": "An ill-conditioned (f, g) could make the computed quotients meaningless (0/0 even passes the test, since std::max(a, NaN) is a); sampled keys do not come near such pairs.", "anchors": ["include/ntru_gen.hpp: gram_schmidt_norm, ntru_gen"]}
{"id": "C67", "title": "The integer sampler is safe and accurate in binary64", "statement": "In IEEE binary64, for every finite mu with |floor(mu)| <= 2147483000 and every sigma' in [1, 1.8205]: samplerz(mu, sigma', sigma_min) performs no undefined double-to-integer conversion (in particular x - floor(x*INV_LN2)*LN2 is never negative, whatever the rounding), its result is within 19 of mu, and for sigma_min <= sigma' it is rejection sampling over the table's proposals with acceptance probabilities within a relative error 2^-39 (plus 2^-63) of (sigma_min/sigma') exp(-x), x being the exact exponent of the proposal.", "quantifier": "All doubles mu, sigma', sigma_min in the stated ranges, all random streams.", "why_tests_cant": "A single double x just below a multiple of LN2 whose product with INV_LN2 rounds up would cast a negative double to uint64_t; no test would find it.", "anchors": ["include/samplerz.hpp: samplerz, ber_exp, approx_exp"]}
{"id": "C68", "title": "The signing tree is accurate in binary64", "statement": "In IEEE binary64, for every key (f, g, F, G) that satisfies the NTRU equation, whose Gram-Schmidt norm is at most 16822.4122 (what the key-generation test establishes) and with |F|^2, |G|^2 <= 4096^2: compute_matrix_B and compute_falcon_tree perform no undefined operation, every cell of the tree is finite and within 1/400 of the cell of the tree computed in exact arithmetic, and every leaf (the standard deviation passed to the sampler) is real and in [1.27, 1.79].", "quantifier": "Both parameter sets, all such keys.", "why_tests_cant": "Each level divides by entries computed at the level above; the rounding errors could be amplified at every level, and the worst case over all keys is not met by sampled ones.", "anchors": ["include/falcon.hpp: compute_matrix_B, compute_falcon_tree", "include/falcon_tree.hpp: ldl, ffldl, normalize_tree"]}
{"id": "C69", "title": "Signing in binary64 performs no undefined operation", "statement": "In IEEE binary64, for both parameter sets and every key (f, g, F, G) that satisfies the NTRU equation, whose Gram-Schmidt norm is at most 16822.4122 (what the key-generation test establishes) and with |F|^2, |G|^2 <= 4096^2: sign(B, T, msg, sig) with the matrix and tree of the key performs no out-of-bounds access, no conversion of a double outside the range of the integer type and no undefined shift or signed addition, whatever the message, the hash function, the random bytes and the number of retries, for every buffer sig that holds a signature. The same for sign(skey, msg, sig) when |f(zeta)| >= 1/1000 at every root of x^N + 1, and for the bytes keygen() returns.", "quantifier": "Both parameter sets, all such keys, messages, hash functions, random streams, retries.", "why_tests_cant": "The centres passed to the sampler depend on all previous samples and on rounding at every node; a centre outside the range of int32_t needs an adversarial combination that tests do not meet.", "anchors": ["include/falcon.hpp: sign, recompute_G, compute_matrix_B, compute_falcon_tree", "include/signing.hpp: sign", "include/ffsampling.hpp: ff_sampling", "include/samplerz.hpp: samplerz", "include/falcon_tree.hpp: ffldl"]}
{"id": "C70", "title": "The integer sampler follows the discrete Gaussian", "statement": "The base sampler's table is the half-Gaussian of standard deviation 1.8205, every entry except the first being the exact weight times 2^72 rounded down. In IEEE binary64, for every finite mu with |floor(mu)| <= 2147483000, every 1 <= sigma_min <= sigma' <= 1.8205: on uniformly random bytes samplerz(mu, sigma', sigma_min) ends within k attempts with probability 1 - (1-a)^k for some a >= 1/12, and returns v within k attempts with probability P(v) (1 - (1-a)^k), where P(v) differs from the discrete Gaussian probability exp(-(v-mu)^2/(2 sigma'^2)) / (sum over all integers) by at most a factor 2^-36 plus 2^-59.", "quantifier": "All doubles mu, sigma', sigma_min in the ranges, all integers v, all numbers of attempts.", "why_tests_cant": "A statistical test over samples cannot see deviations of size 2^-36, nor cover all centres and deviations.", "anchors": ["include/samplerz.hpp: samplerz, base_sampler, ber_exp, approx_exp"]}
{"id": "C71", "title": "Joint distribution of the sampled polynomials", "statement": "In exact arithmetic, for both parameter sets and every key (f, g, F, G) that satisfies the NTRU equation and passes the Gram-Schmidt test (for N = 512, with sigma_min^2 |B|_GS^2 <= sigma^2), |F|, |G| <= 27000 coefficientwise, and every hashed message c: on uniformly random bytes, the pair of integer polynomials (z0, z1) that ff_sampling returns within k attempts per call of samplerz is distributed, up to a total distance of 2N (2^-35 + (11/12)^k), as I(z0, z1) = exp(-(|c - z0 g - z1 G|^2 + |z0 f + z1 F|^2) / (2 sigma^2)) divided by the product of the Gaussian sums over all integers at the 2N centres and standard deviations of the run; these numbers add up to 1. The run ends with probability at least 1 - 2N (11/12)^k.", "quantifier": "Both parameter sets, all such keys, all targets, all finite sets of pairs of polynomials, all numbers of attempts.", "why_tests_cant": "The distribution lives on Z^1024 or Z^2048; no sample is ever seen twice, so no test estimates it.", "anchors": ["include/ffsampling.hpp: ff_sampling", "include/samplerz.hpp: samplerz", "include/falcon_tree.hpp: ffldl, normalize_tree", "include/falcon.hpp: compute_matrix_B, compute_falcon_tree", "include/signing.hpp: sign"]}
{"id": "C72", "title": "The samples of signing follow the discrete Gaussian on the lattice of the key", "statement": "In exact arithmetic, for the keys and messages of the previous property: the numbers weight(z0, z1) = exp(-(|c - z0 g - z1 G|^2 + |z0 f + z1 F|^2) / (2 sigma^2)) have a finite sum W over all pairs of integer polynomials, and on uniformly random bytes ff_sampling returns each pair with probability weight / W up to a total distance of 2N (2^-34 + (11/12)^k): the vectors signing draws are those of one spherical Gaussian on the lattice, whose normalisation does not depend on the path of the sampler. W is the same for all messages up to 2N 2^-34. For all standard deviations between 1.2778 and 1.8205 the sum of the Gaussian weights of the integers is the same for all centres up to a factor (1 + 2^-38)/(1 - 2^-38).", "quantifier": "Both parameter sets, all such keys, all targets, all finite sets of pairs of polynomials, all numbers of attempts, all centres and deviations.", "why_tests_cant": "A leak of the key through the shape of the distribution would show up only in the joint law of 1024 or 2048 coordinates.", "anchors": ["include/ffsampling.hpp: ff_sampling", "include/samplerz.hpp: samplerz", "include/falcon_tree.hpp: ffldl, normalize_tree", "include/signing.hpp: sign"]}
{"id": "C73", "title": "The vector signing draws depends on the public key and the message alone", "statement": "In exact arithmetic, for both parameter sets, every key of the previous property with public key h and every hashed message c: over all pairs (s1, s2) of integer polynomials with s1 = c - s2 h modulo q, the weights exp(-(|s1|^2 + |s2|^2) / (2 sigma^2)) have a finite sum W, and one pass of signing on uniformly random bytes draws each such pair with probability weight / W up to a total distance of 2N (2^-34 + (11/12)^k). Hence two secret keys with the same public key draw signatures of the same message from the same distribution, up to twice this distance.", "quantifier": "Both parameter sets, all such keys, all hashed messages, all finite sets of pairs, all numbers of attempts.", "why_tests_cant": "Signatures that leak the secret basis verify all the same; the leak shows only in the law of vectors in dimension 1024 or 2048, over keys sharing one public key that no test ever meets.", "anchors": ["include/signing.hpp: sign", "include/ffsampling.hpp: ff_sampling", "include/falcon.hpp: sign, compute_matrix_B, compute_falcon_tree", "include/keygen.hpp: keygen"]}
{"id": "C74", "title": "The signatures of sign follow a distribution given by the public key, the message and the salt", "statement": "In exact arithmetic, for both parameter sets, every key of the previous property with public key h and encoding skey, every message, every 40-byte salt with hashed message c: sign(skey, msg) on the salt followed by uniformly random bytes returns the signature with body s2 with probability omega(s2) / WA, where omega(s2) is the sum of exp(-(|s1|^2 + |s2|^2) / (2 sigma^2)) over the s1 with s1 = c - s2 h modulo q and |s1|^2 + |s2|^2 <= beta^2, for the s2 whose compressed form fits, and WA > 0 the sum over all s2. The total distance is at most 4 d / (WA / W) + (1 - WA / W + d)^m with d = 2N (2^-34 + (11/12)^k), W the sum without the two tests, m the number of passes of the loop and k the number of attempts per sampled integer. Two secret keys of one public key give the same distribution up to twice that.", "quantifier": "Both parameter sets, all such keys, all messages, salts and extendable-output functions, all finite sets of signatures, all numbers of passes and attempts, every buffer contents.", "why_tests_cant": "The restarts of the loop condition the distribution on two events; whether what is returned still follows the conditioned law is invisible to any number of verifications.", "anchors": ["include/falcon.hpp: sign", "include/signing.hpp: sign", "include/ffsampling.hpp: ff_sampling", "include/encoding.hpp: compress_sig", "include/hashing.hpp: hash_to_point"]}
{"id": "C75", "title": "The vector of one signing pass nearly always passes the norm test", "statement": "In exact arithmetic, for both parameter sets, every key of the previous properties and every hashed message c: one pass of signing on uniformly random bytes ends within k attempts per sampled integer with a vector of |s1|^2 + |s2|^2 <= beta^2 with probability at least 1 - 0.981^N - 2N (2^-34 + (11/12)^k), that is more than 0.9999 for k >= 512. In the discrete Gaussian on the pairs with s1 = c - s2 h modulo q, the pairs longer than beta carry at most 0.981^N of the weight.", "quantifier": "Both parameter sets, all such keys, all hashed messages, all numbers of attempts.", "why_tests_cant": "The bound on the norm is fixed in the code; that no key and no message makes signing restart for ever on it is a statement about all keys and messages.", "anchors": ["include/signing.hpp: sign", "include/ffsampling.hpp: ff_sampling", "include/falcon.hpp: compute_matrix_B, compute_falcon_tree", "include/falcon.hpp: sign"]}
{"id": "C76", "title": "Key generation runs without undefined behaviour", "statement": "In IEEE binary64 arithmetic, on every stream of random bytes keygen either returns a key pair or keeps looping: no operation on the way has undefined behaviour.", "quantifier": "Both parameter sets, all streams of random bytes, all contents of the output buffers, all numbers of passes.", "why_tests_cant": "The failing key polynomials have negligible probability; a campaign of any affordable size sees none of them. They are found by asking for which f and g the reduction of ntru_solve divides zero by zero.", "anchors": ["include/ntru_gen.hpp: ntru_gen, ntru_solve, reduce", "include/falcon.hpp: keygen"]}
{"id": "C77", "title": "The key polynomials are drawn from the discrete Gaussian of the specification", "statement": "In IEEE binary64 arithmetic, for both parameter sets: on uniformly random bytes the N coefficients that gen_poly writes are distributed as N independent discrete Gaussians with centre 0 and standard deviation s, where s is within 10^-13 of the specification's 1.17 sqrt(q / 2N): over any finite set of polynomials the absolute differences of probabilities add up to at most 2^-15 + 4096 (11/12)^k, with k the number of attempts allowed per sampled integer. The old contents of the buffer do not matter.", "quantifier": "Both parameter sets, all finite sets of polynomials, all numbers of attempts, all old contents of the buffer.", "why_tests_cant": "Each coefficient is a sum of 4096/N outputs of the sampler. A bias in that sum, a dependence between coefficients or a slightly wrong deviation leaves every key valid and is a statement about 512- or 1024-dimensional vectors.", "anchors": ["include/ntru_gen.hpp: gen_poly", "include/samplerz.hpp: samplerz"]}
{"id": "C78", "title": "Key generation returns f and g as drawn, conditioned on its tests and on nothing else", "statement": "In IEEE binary64 arithmetic, for both parameter sets: there is one constant c >= 1 such that ntru_gen, on uniformly random bytes and with m passes allowed, returns the pair f, g with probability c P(f) P(g) if f is invertible modulo q, the pair passes the Gram-Schmidt test and ntru_solve finds a solution, and with probability 0 otherwise, P being the probability that one call of gen_poly draws the polynomial; and c = 1 + r + ... + r^(m-1), r the probability that two independent draws f, g are rejected by one of the three tests. Hence, over any finite set of pairs, the probabilities differ from c D(f) D(g) on those pairs, D the product of discrete Gaussians, by at most 2 c (2^-15 + 4096 (11/12)^k) altogether.", "quantifier": "Both parameter sets, all pairs, all finite sets of pairs, all numbers of passes and attempts, all contents of the buffers, all tables of constants of the transform.", "why_tests_cant": "A loop that keeps f and redraws only g, or reuses random bytes between passes, still returns valid keys; that the restarts condition the law without skewing it concerns the probability of every single pair.", "anchors": ["include/ntru_gen.hpp: ntru_gen, gen_poly, is_poly_invertible, ntru_solve", "include/samplerz.hpp: samplerz"]}
{"id": "C79", "title": "The number of attempts of the sampler reveals neither its centre nor its deviation", "statement": "In IEEE binary64 arithmetic, for each parameter set there is one number a >= 1/12 such that, for every finite mu with |floor(mu)| <= 2147483000 and every standard deviation s between sigma_min and 1.8205: samplerz(mu, s, sigma_min) on uniformly random bytes ends within k attempts with probability 1 - (1-a)^k up to 2^-31 for every k, and the probabilities of ending at the attempts 1, 2, 3, ... differ from those of the geometric law of parameter a by at most 2^-27 in total.", "quantifier": "Both parameter sets, all doubles mu and s in the ranges, all numbers of attempts.", "why_tests_cant": "The centre and the deviation depend on the secret key. A dependence of the running time on them of size 2^-20 is exploitable over many signatures and far below what a timing test of a few thousand signatures resolves.", "anchors": ["include/samplerz.hpp: samplerz, ber_exp, base_sampler"]}
{"id": "C80", "title": "The number of bytes ber_exp compares does not depend on its arguments", "statement": "Every call of ber_exp(x, ccs) that is defined, on uniformly random bytes, consumes exactly j bytes with probability 255/256^j for j = 1..7 and 8 bytes with probability 1/256^7, whatever x and ccs are and whatever the arithmetic on doubles.", "quantifier": "All arguments, every floating-point arithmetic, all lengths of the byte string.", "why_tests_cant": "The early exit of the comparison depends on secret data; that its law is the same for all of them is an exact identity between probabilities.", "anchors": ["include/samplerz.hpp: ber_exp"]}
{"id": "C81", "title": "The number of random bytes samplerz consumes does not depend on its centre", "statement": "In IEEE binary64 arithmetic, for a fixed standard deviation, the number of random bytes that samplerz consumes has the same law for all centres, up to an error of the order of that of the number of attempts.", "quantifier": "All centres, all numbers of attempts.", "why_tests_cant": "The difference is about one part in 500 of one probability; it is found by computing the law, and no functional test looks at it.", "anchors": ["include/samplerz.hpp: samplerz, ber_exp"]}
{"id": "C82", "title": "The sampler of the known answer tests is the sampler of signing", "statement": "The two overloads of samplerz agree, for every arithmetic on doubles: if the one that reads from the generator (used by key generation and signing) returns v after consuming n bytes, the one that reads from an array (the only one the known answer tests call) returns v and n from every array that starts with those n bytes, the nine proposal bytes of each attempt in the opposite order. Conversely, if the array overload stops before the end of its array, the generator overload returns the same on every stream that starts with those bytes turned back.", "quantifier": "All centres, deviations, streams, arrays, numbers of attempts and floating-point arithmetics.", "why_tests_cant": "The known answer tests exercise only the array overload; nothing compares it with the overload that signing uses, and the two are separate copies of the code with different byte orders.", "anchors": ["include/samplerz.hpp: samplerz, ber_exp, base_sampler", "tests/test_samplerz.cpp"]}
{"id": "C83", "title": "The hash of a message is uniform over the polynomials modulo q", "statement": "When the bytes of the extendable-output function are uniformly random, hash_to_point returns every polynomial with N coefficients in [0, q) with exactly the same probability: P(it ends within k blocks) / q^N, for every number k of blocks; and it ends within k blocks with probability at least 1 - 16^N / 8^(68k). Salt, message and the old contents of the output array play no role beyond the bytes.", "quantifier": "All N = 2^lg, salts, messages, target polynomials, numbers of blocks and old contents of the buffer.", "why_tests_cant": "Uniformity on Z_q^512 is an equality between q^512 probabilities; a bias of the rejection (an off-by-one threshold, a dropped or repeated word at a block boundary) is invisible to tests of single hashes.", "anchors": ["include/hashing.hpp: hash_to_point"]}
{"id": "C84", "title": "Hashed message and signature vector together need no secret key", "statement": "For a sound secret key with public key h, when the bytes of the extendable-output function and of the random generator are uniformly random, the pair of the hashed message c and the vector (s1, s2) that one pass of signing draws for c has, up to a total distance of 2N (2/2^34 + (11/12)^k) + 16^N/8^(68j), the law of an experiment that uses only h: draw (s1, s2) from the discrete Gaussian of width sigma on all pairs of integer polynomials, and put c = s1 + s2 h mod q. (j: blocks of hash output, k: attempts per integer.)", "quantifier": "N = 512 and 1024; all sound keys, salts, messages, buffers, numbers of blocks and attempts; all finite sets of pairs (c, s).", "why_tests_cant": "This is the simulation on which the security argument for hash-and-sign rests: a statement about total variation distance on a space with q^N times infinitely many points.", "anchors": ["include/signing.hpp: sign", "include/hashing.hpp: hash_to_point", "include/ffsampling.hpp: ff_sampling", "include/samplerz.hpp: samplerz"]}
{"id": "C85", "title": "Signing nearly always succeeds at its first pass", "statement": "For a sound secret key, when the bytes of the extendable-output function and of the random generator are uniformly random, sign returns a signature after a single pass of its loop, so that neither the test on the norm nor the test on the length of the compressed form fails, with probability at least 0.9999 for N = 512 and at least 0.987 for N = 1024 (512 blocks of hash output and 512 attempts per integer allowed). In the Gaussian itself the vectors whose s2 does not fit into 666 or 1280 bytes carry at most 1/200000 (N = 512) and 1/80 (N = 1024) of the weight.", "quantifier": "N = 512 and 1024; all sound keys, messages, salts, output buffers; every number of passes from 1, every number of bytes that suffices for them.", "why_tests_cant": "The event to be excluded has probability 10^-5 or less for N = 512, and the claim is for every key and message; tests can only show that signing ended on the messages tried.", "anchors": ["include/signing.hpp: sign", "include/encoding.hpp: compress_sig", "include/hashing.hpp: hash_to_point", "include/ffsampling.hpp: ff_sampling"]}
{"id": "C86", "title": "Honest signatures nearly always verify", "statement": "For a sound secret key and its encoded public key, when the bytes of the extendable-output function and of the random generator are uniformly random, sign returns a signature and verify, called with the same message and the same extendable-output function, accepts it, with probability at least 0.9999 for N = 512 and at least 0.987 for N = 1024 (512 blocks of hash output and 512 attempts per integer allowed). The exceptions known from the encoder and from verification (a coefficient of s2 of absolute value 1024 or more, a coefficient 6144 of s1, cf. C16 and C26) are among the vectors with a coefficient of 1024 or more, which carry at most 1/50000 (N = 512) and 1/20000 (N = 1024) of the weight of the Gaussian.", "quantifier": "N = 512 and 1024; all sound keys, messages, salts, output buffers with two spare bytes; every number of passes from 1; both ways signed overflow can behave in verify.", "why_tests_cant": "The project's own tests sign and verify some thousand times; exceptions of probability 10^-5 per signature stay unseen, and the claim is for every key and message.", "anchors": ["include/falcon.hpp: sign, verify", "include/signing.hpp: sign", "include/verification.hpp: verify", "include/encoding.hpp: compress_sig", "include/decoding.hpp: decompress_sig"]}
{"id": "C87", "title": "A signature that does not depend on the hash is rejected (no overflow)", "statement": "Fix any public key bytes, message and signature bytes. When the output of the extendable-output function is uniformly random, verify returns true without signed overflow with probability at most 11^-N (below 2^-1771 for N = 512): signature bytes prepared before the hash is known are worthless.", "quantifier": "N = 512 and 1024; all public keys, messages and signature bytes (well-formed or not, two readable bytes behind); any number of hash blocks.", "why_tests_cant": "A probability of 2^-1771 cannot be observed, and the claim is for every key and signature; tests can at best tamper with a few signatures and see them rejected.", "anchors": ["include/verification.hpp: verify", "include/hashing.hpp: hash_to_point"]}
{"id": "C88", "title": "A signature that does not depend on the hash is rejected (wrap-around)", "statement": "The same property in the executions that compilers really produce, where the int32 accumulator of the squared norm wraps around, should hold as well. It does not: for each parameter set there are signature bytes, computed without any key, that verify accepts under every public key, for every message and every salt, with probability at least 1/21 (N = 512) and 1/140 (N = 1024) over a uniformly random hash output; by trying j salts anyone forges a signature of any message with probability at least 1 - (20/21)^j, respectively 1 - (139/140)^j.", "quantifier": "N = 512 and 1024; all well-formed public keys, all messages, salts and following bytes; 64 or more hash blocks; any number of attempts.", "why_tests_cant": "The tests verify honest signatures and signatures with flipped bits; the former never overflow. That overflow is systematic, and not an accident of single inputs, is a statement about the distribution of the squared norm of a random polynomial.", "anchors": ["include/verification.hpp: verify", "include/hashing.hpp: hash_to_point", "include/decoding.hpp: decompress_sig"]}
{"id": "C89", "title": "Only the signer can make a second signature of a message", "statement": "Given a signature returned by sign, nobody without the secret key should be able to turn it into different bytes that verify accepts for the same message and salt. It fails for nearly every signature: a simple function on signature bytes (decompress, write the first coefficient of absolute value at most 127 in its longer second form, pack again), the same for all keys and messages, yields other bytes with the same header and salt that verify accepts too, with probability at least 0.999 for N = 512 and 0.9 for N = 1024 over uniformly random hash and generator bytes.", "quantifier": "N = 512 and 1024; all sound keys, messages, salts, output buffers; every number of passes; both ways signed overflow can behave in verify.", "why_tests_cant": "C19 shows that such a change works for a signature with enough padding; that nearly all honest signatures have it is a statement about the distribution of the encoded length, not visible in a few runs.", "anchors": ["include/decoding.hpp: decompress_sig", "include/encoding.hpp: compress_sig", "include/signing.hpp: sign", "include/verification.hpp: verify"]}
{"id": "C90", "title": "A signature tells nothing that could not be produced from the public key", "statement": "For a sound secret key with public key h, the pair of hashed message and signature bytes returned by sign cannot be told apart from the result of an experiment that uses h only: draw (s1, s2) from the Gaussian of width sigma on all pairs of integer polynomials, take the point s1 + s2 h modulo q and the bytes that encode s2 behind header and salt. Every test says yes to both with probabilities that differ by at most 1/10000 (N = 512) or 13/1000 (N = 1024), when the bytes of the extendable-output function and of the generator are uniformly random.", "quantifier": "N = 512 and 1024; all sound keys with the same public key, messages, salts, output buffers; all tests on hash and signature bytes, computable or not; every number of passes.", "why_tests_cant": "Indistinguishability quantifies over all tests; measuring signatures can only apply some statistics.", "anchors": ["include/falcon.hpp: sign", "include/signing.hpp: sign", "include/hashing.hpp: hash_to_point", "include/encoding.hpp: compress_sig", "include/ffsampling.hpp: ff_sampling"]}
{"id": "C91", "title": "Many signatures on adaptively chosen messages tell nothing either", "statement": "Let somebody make r requests for signatures, where message, salt and output buffer of each request may depend on all hashed messages and signatures seen before, and let a test say yes or no in the end. The probability of yes differs by at most r/10000 (N = 512) or 13 r/1000 (N = 1024) from its value when every request is answered by the experiment of C90, which needs the public key only; hash output and generator bytes are uniformly random and fresh for each request.", "quantifier": "N = 512 and 1024; any number r of requests, all strategies and tests (functions of everything seen), all sound keys with the same public key.", "why_tests_cant": "The claim is about every adaptive strategy and any number of signatures; it is proved by induction on the number of requests.", "anchors": ["include/falcon.hpp: sign", "include/signing.hpp: sign", "include/hashing.hpp: hash_to_point", "include/encoding.hpp: compress_sig"]}
{"id": "C92", "title": "A signature verified in a buffer of its exact length is read past the end about once in eight times", "statement": "The number of bits of the compressed s2 of a Gaussian pair (s1, s2) has each of the eight remainders modulo 8 with a share between 12/100 and 16/100. If sign<N> writes into a buffer of exactly compute_sig_len<N>() bytes, as the programs in examples/ do, and verify<N> is called on that buffer, then, for a sound key and uniformly random bytes from the extendable-output function and the generator, verify reads outside the buffer with probability at least 0.119 (N = 512) or 0.106 (N = 1024), and accepts without leaving the buffer with probability at least 0.839 or 0.74.", "quantifier": "All sound keys, all messages, salts and buffer contents, both parameter sets, all values of the random bytes.", "why_tests_cant": "The extra byte is usually mapped memory and its value is ignored, so ordinary tests pass; that the probability is close to one eighth for every key is a statement about the distribution of the length.", "anchors": ["include/decoding.hpp: decompress_sig", "include/falcon.hpp: verify", "include/falcon.hpp: sign", "examples/sign_one.cpp: main", "examples/sign_many.cpp: main"]}
{"id": "C93", "title": "One readable byte after a signature is enough for every accepted signature, two are needed for some others", "statement": "If verify<N> gives an answer on a buffer, it gives the same answer when more readable memory follows. A signature of compute_sig_len<N>() bytes that verify accepts with any amount of readable memory after it is accepted with one readable byte after it, whatever that byte holds. There are signature bytes on which verify, for every message and every public key in the library's format, reads outside a buffer that has one more byte than the signature, and answers false when two or more bytes follow.", "quantifier": "Both parameter sets, all keys, messages, hash functions and overflow behaviours, all byte strings.", "why_tests_cant": "Which bytes are read depends on the position of the last coefficient; the claim covers all signatures and all contents of the memory after them.", "anchors": ["include/decoding.hpp: decompress_sig", "include/decoding.hpp: extract_8_contiguous_bits", "include/falcon.hpp: verify"]}
{"id": "C94", "title": "Hashes and signatures on request can be simulated from the public key, with the hash function as a table", "statement": "Somebody makes r requests, each for the hash of a salt and message of their choice or for a sign<N> signature of a message of their choice (sign draws the salt), every request depending on all answers seen so far, and a test says yes or no at the end. All hashes go through one table: equal inputs have equal outputs, new inputs uniformly random ones. The probability of yes differs from that of an experiment that uses the public key only (vectors drawn from the Gaussian, hash table filled in afterwards) by at most r(1/10000 + r/256^40) for N = 512 and r(13/1000 + r/256^40) for N = 1024.", "quantifier": "N = 512 and 1024; any number r of requests, all strategies and tests (functions of everything seen), all sound keys with the same public key.", "why_tests_cant": "The claim is about every adaptive strategy with a shared hash table; it is proved by induction on the number of requests, with the probability that a fresh salt meets an input already in the table.", "anchors": ["include/falcon.hpp: sign", "include/signing.hpp: sign", "include/hashing.hpp: hash_to_point", "include/encoding.hpp: compress_sig"]}
{"id": "C95", "title": "Whoever forges signatures finds short vectors of the lattice of the public key", "statement": "Somebody makes r requests for hashes of inputs of their choice and for sign<N> signatures of messages of their choice, each depending on all answers so far, and then names one hash they asked for and a signature. If verify<N> accepts that signature for that message with probability p, then the same forger, run without any secret key on answers made from the public key h alone, gives with probability at least p - r(4/10000 + r/256^40) (N = 512) or p - r(52/1000 + r/256^40) (N = 1024) a non-zero pair (u1, u2) with u1 + u2 h = 0 modulo q and squared length at most four times the bound of verify.", "quantifier": "N = 512 and 1024; any number r of requests, all strategies and forgers (functions of everything seen), all sound keys with the same public key.", "why_tests_cant": "The claim is about every adaptive forger and compares two experiments; it needs the distribution of sign, the reads of verify and the hash table together.", "anchors": ["include/falcon.hpp: sign", "include/falcon.hpp: verify", "include/signing.hpp: sign", "include/verification.hpp: verify", "include/hashing.hpp: hash_to_point"]}
{"id": "C96", "title": "Two signatures with one salt and message give a short vector of the lattice of the public key", "statement": "If verify<N> accepts two signatures with the same salt for one message and one public key h, and their bodies stand for different vectors, then the difference of the two pairs of vectors that verify forms is a non-zero pair (u1, u2) with u1 + u2 h = 0 modulo q and squared length at most four times the bound of verify.", "quantifier": "Both parameter sets, all hash functions, keys, messages and signatures.", "why_tests_cant": "Such pairs of signatures cannot be found without the secret key; the claim covers all of them and needs uniqueness of the encoding.", "anchors": ["include/falcon.hpp: verify", "include/verification.hpp: verify", "include/decoding.hpp: decompress_sig"]}
{"id": "C97", "title": "Turning a signature one was given into one with another vector is as hard as forging", "statement": "As the claim on forging, and the forger also succeeds by naming a signature that sign<N> gave them and that verify<N> accepts, together with another signature with the same salt that verify<N> accepts for the same message and that stands for a different vector. The probability of success is still at most the probability that the run without the secret key yields a non-zero pair (u1, u2) with u1 + u2 h = 0 modulo q and squared length at most four times the bound of verify, plus r(4/10000 + r/256^40) (N = 512) or r(52/1000 + r/256^40) (N = 1024).", "quantifier": "N = 512 and 1024; any number r of requests, all strategies and forgers (functions of everything seen), all sound keys with the same public key.", "why_tests_cant": "The claim is about every adaptive forger and all pairs of signatures; such pairs cannot be produced for a test.", "anchors": ["include/falcon.hpp: sign", "include/falcon.hpp: verify", "include/signing.hpp: sign", "include/verification.hpp: verify", "include/decoding.hpp: decompress_sig", "include/hashing.hpp: hash_to_point"]}
{"id": "C98", "title": "Key pairs and salts repeat after about 2^16 calls", "statement": "Each keygen<N> and each sign<N>(skey, ...) call makes its own generator from one 32-bit value of std::random_device. Of the (2^32)^r sequences of values for r calls, under any keys and on any messages, at most the share exp(-r(r-1)/2^33) lets all calls succeed with r different 40-byte salts; from 100000 calls on this is at most one in three. The same share bounds the sequences for which r calls of keygen<N> give r different key pairs.", "quantifier": "All numbers of calls, keys, messages, both parameter sets; every engine, distribution, hash function and floating point arithmetic.", "why_tests_cant": "A test would have to make about 100000 signatures and then could not tell chance from structure; the bound holds for every engine and for all r.", "anchors": ["include/prng.hpp: prng_t", "include/falcon.hpp: keygen", "include/falcon.hpp: sign", "include/signing.hpp: sign"]}
{"id": "C99", "title": "Random field elements are uniform up to a last resort", "statement": "If its 16-bit draws are uniformly random, ff_t::random() returns each non-zero element of Z_q with the same probability (1 - r)/q, and zero with probability (1 - r)/q + r, where r = (53247/65536)^1024 is the chance that all 1024 draws are rejected. r is below 2^-256.", "quantifier": "All 12289 field elements, all 65536^1024 sequences of draws.", "why_tests_cant": "A test cannot run through the sequences of draws nor see a difference of 2^-256.", "anchors": ["include/ff.hpp: random"]}
{"id": "C100", "title": "The NTRU check of the test suite is exact", "statement": "check_ntru_eq<N>(f, g, F, G) of the tests, in binary64, performs no undefined conversion and returns true if and only if f G - g F = q modulo x^N + 1, for all f, g of squared norm at most 90000 and all F, G of squared norm at most 10^10. Hence the test NTRUGen passes for every random stream on which ntru_gen<N> ends, if no coefficient of F and G exceeds 3125 in absolute value.", "quantifier": "All polynomials in the range, every size up to 1024; every arithmetic with the accuracy of binary64 and every table within its error of the roots of unity; all random streams.", "why_tests_cant": "It is the test itself that is examined: that rounding errors never make it accept a wrong key or reject a right one holds for all keys.", "anchors": ["tests/check_ntru_eq.hpp: check_ntru_eq", "tests/test_ntru_gen.cpp: test_ntru_gen", "include/fft.hpp: fft", "include/fft.hpp: ifft", "include/polynomial.hpp: mul", "include/polynomial.hpp: sub", "include/ntru_gen.hpp: ntru_gen"]}
{"id": "C101", "title": "Most polynomials modulo q pass the invertibility test", "statement": "Of the q^N polynomials with coefficients in [0, q) exactly (q - 1)^N are accepted by is_poly_invertible. This is at least the share 1 - N/q: more than 95 in 100 for N = 512 and more than 91 in 100 for N = 1024.", "quantifier": "All polynomials modulo q, both parameter sets.", "why_tests_cant": "The claim counts 12288^512 and 12288^1024 inputs.", "anchors": ["include/ntru_gen.hpp: is_poly_invertible", "include/ntt.hpp: ntt"]}
{"id": "C102", "title": "The end-to-end test of signing reads out of bounds", "statement": "For every sound key pair, all messages and uniformly random bytes, the loop of the test KeygenSignVerify (1024 rounds of sign<N> then verify<N>, in a buffer of compute_sig_len<N>() bytes) ends without a read outside that buffer with probability at most 2^-146; within a bounded number of attempts it does read outside with probability at least 0.99 for N = 512 and 0.52 for N = 1024. With r rounds instead, it ends without such a read with probability at most 0.881^r and 0.894^r, and passes with probability at least 0.839^r and 0.74^r.", "quantifier": "All sound keys, messages, contents of the buffer, numbers of rounds, bounds on the attempts, both parameter sets; exact arithmetic in signing.", "why_tests_cant": "It is the test itself that is examined: it passes although it reads past its buffer, because the byte read there is padding of the heap block and is rarely looked at.", "anchors": ["tests/test_signing.cpp: test_keygen_sign_verify", "include/falcon.hpp: sign", "include/falcon.hpp: verify", "include/decoding.hpp: decompress_sig"]}
{"id": "C103", "title": "The tests of the field and of the NTT pass whatever they draw", "statement": "Every round of the test ArithmeticOverZq passes for all field elements and every exponent. The test NumberTheoreticTransform passes at the first pass whose second polynomial is invertible, and draws again as long as it is not; no draw makes it fail.", "quantifier": "All pairs of field elements, all exponents; all sequences of drawn polynomials, both parameter sets.", "why_tests_cant": "The tests draw 1024 pairs, and one pair of polynomials for each size; the claim says that these draws can not matter.", "anchors": ["tests/test_ff.cpp: ArithmeticOverZq", "tests/test_ntt.cpp: test_ntt", "include/ff.hpp: ff_t", "include/ntt.hpp: ntt", "include/ntt.hpp: intt", "include/polynomial.hpp: mul", "include/polynomial.hpp: div"]}
{"id": "C104", "title": "The test of splitting and merging in the FFT domain passes whatever it draws", "statement": "test_fft_split_merge<lgn>, in binary64, passes for every polynomial with coefficients between -3 and 4: splitting the transform and transforming the halves back, and merging the halves and transforming back, round to the coefficients at even places, at odd places and to the polynomial itself. The same holds for every integer polynomial of Euclidean norm at most 100000.", "quantifier": "All polynomials in the range, all lgn from 1 to 10; every arithmetic with the accuracy of binary64 and every table within its error of the roots of unity.", "why_tests_cant": "The test draws one polynomial for each size; the claim says that the draw can not matter.", "anchors": ["tests/test_fft.cpp: test_fft_split_merge", "include/fft.hpp: fft", "include/fft.hpp: ifft", "include/fft.hpp: split_fft", "include/fft.hpp: merge_fft"]}
{"id": "C105", "title": "The test of arithmetic in the FFT domain passes unless its divisor nearly vanishes", "statement": "test_fft<lgn>, in binary64, passes for all polynomials a, b with coefficients between -3 and 4 such that no value of b at a root of x^n + 1 is below 1.28e-10 in modulus: multiplying by b, dividing by b and transforming back rounds to a. If b is drawn zero the test fails, whatever a is.", "quantifier": "All polynomials in the range, all sizes up to 1024; for passing, every arithmetic with the accuracy of binary64 and every table within its error of the roots of unity.", "why_tests_cant": "The test draws one pair of polynomials for each size; the draw that makes it fail has probability 8^-n.", "anchors": ["tests/test_fft.cpp: test_fft", "include/fft.hpp: fft", "include/fft.hpp: ifft", "include/polynomial.hpp: mul", "include/polynomial.hpp: div"]}
{"id": "C106", "title": "The test of public key encoding passes for all draws, that of secret keys exactly if the key fits", "statement": "test_encoding_pkey<N> passes for all field elements it can draw, whatever the allocated memory held. test_encoding_skey<N> reads and writes only inside its arrays and passes if and only if the coefficients of the generated f and g are in [-32, 31] (N = 512) or [-16, 15] (N = 1024) and those of F are in [-128, 127].", "quantifier": "All field elements; all polynomials f, g, F; all previous contents of the buffers; both parameter sets.", "why_tests_cant": "The test draws one key for each size; the claim says which keys would make it fail.", "anchors": ["tests/test_encoding.cpp: test_encoding_pkey", "tests/test_encoding.cpp: test_encoding_skey", "include/encoding.hpp: encode_pkey", "include/encoding.hpp: encode_skey", "include/decoding.hpp: decode_pkey", "include/decoding.hpp: decode_skey"]}
{"id": "C107", "title": "The test of decompressing random bytes fails for some bytes and reads outside its buffer for others", "statement": "test_sig_decompression<N>, provided the two bytes after its buffer can be read, ends and passes if and only if the random bytes it draws decompress to nothing or are the encoding with code words of at most 16 bits padded with zeros. For some bytes it fails, as decompression accepts other encodings of the same vector. For some bytes it reads outside the buffer it has allocated.", "quantifier": "All byte strings of the signature's length; all previous contents of the buffers; both parameter sets.", "why_tests_cant": "Random bytes are almost never accepted, so the test almost never reaches its comparison.", "anchors": ["tests/test_encoding.cpp: test_sig_decompression", "include/decoding.hpp: decompress_sig", "include/encoding.hpp: compress_sig"]}
{"id": "C108", "title": "The test of signature compression passes exactly for coefficients below 1024, which the norm bound does not ensure", "statement": "From the compression of the sampled s2 on, test_sig_compression<N> samples again if the encoding does not fit the signature; otherwise, provided the two bytes after its buffer can be read, it passes if and only if all coefficients of s2 are at most 1023 in absolute value. Some vectors that satisfy the norm bound checked before are compressed and make the test fail. Vectors whose encoding exceeds 14 bits a coefficient make it write outside the encoder's buffer.", "quantifier": "All integer vectors of length N; all previous contents of the buffers; both parameter sets.", "why_tests_cant": "The test samples one vector for each size, with coefficients far below 1024.", "anchors": ["tests/test_encoding.cpp: test_sig_compression", "include/encoding.hpp: compress_sig", "include/decoding.hpp: decompress_sig"]}
