{"id": "C01", "title": "Proof text round-trip", "statement": "Writing a proof with Dump and reading the text back with Parse succeeds and yields exactly the same proof, whatever text follows it in the stream.", "quantifier": "every proof structure whose response tags are -1, 0 or 1, every byte content, every parameter set, every suffix of the stream", "why_tests_cant": "a proof has hundreds of kilobytes of free content and three response shapes per repetition; tests only sample a few honest proofs", "anchors": ["c-impl/PQCrypto-SIDH/src/poik.c: Dump, Parse, Dump_Bytes, Parse_Bytes, dump_packed_fp, parse_packed_fp, parse_hex_byte", "c-impl/PQCrypto-SIDH/src/poik.h: struct proof"]}
{"id": "C02", "title": "Parse only builds well-formed proofs", "statement": "If Parse reports success then every response tag is one of the three legal values, every fixed-size array was completely filled from the input, and Dump on the result is defined (never reaches its unreachable branch) and re-parses to the same proof.", "quantifier": "every input text", "why_tests_cant": "the input space is all byte streams, including adversarial ones", "anchors": ["c-impl/PQCrypto-SIDH/src/poik.c: Parse, Parse_Bytes, parse_packed_fp, parse_hex_byte, Dump"]}
{"id": "C03", "title": "Truncated proofs are rejected", "statement": "Parse fails on every strict prefix of a dumped proof that cuts off at least one hex digit.", "quantifier": "every proof and every truncation point", "why_tests_cant": "the number of truncation points times proofs is unbounded; a test checks a handful of cuts", "anchors": ["c-impl/PQCrypto-SIDH/src/poik.c: Parse, Parse_Bytes, parse_hex_byte, Dump"]}
{"id": "C04", "title": "Curve text round-trip", "statement": "Dump_Fp2 followed by Parse_Fp2 returns the same packed coefficient for every byte content; the text is '0x'+big-endian hex of the real part, ',0x'+imaginary part.", "quantifier": "every packed field element and every parameter set", "why_tests_cant": "2^880 and more possible packed values", "anchors": ["c-impl/PQCrypto-SIDH/src/poik.c: Dump_Fp2, Parse_Fp2, dump_packed_fp, parse_packed_fp"]}
{"id": "C05", "title": "Parse accepts nothing but reformatted Dump output", "statement": "Whenever Parse succeeds, deleting the white space before each field and lower-casing the hex digits of the consumed text gives the Dump text of the resulting proof (up to the spelling of the decimal tag); in particular the letter case and white-space layout never influence the parsed value.", "quantifier": "every input text on which Parse succeeds", "why_tests_cant": "characterises the accepted language, which no finite set of inputs does", "anchors": ["c-impl/PQCrypto-SIDH/src/poik.c: Parse, Parse_Bytes, parse_packed_fp, parse_hex_byte"]}
{"id": "C06", "title": "Dump reports write failures", "statement": "If Dump (or Dump_Fp2) returns true then every byte of the textual representation was accepted by the output stream.", "quantifier": "every proof and every pattern of successful and failing stream writes", "why_tests_cant": "fault-injection tests cannot enumerate all patterns of failing writes", "anchors": ["c-impl/PQCrypto-SIDH/src/poik.c: Dump, Dump_Bytes, dump_packed_fp, Dump_Fp2"]}
{"id": "C07", "title": "Field element encoding is value preserving and canonical", "statement": "Decoding a packed element and encoding it again gives the little-endian bytes of the value reduced modulo p, for every byte string; hence canonical encodings survive unchanged, the output is always canonical, and two byte strings decode to equal field elements exactly when they are congruent modulo p.", "quantifier": "every byte string of the packed length (canonical or not), all four parameter sets", "why_tests_cant": "2^440 to 2^752 strings per coordinate; the corner between p and the byte-length limit has negligible random probability", "anchors": ["c-impl/PQCrypto-SIDH/src/fpx.c: fp2_encode, fp2_decode, encode_to_bytes, decode_to_digits, to_mont, from_mont", "c-impl/PQCrypto-SIDH/src/poik.h: packed_fp2"]}
{"id": "C08", "title": "Verify does not depend on the chosen representative", "statement": "Replacing any packed field element of a proof by another byte string of the same value modulo p does not change the result of Verify.", "quantifier": "every proof, every parameter set and every choice of representatives, every randomness of the curve check", "why_tests_cant": "non-canonical encodings are never produced by the prover, so tests never see them", "anchors": ["c-impl/PQCrypto-SIDH/src/poik.c: Verify, unpack_curve, unpack_point, Unpack_Chain_A, Unpack_Chain_B", "c-impl/PQCrypto-SIDH/src/fpx.c: fp2_decode"]}
{"id": "C09", "title": "Proof files are not malleable", "statement": "There are no two different proof structures (and no two different outputs of verify) that represent the same curves and responses and both verify.", "quantifier": "every accepted proof", "why_tests_cant": "needs knowledge of all accepted byte strings", "anchors": ["c-impl/PQCrypto-SIDH/src/poik.c: Verify, Parse", "c-impl/verify.c: main"]}
{"id": "C10", "title": "Keccak permutation is the standard one", "statement": "The 24-round unrolled permutation computes Keccak-f[1600] as specified in FIPS 202 (theta, rho, pi, chi, iota with LFSR round constants) on every state.", "quantifier": "all 2^1600 states", "why_tests_cant": "a mistyped lane in the unrolled code may only show on special states; test vectors only sample", "anchors": ["c-impl/PQCrypto-SIDH/src/sha3/fips202.c: KeccakF1600_StatePermute, KeccakF_RoundConstants"]}
{"id": "C11", "title": "SHAKE256 is the standard sponge", "statement": "shake256 and the absorb/squeeze pair compute the FIPS 202 sponge with rate 136 bytes, suffix 1111 and pad10*1 for every message and output length; outputs of different lengths are prefixes of each other; block-wise squeezing yields the same stream as one-shot output.", "quantifier": "every message and every output length", "why_tests_cant": "message and output lengths are unbounded; boundary lengths around multiples of the rate are easy to get wrong", "anchors": ["c-impl/PQCrypto-SIDH/src/sha3/fips202.c: keccak_absorb, keccak_squeezeblocks, shake256_absorb, shake256_squeezeblocks, shake256, load64, store64"]}
{"id": "C12", "title": "Challenge is the streaming rejection sampler", "statement": "The challenge derived from a commitment is the first POIK_REPS trits obtained by reading the SHAKE256 stream of (0x01 || commitment) byte by byte, skipping bytes >= 243 and expanding each remaining byte into five base-3 digits, least significant first, 2 read as -1; the block structure of the hash has no influence.", "quantifier": "every commitment and every hash output stream", "why_tests_cant": "block-boundary and rejection corner cases occur with small probability", "anchors": ["c-impl/PQCrypto-SIDH/src/poik.c: Challenge, sample_ternary", "sage-impl/verify.sage: challenge"]}
{"id": "C13", "title": "Trit sampling is unbiased and memory safe", "statement": "sample_ternary writes at most the requested number of trits, all in {-1,0,1}, returns exactly how many it wrote, and every accepted byte value corresponds to exactly one 5-tuple of trits and vice versa.", "quantifier": "every byte string and every requested count", "why_tests_cant": "statistical tests cannot exclude small bias; bounds hold for all lengths", "anchors": ["c-impl/PQCrypto-SIDH/src/poik.c: sample_ternary"]}
{"id": "C14", "title": "Hash inputs are injective and domain separated", "statement": "No commitment hash input is ever equal to a challenge hash input, and different (randomiser, value) pairs or different transcripts give different hash inputs; hence equal commitment hashes of different openings exhibit a SHAKE256 collision.", "quantifier": "every transcript, randomiser and value", "why_tests_cant": "collisions of the encoding are unreachable by sampling", "anchors": ["c-impl/PQCrypto-SIDH/src/poik.c: hash_hiding, Challenge, struct commitment, RO_CHALLENGE, RO_COMMIT"]}
{"id": "C15", "title": "Multiprecision addition and subtraction are exact", "statement": "mp_add and mp_sub return the sum/difference modulo 2^(radix*nwords) together with the exact carry/borrow; the constant-time carry macros are right for every digit triple.", "quantifier": "every word count, every operand, both radices (32 and 64)", "why_tests_cant": "carry-propagation bugs need rare operand patterns", "anchors": ["c-impl/PQCrypto-SIDH/src/config.h: ADDC, SUBC, is_digit_nonzero_ct, is_digit_zero_ct, is_digit_lessthan_ct", "c-impl/PQCrypto-SIDH/src/fpx.c: mp_add, mp_sub"]}
{"id": "C16", "title": "Multiprecision multiplication is exact", "statement": "digit_x_digit returns the full double-width product and mp_mul the exact product of two n-word integers.", "quantifier": "every word count and operand, both radices", "why_tests_cant": "carry bugs in comba multiplication (like CVE-class bugs in bignum code) are hit with probability about 2^-64", "anchors": ["c-impl/PQCrypto-SIDH/src/P434/generic/fp_generic.c: digit_x_digit, mp_mul", "c-impl/PQCrypto-SIDH/src/config.h: MUL"]}
{"id": "C17", "title": "Montgomery reduction is correct", "statement": "rdc_mont(x) is congruent to x/R modulo p and lies in [0,2p) for every x < R*p; no carry is lost although the code skips the zero words of p+1.", "quantifier": "every double-width input below R*p, four primes, both radices", "why_tests_cant": "rare-carry bugs in reduction are not reachable by random tests", "anchors": ["c-impl/PQCrypto-SIDH/src/P434/generic/fp_generic.c: rdc_mont", "c-impl/PQCrypto-SIDH/src/P503/generic/fp_generic.c", "c-impl/PQCrypto-SIDH/src/P610/generic/fp_generic.c", "c-impl/PQCrypto-SIDH/src/P751/generic/fp_generic.c"]}
{"id": "C18", "title": "Modular add/sub/neg/half/correction are correct and stay in range", "statement": "fpadd, fpsub, fpneg, fpdiv2 compute the field operation and keep results in the documented range [0,2p-1]; fpcorrection returns the canonical representative.", "quantifier": "every pair of inputs in the documented range, four primes, both radices", "why_tests_cant": "boundary operands (0, p, 2p-1) are never hit by random tests", "anchors": ["c-impl/PQCrypto-SIDH/src/P434/generic/fp_generic.c: fpadd434, fpsub434, fpneg434, fpdiv2_434, fpcorrection434, mp_sub434_p2, mp_sub434_p4"]}
{"id": "C19", "title": "Field constants are consistent and p is prime", "statement": "For each parameter set p = 2^e2*3^e3-1 is prime and congruent to 3 modulo 4, and the tables p, 2p, 4p, p+1, R mod p, R^2 mod p contain these values.", "quantifier": "the four parameter sets (primality itself quantifies over all divisors)", "why_tests_cant": "primality is a statement about all divisors", "anchors": ["c-impl/PQCrypto-SIDH/src/P434/P434.c", "c-impl/PQCrypto-SIDH/src/P503/P503.c", "c-impl/PQCrypto-SIDH/src/P610/P610.c", "c-impl/PQCrypto-SIDH/src/P751/P751.c"]}
{"id": "C20", "title": "Field inversion is correct", "statement": "fpinv_mont and fp2inv_mont return the multiplicative inverse of every nonzero element and 0 for 0; the addition chain of each parameter set computes the (p-3)/4-th power.", "quantifier": "every field element, four parameter sets", "why_tests_cant": "a wrong chain entry is found by tests, but correctness for every input (primality, range) is not a finite check", "anchors": ["c-impl/PQCrypto-SIDH/src/fpx.c: fpinv_chain_mont, fpinv_mont, fp2inv_mont"]}
{"id": "C21", "title": "GF(p^2) multiplication and squaring are correct", "statement": "fp2mul_mont and fp2sqr_mont compute the product/square in GF(p)[i] with output in [0,2p) for all inputs up to the lazily reduced sizes that the callers use.", "quantifier": "every pair of inputs within the stated bounds, four primes", "why_tests_cant": "overflow of the lazily reduced intermediate values needs extreme operands", "anchors": ["c-impl/PQCrypto-SIDH/src/fpx.c: fp2mul_mont, fp2sqr_mont, mp_subaddfast, mp_dblsubfast, mp_addfast"]}
{"id": "C22", "title": "Equality, comparison and constant-time selection are correct", "statement": "fp2_equal/fp2_iszero decide equality of the represented elements, proj_equal equality of fractions, fp_lt the integer order of canonical representatives, ct_compare equality of buffers, ct_cmov selects exactly one of two buffers, swap_points swaps iff the mask is set.", "quantifier": "every input and length in the documented range", "why_tests_cant": "aliasing representatives (x versus x+p) make equal elements look different on rare inputs", "anchors": ["c-impl/PQCrypto-SIDH/src/poik.c: fp_equal, fp2_equal, fp2_iszero, proj_equal, fp_lt", "c-impl/PQCrypto-SIDH/src/fpx.c: ct_compare, ct_cmov", "c-impl/PQCrypto-SIDH/src/ec_isogeny.c: swap_points"]}
{"id": "C23", "title": "Lazy reduction never overflows in curve arithmetic", "statement": "In xDBL, xTPL, xDBLADD, the 2-, 3- and 4-isogeny formulas, j_inv and the curve-model code every intermediate value fits its array and the result equals the formula over GF(p^2).", "quantifier": "every input in the documented range, four primes, both radices", "why_tests_cant": "overflow needs operands near the top of the range in several coordinates at once", "anchors": ["c-impl/PQCrypto-SIDH/src/ec_isogeny.c: xDBL, xTPL, xDBLADD, get_2_isog, eval_2_isog, get_3_isog, eval_3_isog, get_4_isog, eval_4_isog, j_inv", "c-impl/PQCrypto-SIDH/src/fpx.c"]}
{"id": "C24", "title": "Square roots in GF(p^2)", "statement": "fp2sqrt returns true exactly on squares (when it is not told the input is a square) and then the output squares to the input; on squares the fast path also returns a root.", "quantifier": "every element of GF(p^2), four parameter sets", "why_tests_cant": "special cases (imaginary part zero, norm corner cases) have negligible random probability", "anchors": ["c-impl/PQCrypto-SIDH/src/poik.c: fp2sqrt"]}
{"id": "C25", "title": "Doubling, tripling and differential addition agree with the group law", "statement": "xDBL, xTPL and xDBLADD compute the x-coordinates of 2P, 3P, and P+Q on the Montgomery curve as given by the chord-and-tangent law, for all points including those where the affine formulas have exceptional cases as documented.", "quantifier": "every curve coefficient and every point over every field of characteristic not 2", "why_tests_cant": "exceptional points are not found by sampling", "anchors": ["c-impl/PQCrypto-SIDH/src/ec_isogeny.c: xDBL, xDBLe, xTPL, xTPLe, xDBLADD"]}
{"id": "C26", "title": "The Montgomery ladder computes scalar multiples", "statement": "Ladder returns the x-coordinate of [m]P for every scalar and every bit length.", "quantifier": "every scalar, every point, every curve", "why_tests_cant": "scalars have hundreds of bits", "anchors": ["c-impl/PQCrypto-SIDH/src/poik.c: Ladder", "c-impl/PQCrypto-SIDH/src/ec_isogeny.c: xDBLADD, swap_points"]}
{"id": "C27", "title": "Isogeny formulas are isogenies", "statement": "The 2-, 3- and 4-isogeny codomain and evaluation formulas map points of the domain curve to points of the codomain curve, send the kernel to infinity and commute with doubling and tripling.", "quantifier": "every curve, kernel point of the required order and evaluated point over every field of suitable characteristic", "why_tests_cant": "polynomial identities over huge fields", "anchors": ["c-impl/PQCrypto-SIDH/src/ec_isogeny.c: get_2_isog, eval_2_isog, get_3_isog, eval_3_isog, get_4_isog, eval_4_isog"]}
{"id": "C28", "title": "Strategy traversal is memory safe and equals the naive isogeny chain", "statement": "For all strategy tables in the repository the loop of Isogeny_A/Isogeny_B never reads the strategy table or writes the point stack out of bounds, and produces the same codomain and images as the naive step-by-step computation.", "quantifier": "all four parameter sets, both sides, every curve and kernel point", "why_tests_cant": "equivalence is over all curves and points; out-of-bounds stack writes may go unnoticed", "anchors": ["c-impl/PQCrypto-SIDH/src/poik.c: Isogeny_A, Isogeny_B", "c-impl/PQCrypto-SIDH/src/P434/P434.c: strat_Alice, strat_Bob", "c-impl/PQCrypto-SIDH/src/P503/P503.c", "c-impl/PQCrypto-SIDH/src/P610/P610.c", "c-impl/PQCrypto-SIDH/src/P751/P751.c"]}
{"id": "C29", "title": "j-invariant is correct", "statement": "j_inv returns 256(A^2-3C^2)^3/(C^4(A^2-4C^2)) for every nonsingular projective coefficient, and enc_j is the canonical encoding of it, so isomorphic curves give identical bytes.", "quantifier": "every curve coefficient, four parameter sets", "why_tests_cant": "equality of encodings for all isomorphic models cannot be sampled", "anchors": ["c-impl/PQCrypto-SIDH/src/ec_isogeny.c: j_inv", "c-impl/PQCrypto-SIDH/src/poik.c: enc_j"]}
{"id": "C30", "title": "Canonical curve model is an isomorphism invariant", "statement": "Packing a curve yields one of the six Montgomery models of its isomorphism class, the same bytes for every Montgomery model of the class, and is idempotent; the accompanying change of coordinates maps the curve to that model.", "quantifier": "every supersingular curve with rational 4-torsion, four parameter sets", "why_tests_cant": "requires comparing all models of all curves", "anchors": ["c-impl/PQCrypto-SIDH/src/poik.c: solve_quadratic, all_models, canonical_model, pack_curve_and_point, pack_curve"]}
{"id": "C31", "title": "Model enumeration never leaves its array", "statement": "all_models fills exactly six entries and never writes outside the array passed to it, for every curve coefficient.", "quantifier": "every curve coefficient (including singular ones)", "why_tests_cant": "singular coefficients have probability 2^-868", "anchors": ["c-impl/PQCrypto-SIDH/src/poik.c: solve_quadratic, all_models"]}
{"id": "C32", "title": "Order certificate is sound", "statement": "When the integer test used by the curve check accepts exponents (a,b), then 2^a*3^b exceeds 4(p+1); so any group order in the Hasse interval that is divisible by it equals (p+1)^2. No wrap-around occurs.", "quantifier": "every pair of exponents in the range of the C type, four parameter sets", "why_tests_cant": "the rational approximation of log2(3) must be on the right side for all exponents", "anchors": ["c-impl/PQCrypto-SIDH/src/poik.c: proves_order"]}
{"id": "C33", "title": "Curve check is sound and complete", "statement": "Check_Curve accepts only curves whose group contains independent points of 2- and 3-power order whose orders multiply to more than 4(p+1); the accepted curves are exactly the nonsingular ones with (p+1)^2 points over GF(p^2), whenever the check gives an answer; its result never depends on uninitialised memory.", "quantifier": "every curve coefficient and every outcome of the random choices", "why_tests_cant": "all random tapes, including adversarially unlikely ones", "anchors": ["c-impl/PQCrypto-SIDH/src/poik.c: Check_Curve, random_point, random_point_with_order, proves_order"]}
{"id": "C34", "title": "Random field elements are in range", "statement": "fprand always yields a valid representative (below p), and every field element can occur.", "quantifier": "every output of the system random generator", "why_tests_cant": "range violations or missing values have tiny or unobservable probability", "anchors": ["c-impl/PQCrypto-SIDH/src/poik.c: fprand"]}
{"id": "C35", "title": "Verification result is independent of thread scheduling", "statement": "With any number of worker threads and any interleaving, every repetition index is handed to exactly one worker, no worker touches an index >= POIK_REPS, and Verify, Prove and packing compute the same result as the sequential code, also when some worker reports failure.", "quantifier": "every thread count >= 1 and every interleaving of the atomic operations", "why_tests_cant": "interleavings cannot be enumerated by running", "anchors": ["c-impl/PQCrypto-SIDH/src/poik.c: run_threads, Worker_Instance, Worker_Pack_Response, Worker_Unpack_Response, Verify, Prove"]}
{"id": "C36", "title": "Verify accepts exactly the proofs satisfying the protocol equations", "statement": "Verify returns true iff both end curves are nonsingular with (p+1)^2 points, each response reconstructs its commitment pair (chain walks succeed, end curves and kernel orders valid) and the challenge recomputed from the two j-invariants and all commitment pairs equals the tags.", "quantifier": "every proof structure", "why_tests_cant": "acceptance region versus rejection region over all inputs", "anchors": ["c-impl/PQCrypto-SIDH/src/poik.c: Verify, Unpack_Response, Challenge"]}
{"id": "C37", "title": "Three answers to one commitment give an isogeny or a hash collision", "statement": "If a left, a bottom and a right response all reconstruct the same commitment pair, then either two different hash inputs with equal hash are exhibited or the end curve of the left chain is isomorphic to the start of the bottom chain and the end curves of the bottom and right chains are isomorphic, giving a path between the two public curves.", "quantifier": "every triple of responses, all curves and parameter sets", "why_tests_cant": "adversarial responses cannot be sampled", "anchors": ["c-impl/PQCrypto-SIDH/src/poik.c: Unpack_Response, hash_hiding, enc_j"]}
{"id": "C38", "title": "Repetition counts reach the claimed security level", "statement": "(2/3)^POIK_REPS <= 2^-lambda for the security level of each parameter set (128,128,192,256), the count is the least such number, and the hash and hiding lengths are at least 2*lambda and 4*lambda bits.", "quantifier": "the four parameter sets", "why_tests_cant": "a design-level inequality that no functional test exercises", "anchors": ["c-impl/PQCrypto-SIDH/src/poik.h: POIK_REPS, POIK_HASH_BYTES, POIK_HIDE_BYTES", "scripts/statistical_parameters.py"]}
{"id": "C39", "title": "Verify rejects proofs with illegal tags", "statement": "Verify returns false on every proof structure whose tags are not all in {-1,0,1}.", "quantifier": "every proof structure passed to the API (not only parsed ones)", "why_tests_cant": "tag values range over all ints", "anchors": ["c-impl/PQCrypto-SIDH/src/poik.c: Unpack_Response, Verify", "c-impl/PQCrypto-SIDH/src/poik.h: enum in struct proof"]}
{"id": "C40", "title": "Honest proofs verify", "statement": "For every valid starting curve, every secret from Generate and all randomness, if Prove finishes then Verify accepts the proof.", "quantifier": "every start curve, secret, and random tape, all parameter sets", "why_tests_cant": "random tests cannot cover the measure-zero special curves (j=0, 1728) and coordinate coincidences", "anchors": ["c-impl/PQCrypto-SIDH/src/poik.c: Generate, Prove, Instance, Pack_Response, Verify, Unpack_Response"]}
{"id": "C41", "title": "Accepted chains never backtrack", "statement": "Unpack_Chain_A/B succeed only if no step of the walk starts with the dual of the last step taken before it, so the composed isogeny is cyclic.", "quantifier": "every packed chain", "why_tests_cant": "backtracking chains occur only adversarially", "anchors": ["c-impl/PQCrypto-SIDH/src/poik.c: Unpack_Chain_A, Unpack_Chain_B, Isogeny_A, Isogeny_B"]}
{"id": "C42", "title": "Kernel generators have exact order", "statement": "Isogeny_A/Isogeny_B succeed only for kernel points of exact order 2^e2 / 3^e3, and always succeed for those.", "quantifier": "every curve and x-coordinate", "why_tests_cant": "small-order adversarial inputs", "anchors": ["c-impl/PQCrypto-SIDH/src/poik.c: Isogeny_A, Isogeny_B"]}
{"id": "C43", "title": "Command line tools report failure faithfully", "statement": "prove prints a proof and exits 0 only if parsing, generation and dumping succeeded; verify exits 0 and prints the two curves only if the proof was read and verified; every failure has the documented nonzero exit code and prints no curve.", "quantifier": "every input stream, argument vector and failure pattern", "why_tests_cant": "combination of failures", "anchors": ["c-impl/prove.c: main", "c-impl/verify.c: main"]}
{"id": "C44", "title": "Contributions chain up", "statement": "The end curve printed by verify for one contribution, fed to prove, yields a proof whose verify output starts with the same curve line.", "quantifier": "every verified proof and every continuation", "why_tests_cant": "relies on canonical models for all curves", "anchors": ["c-impl/prove.c: main", "c-impl/verify.c: main", "c-impl/PQCrypto-SIDH/src/poik.c: Generate, Prove, Verify, pack_curve", "README.md"]}
{"id": "C45", "title": "C and Sage verifiers hash identically", "statement": "The independent Sage verifier computes the same commitment hashes and challenge as the C verifier for all parameter sets.", "quantifier": "every transcript, four parameter sets", "why_tests_cant": "the Sage verifier is only exercised with one parameter set", "anchors": ["sage-impl/verify.sage: hash_hiding, challenge", "c-impl/PQCrypto-SIDH/src/poik.c: hash_hiding, Challenge", "c-impl/PQCrypto-SIDH/src/poik.h: POIK_HASH_BYTES"]}
{"id": "C46", "title": "Random byte source fills the whole buffer", "statement": "randombytes returns only after the complete requested number of bytes has been read, in order, for every pattern of short reads and errors of the random device.", "quantifier": "every buffer length and every pattern of read results", "why_tests_cant": "short-read patterns are controlled by the kernel", "anchors": ["c-impl/PQCrypto-SIDH/src/random/random.c: randombytes"]}
{"id": "C47", "title": "Progress indicator stays in its buffer", "statement": "render_progress never writes outside its buffer for any index the provers pass.", "quantifier": "every index from 0 to POIK_REPS", "why_tests_cant": "out-of-bounds write by one is silent", "anchors": ["c-impl/PQCrypto-SIDH/src/poik.c: render_progress, run_threads, Prove, Verify"]}
{"id": "C48", "title": "SIKE decapsulation: correctness and implicit rejection", "statement": "Given key-exchange agreement, decapsulating an encapsulation with the matching key returns the same shared secret; for any other ciphertext the returned secret is the hash of the stored random s and the ciphertext, and no error is reported.", "quantifier": "every key pair, message randomness and ciphertext", "why_tests_cant": "all ciphertexts", "anchors": ["c-impl/PQCrypto-SIDH/src/sike.c: crypto_kem_keypair, crypto_kem_enc, crypto_kem_dec"]}
{"id": "C49", "title": "SIDH key exchange agreement", "statement": "Both sides of the SIDH key exchange derive the same shared secret.", "quantifier": "every pair of private keys", "why_tests_cant": "2^216 x 3^137 pairs", "anchors": ["c-impl/PQCrypto-SIDH/src/sidh.c: EphemeralKeyGeneration_A, EphemeralKeyGeneration_B, EphemeralSecretAgreement_A, EphemeralSecretAgreement_B"]}
{"id": "C50", "title": "Multiword helpers behave as documented", "statement": "mp_shiftleft, mp_shiftr1, mp_shiftl1 shift by the stated amounts for every shift count and word count without undefined behaviour.", "quantifier": "every operand, every shift count", "why_tests_cant": "shift counts at word boundaries", "anchors": ["c-impl/PQCrypto-SIDH/src/fpx.c: mp_shiftleft, mp_shiftr1, mp_shiftl1"]}
{"id": "C51", "title": "Parsing has defined behaviour on every input", "statement": "Parse never runs into undefined behaviour, whatever bytes the input contains.", "quantifier": "every input byte stream, every parameter set", "why_tests_cant": "only adversarial inputs reach the undefined cases of isxdigit and of the %d conversion", "anchors": ["c-impl/PQCrypto-SIDH/src/poik.c: Parse, parse_hex_byte, Parse_Bytes, parse_packed_fp"]}
{"id": "C52", "title": "The Sage verifier binds each repetition to fixed-length hashes", "statement": "The Sage verifier checks the lengths of hashes and openings, so that the challenge input determines the list of hash pairs and nobody can complete a transcript without knowing an isogeny between the two curves.", "quantifier": "every transcript, every repetition count", "why_tests_cant": "a forger chooses the lengths; tests only feed honest proofs", "anchors": ["sage-impl/verify.sage: read_bytes, LeftResponse, RightResponse, challenge, Proof.verify"]}
{"id": "C53", "title": "The group law used as specification is an abelian group", "statement": "The chord-and-tangent law on B y^2 = x^3 + A x^2 + x with A^2 != 4, B != 0 is closed, commutative and associative, with the point at infinity as neutral element and (x,-y) as inverse; multiples add and multiply as expected.", "quantifier": "every field of characteristic not 2, every such curve, all points including doublings and inverse pairs", "why_tests_cant": "associativity is an identity over all triples of points with many exceptional cases", "anchors": ["c-impl/PQCrypto-SIDH/src/ec_isogeny.c: xDBL, xTPL, xDBLADD", "c-impl/PQCrypto-SIDH/src/poik.c: Ladder, Random_Point_AB"]}
{"id": "C54", "title": "Prove makes well-formed proofs between packed curves", "statement": "Every proof that Prove makes from a secret of Generate has completely defined fields of the right sizes, legal tags, and as its two curves the canonical encodings of the least models of the start curve and of the last curve of the secret; started from the second curve, packing gives that curve again.", "quantifier": "every start curve accepted by Generate, every secret, every random tape, every previous content of the memory, all parameter sets", "why_tests_cant": "field contents depend on random bytes, on the challenge and on stale memory of the response union", "anchors": ["c-impl/PQCrypto-SIDH/src/poik.c: Generate, Prove, Pack_Response, Pack_Chain_A, Pack_Chain_B, pack_curve"]}
{"id": "C55", "title": "The square of an honest repetition commutes and its corners are committed to", "statement": "In every repetition the prover holds a walk of degree 3^(e3 height) from the start curve to E2, one of degree 3^(e3 height) from the end curve to E3 and one of degree 2^(e2 width) from E2 to E3, none of them backtracking, and the two commitments are the hashes of fresh nonces of full length with the j-invariants of E2 and E3.", "quantifier": "every secret of Generate, every random tape", "why_tests_cant": "the statement relates chains of hundreds of isogenies computed by pushing points in two directions", "anchors": ["c-impl/PQCrypto-SIDH/src/poik.c: Instance, Random_Isogeny_Chain_B, Random_Isogeny_Chain_A"]}
{"id": "C56", "title": "The accepted curves are those with (p+1)^2 points, a class closed under the isogenies used", "statement": "Every nonsingular curve y^2 = x^3 + A x^2 + x over GF(p^2) has a number of points within 2p of p^2 + 1; the curves with (p+1)^2 points are killed by p+1, have their points of order 4 over GF(p^2), and are closed under isomorphisms and isogenies of degree 2, 3 and 4; the check of a packed curve decides this class.", "quantifier": "every coefficient in GF(p^2), all parameter sets", "why_tests_cant": "statements about all curves over a field with more than 2^850 elements", "anchors": ["c-impl/PQCrypto-SIDH/src/poik.c: Check_Curve, canonical_model, proves_order", "c-impl/PQCrypto-SIDH/src/ec_isogeny.c: get_2_isog, get_3_isog, get_4_isog"]}
{"id": "C57", "title": "The verdict of Verify depends on the proof only", "statement": "Two runs of Verify on the same proof that end give the same answer, whatever the random bytes, the uninitialised memory and the number of squeezed blocks allowed.", "quantifier": "every proof structure, all random tapes of both runs", "why_tests_cant": "a verdict that flips on rare random choices would not show up in tests", "anchors": ["c-impl/PQCrypto-SIDH/src/poik.c: Verify, Unpack_Response, Check_Curve"]}
{"id": "C58", "title": "The verifier has no undefined behaviour except while reading", "statement": "Verify ends with an answer, with fail() or for lack of random bytes on every proof structure of the right sizes: no index leaves its array, no result of a failed isogeny or packing is used. The program verify is undefined only while it reads a text with a byte 128..254 or a decimal number of at least 2^31.", "quantifier": "every input text or proof structure, chosen by an adversary, every random tape, every outcome of the writes, all parameter sets", "why_tests_cant": "an adversary chooses the points of the chains; memory errors on crafted points escape random testing", "anchors": ["c-impl/verify.c:6-38", "c-impl/PQCrypto-SIDH/src/poik.c: Verify, Unpack_Response, Unpack_Chain_A, Unpack_Chain_B, Isogeny_A, Isogeny_B, Check_Curve"]}
{"id": "C59", "title": "The prover has no undefined behaviour except while reading", "statement": "Generate and Prove end with a result, with fail() or for lack of random bytes from every start curve: isogenies of random points are always defined, curves and points can always be packed, and the tags written are legal. The program prove is undefined only while it reads an unreadable start curve.", "quantifier": "every start curve and command line, every random tape, every previous content of the memory, all parameter sets", "why_tests_cant": "failures on rare points (of too small order, or on special curves) have negligible probability in tests", "anchors": ["c-impl/prove.c:7-41", "c-impl/PQCrypto-SIDH/src/poik.c: Generate, Prove, Instance, Pack_Response, Pack_Chain_A, Pack_Chain_B, Random_Isogeny_Chain_A, Random_Isogeny_Chain_B"]}
{"id": "C60", "title": "The initial curve is never refused", "statement": "The start curve of prove --initial, y^2 = x^3 + x, has (p+1)^2 points over GF(p^2), so Generate does not refuse it; whenever prove --initial ends and its output can be written, it exits with 0 (2 if memory ran out) and the first line it prints is the encoding of the coefficient 0.", "quantifier": "every parameter set, random tape, stack content, standard input and further arguments", "why_tests_cant": "one run shows one random choice of points; that the check cannot fail on this curve is a statement about all of them", "anchors": ["c-impl/prove.c:13-26", "c-impl/PQCrypto-SIDH/src/poik.c: Generate, Check_Curve, Pack_Curve"]}
{"id": "C61", "title": "Assembly addition and subtraction equal the portable code", "statement": "For p434 the x86-64 functions fpadd434_asm, fpsub434_asm, mp_sub434_p2_asm and mp_add434_asm store exactly the words the portable functions compute, write only the seven words of the result, and restore the callee-saved registers and the stack pointer, also when the result overlaps the operands.", "quantifier": "all machine states, all operand words, all overlaps (mp_add434_asm: equal or disjoint buffers)", "why_tests_cant": "carry and borrow chains across seven words fail on inputs of probability about 2^-64 per word", "anchors": ["c-impl/PQCrypto-SIDH/src/P434/AMD64/fp_x64_asm.S:32-55", "c-impl/PQCrypto-SIDH/src/P434/AMD64/fp_x64_asm.S:63-130", "c-impl/PQCrypto-SIDH/src/P434/AMD64/fp_x64_asm.S:138-193", "c-impl/PQCrypto-SIDH/src/P434/AMD64/fp_x64_asm.S:197-250"]}
{"id": "C62", "title": "Assembly multiplication is Montgomery multiplication", "statement": "For p434 fpmul434_asm, with its two interleaved carry chains (adcx, adox), returns a value below a + p congruent to a b / R modulo p, whatever the overlap of the buffers; within the range a b < R p these are the words of the portable fpmul_mont.", "quantifier": "all machine states and all operand words with a + p <= R", "why_tests_cant": "a lost carry in one of the 98 additions per row shows up on a negligible fraction of the inputs", "anchors": ["c-impl/PQCrypto-SIDH/src/P434/AMD64/fp_x64_asm.S:264-306", "c-impl/PQCrypto-SIDH/src/P434/AMD64/fp_x64_asm.S:540-586", "c-impl/PQCrypto-SIDH/src/P434/AMD64/fp_x64_asm.S:771-813"]}
{"id": "C63", "title": "Assembly squaring in GF(p^2) equals the portable code", "statement": "For p434 fp2sqr434_c0_asm and fp2sqr434_c1_asm compute the two parts of fp2sqr_mont word for word; the first needs a buffer of fourteen words that does not meet the operand, as fpx.c provides, the second allows any overlap.", "quantifier": "all machine states and all operand words in the range where the portable function is correct", "why_tests_cant": "as for the multiplication; the intermediate values live in the result buffer and on the stack", "anchors": ["c-impl/PQCrypto-SIDH/src/P434/AMD64/fp_x64_asm.S:596-689", "c-impl/PQCrypto-SIDH/src/P434/AMD64/fp_x64_asm.S:699-761", "c-impl/PQCrypto-SIDH/src/fpx.c:265-287"]}
{"id": "C64", "title": "Assembly multiplication in GF(p^2)", "statement": "For p434 fp2mul434_c0_asm and fp2mul434_c1_asm return values below 2p congruent to (a0 b0 - a1 b1)/R and (a0 b1 + a1 b0)/R; the first needs b1 <= 8p, and is wrong for b1 = 9p, where the portable function is still right.", "quantifier": "all machine states and operand words in the stated ranges; a concrete state for the refutation", "why_tests_cant": "the limit 8p is only reached by sums of several lazily reduced values, which random inputs do not produce", "anchors": ["c-impl/PQCrypto-SIDH/src/P434/AMD64/fp_x64_asm.S:317-399", "c-impl/PQCrypto-SIDH/src/P434/AMD64/fp_x64_asm.S:410-473", "c-impl/PQCrypto-SIDH/src/P434/AMD64/fp_x64_asm.S:484-517", "c-impl/PQCrypto-SIDH/src/fpx.c:332-344", "c-impl/PQCrypto-SIDH/src/ec_isogeny.c: get_3_isog"]}
{"id": "C65", "title": "The x86-64 build computes what the portable build computes", "statement": "For p434, Verify, Generate, Prove and SIDH key generation and agreement return the same result whether the field operations run the x86-64 assembly or the portable C code, although products of the two may differ by the modulus.", "quantifier": "all proofs, secrets, keys, start curves, random tapes, loop bounds and sizes of the protocol, for the p434 field with 64-bit digits", "why_tests_cant": "the assembly product needs its second factor to be at most 8p, below the 10p that the documented ranges allow; that no call chain exceeds this is a statement about every reachable intermediate value", "anchors": ["c-impl/PQCrypto-SIDH/src/P434/AMD64/fp_x64_asm.S:56-761", "c-impl/PQCrypto-SIDH/src/P434/AMD64/fp_x64.c:22-192", "c-impl/PQCrypto-SIDH/src/fpx.c:113-345", "c-impl/PQCrypto-SIDH/src/ec_isogeny.c: get_3_isog"]}
{"id": "C66", "title": "Assembly addition and subtraction of p503 equal the portable code", "statement": "For p503 the x86-64 functions fpadd503_asm, fpsub503_asm, mp_sub503_p2_asm and mp_add503_asm store exactly the words the portable functions compute, write only the eight words of the result, and restore the callee-saved registers and the stack pointer, also when the result overlaps the operands.", "quantifier": "all machine states, all operand words, all overlaps (mp_add503_asm: equal or disjoint buffers)", "why_tests_cant": "carry and borrow chains across eight words fail on inputs of probability about 2^-64 per word", "anchors": ["c-impl/PQCrypto-SIDH/src/P503/AMD64/fp_x64_asm.S:32-58", "c-impl/PQCrypto-SIDH/src/P503/AMD64/fp_x64_asm.S:66-147", "c-impl/PQCrypto-SIDH/src/P503/AMD64/fp_x64_asm.S:155-220", "c-impl/PQCrypto-SIDH/src/P503/AMD64/fp_x64_asm.S:224-284"]}
{"id": "C67", "title": "Assembly multiplication of p503 is Montgomery multiplication", "statement": "For p503 fpmul503_asm returns a value below a + p congruent to a b / R modulo p, whatever the overlap of the buffers; within the range a b < R p these are the words of the portable fpmul_mont.", "quantifier": "all machine states and all operand words with a + p <= R", "why_tests_cant": "a lost carry in one of the additions of the eight rows shows up on a negligible fraction of the inputs", "anchors": ["c-impl/PQCrypto-SIDH/src/P503/AMD64/fp_x64_asm.S:298-346", "c-impl/PQCrypto-SIDH/src/P503/AMD64/fp_x64_asm.S:1385-1438", "c-impl/PQCrypto-SIDH/src/P503/AMD64/fp_x64_asm.S:1642-1686"]}
{"id": "C68", "title": "Assembly squaring in GF(p^2) for p503 equals the portable code", "statement": "For p503 fp2sqr503_c0_asm and fp2sqr503_c1_asm compute the two parts of fp2sqr_mont word for word; the first needs a buffer of sixteen words that does not meet the operand, as fpx.c provides, the second allows any overlap.", "quantifier": "all machine states and all operand words in the range where the portable function is correct", "why_tests_cant": "as for the multiplication; the intermediate values live in the result buffer and on the stack", "anchors": ["c-impl/PQCrypto-SIDH/src/P503/AMD64/fp_x64_asm.S:1448-1552", "c-impl/PQCrypto-SIDH/src/P503/AMD64/fp_x64_asm.S:1562-1632", "c-impl/PQCrypto-SIDH/src/fpx.c:265-287"]}
{"id": "C69", "title": "Assembly multiplication in GF(p^2) for p503", "statement": "For p503 fp2mul503_c0_asm and fp2mul503_c1_asm return values below 2p congruent to (a0 b0 - a1 b1)/R and (a0 b1 + a1 b0)/R; the first needs b1 <= 8p, and is wrong for b1 = 9p, where the portable function is still right.", "quantifier": "all machine states and operand words in the stated ranges; a concrete state for the refutation", "why_tests_cant": "the limit 8p is only reached by sums of several lazily reduced values, which random inputs do not produce", "anchors": ["c-impl/PQCrypto-SIDH/src/P503/AMD64/fp_x64_asm.S:357-428", "c-impl/PQCrypto-SIDH/src/P503/AMD64/fp_x64_asm.S:439-517", "c-impl/PQCrypto-SIDH/src/P503/AMD64/fp_x64_asm.S:528-571", "c-impl/PQCrypto-SIDH/src/fpx.c:332-344", "c-impl/PQCrypto-SIDH/src/ec_isogeny.c: get_3_isog"]}
{"id": "C70", "title": "The x86-64 build of p503 computes what the portable build computes", "statement": "For p503, Verify, Generate, Prove and SIDH key generation and agreement return the same result whether the field operations run the x86-64 assembly or the portable C code, although R is only about 1000 p and products of the two may differ by the modulus.", "quantifier": "all proofs, secrets, keys, start curves, random tapes, loop bounds and sizes of the protocol, for the p503 field with 64-bit digits", "why_tests_cant": "the margin between R and the largest sums is five bits smaller than for p434; that no call chain exceeds it is a statement about every reachable intermediate value", "anchors": ["c-impl/PQCrypto-SIDH/src/P503/AMD64/fp_x64_asm.S:32-1686", "c-impl/PQCrypto-SIDH/src/P503/AMD64/fp_x64.c:22-192", "c-impl/PQCrypto-SIDH/src/fpx.c:113-345", "c-impl/PQCrypto-SIDH/src/ec_isogeny.c: get_3_isog"]}
{"id": "C71", "title": "Assembly addition and subtraction of p610 equal the portable code", "statement": "For p610 the x86-64 functions fpadd610_asm, fpsub610_asm, mp_sub610_p2_asm and mp_add610_asm store exactly the words the portable functions compute, write only the ten words of the result, and restore the callee-saved registers and the stack pointer, although the upper words and the carry are spilled into the result buffer and a register half way.", "quantifier": "all machine states, all operand words, all overlaps (mp_add610_asm: equal or disjoint buffers)", "why_tests_cant": "the carry between the two halves of the chain is saved with setc and restored with bt; losing it shows up on inputs of probability about 2^-64", "anchors": ["c-impl/PQCrypto-SIDH/src/P610/AMD64/fp_x64_asm.S:32-64", "c-impl/PQCrypto-SIDH/src/P610/AMD64/fp_x64_asm.S:72-170", "c-impl/PQCrypto-SIDH/src/P610/AMD64/fp_x64_asm.S:178-257", "c-impl/PQCrypto-SIDH/src/P610/AMD64/fp_x64_asm.S:261-332"]}
{"id": "C72", "title": "Assembly multiplication of p610 equals the portable code", "statement": "For p610 fpmul610_asm returns a value below a + p that is a b / R modulo p whenever a + p <= R, exactly the words of the portable fpmul_mont when a b < R p; it writes only the ten words of the result and restores the callee-saved registers and the stack pointer, although three words of the running sum live on the stack and the last row stores into the result while it still reads the operands.", "quantifier": "all machine states and operand words in the stated ranges; result and first operand equal or disjoint, the second operand anywhere", "why_tests_cant": "twenty interleaved carry chains over ten rows with eight rotating registers and a stack window; a lost carry or a clobbered operand word shows up only on rare words or rare overlaps", "anchors": ["c-impl/PQCrypto-SIDH/src/P610/AMD64/fp_x64_asm.S:385-446", "c-impl/PQCrypto-SIDH/src/P610/AMD64/fp_x64_asm.S:737-804", "c-impl/PQCrypto-SIDH/src/P610/AMD64/fp_x64_asm.S:1044-1097"]}
