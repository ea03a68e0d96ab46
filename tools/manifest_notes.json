{
 "C07": "The statement is false of the code (finding): scalar_mul_vec uses the lazy Shoup product and can return values in [p,2p). Refuted by a witness; congruence and the range [0,2p) are proved, and the exact values (C07_scalar_mul_vec_actual). For p <= 2^32 and reduced elements the result is reduced unless p divides a product of non-zero factors, so always for primes (C07_small_modulus).",
 "C56": "Refuted in general: with twelve source moduli x = product-1 scaled by 1/3 gives the residue of 2 (both profiles); the carry of v*theta_gamma is dropped when v >= 2^65. Proved for the factors the scheme uses (1, and N/product) with any number of moduli up to 2^32 (C56_integral_partial); missing: other factors with more than 8 moduli, for which it is false.",
 "C16": "Refuted as stated: number_common_moduli counts equal positions instead of the common prefix, so with contexts [a,b] and [c,b] the row of modulus a is copied to modulus c (C16_position_count_refuted). Proved whenever the agreeing positions form a prefix or the factor is not one (C16_scale), with the exact rounding condition (C16_exact). C16_actual gives every row of the result for arbitrary contexts.",
 "C23": "Refuted: bits() is 2^64-65+bitlen, and apply_bit_decomposition panics on every well-formed polynomial.",
 "C28": "Refuted: for every parameter set the slot map sends positions n/2 and 3n/4 to the same place, so some vectors do not round-trip (C28_simd_refuted). The actual last-writer semantics is proved in C28_simd_actual.",
 "C34": "Refuted: the polynomial is added to both components, so the phase changes by h + h*s (C34_add_poly_actual); witness C34_add_poly_refuted.",
 "C35": "Refuted: the loop overwrites cs[i+j] instead of accumulating, so the middle component loses the a0*b1 term; witness with a fresh encryption of 2+3X (C35_product_refuted). C35_actual gives the result for any two ciphertexts, with any numbers of components: component k is the rescaled product of the single pair with the largest index into the first operand. C35_one_component: with a one-component right operand nothing is lost and the product is right. C35_empty: operands without components.",
 "C46": "Refuted: encrypt hard-codes level 0, so decrypting a fresh ciphertext of any level >= 1 always panics. C46_actual: the components are a correct encryption at the plaintext's level; with the level field corrected the ciphertext decrypts to the message.",
 "C58": "Refuted: addition and subtraction read components 0 and 1 only and drop the others. C58_actual gives the results for all component counts (panic below two).",
 "C42": "Refuted of the code: gen_x_pows requests the even exponent n-2, which Substitution::new rejects, so unpack panics on every ciphertext of every parameter set (C42_unpack_refuted). For the intended monomials X^(-2^i), the rest of unpack is proved to return one ciphertext per coefficient with noise at most (n-1)*KS (C42_expand).",
 "C43": "Encoding proved one-hot with the stated length; out-of-range indices panic. The size check is refuted: it is a truncated division, so 31 rows pass for a 4x4 shape, and in release builds dim^(d-1) may wrap.",
 "C44": "First-dimension products and RGSW folds, for any database, shape and query; decryption within the budget.",
 "C45": "Refuted of the code: Server::decode panics on every query because of C42. With the expansion repaired (only gen_x_pows replaced), the whole pipeline encode / query / build / new / decode / decrypt returns the requested entry within an explicit budget (C45_retrieve), for every hypercube side for which decode counts the dimensions right (countable, see C55: every power of two, and e.g. one or two further dimensions of side 5 or 7).",
 "C55": "no_of_cts proved for every dim >= 2 whose count fits 64 bits. C55_dims: decode counts log2(dim^k)/log2(dim)+1 dimensions, which is right exactly when log2(dim^k) < (k+1) log2(dim) (countable); this holds for every power of two and for k <= 1, and then the encoded length, no_of_cts and the dimension count agree (C55_agree). Refuted for other shapes: with dim=3, two further dimensions, decode counts one dimension too many. dim=1: a release build never terminates, a debug build runs until the counter overflows. C55_overflow: a count above 2^64 panics in debug and wraps in release.",
 "C48": "Proved for every parameter set with 2 <= q < 2^62: exact phase, exact rounding, recovery of the message for errors in [-floor(q/4), floor(q/2)-floor(q/4)) (which contains [-floor(q/4), floor(q/4))), a sufficient condition on the parameters, and the panics.",
 "C49": "Refuted: with the default parameters some randomness (every error +4, 4096 rows selected) turns every 0 into a 1. Proved to be correct whenever fewer than 4096 rows are selected; C49_test is the exact verdict of the crate's own test for every draw.",
 "C53": "Proved at every level for equally long non-empty lists, with the decryption under the summed noise; mismatched or empty lists panic.",
 "C59": "Proved for the command machine of MApi.v, which runs any program over every modelled function.",
 "C60": "Proved for every program of the command machine of MApi.v. Refuted for RnsScaler::scale called directly in a release build with a residue vector longer than the source basis: it reads past the end of omega. no_of_cts is outside the machine because it loops forever for dimension 1 (see C55). C60_calls_* state which function each program step calls.",
 "C61": "Proved for keys whose level is at most the ciphertext level (C61_cross_level, including generation). Refuted for deeper keys: key_switch never compares the two contexts, the rows above the key's basis stay zero and the result has another phase (C61_higher_level_actual, C61_higher_level_refuted).",
 "C62": "Proved when the left operand is the smaller one (C62_smaller_left). Refuted for the other order: the operators only compare representations in debug builds, and the extra rows keep the left operand's residues (C62_larger_left_actual, C62_larger_left_refuted).",
 "C63": "Proved for the encoding loop with any parameters and any clue list, and for process as written.",
 "C64": "Proved by induction over the circuit, for every circuit; end-to-end version for fresh encryptions at level 0 (encryption at other levels is broken, C46).",
 "C65": "Proved by exact counting over all generator outcomes.",
 "C66": "Decoding is characterised exactly (C66_decode: evaluation points of both rows) and the rotation is proved for the first row (C66_first_row). Refuted for the second row and for the row exchange: index2 lacks the >> 1 of the batch encoder it copies, so for the plaintext X and every non-trivial rotation every second-row slot is wrong (C66_second_row_refuted), and X -> X^(2n-1) puts no slot of one row into the other (C66_swap_refuted).",
 "C67": "C67_transform, C67_product, C67_full_from_half give the phase of every result modulo Q with an explicit error bound. The lower half is the one of Ksk::new for an arbitrary polynomial u. C67_example also runs the sequence of the test construct_full_from_half, which decrypts to b*(m + e), not b*m, because there the scaled b multiplies the encryption error of the unscaled m.",
 "C68": "Proved (hypothesis: the primality test is exact): success and the exact moduli for any k when 2k+1 suitable primes exist (C68_default; C68_primes certifies thirteen per degree, enough for k <= 6), uniqueness of degree and moduli (C68_moduli), and the decryption guarantees for all parameters default ever returns (C68_encrypt, C68_circuit). Refuted: default panics for every degree >= 128, because 1153 - 1 = 2^7 * 9 (C68_large_degree_refuted).",
 "C69": "The switched ciphertext is built from the public fields and mod_switch_to (the crate has no method for it); C69_switch gives the noise bound for any pair of levels, C69_decrypt and C69_stages_decrypt the decrypted values, C69_default removes the noise condition for the default parameters, C69_guard the panic upwards.",
 "C70": "Structural part of the security argument (the reduction from Ring-LWE), not a hardness claim: randomness is an input of the model, so freshness of the thread generator is outside it. The query is the client code of the crate's test.",
 "C71": "C45 with the noise hypothesis discharged. As in C45 the rotation polynomials X^-2^i handed to the expansion are an input (see C42/C43 for the ones the code computes); ct_switch is the composition of Poly::switch_to with the representation changes, as in C69.",
 "C72": "Partial because the SIMD half of encrypt_decrypt, the 70-bit assertion of ksk and the evaluation tests do not pass for all draws (proved exactly: C72_encrypt_decrypt_simd, C72_ksk_refuted with C72_ksk_71, C72_evaluation_refuted). MTests.v and MTests2.v model all tests, one iteration of loops over repeated draws; printed values are results. The verdict of the PVW test is C49_test. C89 shows the failing tests pass with repaired functions.",
 "C73": "The debug halves make every debug assertion of modulus.rs observable; the release halves are exact, not only bounds. Added after automatic edits of the guards of shoup and of the U256 shift had survived.",
 "C74": "The samplers of rand 0.8.5 are transcribed (sources not in /repo); the crate's own part is which range, how many samples, which row. Generator outcomes are counted over all bit strings.",
 "C75": "ChaCha8, PCG32 seeding and SHA-256 are transcribed from their published definitions and checked against published test vectors (C75_vectors). The primality test is assumed exact.",
 "C76": "Justifies the model's comparisons ctx_eqb, params_eqb, poly_eqb, which inspect only the inputs of construction: they coincide with structural equality of the whole records.",
 "C19": "Holds whenever the usize counter of the two loops fits 64 bits, which degrees up to 2^31 guarantee; a release build wraps it harmlessly. C19_counter: where it does not fit, Substitution::new panics in a debug build.",
 "C38": "For degrees up to 2^31 or release builds (see C19).",
 "C77": "Complements C49: the refuting outcomes exist and are rarer than 2^-5900. The ell error streams are independent blocks of generator bits.",
 "C78": "Retrieval is for the repaired expansion (C42); the address map and injectivity of encode are about the code as it is.",
 "C79": "The code seeds the generator with the constant 0, so for one prime the outcome is fixed; C75 follows that generator for the primes of the crate. C79 is about the uniform words that a generator stands for, i.e. about the choice of 100 as the number of attempts.",
 "C80": "Server::decode itself panics on every query because of the expansion (C42, C45); the number-of-ciphertexts check is about the code as it is, the rest about the repaired expansion.",
 "C81": "The polynomial that is switched is fixed before the key's errors are drawn, as it is when a client publishes its keys. Fractions count generator outcomes exactly; that the generator's bits are uniform is the usual assumption about it and not modelled.",
 "C82": "A statement about the code with one line changed (MFix.v, index_map_loop_fixed); it shows that the missing shift is the only defect of the SIMD path. The functions other than Plaintext::new and decode are those of the code; that they ignore the slot map is proved (PSimd2.v). C82_exist: the encodings, keys and encryptions exist for all data.",
 "C83": "A statement about variants of five functions (MFix2.v), each with the one change named in its comment; it shows that these changes are enough to repair C34, C35, C46 and C58. C83_agree: where the code is right (two components, level 0) the variants are the code. The product needs a*n*Q^2 <= the extended modulus, a being the number of components of the first operand.",
 "C84": "About the code as it is. C84_switch with m equal to the number of moduli is the correctness of an assembled key.",
 "C85": "About repaired variants (MFix3.v) of gen_x_pows, unpack, Client::encode and the dimension count of decode, not about the code as it is (see C42, C43, C45, C55).",
 "C86": "The reduction only: that encryptions of zero (Ring-LWE samples by C70) are hard to tell from uniform pairs is the cryptographic assumption and is not claimed. Other knowledge is a parameter of each world, so key-dependent messages in the evaluation keys are covered by the assumption used.",
 "C87": "The repaired functions (MFix4.v) are not in the repository; the claim says what the repair of C07, C16, C23, C56, C60, C61 and C62 achieves.",
 "C88": "The repaired defaults (MFix5.v) are not in the repository; they differ from the code in one constant each. The primality of the listed primes is checked in the kernel by Pocklington certificates.",
 "C89": "The tests in MFixTests.v call the repaired functions of MFix.v and MFix3.v, which are not in the repository; the claim says what the repair of C72 achieves. Loops over repeated draws are one iteration, printed values are results.",
 "C90": "The laws of the operator * on ciphertexts are not claimed: it is false of the code that it denotes the product (C35).",
 "C91": "Average over the errors only: masks, key, message and input ciphertext are arbitrary but fixed before the errors are drawn (for later steps the input depends on the earlier errors, which the theorem accounts for).",
 "C92": "The answer is that of the server with the expansion repaired (server_decode panics in the code, C42). Words are counted, not a serialisation: the crate has none.",
 "C93": "At the level of the source: the steps are those written in the Rust code of a Release build (C93_values ties them to the functions of the model). What the compiler and the processor make of a word operation is not modelled; a division is counted as giving away both operands.",
 "C94": "Comparison of contexts and parameters is spelled out field by field in SpecGuard.v. The ignored third component is stated as what the code does (C94_ignored).",
 "C95": "Steps at the level of the source text: what the compiler and the processor make of them, memory allocation and the expansion of the (public) seed are outside the model. Decryption is covered up to the scaling of the phase here, as a whole in C96.",
 "C96": "Steps at the level of the source text. Operations on U192 and U256 count as one step each, dividing by the constant 2 as a shift. The sign is the value w_sign computed by the model of scale (sign_of in SpecTrace3.v).",
 "C97": "Steps at the level of the source text, as in C95. The search for the level of a context compares public data and is recorded as one decision.",
 "C98": "Steps at the level of the source text, as in C95; a comparison turned into a number is one word operation. Whether the index is in range is given away by the assertions of Client::encode.",
 "C99": "Steps at the level of the source text, as in C95. Computations on public parameters (powers of X, inverse of the degree, numbers of dimensions, cutting lists into chunks, preparing a substitution) are not recorded; looking up a Galois key by its public exponent is one decision. unpack of the code stops in the computation of the powers of X (C42), so for the code itself the claim covers the steps up to there; everything after it is covered with the powers of X as an argument, as in C45."
}