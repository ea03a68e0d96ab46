{
 "claims": [
  {
   "property": "C01",
   "status": "proved",
   "theorems": [
    "C01_modulus_new"
   ],
   "note": ""
  },
  {
   "property": "C02",
   "status": "proved",
   "theorems": [
    "C02_reduce",
    "C02_reduce_u128",
    "C02_lazy_reduce",
    "C02_reduce_ct",
    "C02_reduce_biguint"
   ],
   "note": ""
  },
  {
   "property": "C03",
   "status": "proved",
   "theorems": [
    "C03_reduce_i64"
   ],
   "note": ""
  },
  {
   "property": "C04",
   "status": "proved",
   "theorems": [
    "C04_ops",
    "C04_vec",
    "C04_debug_guard"
   ],
   "note": ""
  },
  {
   "property": "C05",
   "status": "proved",
   "theorems": [
    "C05_pow",
    "C05_inv"
   ],
   "note": ""
  },
  {
   "property": "C06",
   "status": "proved",
   "theorems": [
    "C06_shoup"
   ],
   "note": ""
  },
  {
   "property": "C07",
   "status": "partial",
   "theorems": [
    "C07_scalar_mul_vec_refuted",
    "C07_scalar_mul_vec_partial",
    "C07_scalar_mul_vec_actual",
    "C07_small_modulus"
   ],
   "note": "The statement is false of the code (finding): scalar_mul_vec uses the lazy Shoup product and can return values in [p,2p). Refuted by a witness; congruence and the range [0,2p) are proved, and the exact values (C07_scalar_mul_vec_actual). For p <= 2^32 and reduced elements the result is reduced unless p divides a product of non-zero factors, so always for primes (C07_small_modulus)."
  },
  {
   "property": "C08",
   "status": "proved",
   "theorems": [
    "C08_forward"
   ],
   "note": ""
  },
  {
   "property": "C09",
   "status": "proved",
   "theorems": [
    "C09_inverse",
    "C09_length_guard"
   ],
   "note": ""
  },
  {
   "property": "C10",
   "status": "proved",
   "theorems": [
    "C10_negacyclic"
   ],
   "note": ""
  },
  {
   "property": "C11",
   "status": "proved",
   "theorems": [
    "C11_guard",
    "C11_construct"
   ],
   "note": ""
  },
  {
   "property": "C12",
   "status": "proved",
   "theorems": [
    "C12_construct",
    "C12_lift_project",
    "C12_project_lift"
   ],
   "note": ""
  },
  {
   "property": "C13",
   "status": "proved",
   "theorems": [
    "C13_scale",
    "C13_exact"
   ],
   "note": ""
  },
  {
   "property": "C14",
   "status": "proved",
   "theorems": [
    "C14_extend"
   ],
   "note": ""
  },
  {
   "property": "C15",
   "status": "proved",
   "theorems": [
    "C15_add_sub_not",
    "C15_shr",
    "C15_conversions"
   ],
   "note": ""
  },
  {
   "property": "C16",
   "status": "partial",
   "theorems": [
    "C16_position_count_refuted",
    "C16_scale",
    "C16_actual",
    "C16_exact",
    "C16_guard",
    "C16_context_guard"
   ],
   "note": "Refuted as stated: number_common_moduli counts equal positions instead of the common prefix, so with contexts [a,b] and [c,b] the row of modulus a is copied to modulus c (C16_position_count_refuted). Proved whenever the agreeing positions form a prefix or the factor is not one (C16_scale), with the exact rounding condition (C16_exact). C16_actual gives every row of the result for arbitrary contexts."
  },
  {
   "property": "C17",
   "status": "proved",
   "theorems": [
    "C17_denotes",
    "C17_denotes_unique",
    "C17_denotes_complete",
    "C17_ring_ops",
    "C17_guard"
   ],
   "note": ""
  },
  {
   "property": "C18",
   "status": "proved",
   "theorems": [
    "C18_change",
    "C18_round_trip",
    "C18_guard"
   ],
   "note": ""
  },
  {
   "property": "C19",
   "status": "proved",
   "theorems": [
    "C19_substitute",
    "C19_counter",
    "C19_even_panics",
    "C19_automorphism"
   ],
   "note": "Holds whenever the usize counter of the two loops fits 64 bits, which degrees up to 2^31 guarantee; a release build wraps it harmlessly. C19_counter: where it does not fit, Substitution::new panics in a debug build."
  },
  {
   "property": "C20",
   "status": "proved",
   "theorems": [
    "C20_switch_down",
    "C20_switch_to",
    "C20_chain",
    "C20_guard",
    "C20_repr_guard"
   ],
   "note": ""
  },
  {
   "property": "C21",
   "status": "proved",
   "theorems": [
    "C21_from_integers",
    "C21_too_long",
    "C21_to_integers",
    "C21_to_u64_guard"
   ],
   "note": ""
  },
  {
   "property": "C22",
   "status": "proved",
   "theorems": [
    "C22_bit_vector",
    "C22_decompose_bits",
    "C22_zero_digit"
   ],
   "note": ""
  },
  {
   "property": "C23",
   "status": "partial",
   "theorems": [
    "C23_bits_refuted",
    "C23_apply_bit_decomposition_refuted"
   ],
   "note": "Refuted: bits() is 2^64-65+bitlen, and apply_bit_decomposition panics on every well-formed polynomial."
  },
  {
   "property": "C24",
   "status": "proved",
   "theorems": [
    "C24_sample_vec_cbd",
    "C24_variance_guard"
   ],
   "note": ""
  },
  {
   "property": "C25",
   "status": "proved",
   "theorems": [
    "C25_generate_prime",
    "C25_bits_guard"
   ],
   "note": ""
  },
  {
   "property": "C26",
   "status": "proved",
   "theorems": [
    "C26_generate_moduli",
    "C26_size_guard"
   ],
   "note": ""
  },
  {
   "property": "C27",
   "status": "proved",
   "theorems": [
    "C27_poly_round_trip",
    "C27_guards",
    "C27_set_encoding"
   ],
   "note": ""
  },
  {
   "property": "C28",
   "status": "partial",
   "theorems": [
    "C28_simd_refuted",
    "C28_simd_actual",
    "C28_short_panics"
   ],
   "note": "Refuted: for every parameter set the slot map sends positions n/2 and 3n/4 to the same place, so some vectors do not round-trip (C28_simd_refuted). The actual last-writer semantics is proved in C28_simd_actual."
  },
  {
   "property": "C29",
   "status": "proved",
   "theorems": [
    "C29_scaled_plaintext"
   ],
   "note": ""
  },
  {
   "property": "C30",
   "status": "proved",
   "theorems": [
    "C30_keygen",
    "C30_encrypt_decrypt"
   ],
   "note": ""
  },
  {
   "property": "C31",
   "status": "proved",
   "theorems": [
    "C31_decrypt",
    "C31_budget"
   ],
   "note": ""
  },
  {
   "property": "C32",
   "status": "proved",
   "theorems": [
    "C32_add_sub",
    "C32_decrypt",
    "C32_mismatch"
   ],
   "note": ""
  },
  {
   "property": "C33",
   "status": "proved",
   "theorems": [
    "C33_multiply",
    "C33_decrypt"
   ],
   "note": ""
  },
  {
   "property": "C34",
   "status": "partial",
   "theorems": [
    "C34_add_poly_actual",
    "C34_add_poly_refuted"
   ],
   "note": "Refuted: the polynomial is added to both components, so the phase changes by h + h*s (C34_add_poly_actual); witness C34_add_poly_refuted."
  },
  {
   "property": "C35",
   "status": "partial",
   "theorems": [
    "C35_product_refuted",
    "C35_actual",
    "C35_one_component",
    "C35_empty"
   ],
   "note": "Refuted: the loop overwrites cs[i+j] instead of accumulating, so the middle component loses the a0*b1 term; witness with a fresh encryption of 2+3X (C35_product_refuted). C35_actual gives the result for any two ciphertexts, with any numbers of components: component k is the rescaled product of the single pair with the largest index into the first operand. C35_one_component: with a one-component right operand nothing is lost and the product is right. C35_empty: operands without components."
  },
  {
   "property": "C36",
   "status": "proved",
   "theorems": [
    "C36_multiply",
    "C36_decrypt",
    "C36_basis"
   ],
   "note": ""
  },
  {
   "property": "C37",
   "status": "proved",
   "theorems": [
    "C37_key_switch",
    "C37_from_plaintext",
    "C37_guard"
   ],
   "note": ""
  },
  {
   "property": "C38",
   "status": "proved",
   "theorems": [
    "C38_galois",
    "C38_decrypt",
    "C38_one_modulus"
   ],
   "note": "For degrees up to 2^31 or release builds (see C19)."
  },
  {
   "property": "C39",
   "status": "proved",
   "theorems": [
    "C39_relinearize"
   ],
   "note": ""
  },
  {
   "property": "C40",
   "status": "proved",
   "theorems": [
    "C40_external",
    "C40_external_poly",
    "C40_decrypt"
   ],
   "note": ""
  },
  {
   "property": "C41",
   "status": "proved",
   "theorems": [
    "C41_assembled"
   ],
   "note": ""
  },
  {
   "property": "C42",
   "status": "partial",
   "theorems": [
    "C42_unpack_refuted",
    "C42_expand",
    "C42_x_pows_exist"
   ],
   "note": "Refuted of the code: gen_x_pows requests the even exponent n-2, which Substitution::new rejects, so unpack panics on every ciphertext of every parameter set (C42_unpack_refuted). For the intended monomials X^(-2^i), the rest of unpack is proved to return one ciphertext per coefficient with noise at most (n-1)*KS (C42_expand)."
  },
  {
   "property": "C43",
   "status": "partial",
   "theorems": [
    "C43_encode",
    "C43_accepted",
    "C43_panics",
    "C43_size_refuted",
    "C43_wrap_refuted"
   ],
   "note": "Encoding proved one-hot with the stated length; out-of-range indices panic. The size check is refuted: it is a truncated division, so 31 rows pass for a 4x4 shape, and in release builds dim^(d-1) may wrap."
  },
  {
   "property": "C44",
   "status": "proved",
   "theorems": [
    "C44_fold",
    "C44_decrypt"
   ],
   "note": "First-dimension products and RGSW folds, for any database, shape and query; decryption within the budget."
  },
  {
   "property": "C45",
   "status": "partial",
   "theorems": [
    "C45_decode_refuted",
    "C45_retrieve"
   ],
   "note": "Refuted of the code: Server::decode panics on every query because of C42. With the expansion repaired (only gen_x_pows replaced), the whole pipeline encode / query / build / new / decode / decrypt returns the requested entry within an explicit budget (C45_retrieve), for every hypercube side for which decode counts the dimensions right (countable, see C55: every power of two, and e.g. one or two further dimensions of side 5 or 7)."
  },
  {
   "property": "C46",
   "status": "partial",
   "theorems": [
    "C46_level_refuted",
    "C46_actual"
   ],
   "note": "Refuted: encrypt hard-codes level 0, so decrypting a fresh ciphertext of any level >= 1 always panics. C46_actual: the components are a correct encryption at the plaintext's level; with the level field corrected the ciphertext decrypts to the message."
  },
  {
   "property": "C47",
   "status": "proved",
   "theorems": [
    "C47_measure_noise"
   ],
   "note": ""
  },
  {
   "property": "C48",
   "status": "proved",
   "theorems": [
    "C48_exact",
    "C48_decrypt",
    "C48_safe",
    "C48_panics"
   ],
   "note": "Proved for every parameter set with 2 <= q < 2^62: exact phase, exact rounding, recovery of the message for errors in [-floor(q/4), floor(q/2)-floor(q/4)) (which contains [-floor(q/4), floor(q/4))), a sufficient condition on the parameters, and the panics."
  },
  {
   "property": "C49",
   "status": "partial",
   "theorems": [
    "C49_default_refuted",
    "C49_default_partial",
    "C49_test"
   ],
   "note": "Refuted: with the default parameters some randomness (every error +4, 4096 rows selected) turns every 0 into a 1. Proved to be correct whenever fewer than 4096 rows are selected; C49_test is the exact verdict of the crate's own test for every draw."
  },
  {
   "property": "C50",
   "status": "proved",
   "theorems": [
    "C50_ilog2",
    "C50_div_ceil",
    "C50_div_ceil_zero",
    "C50_mod_inverse"
   ],
   "note": ""
  },
  {
   "property": "C51",
   "status": "proved",
   "theorems": [
    "C51_ctx_level",
    "C51_switch_iterations"
   ],
   "note": ""
  },
  {
   "property": "C52",
   "status": "proved",
   "theorems": [
    "C52_construct"
   ],
   "note": ""
  },
  {
   "property": "C53",
   "status": "proved",
   "theorems": [
    "C53_inner_product",
    "C53_decrypt",
    "C53_panics"
   ],
   "note": "Proved at every level for equally long non-empty lists, with the decryption under the summed noise; mismatched or empty lists panic."
  },
  {
   "property": "C54",
   "status": "proved",
   "theorems": [
    "C54_inverse"
   ],
   "note": ""
  },
  {
   "property": "C55",
   "status": "partial",
   "theorems": [
    "C55_no_of_cts",
    "C55_agree",
    "C55_dims",
    "C55_dims_refuted",
    "C55_degenerate",
    "C55_overflow"
   ],
   "note": "no_of_cts proved for every dim >= 2 whose count fits 64 bits. C55_dims: decode counts log2(dim^k)/log2(dim)+1 dimensions, which is right exactly when log2(dim^k) < (k+1) log2(dim) (countable); this holds for every power of two and for k <= 1, and then the encoded length, no_of_cts and the dimension count agree (C55_agree). Refuted for other shapes: with dim=3, two further dimensions, decode counts one dimension too many. dim=1: a release build never terminates, a debug build runs until the counter overflows. C55_overflow: a count above 2^64 panics in debug and wraps in release."
  },
  {
   "property": "C56",
   "status": "partial",
   "theorems": [
    "C56_twelve_moduli_refuted",
    "C56_integral_partial"
   ],
   "note": "Refuted in general: with twelve source moduli x = product-1 scaled by 1/3 gives the residue of 2 (both profiles); the carry of v*theta_gamma is dropped when v >= 2^65. Proved for the factors the scheme uses (1, and N/product) with any number of moduli up to 2^32 (C56_integral_partial); missing: other factors with more than 8 moduli, for which it is false."
  },
  {
   "property": "C57",
   "status": "proved",
   "theorems": [
    "C57_structure",
    "C57_construct"
   ],
   "note": ""
  },
  {
   "property": "C58",
   "status": "partial",
   "theorems": [
    "C58_add_three_refuted",
    "C58_actual"
   ],
   "note": "Refuted: addition and subtraction read components 0 and 1 only and drop the others. C58_actual gives the results for all component counts (panic below two)."
  },
  {
   "property": "C59",
   "status": "proved",
   "theorems": [
    "C59_profiles_agree",
    "C59_panic_or_same"
   ],
   "note": "Proved for the command machine of MApi.v, which runs any program over every modelled function."
  },
  {
   "property": "C60",
   "status": "partial",
   "theorems": [
    "C60_no_undefined_behaviour",
    "C60_calls_words",
    "C60_calls_polys",
    "C60_calls_bfv",
    "C60_calls_keys",
    "C60_calls_pir",
    "C60_scaler_debug",
    "C60_scaler",
    "C60_scaler_release_refuted"
   ],
   "note": "Proved for every program of the command machine of MApi.v. Refuted for RnsScaler::scale called directly in a release build with a residue vector longer than the source basis: it reads past the end of omega. no_of_cts is outside the machine because it loops forever for dimension 1 (see C55). C60_calls_* state which function each program step calls."
  },
  {
   "property": "C61",
   "status": "partial",
   "theorems": [
    "C61_cross_level",
    "C61_higher_level_actual",
    "C61_higher_level_refuted",
    "C61_from_plaintext",
    "C61_contexts"
   ],
   "note": "Proved for keys whose level is at most the ciphertext level (C61_cross_level, including generation). Refuted for deeper keys: key_switch never compares the two contexts, the rows above the key's basis stay zero and the result has another phase (C61_higher_level_actual, C61_higher_level_refuted)."
  },
  {
   "property": "C62",
   "status": "partial",
   "theorems": [
    "C62_smaller_left",
    "C62_larger_left_actual",
    "C62_larger_left_refuted"
   ],
   "note": "Proved when the left operand is the smaller one (C62_smaller_left). Refuted for the other order: the operators only compare representations in debug builds, and the extra rows keep the left operand's residues (C62_larger_left_actual, C62_larger_left_refuted)."
  },
  {
   "property": "C63",
   "status": "proved",
   "theorems": [
    "C63_encode",
    "C63_too_many",
    "C63_process"
   ],
   "note": "Proved for the encoding loop with any parameters and any clue list, and for process as written."
  },
  {
   "property": "C64",
   "status": "proved",
   "theorems": [
    "C64_circuit",
    "C64_program",
    "C64_keys_exist"
   ],
   "note": "Proved by induction over the circuit, for every circuit; end-to-end version for fresh encryptions at level 0 (encryption at other levels is broken, C46)."
  },
  {
   "property": "C65",
   "status": "proved",
   "theorems": [
    "C65_distribution",
    "C65_moments"
   ],
   "note": "Proved by exact counting over all generator outcomes."
  },
  {
   "property": "C66",
   "status": "partial",
   "theorems": [
    "C66_decode",
    "C66_first_row",
    "C66_second_row_refuted",
    "C66_swap_refuted"
   ],
   "note": "Decoding is characterised exactly (C66_decode: evaluation points of both rows) and the rotation is proved for the first row (C66_first_row). Refuted for the second row and for the row exchange: index2 lacks the >> 1 of the batch encoder it copies, so for the plaintext X and every non-trivial rotation every second-row slot is wrong (C66_second_row_refuted), and X -> X^(2n-1) puts no slot of one row into the other (C66_swap_refuted)."
  },
  {
   "property": "C67",
   "status": "proved",
   "theorems": [
    "C67_transform",
    "C67_product",
    "C67_full_from_half"
   ],
   "note": "C67_transform, C67_product, C67_full_from_half give the phase of every result modulo Q with an explicit error bound. The lower half is the one of Ksk::new for an arbitrary polynomial u. C67_example also runs the sequence of the test construct_full_from_half, which decrypts to b*(m + e), not b*m, because there the scaled b multiplies the encryption error of the unscaled m."
  },
  {
   "property": "C68",
   "status": "partial",
   "theorems": [
    "C68_large_degree_refuted",
    "C68_encrypt",
    "C68_circuit",
    "C68_default",
    "C68_moduli",
    "C68_primes"
   ],
   "note": "Proved (hypothesis: the primality test is exact): success and the exact moduli for any k when 2k+1 suitable primes exist (C68_default; C68_primes certifies thirteen per degree, enough for k <= 6), uniqueness of degree and moduli (C68_moduli), and the decryption guarantees for all parameters default ever returns (C68_encrypt, C68_circuit). Refuted: default panics for every degree >= 128, because 1153 - 1 = 2^7 * 9 (C68_large_degree_refuted)."
  },
  {
   "property": "C69",
   "status": "proved",
   "theorems": [
    "C69_switch",
    "C69_decrypt",
    "C69_stages",
    "C69_stages_decrypt",
    "C69_guard",
    "C69_default"
   ],
   "note": "The switched ciphertext is built from the public fields and mod_switch_to (the crate has no method for it); C69_switch gives the noise bound for any pair of levels, C69_decrypt and C69_stages_decrypt the decrypted values, C69_default removes the noise condition for the default parameters, C69_guard the panic upwards."
  },
  {
   "property": "C70",
   "status": "proved",
   "theorems": [
    "C70_encrypt",
    "C70_ksk",
    "C70_galois",
    "C70_rgsw",
    "C70_query",
    "C70_pad"
   ],
   "note": "Structural part of the security argument (the reduction from Ring-LWE), not a hardness claim: randomness is an input of the model, so freshness of the thread generator is outside it. The query is the client code of the crate's test."
  },
  {
   "property": "C71",
   "status": "proved",
   "theorems": [
    "C71_compressed",
    "C71_retrieve",
    "C71_default"
   ],
   "note": "C45 with the noise hypothesis discharged. As in C45 the rotation polynomials X^-2^i handed to the expansion are an input (see C42/C43 for the ones the code computes); ct_switch is the composition of Poly::switch_to with the representation changes, as in C69."
  },
  {
   "property": "C72",
   "status": "partial",
   "theorems": [
    "C72_bijection",
    "C72_change_representation",
    "C72_substitute",
    "C72_mod_switch",
    "C72_encrypt_decrypt_poly",
    "C72_encrypt_decrypt_simd",
    "C72_encrypt_decrypt",
    "C72_galois_key",
    "C72_external_product",
    "C72_mul_op",
    "C72_ksk_71",
    "C72_ksk_refuted",
    "C72_ksk_with_pt",
    "C72_ksk_from_rgsw",
    "C72_full_from_half",
    "C72_evaluation_refuted",
    "C72_utils",
    "C72_construct_ntt_operator",
    "C72_trial",
    "C72_simd_slot_rotations",
    "C72_rgsw_encrypt_poly"
   ],
   "note": "Partial because the SIMD half of encrypt_decrypt, the 70-bit assertion of ksk and the evaluation tests do not pass for all draws (proved exactly: C72_encrypt_decrypt_simd, C72_ksk_refuted with C72_ksk_71, C72_evaluation_refuted). MTests.v and MTests2.v model all tests, one iteration of loops over repeated draws; printed values are results. The verdict of the PVW test is C49_test. C89 shows the failing tests pass with repaired functions."
  },
  {
   "property": "C73",
   "status": "proved",
   "theorems": [
    "C73_release",
    "C73_congruent",
    "C73_lazy_mul",
    "C73_debug",
    "C73_vec_lengths",
    "C73_u256"
   ],
   "note": "The debug halves make every debug assertion of modulus.rs observable; the release halves are exact, not only bounds. Added after automatic edits of the guards of shoup and of the U256 shift had survived."
  },
  {
   "property": "C74",
   "status": "proved",
   "theorems": [
    "C74_random",
    "C74_gen_range",
    "C74_vec",
    "C74_vec_range",
    "C74_poly",
    "C74_poly_wf"
   ],
   "note": "The samplers of rand 0.8.5 are transcribed (sources not in /repo); the crate's own part is which range, how many samples, which row. Generator outcomes are counted over all bit strings."
  },
  {
   "property": "C75",
   "status": "proved",
   "theorems": [
    "C75_draws",
    "C75_default",
    "C75_contexts",
    "C75_process",
    "C75_construct_ntt_operator",
    "C75_seed",
    "C75_seed_prefix"
   ],
   "note": "ChaCha8, PCG32 seeding and SHA-256 are transcribed from their published definitions and checked against published test vectors (C75_vectors). The primality test is assumed exact."
  },
  {
   "property": "C76",
   "status": "proved",
   "theorems": [
    "C76_context",
    "C76_next",
    "C76_poly",
    "C76_contexts",
    "C76_params"
   ],
   "note": "Justifies the model's comparisons ctx_eqb, params_eqb, poly_eqb, which inspect only the inputs of construction: they coincide with structural equality of the whole records."
  },
  {
   "property": "C77",
   "status": "proved",
   "theorems": [
    "C77_failure",
    "C77_default",
    "C77_test"
   ],
   "note": "Complements C49: the refuting outcomes exist and are rarer than 2^-5900. The ell error streams are independent blocks of generator bits."
  },
  {
   "property": "C78",
   "status": "proved",
   "theorems": [
    "C78_address",
    "C78_injective",
    "C78_every_entry"
   ],
   "note": "Retrieval is for the repaired expansion (C42); the address map and injectivity of encode are about the code as it is."
  },
  {
   "property": "C79",
   "status": "proved",
   "theorems": [
    "C79_half",
    "C79_failure",
    "C79_bound"
   ],
   "note": "The code seeds the generator with the constant 0, so for one prime the outcome is fixed; C75 follows that generator for the primes of the crate. C79 is about the uniform words that a generator stands for, i.e. about the choice of 100 as the number of attempts."
  },
  {
   "property": "C80",
   "status": "proved",
   "theorems": [
    "C80_total",
    "C80_refuse",
    "C80_shape",
    "C80_noise",
    "C80_client"
   ],
   "note": "Server::decode itself panics on every query because of the expansion (C42, C45); the number-of-ciphertexts check is about the code as it is, the rest about the repaired expansion."
  },
  {
   "property": "C81",
   "status": "proved",
   "theorems": [
    "C81_sampler",
    "C81_key_switch",
    "C81_relinearize",
    "C81_rotate",
    "C81_ksk_test"
   ],
   "note": "The polynomial that is switched is fixed before the key's errors are drawn, as it is when a client publishes its keys. Fractions count generator outcomes exactly; that the generator's bits are uniform is the usual assumption about it and not modelled."
  },
  {
   "property": "C82",
   "status": "proved",
   "theorems": [
    "C82_permutation",
    "C82_map",
    "C82_round_trip",
    "C82_decode",
    "C82_circuit",
    "C82_exist"
   ],
   "note": "A statement about the code with one line changed (MFix.v, index_map_loop_fixed); it shows that the missing shift is the only defect of the SIMD path. The functions other than Plaintext::new and decode are those of the code; that they ignore the slot map is proved (PSimd2.v). C82_exist: the encodings, keys and encryptions exist for all data."
  },
  {
   "property": "C83",
   "status": "proved",
   "theorems": [
    "C83_sum",
    "C83_add_poly",
    "C83_encrypt",
    "C83_product",
    "C83_decrypts",
    "C83_noise",
    "C83_agree"
   ],
   "note": "A statement about variants of five functions (MFix2.v), each with the one change named in its comment; it shows that these changes are enough to repair C34, C35, C46 and C58. C83_agree: where the code is right (two components, level 0) the variants are the code. The product needs a*n*Q^2 <= the extended modulus, a being the number of components of the first operand."
  },
  {
   "property": "C84",
   "status": "proved",
   "theorems": [
    "C84_vectors",
    "C84_polys",
    "C84_trial",
    "C84_assemble",
    "C84_switch"
   ],
   "note": "About the code as it is. C84_switch with m equal to the number of moduli is the correctness of an assembled key."
  },
  {
   "property": "C85",
   "status": "proved",
   "theorems": [
    "C85_x_pows",
    "C85_encode",
    "C85_encode_agree",
    "C85_dims",
    "C85_retrieve",
    "C85_default"
   ],
   "note": "About repaired variants (MFix3.v) of gen_x_pows, unpack, Client::encode and the dimension count of decode, not about the code as it is (see C42, C43, C45, C55)."
  },
  {
   "property": "C86",
   "status": "proved",
   "theorems": [
    "C86_finite",
    "C86_uniform",
    "C86_split",
    "C86_privacy",
    "C86_index"
   ],
   "note": "The reduction only: that encryptions of zero (Ring-LWE samples by C70) are hard to tell from uniform pairs is the cryptographic assumption and is not claimed. Other knowledge is a parameter of each world, so key-dependent messages in the evaluation keys are covered by the assumption used."
  },
  {
   "property": "C87",
   "status": "proved",
   "theorems": [
    "C87_scalar_mul_vec",
    "C87_bits",
    "C87_decompose",
    "C87_scale",
    "C87_scale_agree",
    "C87_scale_guard",
    "C87_poly",
    "C87_operators",
    "C87_key_switch"
   ],
   "note": "The repaired functions (MFix4.v) are not in the repository; the claim says what the repair of C07, C16, C23, C56, C60, C61 and C62 achieves."
  },
  {
   "property": "C88",
   "status": "proved",
   "theorems": [
    "C88_degree",
    "C88_encrypt",
    "C88_circuit",
    "C88_default",
    "C88_retrieve",
    "C88_primes",
    "C88_fixed",
    "C88_agree",
    "C88_pvw"
   ],
   "note": "The repaired defaults (MFix5.v) are not in the repository; they differ from the code in one constant each. The primality of the listed primes is checked in the kernel by Pocklington certificates."
  },
  {
   "property": "C89",
   "status": "proved",
   "theorems": [
    "C89_unpack",
    "C89_client_encode",
    "C89_query",
    "C89_pack_and_construct",
    "C89_unpack_decomp",
    "C89_unpack_decomp_noise",
    "C89_encrypt_decrypt",
    "C89_simd_slot_rotations"
   ],
   "note": "The tests in MFixTests.v call the repaired functions of MFix.v and MFix3.v, which are not in the repository; the claim says what the repair of C72 achieves. Loops over repeated draws are one iteration, printed values are results."
  },
  {
   "property": "C90",
   "status": "proved",
   "theorems": [
    "C90_group",
    "C90_ring",
    "C90_scalar",
    "C90_substitute",
    "C90_ciphertext",
    "C90_multiply"
   ],
   "note": "The laws of the operator * on ciphertexts are not claimed: it is false of the code that it denotes the product (C35)."
  },
  {
   "property": "C91",
   "status": "proved",
   "theorems": [
    "C91_external",
    "C91_chain",
    "C91_noise"
   ],
   "note": "Average over the errors only: masks, key, message and input ciphertext are arbitrary but fixed before the errors are drawn (for later steps the input depends on the earlier errors, which the theorem accounts for)."
  },
  {
   "property": "C92",
   "status": "proved",
   "theorems": [
    "C92_query",
    "C92_keys",
    "C92_answer"
   ],
   "note": "The answer is that of the server with the expansion repaired (server_decode panics in the code, C42). Words are counted, not a serialisation: the crate has none."
  },
  {
   "property": "C93",
   "status": "proved",
   "theorems": [
    "C93_values",
    "C93_words",
    "C93_vectors",
    "C93_transforms",
    "C93_pow"
   ],
   "note": "At the level of the source: the steps are those written in the Rust code of a Release build (C93_values ties them to the functions of the model). What the compiler and the processor make of a word operation is not modelled; a division is counted as giving away both operands."
  },
  {
   "property": "C94",
   "status": "proved",
   "theorems": [
    "C94_accepted",
    "C94_rejected",
    "C94_ignored"
   ],
   "note": "Comparison of contexts and parameters is spelled out field by field in SpecGuard.v. The ignored third component is stated as what the code does (C94_ignored)."
  },
  {
   "property": "C95",
   "status": "proved",
   "theorems": [
    "C95_values",
    "C95_sampling",
    "C95_encryption",
    "C95_phase",
    "C95_keys"
   ],
   "note": "Steps at the level of the source text: what the compiler and the processor make of them, memory allocation and the expansion of the (public) seed are outside the model. Decryption is covered up to the scaling of the phase here, as a whole in C96."
  },
  {
   "property": "C96",
   "status": "proved",
   "theorems": [
    "C96_values",
    "C96_scale",
    "C96_switch",
    "C96_poly",
    "C96_decrypt",
    "C96_more_values",
    "C96_mod_switch",
    "C96_multiply",
    "C96_strategy"
   ],
   "note": "Steps at the level of the source text. Operations on U192 and U256 count as one step each, dividing by the constant 2 as a shift. The sign is the value w_sign computed by the model of scale (sign_of in SpecTrace3.v)."
  },
  {
   "property": "C97",
   "status": "proved",
   "theorems": [
    "C97_values",
    "C97_galois",
    "C97_rgsw"
   ],
   "note": "Steps at the level of the source text, as in C95. The search for the level of a context compares public data and is recorded as one decision."
  },
  {
   "property": "C98",
   "status": "proved",
   "theorems": [
    "C98_values",
    "C98_query",
    "C98_pvw",
    "C98_pvw_decrypt"
   ],
   "note": "Steps at the level of the source text, as in C95; a comparison turned into a number is one word operation. Whether the index is in range is given away by the assertions of Client::encode."
  },
  {
   "property": "C99",
   "status": "proved",
   "theorems": [
    "C99_values",
    "C99_products",
    "C99_server",
    "C99_retrieve_values",
    "C99_parts",
    "C99_retrieve",
    "C99_complete"
   ],
   "note": "Steps at the level of the source text, as in C95. Computations on public parameters (powers of X, inverse of the degree, numbers of dimensions, cutting lists into chunks, preparing a substitution) are not recorded; looking up a Galois key by its public exponent is one decision. unpack of the code stops in the computation of the powers of X (C42), so for the code itself the claim covers the steps up to there; everything after it is covered with the powers of X as an argument, as in C45."
  }
 ]
}