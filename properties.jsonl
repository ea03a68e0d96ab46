{"id": "C01", "title": "Modulus construction accepts exactly [2, 2^62)", "statement": "Modulus::new(p) returns a modulus (whose modulus() is p) exactly when 2 <= p < 2^62, and panics for every other u64 p.", "quantifier": "every u64 p", "why_tests_cant": "2^64 inputs; a test samples a few", "anchors": ["src/modulus.rs: Modulus::new, Modulus::modulus"]}
{"id": "C02", "title": "Barrett reduction of 64- and 128-bit words is exact", "statement": "For every constructible modulus p, reduce(a) = a mod p for every u64 a and reduce_u128(a) = a mod p for every u128 a; no intermediate u64/u128 operation overflows, no debug assertion fails, and the two build profiles (debug/release) agree. The lazy variants return a value in [0,2p) congruent to a.", "quantifier": "every valid modulus, every u64 / u128 argument, both build profiles", "why_tests_cant": "2^128 arguments times 2^62 moduli; the overflow-freedom of the three-term u128 sum depends on a number-theoretic bound on the Barrett constant", "anchors": ["src/modulus.rs: Modulus::reduce, Modulus::reduce_u128, Modulus::lazy_reduce_ct, Modulus::lazy_reduce_u128, Modulus::reduce_ct"]}
{"id": "C03", "title": "Signed reduction is exact", "statement": "For every valid modulus p and every i64 a, reducing a vector of i64 yields the representative in [0,p) congruent to a (including negative a and i64::MIN).", "quantifier": "every valid modulus, every i64", "why_tests_cant": "2^64 x 2^62 inputs", "anchors": ["src/modulus.rs: Modulus::reduce_i64, Modulus::reduce_vec_i64"]}
{"id": "C04", "title": "Modular add/sub/neg/mul are exact and closed", "statement": "For every valid modulus p and all a, b in [0,p): add, sub, mul, neg return (a+b), (a-b), (a*b), (-a) mod p, in [0,p), without panic or overflow in either profile; the *_vec forms are the elementwise forms. Operands out of range panic in a debug build.", "quantifier": "every valid modulus and all reduced operands", "why_tests_cant": "quantifies over all operand pairs of every modulus", "anchors": ["src/modulus.rs: Modulus::add, Modulus::sub, Modulus::mul, Modulus::neg, Modulus::add_vec, Modulus::sub_vec, Modulus::mul_vec, Modulus::neg_vec"]}
{"id": "C05", "title": "Modular exponentiation and inversion", "statement": "For every valid p and a, r < p, pow(a,r) = a^r mod p. For prime p and a in [1,p), inv(a) is in [0,p) and a*inv(a) = 1 mod p.", "quantifier": "every valid modulus, base and exponent; every prime modulus for inv", "why_tests_cant": "unbounded input space; correctness of inv rests on Fermat's little theorem", "anchors": ["src/modulus.rs: Modulus::pow, Modulus::inv, Modulus::inv_vec"]}
{"id": "C06", "title": "Shoup multiplication works for every 64-bit multiplicand", "statement": "For every valid p, every b < p with its Shoup constant and every u64 a (not only a < p), lazy_mul_shoup returns a value in [0,2p) congruent to a*b and mul_shoup returns a*b mod p; no overflow.", "quantifier": "every valid modulus, every u64 a, every b<p", "why_tests_cant": "2^64 x 2^62 x 2^62 inputs", "anchors": ["src/modulus.rs: Modulus::shoup, Modulus::lazy_mul_shoup, Modulus::mul_shoup, Modulus::scalar_mul_vec"]}
{"id": "C07", "title": "Scalar-vector product returns reduced residues", "statement": "scalar_mul_vec(a, b) returns, for each element, the residue a_i*b mod p in [0,p).", "quantifier": "every valid modulus, vector and scalar", "why_tests_cant": "a test sees the unreduced outputs only for the inputs on which the quotient estimate is off by one", "anchors": ["src/modulus.rs: Modulus::scalar_mul_vec"]}
{"id": "C08", "title": "Forward NTT evaluates the polynomial at the odd powers of a primitive 2n-th root, bit-reversed", "statement": "For every NTT operator that can be constructed, forward(a) on any vector of reduced residues returns, at position j, the evaluation of the polynomial sum a_i X^i at psi^(2*bitrev(j)+1), reduced to [0,p), where psi is a fixed element with psi^n = -1; no out-of-bounds access, overflow or failed assertion.", "quantifier": "every supported modulus/size, every input vector", "why_tests_cant": "all sizes and all p^n inputs; uses unchecked pointer accesses and lazy ranges", "anchors": ["src/ntt.rs: NttOperator::forward, NttOperator::butterfly, reduce_4p"]}
{"id": "C09", "title": "NTT forward and backward are mutually inverse", "statement": "For every constructible operator and every vector of reduced residues of the operator's size, backward(forward(a)) = a and forward(backward(a)) = a.", "quantifier": "every supported modulus/size, every input vector", "why_tests_cant": "all sizes and all inputs", "anchors": ["src/ntt.rs: NttOperator::forward, NttOperator::backward"]}
{"id": "C10", "title": "Pointwise product in NTT form is the negacyclic product", "statement": "backward(forward(a) .* forward(b)) is the product of a and b in Z_p[X]/(X^n+1), for every operator and every pair of reduced vectors.", "quantifier": "every supported modulus/size, every pair of input vectors", "why_tests_cant": "all sizes and inputs", "anchors": ["src/ntt.rs: NttOperator, src/modulus.rs: Modulus::mul_vec"]}
{"id": "C11", "title": "NTT operator construction: guard and primitive root", "statement": "NttOperator::new panics unless the size is a power of two >= 8, p = 1 mod 2n and p is prime; whenever it returns, its root is a primitive 2n-th root of unity (psi^n = -1 mod p). It panics if the 100 candidate draws contain no root.", "quantifier": "every modulus, size and every outcome of the candidate generator", "why_tests_cant": "depends on the candidate stream; all moduli and sizes", "anchors": ["src/ntt.rs: NttOperator::new, supports_ntt, primitive_root, is_primitive_root"]}
{"id": "C12", "title": "RNS representation is a bijection (CRT)", "statement": "For every constructible RNS basis, lift(project(x)) = x for every 0 <= x < product and project(lift(r)) = r for every vector of reduced residues; construction panics when the moduli are not pairwise coprime.", "quantifier": "every list of moduli, every integer / residue vector", "why_tests_cant": "unbounded number of moduli, 2^(62 k) values", "anchors": ["src/rns.rs: RnsContext::new, RnsContext::project, RnsContext::lift"]}
{"id": "C13", "title": "RNS scaling rounds the centred value", "statement": "For every source basis with (number of moduli)*q <= 2^65 (so every basis of at most 8 moduli), or with (number of moduli)*q <= 2^L, L <= 94, when N*product/D is an integer (as for base extension and for t/product), every target basis and factor N/D, RnsScaler::new succeeds and RnsScaler::scale maps the residues of x to the residues of an integer y with -1/2 < y - N*x'/D <= 1/2 + 2^-(126-L), where x' is congruent to x modulo the source product and |x'| <= product/2*(1+2^-(191-2L)) (L = 65 in the first case); it is the exactly rounded N*xc/D of the centred xc away from the rounding boundaries; no overflow or failed assertion.", "quantifier": "every basis, factor and residue vector", "why_tests_cant": "multi-word fixed point arithmetic over all inputs; failures hide near rounding boundaries", "anchors": ["src/rns.rs: RnsScaler::new, RnsScaler::scale, RnsScaler::extract_projection_and_theta, src/utils.rs: U256"]}
{"id": "C14", "title": "Base extension (unit factor) preserves the centred value", "statement": "With factor 1, RnsScaler::scale returns the residues in the target basis of the centred representative of x (exactly, whenever x is not within the stated relative distance of product/2).", "quantifier": "every pair of bases and every residue vector", "why_tests_cant": "all inputs; boundary effects", "anchors": ["src/rns.rs: RnsScaler::scale, src/rq.rs: RqScaler::scale"]}
{"id": "C15", "title": "256-bit accumulator arithmetic", "statement": "wrapping_add_assign / wrapping_sub_assign are addition/subtraction modulo 2^256, bitwise not is 2^256-1-x, and >> by any 0 <= s < 256 is floor division by 2^s, on every U256 value; conversions from/to word arrays round-trip.", "quantifier": "every pair of 256-bit values and every shift", "why_tests_cant": "2^512 inputs", "anchors": ["src/utils.rs: U256"]}
{"id": "C16", "title": "Polynomial scaling is coefficientwise for any pair of contexts", "statement": "RqScaler::scale applied to a polynomial yields, for every coefficient, the scaled coefficient in every target modulus, whatever the source and target contexts.", "quantifier": "every pair of contexts of equal degree, every factor and polynomial", "why_tests_cant": "all context pairs", "anchors": ["src/rq.rs: RqScaler::new, RqScaler::scale"]}
{"id": "C17", "title": "Polynomial operators implement the ring Z_Q[X]/(X^n+1)", "statement": "On NTT-form polynomials of one context, +=, -=, *=, * by an integer and unary minus denote addition, subtraction, product, scalar product and negation in Z_Q[X]/(X^n+1); on non-NTT operands += -= *= panic.", "quantifier": "every context and every pair of polynomials", "why_tests_cant": "all contexts, sizes, polynomials", "anchors": ["src/rq.rs: AddAssign, SubAssign, MulAssign, Mul, Neg for Poly"]}
{"id": "C18", "title": "Changing representation never changes the polynomial", "statement": "change_representation between PowerBasis and Ntt preserves the denoted polynomial and is undone by the reverse change; a conversion from or to NttShoup (other than none) panics.", "quantifier": "every context and polynomial", "why_tests_cant": "all contexts and polynomials", "anchors": ["src/rq.rs: Poly::change_representation"]}
{"id": "C19", "title": "Substitution is the automorphism X -> X^k in both representations", "statement": "For every odd k, substitute maps the polynomial f(X) to f(X^k) mod X^n+1, with the same result in PowerBasis and Ntt form; it is a ring homomorphism and substitutions compose by multiplying exponents; Substitution::new panics for even exponents, and in a debug build when its loop counter overflows (possible only for degrees above 2^31).", "quantifier": "every context, odd exponent and polynomial", "why_tests_cant": "all sizes/exponents/polynomials; relies on bit-reversed index arithmetic", "anchors": ["src/rq.rs: Substitution::new, Poly::substitute"]}
{"id": "C20", "title": "Modulus switching rounds to nearest", "statement": "mod_switch_down_next maps each coefficient x in [0,Q) to floor((x + floor(q_last/2)) / q_last) modulo Q/q_last and drops the last modulus; mod_switch_to iterates it to the requested context and panics when the context is not below the current one.", "quantifier": "every context chain and polynomial", "why_tests_cant": "all coefficients; uses lazy ranges up to 4q", "anchors": ["src/rq.rs: Poly::mod_switch_down_next, Poly::mod_switch_to, RqContext::switch_iterations"]}
{"id": "C21", "title": "Building polynomials from and exporting to integers", "statement": "try_from_vec_u64/i64/bigint denote exactly the given integer coefficients modulo Q (missing ones zero) and panic on more than degree coefficients; converting a PowerBasis polynomial to big integers returns the coefficients reduced to [0,Q).", "quantifier": "every context and coefficient vector", "why_tests_cant": "all vectors", "anchors": ["src/rq.rs: Poly::try_from_vec_u64, Poly::try_from_vec_i64, Poly::try_from_bigint, From<&Poly> for Vec<BigUint>, From<&Poly> for Vec<u64>"]}
{"id": "C22", "title": "Bit decomposition round-trips", "statement": "For m < 2^bits, bit_vector lists the bits of m and decompose_bits gives digits < 2^d (d <= 64) that recompose to m in base 2^d; larger m or d = 0 panics.", "quantifier": "every m, width and digit size", "why_tests_cant": "all values and widths", "anchors": ["src/utils.rs: bit_vector, decompose_bits"]}
{"id": "C23", "title": "Modulus::bits is the bit length and bit decomposition of a polynomial succeeds", "statement": "bits() returns the bit length of the modulus, and apply_bit_decomposition decomposes a polynomial without panicking.", "quantifier": "every modulus and polynomial", "why_tests_cant": "no test exercises it", "anchors": ["src/modulus.rs: Modulus::bits, src/rq.rs: Poly::apply_bit_decomposition"]}
{"id": "C24", "title": "Centred binomial sampler: range and bit usage", "statement": "For variance v in 1..=16, sample k is popcount of 2v fresh random bits minus popcount of the next 2v fresh bits of the generator stream; no bit is used twice; |sample| <= 2v. Other variances panic.", "quantifier": "every variance, vector size and generator stream", "why_tests_cant": "all random streams", "anchors": ["src/utils.rs: sample_vec_cbd"]}
{"id": "C25", "title": "Prime generation returns the largest admissible prime", "statement": "generate_prime(b, m, u) returns the largest prime with exactly b bits, congruent to 1 mod m and strictly below u, and None exactly when there is none or b is outside 10..=62.", "quantifier": "every bit size, m >= 2 and upper bound <= 2^b", "why_tests_cant": "search over 2^62 candidates", "anchors": ["src/utils.rs: generate_prime"]}
{"id": "C26", "title": "Generated ciphertext moduli are distinct NTT primes of the requested sizes", "statement": "generate_moduli(sizes, n) returns, for each requested size, a prime of exactly that bit size, congruent to 1 mod 2n, all pairwise distinct; None only when some size has no further prime.", "quantifier": "every list of sizes and degree", "why_tests_cant": "unbounded lists", "anchors": ["src/bfv.rs: BfvParameters::generate_moduli"]}
{"id": "C27", "title": "Polynomial plaintext encoding round-trips", "statement": "For every value vector of length <= degree, encoding with Encoding::Poly and decoding returns the vector padded with zeros; longer vectors and Encoding::None panic. set_encoding changes how a plaintext is decoded and neither its values nor its encryptions.", "quantifier": "every value vector", "why_tests_cant": "all vectors", "anchors": ["src/bfv.rs: Plaintext::new, Plaintext::decode"]}
{"id": "C28", "title": "SIMD plaintext encoding round-trips", "statement": "For every vector of degree values in [0,t), decode(encode_SIMD(v)) = v.", "quantifier": "every degree and value vector", "why_tests_cant": "all degrees and vectors", "anchors": ["src/bfv.rs: Plaintext::new, Plaintext::decode, BfvParameters::new (matrix_reps_index_map)"]}
{"id": "C29", "title": "Plaintext scaling encodes floor(Q*m/t)", "statement": "The ciphertext-space encoding of a plaintext value m has coefficient floor(Q*m/t) or that minus one, modulo Q, for every value (also m >= t) at every level.", "quantifier": "every parameter set, level and plaintext", "why_tests_cant": "all messages and moduli", "anchors": ["src/bfv.rs: Plaintext::to_poly, BfvParameters::new (delta_ts, q_mod_ts)"]}
{"id": "C30", "title": "Fresh encryption decrypts to the message", "statement": "For every key, message and encryption randomness, decrypt(encrypt(m)) = m mod t coefficientwise, provided 2t <= q_0 and Q exceeds the stated multiple of t*(2*variance+2).", "quantifier": "every parameter set, secret key, message, seed and noise sample", "why_tests_cant": "all randomness; tests sample", "anchors": ["src/bfv.rs: SecretKey::encrypt, SecretKey::encrypt_poly, SecretKey::decrypt"]}
{"id": "C31", "title": "Decryption tolerates every noise within the budget", "statement": "If the phase c0 + c1*s + ... + ck*s^k of a ciphertext is floor(Q*m/t) + e modulo Q with |e| within the stated budget (about Q/2t), decrypt returns m mod t; for any number of components.", "quantifier": "every ciphertext of any length, key, message and noise within the budget", "why_tests_cant": "all noise vectors up to the budget boundary", "anchors": ["src/bfv.rs: SecretKey::decrypt"]}
{"id": "C32", "title": "Homomorphic addition and subtraction", "statement": "For two-component ciphertexts ct_a + ct_b (ct_a - ct_b) denotes the sum (difference) of the phases, and decrypts to the sum (difference) of the messages mod t while noise stays within budget; mismatched levels or parameters panic.", "quantifier": "every pair of two-component ciphertexts", "why_tests_cant": "all ciphertext pairs and noises", "anchors": ["src/bfv.rs: Add<&BfvCipherText>, Sub<&BfvCipherText> for BfvCipherText"]}
{"id": "C33", "title": "Multiplication by a plaintext, polynomial or integer", "statement": "ct * plaintext, ct * poly and ct * integer multiply the phase by that polynomial/integer in Z_Q[X]/(X^n+1), hence decrypt to the product mod t while noise stays within budget.", "quantifier": "every two-component ciphertext and multiplier", "why_tests_cant": "all ciphertexts/multipliers", "anchors": ["src/bfv.rs: Mul<&Plaintext>, Mul<&Poly>, Mul<&BigUint> for BfvCipherText"]}
{"id": "C34", "title": "Adding a polynomial to a ciphertext adds it to the phase", "statement": "ct + poly has phase(ct) + poly.", "quantifier": "every ciphertext and polynomial", "why_tests_cant": "no test exercises it", "anchors": ["src/bfv.rs: Add<&Poly> for BfvCipherText"]}
{"id": "C35", "title": "Ciphertext product by * denotes the product", "statement": "The product ct_a * ct_b (three components, not relinearised) decrypts to the product of the messages.", "quantifier": "every pair of ciphertexts", "why_tests_cant": "no assertion exercises it", "anchors": ["src/bfv.rs: Mul<&BfvCipherText> for BfvCipherText"]}
{"id": "C36", "title": "Multiplication with relinearisation", "statement": "multiply_with_strategy returns a two-component ciphertext that decrypts to the product of the two messages in Z_t[X]/(X^n+1) while the noise stays within an explicit bound.", "quantifier": "every pair of ciphertexts, relinearisation key and randomness", "why_tests_cant": "all inputs; rounding in extended basis", "anchors": ["src/bfv.rs: multiply_with_strategy, RelinearizationKey"]}
{"id": "C37", "title": "Key switching identity", "statement": "For every key-switching key generated for polynomial `from` and every input p, key_switch(p) returns (c0,c1) with c0 + c1*s = p*from + sum_i e_i*[p]_{q_i}, the error being bounded by L*n*max(q_i)*2*variance in absolute value.", "quantifier": "every key, randomness and polynomial", "why_tests_cant": "all keys/polynomials; test only checks a size bound on samples", "anchors": ["src/ksk.rs: Ksk::new, Ksk::key_switch, Ksk::new_with_pt"]}
{"id": "C38", "title": "Galois key switching applies the automorphism to the message", "statement": "GaliosKey::relinearize(ct) returns a ciphertext under the same key whose phase is phase(ct)(X^k) plus bounded key switching noise; hence it decrypts to m(X^k) mod t within budget.", "quantifier": "every odd exponent, key, ciphertext, randomness", "why_tests_cant": "all exponents and ciphertexts", "anchors": ["src/bfv.rs: GaliosKey::new, GaliosKey::relinearize"]}
{"id": "C39", "title": "Relinearisation removes the s^2 component", "statement": "relinearize_poly(c2) returns (r0,r1) with r0 + r1*s = c2*s^2 plus bounded noise, for c2 in either representation.", "quantifier": "every key, randomness and polynomial", "why_tests_cant": "all inputs", "anchors": ["src/bfv.rs: RelinearizationKey::new, RelinearizationKey::relinearize_poly"]}
{"id": "C40", "title": "RGSW external product multiplies the encrypted message", "statement": "external_product(RGSW(m), ct) has phase m*phase(ct) plus bounded noise; with m and the message small enough it decrypts to the product mod t.", "quantifier": "every RGSW key/message/ciphertext and randomness", "why_tests_cant": "all inputs", "anchors": ["src/rgsw.rs: RgswCt::encrypt, RgswCt::encrypt_poly, RgswCt::external_product"]}
{"id": "C41", "title": "RGSW assembled from encrypted digits", "statement": "A key-switching/RGSW object assembled from RLWE encryptions of garner_i*b (and of s times them obtained by external product with RGSW(s)) behaves as an RGSW encryption of b with explicit noise.", "quantifier": "every list of digit ciphertexts", "why_tests_cant": "all inputs", "anchors": ["src/ksk.rs: Ksk::try_from_decomposed_rlwes, src/rgsw.rs: RgswCt::try_from_ksks"]}
{"id": "C42", "title": "Oblivious expansion returns one ciphertext per coefficient", "statement": "unpack(ct) returns degree ciphertexts, the j-th having phase equal to the constant polynomial of coefficient j of phase(ct), up to bounded noise.", "quantifier": "every ciphertext, evaluation key, degree", "why_tests_cant": "all ciphertexts and degrees", "anchors": ["src/evaluations.rs: Evaluation::unpack, Evaluation::gen_x_pows, Evaluation::build"]}
{"id": "C43", "title": "Client query encoding is one-hot per dimension", "statement": "encode returns first_dim + dim*(d-1) values: 1 exactly at the queried index of each dimension's segment and 0 elsewhere; an index out of its dimension or a database size not matching the dimensions panics.", "quantifier": "every dimension shape and query", "why_tests_cant": "all shapes/queries", "anchors": ["src/evaluations.rs: Client::encode"]}
{"id": "C44", "title": "Server folding selects the queried row", "statement": "Given per-dimension selection ciphertexts of one-hot vectors, the server's fold over the hypercube returns a single ciphertext whose message is the database entry at index d0 + first_dim*(d1 + dim*(d2 + ...)).", "quantifier": "every database, shape and query", "why_tests_cant": "all shapes/databases/queries", "anchors": ["src/evaluations.rs: Server::decode, Server::new"]}
{"id": "C45", "title": "End-to-end private retrieval", "statement": "For every database, query, key and randomness within the noise budget, the server's answer to the client's query decrypts to the requested database entry.", "quantifier": "every database, query, key, randomness", "why_tests_cant": "all of them at once", "anchors": ["src/evaluations.rs: Server::decode, Client::encode, Evaluation"]}
{"id": "C46", "title": "Encryption works at every level", "statement": "A plaintext encoded at any level can be encrypted and decrypted.", "quantifier": "every level", "why_tests_cant": "tests only use level 0", "anchors": ["src/bfv.rs: SecretKey::encrypt_poly, SecretKey::decrypt"]}
{"id": "C47", "title": "Noise measurement", "statement": "measure_noise(ct) returns the bit length of the largest centred coefficient of phase(ct) - encode(decrypt(ct)).", "quantifier": "every two-component ciphertext", "why_tests_cant": "all ciphertexts", "anchors": ["src/bfv.rs: SecretKey::measure_noise"]}
{"id": "C48", "title": "PVW encryption decrypts under bounded noise", "statement": "For every key and randomness, PVW decrypt(encrypt(m)) = m for bit vectors m whenever each accumulated error lies in [-floor(q/4), floor(q/4)); decryption of a sum of pk rows computes exactly message*floor(q/2) + error.", "quantifier": "every parameter set, key, error and message", "why_tests_cant": "all randomness", "anchors": ["src/pvw.rs: PvwSk::gen_pk, PvwSk::decrypt, PvwPk::encrypt"]}
{"id": "C49", "title": "PVW default parameters always decrypt correctly", "statement": "With PvwParams::default, decrypt(encrypt(m)) = m for every randomness.", "quantifier": "every randomness", "why_tests_cant": "failure probability is tiny so tests never see it", "anchors": ["src/pvw.rs: PvwParams::default, PvwPk::encrypt, PvwSk::decrypt"]}
{"id": "C50", "title": "Integer helpers", "statement": "ilog2(x) = floor(log2 x) for x > 0 ; div_ceil(a,b) = ceil(a/b) when a+b-1 does not overflow, panics on b = 0; mod_inverse returns the inverse exactly when coprime.", "quantifier": "every u64/u128/usize value", "why_tests_cant": "all values", "anchors": ["src/utils.rs: ilog2, div_ceil, mod_inverse"]}
{"id": "C51", "title": "Level lookup and chain distance", "statement": "ctx_level(c) returns the index of c among the parameter contexts (level i drops i moduli) and None for other contexts; switch_iterations returns exactly the number of dropped moduli, None when not below.", "quantifier": "every parameter set and context", "why_tests_cant": "all contexts", "anchors": ["src/bfv.rs: BfvParameters::ctx_level, src/rq.rs: RqContext::switch_iterations"]}
{"id": "C52", "title": "Parameter construction succeeds and produces a valid extended basis", "statement": "For t < q_i distinct NTT primes the construction of BFV parameters produces per-level contexts for the prefixes of the moduli, and an extended basis of fresh 62-bit NTT primes disjoint from the ciphertext moduli, whose index never goes out of range.", "quantifier": "every valid parameter choice", "why_tests_cant": "all parameter choices", "anchors": ["src/bfv.rs: BfvParameters::new, MultiplicationParameters::new"]}
{"id": "C53", "title": "Ciphertext inner product", "statement": "inner_product(cts, polys) has phase sum_i phase(ct_i)*poly_i; mismatched lengths or empty input panic.", "quantifier": "every pair of lists", "why_tests_cant": "all lists", "anchors": ["src/omr.rs: inner_product"]}
{"id": "C54", "title": "Pointwise inverse of an NTT polynomial", "statement": "inverse() of an NTT-form polynomial with no zero entry is its multiplicative inverse in Z_Q[X]/(X^n+1).", "quantifier": "every context and invertible polynomial", "why_tests_cant": "all polynomials", "anchors": ["src/rq.rs: Poly::inverse"]}
{"id": "C55", "title": "Server ciphertext bookkeeping", "statement": "no_of_cts equals first_dim + dim * (number of further dimensions) for databases of size first_dim*dim^k and agrees with the length of the client's encoded query and with the dimension count used by decode.", "quantifier": "every shape", "why_tests_cant": "all shapes", "anchors": ["src/evaluations.rs: Server::no_of_cts, Client::encode, Server::decode"]}
{"id": "C56", "title": "RNS scaling with more than 8 source moduli", "statement": "RnsScaler::scale returns the residues of the rounded N*x'/D also for source bases of up to 16 moduli of 62 bits.", "quantifier": "every basis of up to 16 moduli, factor and residue vector", "why_tests_cant": "needs residue vectors whose quotient estimate v reaches 2^65; random tests with few moduli never do", "anchors": ["src/rns.rs: RnsScaler::scale"]}
{"id": "C57", "title": "Polynomial context construction is complete and guarded", "statement": "RqContext::new(moduli, degree, bd) succeeds exactly when the list is non-empty, all moduli lie in [2,2^62), are pairwise coprime, and support the NTT of that degree (degree a power of two >= 8, q prime with q = 1 mod 2*degree, a non-residue among the 100 draws); it panics otherwise. A constructed context holds those moduli and degree and its next context is RqContext::new of the list without the last modulus.", "quantifier": "every list of u64 moduli, degree and environment", "why_tests_cant": "all moduli lists", "anchors": ["src/rq.rs: RqContext::new"]}
{"id": "C58", "title": "Addition of ciphertexts with more than two components", "statement": "The sum of two ciphertexts of any equal number of components (for example two unrelinearised products) has the sum of the phases.", "quantifier": "every pair of ciphertexts of equal length", "why_tests_cant": "Tests only add two-component ciphertexts; the loss needs a third component.", "anchors": ["src/bfv.rs:424-439", "src/bfv.rs:457-472"]}
{"id": "C59", "title": "Debug and release builds compute the same results", "statement": "For every finite sequence of calls of the crate's functions, each applied to literal arguments and to results of earlier calls: if the sequence completes in a debug build (overflow checks and debug assertions on), then it completes in a release build with the same values. With arguments of the declared machine types, a debug build either panics or both builds return the same values.", "quantifier": "every program of API calls (any length, any interleaving), every argument, every outcome of the random generator and primality test", "why_tests_cant": "Tests run one build profile at a time and only a few call sequences; the claim is over all programs.", "anchors": ["src/modulus.rs", "src/ntt.rs", "src/rns.rs", "src/rq.rs", "src/bfv.rs", "src/ksk.rs", "src/rgsw.rs", "src/evaluations.rs", "src/pvw.rs", "src/omr.rs"]}
{"id": "C60", "title": "No undefined behaviour and no non-termination through the API", "statement": "Every finite sequence of calls of the crate's functions either returns or panics, in debug and release builds: the three unsafe blocks (NTT forward, NTT backward, RnsScaler::scale) are never reached with an index out of bounds and no loop runs forever. RnsScaler::scale called directly, with a scaler from RnsScaler::new, has the same guarantee for every argument.", "quantifier": "every program of API calls, every argument of the declared types, both build profiles", "why_tests_cant": "An out-of-bounds read in an unsafe block need not change any observed value, and no test suite covers all call sequences and lengths.", "anchors": ["src/ntt.rs:84-170", "src/rns.rs:298-431", "src/utils.rs: generate_prime", "src/bfv.rs: BfvParameters::new"]}
{"id": "C61", "title": "Key switching between levels", "statement": "Ksk::new(sk, from, ct_level, ksk_level) accepts every pair of levels of a parameter set. When the key's level is at most the ciphertext's level number (its modulus chain contains the ciphertext's), switching a polynomial of the ciphertext level returns a pair over the ciphertext's context whose phase under sk is the product of the polynomial and `from` plus the key-switching noise. When the key's level is deeper than the ciphertext level, key_switch is rejected or still has that phase. The same holds for keys made with new_with_pt from a plaintext of the key's level.", "quantifier": "every parameter set, every pair of levels, every secret, every polynomial, every randomness", "why_tests_cant": "The test suite exercises one key level with one ciphertext level; the failing direction returns a well-formed pair, so only the decrypted value shows it.", "anchors": ["src/ksk.rs:47-125", "src/ksk.rs:126-230"]}
{"id": "C62", "title": "Operators on polynomials of different levels of one chain", "statement": "For two polynomials over different contexts of one modulus chain, +, -, * and their assigning forms either reject the pair or return the operation in the ring of the smaller context.", "quantifier": "every chain, every pair of its contexts, every pair of polynomials, both orders of the operands, both profiles", "why_tests_cant": "Mixed-context operands never occur in the tests; the result is a valid Poly value with wrong residues in some rows.", "anchors": ["src/rq.rs:545-637"]}
{"id": "C63", "title": "Clue encoding of the detection server", "statement": "For at most 64 clues with entries below q, the encoding loop of process returns ell + n polynomials, and polynomial l takes at the i-th slot point entry l of clue i, and zero at every slot without a clue. More than 64 clues panic. process itself completes whenever the transform for q = 65537 can be built.", "quantifier": "every parameter set with an NTT-friendly q, every clue list, both profiles", "why_tests_cant": "process drops its result and runs on an empty clue list, so no test can observe the encoding.", "anchors": ["src/omr.rs:21-56"]}
{"id": "C64", "title": "Circuits of homomorphic operations", "statement": "Let a circuit be any finite composition of ciphertext addition, subtraction, multiplication with relinearisation, multiplication by a plaintext and by an integer, Galois rotation and RGSW external product, applied to encryptions of given plaintexts with keys made by their constructors. If a bound computed from the circuit's shape stays below (almost) Q/2, evaluating the circuit on the ciphertexts and decrypting returns the same circuit evaluated over Z[X]/(X^n+1), reduced modulo t. All the keys involved can be generated.", "quantifier": "every circuit of any size and shape, every parameter set, secret, message and randomness, both profiles, every level for already encrypted inputs and level 0 for fresh encryptions", "why_tests_cant": "Tests exercise single operations on a few messages; noise accumulation over compositions and the interplay of operations is unbounded.", "anchors": ["src/bfv.rs:424-770", "src/rgsw.rs"]}
{"id": "C65", "title": "Exact distribution of the error and secret sampler", "statement": "Over uniformly distributed generator words, sample_vec_cbd(n, v) returns n independent samples, each distributed as B(4v, 1/2) - 2v: every vector xs is returned by exactly the fraction prod_i C(4v, xs_i + 2v) / 2^(4v n) of the generator outcomes. Hence every sample has mean 0 and variance exactly v.", "quantifier": "every vector length, every variance in 1..16, every result vector, both profiles", "why_tests_cant": "The repository's test estimates the variance of one run; exact probabilities and independence across samples (bits reused or dropped at word boundaries) are not observable by sampling.", "anchors": ["src/utils.rs:54-85"]}
{"id": "C66", "title": "Galois automorphisms rotate the SIMD slots", "statement": "Encrypt a plaintext, apply the Galois key of X -> X^x, decrypt, set_encoding(SIMD), decode. For x = 3^k mod 2n both rows of n/2 slots come out rotated left by k; for x = 2n-1 the two rows are exchanged.", "quantifier": "every parameter set, level, secret key, ciphertext within the noise budget, exponent x, rotation amount k, slot, both profiles", "why_tests_cant": "The repository's simd_slot_rotations test only prints the slots (dbg!) and asserts nothing; the slot order is a permutation composed with bit reversal, and a wrong second row still decodes to valid slot values.", "anchors": ["src/bfv.rs:145-158", "src/bfv.rs:611-628", "src/bfv.rs:718-742", "src/bfv.rs:870-893"]}
{"id": "C67", "title": "Keys made from keys with the external product", "statement": "Multiplying every pair of a key-switching key for u by an RGSW encryption of m (as in the test contruct_ksk_from_rgsw) gives a key-switching key for m*u; doing this to both halves of an RGSW ciphertext of m2 gives an RGSW ciphertext of m1*m2; an RGSW ciphertext completed from its lower half and RGSW(s) (as in the test construct_full_from_half) acts as an RGSW ciphertext of the same polynomial. The noise of each is bounded explicitly.", "quantifier": "every parameter set, level (level 0 for the completed ciphertext), secret key, polynomials m, u, m1, m2, key randomness, input of the key switch or external product, both profiles", "why_tests_cant": "The two tests of the repository build these keys for one random choice and print the result (dbg!) without asserting; key noise is amplified twice, so a wrong row would only show for some inputs.", "anchors": ["src/rgsw.rs:55-85", "src/rgsw.rs:187-243", "src/rgsw.rs:245-296", "src/ksk.rs:16-60"]}
{"id": "C68", "title": "BfvParameters::default gives working parameters", "statement": "default(k, degree, decomposition) returns parameters of that degree with plaintext modulus 1153, whose ciphertext moduli are the k largest 62-bit primes that are 1 modulo 2*degree. Under parameters it returns, every fresh encryption decrypts to its message, and (k >= 2) so does every program of additions, subtractions, products with relinearisation, plain products, Galois rotations and external products of nesting depth at most 2k-2, whatever keys, messages and randomness: no noise condition is left to check.", "quantifier": "every number of moduli up to 31, degree, decomposition, key, message, randomness, program, both profiles", "why_tests_cant": "The tests run default for a handful of degrees and random keys; that no key, message or randomness ever exhausts the noise budget of a program is a statement about all of them, and degrees of 128 and more are not tried with it.", "anchors": ["src/bfv.rs:46-182", "src/bfv.rs:193-200", "src/bfv.rs:203-226", "src/utils.rs:117-145"]}
{"id": "C69", "title": "Ciphertexts survive modulus switching", "statement": "Switching both polynomials of a ciphertext with mod_switch_to to the context of any deeper level keeps the message: the switched ciphertext decrypts at that level to the same plaintext as long as noise/R + t*(1 + |s|_1) fits, R the product of the dropped moduli, and programs that compute in stages of decreasing modulus decrypt to the plain computation. With the parameters of default, the answer of every program of depth at most 2k-2 can be switched down to a single modulus without any further condition. Switching to a shallower level panics.", "quantifier": "every parameter set, pair of levels, key, ciphertext, program of any number of stages, both profiles", "why_tests_cant": "The only test of switching divides one random polynomial by one modulus; that rounding every component keeps the decrypted message for all ciphertexts, any number of dropped moduli and later computations is a statement about the noise, not about one polynomial.", "anchors": ["src/rq.rs:388-433", "src/bfv.rs:193-200", "src/bfv.rs:417-422"]}
{"id": "C70", "title": "Published objects are Ring-LWE samples plus the encoded message", "statement": "For given randomness, every ciphertext returned by encrypt, every row of a key-switching, Galois or relinearisation key and of an RGSW ciphertext, and every ciphertext of a client query is (b + x, a), where (b, a) is a Ring-LWE sample: a is exactly the uniform draw, b = e - a*s with e exactly the output of the error sampler on fresh words, and both are independent of the message. The message enters only through the public encoding x added to the first component. Adding an encoding to a uniform b is a bijection, so with uniform instead of Ring-LWE samples the message would be hidden perfectly. Shapes and levels do not depend on the queried index.", "quantifier": "every parameter set, level, key, message, index vector, randomness, both profiles", "why_tests_cant": "Tests decrypt; a mask or an error that depends on the message, is shared between rows, or is dropped decrypts just as well. That nothing but a Ring-LWE sample leaves the client is a statement about all messages for the same randomness.", "anchors": ["src/bfv.rs:299-334", "src/ksk.rs:38-99", "src/bfv.rs:706-760", "src/rgsw.rs:28-61", "src/evaluations.rs:444-453"]}
{"id": "C71", "title": "Four 62-bit moduli always suffice for retrieval", "statement": "With at least four (at most 64) ciphertext moduli of 62 bits, degree at most 4096, plaintext modulus at most 2^40 and variance at most 16, a retrieval returns the queried database entry modulo t for every generated secret key, every randomness, every database of 64-bit entries and every query that fits into one ciphertext: there is no noise condition left. In particular this holds for the default parameters with four or more moduli. The answer may also be switched down to any lower level, even to one modulus, before it is sent and still decrypts to the entry.", "quantifier": "every parameter set in the stated range, key, database contents and shape, index vector, level of the returned answer, randomness, both profiles", "why_tests_cant": "The test draws one key, one database and one index with typical randomness; that the worst case over all draws of expansion, first-dimension products, RGSW conversion and folding never reaches the decryption bound is a statement about all of them.", "anchors": ["src/evaluations.rs:171-405", "src/evaluations.rs:420-530", "src/bfv.rs:17-134", "src/bfv.rs:240-298"]}
{"id": "C72", "title": "The crate's own tests pass whatever randomness they draw", "statement": "The test bodies of the crate, read as programs over the API with all random draws as inputs, pass (or print the value the test is about) for every possible draw: NTT bijection, change_representation, substitute, mod_switch, the Poly half of encrypt_decrypt, galois_key, external_product, mul_op (prints 20000 mod 1153), ksk_with_pt (prints 170), contruct_ksk_from_rgsw (prints 12), test_decompose_bits, test_bit_vector. Three claims of this kind are false: the SIMD half of encrypt_decrypt passes exactly when three pairs of the eight random values agree; the assertion `<= 70` bits of the test ksk can fail (71 always holds); the five evaluation tests that unpack panic on every draw. trial prints 10000; rgsw encrypt_poly prints for every coefficient the bit lengths of the negated gadget multiple plus a bounded error, and always runs to its end; construct_ntt_operator passes unless 100 draws contain no generator, and then panics; simd_slot_rotations prints two of its eight values among zeros instead of a rotation. construct_full_from_half prints the random values plus the sampled error instead of the values.", "quantifier": "every secret key, mask, error and message the tests can draw, every exact primality environment, both profiles", "why_tests_cant": "Each run of the suite is a single draw: the 70-bit assertion fails only for extreme draws, and a passing run says nothing about the others.", "anchors": ["src/bfv.rs:774-893", "src/rq.rs:679-760", "src/ntt.rs:248-290", "src/ksk.rs:168-266", "src/rgsw.rs:103-342", "src/evaluations.rs:317-592", "src/utils.rs:292-320"]}
{"id": "C73", "title": "Word operations outside their documented ranges", "statement": "For every 64-bit operand, reduced or not: a release build of add, sub, neg, reduce_ct wraps modulo 2^64 and subtracts p once, guided by the sign bit (so the value is congruent when nothing wraps and reduced when one subtraction is enough); mul and pow (exponent at least 2) are correct for unreduced operands; pow with exponent 1 and inv for p = 3 return the operand unreduced; inv 0 is 0 (p > 3); shoup is floor(a 2^64 / p) mod 2^64; lazy_mul_shoup is the stated integer mod 2^64 for any precomputed word. A debug build panics on each of these calls. add_vec, sub_vec and mul_vec of different lengths leave the tail of the left operand as it was. Shifting a U256 by 256 or more panics in debug and shifts the top word by s mod 64 in release; conversion to u128 drops the upper words in release and panics in debug.", "quantifier": "all moduli accepted by Modulus::new, all u64 words, all lengths, all shift amounts", "why_tests_cant": "Tests run in one profile on in-range values; the two profiles differ exactly on the inputs tests avoid.", "anchors": ["src/modulus.rs:72-87", "src/modulus.rs:122-203", "src/modulus.rs:214-242", "src/ntt.rs:241-245", "src/utils.rs:229-290"]}
{"id": "C74", "title": "Uniform sampling is exactly uniform", "statement": "Modulus::random returns each value below p for exactly the same number of generator outcomes: over all outcomes of N words, p times the number returning x is 2^(64N) - (2^64 mod p)^N (the others need more words). gen_range, as used by primitive_root, is uniform too, with its own number of rejected words. random_vec returns each vector of reduced values, and Poly::random each polynomial of the context, equally often; size (number of moduli times degree) words can be enough and fewer never are. Values are always reduced, unused words are left for the next caller, and nothing panics.", "quantifier": "all accepted moduli, all contexts, all lengths, all numbers of words, all word values", "why_tests_cant": "A test sees a handful of samples; bias of a sampler is a statement about all 2^64 words.", "anchors": ["src/modulus.rs:244-252", "src/rq.rs:460-476", "src/ntt.rs:217"]}
{"id": "C75", "title": "The generators the crate seeds itself", "statement": "With the numbers ChaCha8 seeded with 0 gives to primitive_root, BfvParameters::default succeeds for degrees 8, 16, 32, 64 and one to six moduli, the contexts and transforms of the tests can be built, process completes and construct_ntt_operator passes; no assumption on the draws is left. random_from_seed returns a well-shaped polynomial that does not depend on how many blocks are generated; its residues depend only on degree, moduli and seed, not on the representation, and fewer moduli give a prefix of its rows.", "quantifier": "all numbers of moduli from 1 to 6, the four degrees, all contexts, all 32-byte seeds, both build profiles", "why_tests_cant": "Tests show success for the parameters they build; they do not show that success follows from the seed for every parameter set, nor how two seeded polynomials of different contexts relate.", "anchors": ["src/ntt.rs:211-229", "src/rq.rs:478-499", "src/bfv.rs:193-200"]}
{"id": "C76", "title": "Equality of contexts and parameters is decided by their inputs", "statement": "Two contexts constructed in one environment (same primality test, same seeded draws), in debug or release builds, have equal fields (the meaning of the derived ==) exactly when their moduli, degree and bit decomposition agree; the context one level down is itself a constructed context, so this holds along chains. Two parameter sets have equal fields exactly when degree, plaintext modulus, moduli, variance and bit decomposition agree. Polynomials of such contexts are equal exactly when contexts, representation and rows agree.", "quantifier": "all pairs of contexts, parameter sets and polynomials constructed in one environment, both build profiles", "why_tests_cant": "Tests compare a few values that share one Arc; that construction is deterministic in its inputs and that no input is lost by the comparison is a statement about all pairs.", "anchors": ["src/rq.rs:155", "src/rq.rs:259", "src/bfv.rs:24", "src/rq.rs:169-230", "src/bfv.rs:46-182"]}
{"id": "C77", "title": "How likely PVW decryption fails", "statement": "Whatever the key, the public matrix, the message bits and the rows selected by encryption, the fraction of outcomes of the error generator for which decryption does not return the message is at most 2*ell*(y/x)^floor(q/4)*((x+y)^2/(4xy))^K for all 0 < y <= x, K being 2*variance times the number of selected rows. With the default parameters it is at most 2^-5900, and so is the fraction of outcomes for which the crate's own encrypt/decrypt test panics.", "quantifier": "all parameters with q below 2^62 and variance 1 to 16, all keys, matrices, messages, selections, both build profiles; probability over all outcomes of the generator bits", "why_tests_cant": "The failing outcomes exist (C49) but are far too rare to be met by running; only a bound over all outcomes says how rare.", "anchors": ["src/pvw.rs:19-29", "src/pvw.rs:56-150", "src/utils.rs:54-85"]}
{"id": "C78", "title": "Every database entry has exactly one query", "statement": "The iterated division documented for the client turns a database position below first*dim^k into a query vector whose components are in range; the server's layout reads exactly that position for it; no other query vector in range selects it. Client::encode is injective: equal encodings come from equal queries. With the expansion repaired, the query for position ix is answered with entry ix, for every ix of the database.", "quantifier": "all shapes, all positions, all queries, both build profiles; for retrieval all keys, randomness and databases within the noise budget", "why_tests_cant": "Tests ask for one position of one database; that the address map is a bijection is a statement about all positions and shapes.", "anchors": ["src/client.rs:1-8", "src/evaluations.rs:36-62", "src/evaluations.rs:109-226"]}
{"id": "C79", "title": "How likely the search for a root of unity fails", "statement": "Exactly (p-1)/2 of the values below an odd prime p lead primitive_root to a root. If the generator words are uniform, then among the outcomes that are long enough for 100 draws the fraction exactly ((p+1)/(2p))^100 makes NttOperator::new panic, and every other one succeeds; for p >= 200 that is at most 2^-99.", "quantifier": "all primes below 2^62 with p = 1 mod 2n, all power-of-two sizes n >= 8, any number of generator words, both build profiles", "why_tests_cant": "A failing generator outcome is never met by running; the fraction is a statement about all outcomes and all primes.", "anchors": ["src/ntt.rs:30-60", "src/ntt.rs:208-229"]}
{"id": "C80", "title": "The server and queries of any content", "statement": "With the expansion repaired, Server::decode answers every query of L+1 well-formed level-0 ciphertexts with exactly one well-formed ciphertext, whatever the ciphertexts contain; so whether it succeeds depends on the shape only. If the ciphertexts carry an encoding with given noise, however they were made, the answer decrypts to the entry asked for as long as the accumulated noise is within the budget; the client's own queries are of that form. A query with another number of ciphertexts panics, and so does every query when the shape needs more slots than the ring degree.", "quantifier": "all parameters, keys, databases, shapes, queries (also not encryptions of an encoding), both build profiles", "why_tests_cant": "Tests send one honest query; robustness against arbitrary ciphertexts is a statement about all of them.", "anchors": ["src/evaluations.rs:109-226"]}
{"id": "C81", "title": "How large key-switching noise typically is", "statement": "For integer weights w and samples x of sample_vec_cbd with variance v, at most a fraction (1*3*...*(2k-1)) * (v * sum w_i^2 / B^2)^k of the generator's outcomes gives |sum w_i x_i| >= B, for every k and B. The noise added by switching, relinearising or rotating a fixed polynomial with a fresh key therefore exceeds B in a given coefficient for at most a fraction (1*3*...*(2k-1)) * (v * n * (q_1^2+...+q_K^2) / B^2)^k of the outcomes of the generator of the key's errors, and a rotated ciphertext decrypts to the rotated message except for n times that fraction whenever its own noise plus t*B is within the decryption limit. The crate's test of key switching, which can fail (C72), fails for at most a fraction 2^-291 of these outcomes.", "quantifier": "all parameters, levels, secret keys, polynomials switched, mask polynomials, weights, k and B, both build profiles; fractions are over all outcomes of the generator bits", "why_tests_cant": "Probabilities as small as 2^-291 cannot be observed by sampling, and the claim ranges over all polynomials and parameters.", "anchors": ["src/utils.rs:54-88", "src/ksk.rs:47-124", "src/ksk.rs:223-265"]}
{"id": "C82", "title": "SIMD circuits with the slot map repaired", "statement": "With index2 = (m - pos - 1) >> 1 in BfvParameters::new (the shift is missing in the code, C28, C66) and nothing else changed: the slot map is a permutation; Plaintext::new with SIMD encoding followed by decode is the identity; decoding evaluates the plaintext at psi^(3^k) in the first row and at psi^(-3^k) in the second one; and for every circuit of additions, subtractions, ciphertext products with relinearisation, products with SIMD plaintexts, with integers and with RGSW-encrypted SIMD selectors, and rotations by X -> X^(3^r) or X -> X^(-3^r), encoding the input vectors, encrypting them, evaluating the circuit, decrypting and decoding gives the circuit evaluated slot by slot modulo t, where the rotations move both rows r places and the second kind also swaps them, as long as the computed noise bound stays within the decryption limit.", "quantifier": "all parameters, circuits of any shape, vectors of slots, secret keys, key and encryption randomness, rotations, both build profiles", "why_tests_cant": "The crate's tests cover one encoding round trip and one rotation whose result is only printed; the claim ranges over all circuits, vectors and parameters.", "anchors": ["src/bfv.rs:143-158", "src/bfv.rs:583-628", "src/bfv.rs:657-695", "src/bfv.rs:707-740"]}
{"id": "C83", "title": "Ciphertext operators with their defects repaired", "statement": "With four changes to src/bfv.rs - Add and Sub of ciphertexts combine all components (C58), Add<&Poly> adds the polynomial to component 0 only (C34), Mul<&BfvCipherText> accumulates cs[i+j] instead of overwriting it (C35), and encrypt records the level of the plaintext (C46) - the operators are right for ciphertexts of any numbers of components: sums and differences have the sum and difference of the phases, adding a polynomial adds it to the phase, encryption followed by decryption is the identity modulo t at every level, and the product of a ciphertext of a components and one of b components has a+b-1 components, carries the product of the two messages in Z[X]/(X^n+1) with scaled noise at most n*t*B*((s(a)+s(b))/2+4) + n*B + t*s(a+b-1), where s(k) = 1+S+...+S^(k-1) and S bounds the l1 norm of the secret, and decrypts to it when that fits.", "quantifier": "all parameters, levels, ciphertexts of any numbers of components, messages, secret keys, randomness, both build profiles", "why_tests_cant": "A test multiplies particular ciphertexts; the noise bound and the identity hold for all ciphertexts, numbers of components and parameters.", "anchors": ["src/bfv.rs:299-334", "src/bfv.rs:424-439", "src/bfv.rs:441-455", "src/bfv.rs:457-472", "src/bfv.rs:474-514"]}
{"id": "C84", "title": "Vector helpers, small polynomials, trial decryption and assembled keys", "statement": "The remaining helpers do what their names say. Modulus::reduce_vec_u64, reduce_vec_biguint, reduce_i64, shoup_vec and inv_vec work entry by entry (residues, floor(2^64 x / p), inverses for prime p). Poly::zero is zero in every representation; Poly::random_small has exactly the coefficients drawn by sample_vec_cbd, at most 2v in magnitude. decrypt_trial returns the phase c0 + c1 s at the level of its arguments. try_from_decomposed_rlwes takes over components 0 and 1 of its ciphertexts unchanged, whatever their number and levels (the length check is commented out), and panics exactly when parameters differ or a ciphertext has fewer than two components; switching with a key assembled from m encryptions of gadget multiples of a polynomial u gives a phase of p' u plus the key noise, where p' has the residues of p for the first m moduli and residue 0 for the others: missing digits are dropped silently, extra ones ignored.", "quantifier": "all moduli, vectors, contexts, parameters, keys, ciphertexts, numbers of ciphertexts, randomness, both build profiles", "why_tests_cant": "Tests fix one modulus and assemble keys of the right size only; the statement covers every vector and every number of assembled ciphertexts, including the ones for which the result silently differs from the polynomial switched.", "anchors": ["src/modulus.rs:103-117", "src/modulus.rs:158-160", "src/modulus.rs:219-221", "src/rq.rs:435-441", "src/rq.rs:501-520", "src/bfv.rs:336-345", "src/ksk.rs:102-156"]}
{"id": "C85", "title": "Private retrieval with its defects repaired", "statement": "Three functions of evaluations.rs are repaired (monomials written down instead of substituted, the row count checked exactly, the dimensions counted by division); everything else is the code. Then the monomials are X^(-2^i) and the expansion is the one of C42; Client::encode accepts exactly the queries in range for databases of exactly first*dim^k rows, returns the one-hot segments, and agrees with the code wherever it accepts; decode counts k+1 dimensions for every side dim >= 2; and encode, query, build, new, decode, decrypt together return the entry asked for, for every side and shape that fits the degree. With the default parameters and four or more moduli there is no noise condition: asking for position ix returns entry ix modulo t.", "quantifier": "all parameters, keys, databases, shapes, positions, randomness, both build profiles", "why_tests_cant": "The code panics on every query (C42), so no test can show that these three repairs suffice; the statement covers all databases, shapes and randomness.", "anchors": ["src/evaluations.rs:36-62", "src/evaluations.rs:109-226", "src/evaluations.rs:254-313"]}
{"id": "C86", "title": "Queries hide the position, up to Ring-LWE", "statement": "A query is the list of encodings of the position, which need neither key nor randomness, added to encryptions of zero, which do not depend on the position. The pairs (b, a) of well-formed polynomials are finitely many; if the encryptions of zero are replaced by uniform pairs, the ciphertexts have exactly the same distribution for any two positions. Hence for every procedure that is given a query and anything else (such as the evaluation keys), the difference of its acceptance counts for two positions, over any list of keys and randomness, is at most the sum of the advantages of two explicit procedures in telling the encryptions of zero from uniform pairs.", "quantifier": "all parameters, positions, encodings, lists of worlds (keys, randomness, other knowledge), distinguishing procedures, both build profiles", "why_tests_cant": "Privacy is a statement about the distribution of queries under every key and randomness and about every observer.", "anchors": ["src/evaluations.rs:36-62", "src/evaluations.rs:420-530", "src/bfv.rs:240-298"]}
{"id": "C87", "title": "Word, RNS and polynomial arithmetic with its defects repaired", "statement": "With seven small repairs the claims C07, C16, C23, C56, C60, C61 and C62 become true as first stated: scalar_mul_vec returns reduced residues (the lazy product is reduced once more), bits() is the bit length, the bit decomposition of a polynomial returns the base-2^b digits of every coefficient and they sum back to it, RNS scaling is right for every basis whose moduli times their number stay below 2^94 and every factor N/D, agrees with the code where that was right, and rejects arguments of wrong length in every build; polynomial scaling works between any two contexts of one degree; +, - and * of polynomials of two levels and key switching with a key of another level are right or rejected.", "quantifier": "all moduli, bases, factors, polynomials, levels, keys and randomness, both build profiles", "why_tests_cant": "The defects show only for particular word values, bases, factors and combinations of levels; that a repair removes them all is a statement about every input.", "anchors": ["src/modulus.rs:162-167", "src/modulus.rs:258-260", "src/rns.rs:298-431", "src/rq.rs:86-151", "src/rq.rs:312-341", "src/rq.rs:545-640", "src/ksk.rs:102-125"]}
{"id": "C88", "title": "The default parameters with larger moduli serve all practical degrees", "statement": "BfvParameters::default with any prime plaintext modulus t that is 1 modulo 2*degree succeeds under the conditions of C68 (exact primality test, a non-residue among the numbers drawn per prime, enough primes); for the degrees 2^3 to 2^12 there are enough primes for four moduli. With t = 65537 in place of 1153 it therefore returns parameters for all these degrees (and panics above 2^15); under them every fresh encryption decrypts to its message, every circuit of height h over k moduli with 3h + 4 <= 4k decrypts to its value (degree up to 4096), and with four or more moduli and degree up to 4096 the repaired retrieval of C85 returns the entry asked for, whatever the shape, position, key and randomness. PvwParams::default with the modulus 786433 in place of 65537 always decrypts correctly.", "quantifier": "all degrees, numbers of moduli, keys, databases, positions, messages and randomness within the stated ranges, both build profiles", "why_tests_cant": "The existence of the primes, the absence of panics and correct decryption for every randomness are statements about all degrees and all draws.", "anchors": ["src/bfv.rs:193-226", "src/bfv.rs:52-190", "src/pvw.rs:19-29", "src/evaluations.rs:420-530"]}
{"id": "C89", "title": "The failing tests of the crate pass with the repaired functions", "statement": "The tests of C72 that fail of the code, run with the slot map of C82 and the expansion and query encoding of C85, do what they are written for, on every draw: encrypt_decrypt passes for both encodings; simd_slot_rotations prints its values and the values with the two rows swapped; unpack prints the values, the same values and zero mismatches; client_encode prints the selection bits and gets them back from the expansion; query prints one ciphertext's worth: the entry at the position asked for; pack_and_construct prints the product of its constant with the other message; unpack_decomp completes, prints bit lengths between 0 and 124 whatever it compares, and when the plaintext compared is the one expanded, bit lengths of at most log2(20 n^2 2^64) + 1.", "quantifier": "every secret key, mask, error, key randomness and message the tests can draw (for the evaluation tests also every degree n up to 4096 for which the parameters exist, every database of sixteen entries and every position), every exact primality environment, both profiles", "why_tests_cant": "These are the tests: in the repository they panic or print wrong values, and a run of a repaired version would be a single draw at one degree.", "anchors": ["src/bfv.rs:778-805", "src/bfv.rs:870-893", "src/evaluations.rs:335-592"]}
{"id": "C90", "title": "Algebraic laws of polynomials and ciphertexts", "statement": "Seen only through the values they return, the operators satisfy the laws a caller relies on when rearranging a computation. On the NTT polynomials of a context: +, -, unary - form an abelian group with Poly::zero, * is commutative, associative, distributive and has the polynomial of [1] as unit, multiplication by a BigUint is the action of the integers modulo Q. Substitutions are ring automorphisms, compose by multiplying exponents, commute with each other and with changes of representation, and exponents inverse modulo 2n undo each other. On ciphertexts of two components: +, - and the products with polynomials and integers satisfy the same laws; multiply_with_strategy gives the same ciphertext (or the same failure) for both orders of its operands. All equalities are between the returned structures, bit for bit, and include that both sides succeed or fail alike.", "quantifier": "all contexts that can be constructed, all polynomials and ciphertexts of matching shape, all exponents, integers and relinearisation keys, both build profiles", "why_tests_cant": "A law quantifies over all triples of operands; tests compare one result with one expected value and never two computations with each other.", "anchors": ["src/rq.rs:36-66", "src/rq.rs:272-386", "src/rq.rs:545-655", "src/bfv.rs:420-565", "src/bfv.rs:657-695"]}
{"id": "C91", "title": "Typical noise of external products and of chains of them", "statement": "The noise that external_product adds with a fresh RgswCt::encrypt(m) reaches B in a given coefficient for at most a fraction (1*3*...*(2k-1)) * (v * 2n * (q_1^2+...+q_K^2) / B^2)^k of the outcomes of the generator of the errors, for every k, B, ciphertext, key, message and public masks. If d fresh RGSW encryptions are applied one after the other, each to the result of the one before, the final ciphertext decrypts to the product of the message with all d plaintexts except for d*n times that fraction, provided the noise recurrence N -> |m_i|_1 * N + t*B stays within the decryption limit; for plaintexts that are signed monomials the recurrence is N + d*t*B.", "quantifier": "every parameter set that can be built, level, key, ciphertext, list of plaintexts, public masks, B and k; both build profiles", "why_tests_cant": "The claim counts outcomes of a generator with tens of thousands of bits, and later steps depend on the errors of the earlier ones; a test observes one outcome.", "anchors": ["src/rgsw.rs:44-78", "src/ksk.rs:32-124", "src/utils.rs: sample_vec_cbd"]}
{"id": "C92", "title": "How much is sent between client and server", "statement": "With k ciphertext moduli and degree n, a query consists of k+1 ciphertexts with together exactly 2k(k+1)n words below 2^62, whatever the position, the randomness and the size of the database (as long as the encoding fits into one ciphertext). Evaluation::build makes log2(n) Galois keys, and keys and RGSW ciphertext together hold exactly (log2(n)+2) * 2k^2 n words. The answer is one ciphertext of 2kn words, and 2(k-j)n words after switching it to level j.", "quantifier": "every parameter set that can be built, key, randomness, position, query content and database shape; both build profiles", "why_tests_cant": "A test sees one size for one parameter set; that nothing else (database, position) enters is a statement about all of them.", "anchors": ["src/evaluations.rs:235-252", "src/evaluations.rs:444-453", "src/ksk.rs:32-100", "src/rgsw.rs:28-42"]}
{"id": "C93", "title": "What the word arithmetic and the transforms give away through their steps", "statement": "In a Release build, lazy_reduce_ct, reduce_ct and lazy_mul_shoup (documented as constant time), and reduce, reduce_u128, reduce_i64, add, sub, mul, neg and mul_shoup built from them, take no decision, touch no array and divide nothing, and run through the same sequence of word operations for any operands and any modulus. The vector functions and the forward and backward transforms touch the same cells in the same order and take the same decisions for any two inputs of the same length (and tables of the same lengths). pow gives away its exponent completely and nothing else; inv only the modulus; scalar_mul_vec only the length, the modulus and the scalar.", "quantifier": "all operands, moduli, exponents, vectors and transform tables, valid or not", "why_tests_cant": "Tests look at results, not at the decisions taken and cells touched on the way; independence of the data is a statement about all pairs of runs.", "anchors": ["src/modulus.rs:30-105", "src/modulus.rs:120-142", "src/modulus.rs:153-242", "src/ntt.rs:77-192", "src/ntt.rs:241-245"]}
{"id": "C94", "title": "Which operands the homomorphic operations accept", "statement": "Ciphertext addition and subtraction, the products with a ciphertext, a plaintext or a polynomial, multiply_with_strategy, rotation with a Galois key, external products and key switching return only if their operands belong together: levels, parameters, contexts and number of components as each needs them. Operands that fail a comparison of levels, parameters, contexts or representation make the call panic, whatever else they contain; so does RGSW encryption of a plaintext of other parameters. What is not looked at: all operations except the two ciphertext products ignore components beyond the second, so adding two three-component products silently drops their third components; and encrypt labels its result with the parameters of the key and level 0, whatever the plaintext says.", "quantifier": "all ciphertexts, plaintexts, polynomials and keys, well-formed or not; both build profiles", "why_tests_cant": "The tests combine matching objects only; that every mismatch is caught, and which is not, concerns all pairs.", "anchors": ["src/bfv.rs:311-334", "src/bfv.rs:419-565", "src/bfv.rs:657-695", "src/bfv.rs:725-740", "src/ksk.rs:102-125", "src/rgsw.rs:28-78"]}
{"id": "C95", "title": "What sampling, encryption and key generation give away through their steps", "statement": "In a Release build the sequence of word operations, decisions, array accesses and divisions of small-noise sampling, of SecretKey::generate, of to_poly, encrypt and encrypt_poly, of decrypt_trial and of decrypt up to the scaling of the phase, of Ksk::new and of RelinearizationKey::new depends on public data only: the parameters, the levels, the lengths. Two calls with different secret keys, messages, ciphertext coefficients or generator output run through the same steps and end the same way.", "quantifier": "all parameter sets, keys, plaintexts, polynomials of equal shape, all outputs of the random generator", "why_tests_cant": "Timing is not observable by a unit test, and equality of the steps concerns all pairs of secrets.", "anchors": ["src/utils.rs:54-85", "src/rq.rs:272-310", "src/rq.rs:501-637", "src/bfv.rs:279-358", "src/bfv.rs:634-654", "src/bfv.rs:749-760", "src/ksk.rs:47-100"]}
{"id": "C96", "title": "What scaling, decryption, modulus switching and multiplication give away through their steps", "statement": "In a Release build the steps of RnsScaler::scale on the residues of a coefficient reveal exactly one bit of them: the sign w_sign of the correction. Two runs on as many residues show the same word operations, decisions and array accesses if and only if these signs agree; with scaling factor one, as in modulus switching between bases, they always do. Scaling a polynomial, and decrypt as a whole, give away no more than these signs, one per coefficient; the secret key, the message and the ciphertext influence the steps in no other way. Dropping a modulus (mod_switch_down_next, mod_switch_to), negation, and adding a polynomial to or multiplying a plaintext with a ciphertext give away sizes only. So does the product of two ciphertexts up to its scaling down; the whole product gives away no more than the signs of the corrections of that scaling. The same holds of multiply_with_strategy, including its relinearization; inner_product gives away sizes only.", "quantifier": "all scalers, residue vectors of equal length, polynomials, keys and ciphertexts of equal shape", "why_tests_cant": "Timing is not observable by a unit test, and the equivalence concerns all pairs of inputs.", "anchors": ["src/rns.rs:298-431", "src/rq.rs:107-151", "src/bfv.rs:347-382", "src/rq.rs:388-433", "src/rq.rs:639-655", "src/bfv.rs:441-455", "src/bfv.rs:474-534", "src/bfv.rs:657-695", "src/bfv.rs:762-770", "src/omr.rs:9-19"]}
{"id": "C97", "title": "What Galois keys and RGSW encryption give away through their steps", "statement": "In a Release build the steps of Poly::substitute depend on the exponent, the representation and the sizes only, not on the coefficients; those of GaliosKey::new, Ksk::new_with_pt and of RGSW encryption of a plaintext or a polynomial depend neither on the secret key, nor on the message, nor on the output of the random generator.", "quantifier": "all parameter sets, keys, plaintexts, polynomials of equal shape, exponents, levels, all outputs of the random generator", "why_tests_cant": "Timing is not observable by a unit test, and equality of the steps concerns all pairs of secrets.", "anchors": ["src/rq.rs:343-386", "src/bfv.rs:707-723", "src/ksk.rs:38-45", "src/rgsw.rs:28-61"]}
{"id": "C98", "title": "What making a query and PVW encryption give away through their steps", "statement": "In a Release build the steps of Client::encode are the same for all accepted positions of a database. The steps of PvwSk::gen_pk and PvwPk::encrypt depend on sizes only, not on the secret key, the message or the output of the random generator. PvwSk::decrypt divides each slot by a number fixed at run time: two decryptions take the same steps, operands of divisions included, if and only if their slots b - sk*a mod q before rounding agree, so the steps give away message and error and nothing else about key and ciphertext.", "quantifier": "all clients, positions and database sizes; all PVW parameters, keys, messages, ciphertexts of matching sizes and all outputs of the random generator", "why_tests_cant": "Timing is not observable by a unit test, and equality of the steps concerns all pairs of secrets.", "anchors": ["src/evaluations.rs:36-62", "src/pvw.rs:56-114", "src/pvw.rs:120-148"]}
{"id": "C99", "title": "What the work of the server and a whole retrieval give away through their steps", "statement": "In a Release build the steps of Ksk::key_switch, RgswCt::external_product, GaliosKey::relinearize, Evaluation::unpack and Server::decode (word operations, decisions, cells touched, divisions with their operands) depend on the parameters and sizes only: they are the same for all queries, evaluation keys and contents of the database. So are those of Plaintext::new and decode, of making the query ciphertexts, of Evaluation::build and of Server::new, and hence those of a whole retrieval, from the position asked for to the answer: they are the same for any two positions within bounds, secret keys, databases of the same shape and outputs of the generator. The answers consist of equally many ciphertexts of the same shape. With the powers of X supplied, the retrievals of C45 all end with one ciphertext after exactly the same steps.", "quantifier": "all parameter sets; all keys, positions, queries and databases of equal shape", "why_tests_cant": "Timing and access patterns are not observable by a unit test, and equality of the steps concerns all pairs of queries.", "anchors": ["src/ksk.rs:102-156", "src/rgsw.rs:63-85", "src/bfv.rs:424-472", "src/bfv.rs:536-551", "src/bfv.rs:725-740", "src/evaluations.rs:109-226", "src/evaluations.rs:254-299", "src/bfv.rs:583-628", "src/evaluations.rs:73-93", "src/evaluations.rs:235-252", "src/evaluations.rs:430-460"]}
