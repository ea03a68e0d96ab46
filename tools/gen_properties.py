#!/usr/bin/env python3
# Writes /verif/properties.jsonl (one JSON object per property).
import json, os
P = []
def add(id, title, statement, quantifier, why, *anchors):
    P.append(dict(id=id, title=title, statement=statement, quantifier=quantifier,
                  why_tests_cant=why, anchors=list(anchors)))

add("C01", "Modulus construction accepts exactly [2, 2^62)",
    "Modulus::new(p) returns a modulus (whose modulus() is p) exactly when 2 <= p < 2^62, and panics for every other u64 p.",
    "every u64 p", "2^64 inputs; a test samples a few", "src/modulus.rs: Modulus::new, Modulus::modulus")
add("C02", "Barrett reduction of 64- and 128-bit words is exact",
    "For every constructible modulus p, reduce(a) = a mod p for every u64 a and reduce_u128(a) = a mod p for every u128 a; no intermediate u64/u128 operation overflows, no debug assertion fails, and the two build profiles (debug/release) agree. The lazy variants return a value in [0,2p) congruent to a.",
    "every valid modulus, every u64 / u128 argument, both build profiles",
    "2^128 arguments times 2^62 moduli; the overflow-freedom of the three-term u128 sum depends on a number-theoretic bound on the Barrett constant",
    "src/modulus.rs: Modulus::reduce, Modulus::reduce_u128, Modulus::lazy_reduce_ct, Modulus::lazy_reduce_u128, Modulus::reduce_ct")
add("C03", "Signed reduction is exact",
    "For every valid modulus p and every i64 a, reducing a vector of i64 yields the representative in [0,p) congruent to a (including negative a and i64::MIN).",
    "every valid modulus, every i64", "2^64 x 2^62 inputs", "src/modulus.rs: Modulus::reduce_i64, Modulus::reduce_vec_i64")
add("C04", "Modular add/sub/neg/mul are exact and closed",
    "For every valid modulus p and all a, b in [0,p): add, sub, mul, neg return (a+b), (a-b), (a*b), (-a) mod p, in [0,p), without panic or overflow in either profile; the *_vec forms are the elementwise forms. Operands out of range panic in a debug build.",
    "every valid modulus and all reduced operands", "quantifies over all operand pairs of every modulus",
    "src/modulus.rs: Modulus::add, Modulus::sub, Modulus::mul, Modulus::neg, Modulus::add_vec, Modulus::sub_vec, Modulus::mul_vec, Modulus::neg_vec")
add("C05", "Modular exponentiation and inversion",
    "For every valid p and a, r < p, pow(a,r) = a^r mod p. For prime p and a in [1,p), inv(a) is in [0,p) and a*inv(a) = 1 mod p.",
    "every valid modulus, base and exponent; every prime modulus for inv", "unbounded input space; correctness of inv rests on Fermat's little theorem",
    "src/modulus.rs: Modulus::pow, Modulus::inv, Modulus::inv_vec")
add("C06", "Shoup multiplication works for every 64-bit multiplicand",
    "For every valid p, every b < p with its Shoup constant and every u64 a (not only a < p), lazy_mul_shoup returns a value in [0,2p) congruent to a*b and mul_shoup returns a*b mod p; no overflow.",
    "every valid modulus, every u64 a, every b<p", "2^64 x 2^62 x 2^62 inputs",
    "src/modulus.rs: Modulus::shoup, Modulus::lazy_mul_shoup, Modulus::mul_shoup, Modulus::scalar_mul_vec")
add("C07", "Scalar-vector product returns reduced residues",
    "scalar_mul_vec(a, b) returns, for each element, the residue a_i*b mod p in [0,p).",
    "every valid modulus, vector and scalar", "a test sees the unreduced outputs only for the inputs on which the quotient estimate is off by one",
    "src/modulus.rs: Modulus::scalar_mul_vec")
add("C08", "Forward NTT evaluates the polynomial at the odd powers of a primitive 2n-th root, bit-reversed",
    "For every NTT operator that can be constructed, forward(a) on any vector of reduced residues returns, at position j, the evaluation of the polynomial sum a_i X^i at psi^(2*bitrev(j)+1), reduced to [0,p), where psi is a fixed element with psi^n = -1; no out-of-bounds access, overflow or failed assertion.",
    "every supported modulus/size, every input vector", "all sizes and all p^n inputs; uses unchecked pointer accesses and lazy ranges",
    "src/ntt.rs: NttOperator::forward, NttOperator::butterfly, reduce_4p")
add("C09", "NTT forward and backward are mutually inverse",
    "For every constructible operator and every vector of reduced residues of the operator's size, backward(forward(a)) = a and forward(backward(a)) = a.",
    "every supported modulus/size, every input vector", "all sizes and all inputs", "src/ntt.rs: NttOperator::forward, NttOperator::backward")
add("C10", "Pointwise product in NTT form is the negacyclic product",
    "backward(forward(a) .* forward(b)) is the product of a and b in Z_p[X]/(X^n+1), for every operator and every pair of reduced vectors.",
    "every supported modulus/size, every pair of input vectors", "all sizes and inputs", "src/ntt.rs: NttOperator, src/modulus.rs: Modulus::mul_vec")
add("C11", "NTT operator construction: guard and primitive root",
    "NttOperator::new panics unless the size is a power of two >= 8, p = 1 mod 2n and p is prime; whenever it returns, its root is a primitive 2n-th root of unity (psi^n = -1 mod p). It panics if the 100 candidate draws contain no root.",
    "every modulus, size and every outcome of the candidate generator", "depends on the candidate stream; all moduli and sizes",
    "src/ntt.rs: NttOperator::new, supports_ntt, primitive_root, is_primitive_root")
add("C12", "RNS representation is a bijection (CRT)",
    "For every constructible RNS basis, lift(project(x)) = x for every 0 <= x < product and project(lift(r)) = r for every vector of reduced residues; construction panics when the moduli are not pairwise coprime.",
    "every list of moduli, every integer / residue vector", "unbounded number of moduli, 2^(62 k) values", "src/rns.rs: RnsContext::new, RnsContext::project, RnsContext::lift")
add("C13", "RNS scaling rounds the centred value",
    "For every source basis of at most 16 moduli, target basis and factor N/D, RnsScaler::scale maps the residues of x to the residues of an integer y with -1/2 < y - N*x'/D <= 1/2 + eps, where x' is congruent to x modulo the source product and |x'| <= product*(1/2 + eps'), with explicit tiny eps, eps'; no overflow or failed assertion.",
    "every basis, factor and residue vector", "multi-word fixed point arithmetic over all inputs; failures hide near rounding boundaries",
    "src/rns.rs: RnsScaler::new, RnsScaler::scale, RnsScaler::extract_projection_and_theta, src/utils.rs: U256")
add("C14", "Base extension (unit factor) preserves the centred value",
    "With factor 1, RnsScaler::scale returns the residues in the target basis of the centred representative of x (exactly, whenever x is not within the stated relative distance of product/2).",
    "every pair of bases and every residue vector", "all inputs; boundary effects", "src/rns.rs: RnsScaler::scale, src/rq.rs: RqScaler::scale")
add("C15", "256-bit accumulator arithmetic",
    "wrapping_add_assign / wrapping_sub_assign are addition/subtraction modulo 2^256, bitwise not is 2^256-1-x, and >> by any 0 <= s < 256 is floor division by 2^s, on every U256 value; conversions from/to word arrays round-trip.",
    "every pair of 256-bit values and every shift", "2^512 inputs", "src/utils.rs: U256")
add("C16", "Polynomial scaling is coefficientwise for any pair of contexts",
    "RqScaler::scale applied to a polynomial yields, for every coefficient, the scaled coefficient in every target modulus, whatever the source and target contexts.",
    "every pair of contexts of equal degree, every factor and polynomial", "all context pairs", "src/rq.rs: RqScaler::new, RqScaler::scale")
add("C17", "Polynomial operators implement the ring Z_Q[X]/(X^n+1)",
    "On NTT-form polynomials of one context, +=, -=, *=, * by an integer and unary minus denote addition, subtraction, product, scalar product and negation in Z_Q[X]/(X^n+1); on non-NTT operands += -= *= panic.",
    "every context and every pair of polynomials", "all contexts, sizes, polynomials", "src/rq.rs: AddAssign, SubAssign, MulAssign, Mul, Neg for Poly")
add("C18", "Changing representation never changes the polynomial",
    "change_representation between PowerBasis and Ntt preserves the denoted polynomial and is undone by the reverse change; a conversion from or to NttShoup (other than none) panics.",
    "every context and polynomial", "all contexts and polynomials", "src/rq.rs: Poly::change_representation")
add("C19", "Substitution is the automorphism X -> X^k in both representations",
    "For every odd k, substitute maps the polynomial f(X) to f(X^k) mod X^n+1, with the same result in PowerBasis and Ntt form; it is a ring homomorphism and substitutions compose by multiplying exponents; Substitution::new panics for even exponents.",
    "every context, odd exponent and polynomial", "all sizes/exponents/polynomials; relies on bit-reversed index arithmetic", "src/rq.rs: Substitution::new, Poly::substitute")
add("C20", "Modulus switching rounds to nearest",
    "mod_switch_down_next maps each coefficient x in [0,Q) to floor((x + floor(q_last/2)) / q_last) modulo Q/q_last and drops the last modulus; mod_switch_to iterates it to the requested context and panics when the context is not below the current one.",
    "every context chain and polynomial", "all coefficients; uses lazy ranges up to 4q", "src/rq.rs: Poly::mod_switch_down_next, Poly::mod_switch_to, RqContext::switch_iterations")
add("C21", "Building polynomials from and exporting to integers",
    "try_from_vec_u64/i64/bigint denote exactly the given integer coefficients modulo Q (missing ones zero) and panic on more than degree coefficients; converting a PowerBasis polynomial to big integers returns the coefficients reduced to [0,Q).",
    "every context and coefficient vector", "all vectors", "src/rq.rs: Poly::try_from_vec_u64, Poly::try_from_vec_i64, Poly::try_from_bigint, From<&Poly> for Vec<BigUint>, From<&Poly> for Vec<u64>")
add("C22", "Bit decomposition round-trips",
    "For m < 2^bits, bit_vector lists the bits of m and decompose_bits gives digits < 2^d (d <= 64) that recompose to m in base 2^d; larger m or d = 0 panics.",
    "every m, width and digit size", "all values and widths", "src/utils.rs: bit_vector, decompose_bits")
add("C23", "Modulus::bits is the bit length and bit decomposition of a polynomial succeeds",
    "bits() returns the bit length of the modulus, and apply_bit_decomposition decomposes a polynomial without panicking.",
    "every modulus and polynomial", "no test exercises it", "src/modulus.rs: Modulus::bits, src/rq.rs: Poly::apply_bit_decomposition")
add("C24", "Centred binomial sampler: range and bit usage",
    "For variance v in 1..=16, sample k is popcount of 2v fresh random bits minus popcount of the next 2v fresh bits of the generator stream; no bit is used twice; |sample| <= 2v. Other variances panic.",
    "every variance, vector size and generator stream", "all random streams", "src/utils.rs: sample_vec_cbd")
add("C25", "Prime generation returns the largest admissible prime",
    "generate_prime(b, m, u) returns the largest prime with exactly b bits, congruent to 1 mod m and strictly below u, and None exactly when there is none or b is outside 10..=62.",
    "every bit size, m >= 2 and upper bound <= 2^b", "search over 2^62 candidates", "src/utils.rs: generate_prime")
add("C26", "Generated ciphertext moduli are distinct NTT primes of the requested sizes",
    "generate_moduli(sizes, n) returns, for each requested size, a prime of exactly that bit size, congruent to 1 mod 2n, all pairwise distinct; None only when some size has no further prime.",
    "every list of sizes and degree", "unbounded lists", "src/bfv.rs: BfvParameters::generate_moduli")
add("C27", "Polynomial plaintext encoding round-trips",
    "For every value vector of length <= degree, encoding with Encoding::Poly and decoding returns the vector padded with zeros; longer vectors and Encoding::None panic.",
    "every value vector", "all vectors", "src/bfv.rs: Plaintext::new, Plaintext::decode")
add("C28", "SIMD plaintext encoding round-trips",
    "For every vector of degree values in [0,t), decode(encode_SIMD(v)) = v.",
    "every degree and value vector", "all degrees and vectors", "src/bfv.rs: Plaintext::new, Plaintext::decode, BfvParameters::new (matrix_reps_index_map)")
add("C29", "Plaintext scaling encodes floor(Q*m/t)",
    "The ciphertext-space encoding of a plaintext value m has coefficient floor(Q*m/t) or that minus one, modulo Q, for every value (also m >= t) at every level.",
    "every parameter set, level and plaintext", "all messages and moduli", "src/bfv.rs: Plaintext::to_poly, BfvParameters::new (delta_ts, q_mod_ts)")
add("C30", "Fresh encryption decrypts to the message",
    "For every key, message and encryption randomness, decrypt(encrypt(m)) = m mod t coefficientwise, provided 2t <= q_0 and Q exceeds the stated multiple of t*(2*variance+2).",
    "every parameter set, secret key, message, seed and noise sample", "all randomness; tests sample", "src/bfv.rs: SecretKey::encrypt, SecretKey::encrypt_poly, SecretKey::decrypt")
add("C31", "Decryption tolerates every noise within the budget",
    "If the phase c0 + c1*s + ... + ck*s^k of a ciphertext is floor(Q*m/t) + e modulo Q with |e| within the stated budget (about Q/2t), decrypt returns m mod t; for any number of components.",
    "every ciphertext of any length, key, message and noise within the budget", "all noise vectors up to the budget boundary", "src/bfv.rs: SecretKey::decrypt")
add("C32", "Homomorphic addition and subtraction",
    "ct_a + ct_b (ct_a - ct_b) denotes the sum (difference) of the phases, and decrypts to the sum (difference) of the messages mod t while noise stays within budget; mismatched levels or parameters panic.",
    "every pair of ciphertexts", "all ciphertext pairs and noises", "src/bfv.rs: Add<&BfvCipherText>, Sub<&BfvCipherText> for BfvCipherText")
add("C33", "Multiplication by a plaintext, polynomial or integer",
    "ct * plaintext, ct * poly and ct * integer multiply the phase by that polynomial/integer in Z_Q[X]/(X^n+1), hence decrypt to the product mod t while noise stays within budget.",
    "every ciphertext and multiplier", "all ciphertexts/multipliers", "src/bfv.rs: Mul<&Plaintext>, Mul<&Poly>, Mul<&BigUint> for BfvCipherText")
add("C34", "Adding a polynomial to a ciphertext adds it to the phase",
    "ct + poly has phase(ct) + poly.", "every ciphertext and polynomial", "no test exercises it", "src/bfv.rs: Add<&Poly> for BfvCipherText")
add("C35", "Ciphertext product by * denotes the product",
    "The product ct_a * ct_b (three components, not relinearised) decrypts to the product of the messages.",
    "every pair of ciphertexts", "no assertion exercises it", "src/bfv.rs: Mul<&BfvCipherText> for BfvCipherText")
add("C36", "Multiplication with relinearisation",
    "multiply_with_strategy returns a two-component ciphertext that decrypts to the product of the two messages in Z_t[X]/(X^n+1) while the noise stays within an explicit bound.",
    "every pair of ciphertexts, relinearisation key and randomness", "all inputs; rounding in extended basis", "src/bfv.rs: multiply_with_strategy, RelinearizationKey")
add("C37", "Key switching identity",
    "For every key-switching key generated for polynomial `from` and every input p, key_switch(p) returns (c0,c1) with c0 + c1*s = p*from + sum_i e_i*[p]_{q_i}, the error being bounded by L*n*max(q_i)*2*variance in absolute value.",
    "every key, randomness and polynomial", "all keys/polynomials; test only checks a size bound on samples", "src/ksk.rs: Ksk::new, Ksk::key_switch, Ksk::new_with_pt")
add("C38", "Galois key switching applies the automorphism to the message",
    "GaliosKey::relinearize(ct) returns a ciphertext under the same key whose phase is phase(ct)(X^k) plus bounded key switching noise; hence it decrypts to m(X^k) mod t within budget.",
    "every odd exponent, key, ciphertext, randomness", "all exponents and ciphertexts", "src/bfv.rs: GaliosKey::new, GaliosKey::relinearize")
add("C39", "Relinearisation removes the s^2 component",
    "relinearize_poly(c2) returns (r0,r1) with r0 + r1*s = c2*s^2 plus bounded noise, for c2 in either representation.",
    "every key, randomness and polynomial", "all inputs", "src/bfv.rs: RelinearizationKey::new, RelinearizationKey::relinearize_poly")
add("C40", "RGSW external product multiplies the encrypted message",
    "external_product(RGSW(m), ct) has phase m*phase(ct) plus bounded noise; with m and the message small enough it decrypts to the product mod t.",
    "every RGSW key/message/ciphertext and randomness", "all inputs", "src/rgsw.rs: RgswCt::encrypt, RgswCt::encrypt_poly, RgswCt::external_product")
add("C41", "RGSW assembled from encrypted digits",
    "A key-switching/RGSW object assembled from RLWE encryptions of garner_i*b (and of s times them obtained by external product with RGSW(s)) behaves as an RGSW encryption of b with explicit noise.",
    "every list of digit ciphertexts", "all inputs", "src/ksk.rs: Ksk::try_from_decomposed_rlwes, src/rgsw.rs: RgswCt::try_from_ksks")
add("C42", "Oblivious expansion returns one ciphertext per coefficient",
    "unpack(ct) returns degree ciphertexts, the j-th having phase equal to the constant polynomial of coefficient j of phase(ct), up to bounded noise.",
    "every ciphertext, evaluation key, degree", "all ciphertexts and degrees", "src/evaluations.rs: Evaluation::unpack, Evaluation::gen_x_pows, Evaluation::build")
add("C43", "Client query encoding is one-hot per dimension",
    "encode returns first_dim + dim*(d-1) values: 1 exactly at the queried index of each dimension's segment and 0 elsewhere; an index out of its dimension or a database size not matching the dimensions panics.",
    "every dimension shape and query", "all shapes/queries", "src/evaluations.rs: Client::encode")
add("C44", "Server folding selects the queried row",
    "Given per-dimension selection ciphertexts of one-hot vectors, the server's fold over the hypercube returns a single ciphertext whose message is the database entry at index d0 + first_dim*(d1 + dim*(d2 + ...)).",
    "every database, shape and query", "all shapes/databases/queries", "src/evaluations.rs: Server::decode, Server::new")
add("C45", "End-to-end private retrieval",
    "For every database, query, key and randomness within the noise budget, the server's answer to the client's query decrypts to the requested database entry.",
    "every database, query, key, randomness", "all of them at once", "src/evaluations.rs: Server::decode, Client::encode, Evaluation")
add("C46", "Encryption works at every level",
    "A plaintext encoded at any level can be encrypted and decrypted.", "every level", "tests only use level 0", "src/bfv.rs: SecretKey::encrypt_poly, SecretKey::decrypt")
add("C47", "Noise measurement",
    "measure_noise(ct) returns the bit length of the largest centred coefficient of phase(ct) - encode(decrypt(ct)).",
    "every two-component ciphertext", "all ciphertexts", "src/bfv.rs: SecretKey::measure_noise")
add("C48", "PVW encryption decrypts under bounded noise",
    "For every key and randomness, PVW decrypt(encrypt(m)) = m for bit vectors m whenever each accumulated error lies in [-floor(q/4), floor(q/4)); decryption of a sum of pk rows computes exactly message*floor(q/2) + error.",
    "every parameter set, key, error and message", "all randomness", "src/pvw.rs: PvwSk::gen_pk, PvwSk::decrypt, PvwPk::encrypt")
add("C49", "PVW default parameters always decrypt correctly",
    "With PvwParams::default, decrypt(encrypt(m)) = m for every randomness.",
    "every randomness", "failure probability is tiny so tests never see it", "src/pvw.rs: PvwParams::default, PvwPk::encrypt, PvwSk::decrypt")
add("C50", "Integer helpers",
    "ilog2(x) = floor(log2 x) for x > 0 ; div_ceil(a,b) = ceil(a/b) when a+b-1 does not overflow, panics on b = 0; mod_inverse returns the inverse exactly when coprime.",
    "every u64/u128/usize value", "all values", "src/utils.rs: ilog2, div_ceil, mod_inverse")
add("C51", "Level lookup and chain distance",
    "ctx_level(c) returns the index of c among the parameter contexts (level i drops i moduli) and None for other contexts; switch_iterations returns exactly the number of dropped moduli, None when not below.",
    "every parameter set and context", "all contexts", "src/bfv.rs: BfvParameters::ctx_level, src/rq.rs: RqContext::switch_iterations")
add("C52", "Parameter construction succeeds and produces a valid extended basis",
    "For t < q_i distinct NTT primes the construction of BFV parameters produces per-level contexts for the prefixes of the moduli, and an extended basis of fresh 62-bit NTT primes disjoint from the ciphertext moduli, whose index never goes out of range.",
    "every valid parameter choice", "all parameter choices", "src/bfv.rs: BfvParameters::new, MultiplicationParameters::new")
add("C53", "Ciphertext inner product",
    "inner_product(cts, polys) has phase sum_i phase(ct_i)*poly_i; mismatched lengths or empty input panic.",
    "every pair of lists", "all lists", "src/omr.rs: inner_product")
add("C54", "Pointwise inverse of an NTT polynomial",
    "inverse() of an NTT-form polynomial with no zero entry is its multiplicative inverse in Z_Q[X]/(X^n+1).",
    "every context and invertible polynomial", "all polynomials", "src/rq.rs: Poly::inverse")
add("C55", "Server ciphertext bookkeeping",
    "no_of_cts equals first_dim + dim * (number of further dimensions) for databases of size first_dim*dim^k and agrees with the length of the client's encoded query and with the dimension count used by decode.",
    "every shape", "all shapes", "src/evaluations.rs: Server::no_of_cts, Client::encode, Server::decode")

with open(os.path.join(os.path.dirname(__file__), "..", "properties.jsonl"), "w") as f:
    for p in P:
        f.write(json.dumps(p) + "\n")
print(len(P))
