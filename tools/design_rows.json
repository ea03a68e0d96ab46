{
 "C01": [
  "`modulus_new` (modulus.rs)",
  "case analysis on the guards, bounds of the quotient 2^128/p"
 ],
 "C02": [
  "`lazy_reduce_ct`, `lazy_reduce_u128`, `reduce_ct`, `reduce`, `reduce_u128`, `reduce_biguint`",
  "Barrett error bound as an integer inequality; overflow freedom of every u128 intermediate; the xor selection trick proved at bit level"
 ],
 "C03": [
  "`reduce_i64`, `reduce_vec_i64`",
  "reduction to C02 after the shift by p*2^64"
 ],
 "C04": [
  "`add`, `sub`, `neg`, `mul` and their vector forms",
  "range of the sum, then C02; the debug guards are characterised exactly"
 ],
 "C05": [
  "`pow`, `inv`",
  "loop invariant of square-and-multiply; Fermat's little theorem proved from scratch (NT.v)"
 ],
 "C06": [
  "`shoup`, `lazy_mul_shoup`, `mul_shoup`",
  "integer division bounds, for every u64 multiplicand"
 ],
 "C07": [
  "`scalar_mul_vec`",
  "refuted by a witness (result >= p); the lazy range and the congruence are proved"
 ],
 "C08": [
  "`NttOperator::new`, `forward`",
  "layer invariant: after t layers block i holds the polynomial modulo X^(n/2^t) - root(t,i); bit reversal by induction"
 ],
 "C09": [
  "`forward`, `backward`",
  "each backward layer undoes a forward layer up to a factor 2; final multiplication by n^-1"
 ],
 "C10": [
  "`forward`, `backward`, `mul_vec`",
  "evaluation at the odd powers of psi is a ring homomorphism from Z_q[X]/(X^n+1); injectivity by C09"
 ],
 "C11": [
  "`NttOperator::new`, `supports_ntt`, `primitive_root`",
  "guard equivalence; success if some draw is a non-residue; order of the root"
 ],
 "C12": [
  "`RnsContext::new`, `project`, `lift`",
  "Chinese remainder theorem over lists of moduli (PCrt.v)"
 ],
 "C13": [
  "`RnsScaler::new`, `scale`",
  "exact integer error analysis of the 127-bit fixed point sums; sign handling of the U256 accumulator; absence of overflow in both profiles"
 ],
 "C14": [
  "`RnsScaler::scale` with factor one",
  "same analysis without the theta_omega part"
 ],
 "C15": [
  "`U256` (utils.rs)",
  "limb arithmetic against integers mod 2^256"
 ],
 "C16": [
  "`RqScaler::new`, `scale`",
  "columnwise use of C13/C14; the copied rows are right iff the agreeing positions form a prefix, otherwise refuted; every row characterised for arbitrary contexts"
 ],
 "C17": [
  "`Poly` operators",
  "`denotes`: a Poly stands for the integer polynomial with these residues (coefficients or evaluations); each operator commutes with it; every well-formed Poly denotes something, uniquely mod Q"
 ],
 "C18": [
  "`change_representation`",
  "C08/C09 per row"
 ],
 "C19": [
  "`Substitution::new`, `substitute`",
  "power basis: loop invariant over columns; NTT basis: permutation of the evaluation points; both shown to be the ring automorphism"
 ],
 "C20": [
  "`mod_switch_down_next`, `mod_switch_to`",
  "rounded division identity per residue; induction over the chain of contexts"
 ],
 "C21": [
  "`try_from_vec_*`, `From<&Poly>`",
  "residues plus C12"
 ],
 "C22": [
  "`bit_vector`, `decompose_bits`",
  "induction over the bits"
 ],
 "C23": [
  "`Modulus::bits`, `apply_bit_decomposition`",
  "refuted: closed form of `bits`; the allocation panics on every well-formed polynomial"
 ],
 "C24": [
  "`sample_vec_cbd`",
  "stream invariant: the pool is a window of the concatenated words; popcounts as sums of bits"
 ],
 "C25": [
  "`generate_prime`",
  "loop invariant of both walks; maximality; binary fuel suffices for every u64"
 ],
 "C26": [
  "`generate_moduli`",
  "induction over the sizes with the set of moduli found"
 ],
 "C27": [
  "`Plaintext::new`, `decode` (Poly)",
  "direct"
 ],
 "C28": [
  "`Plaintext::new`, `decode` (SIMD)",
  "refuted for every degree: two slots share a position; the last-writer semantics is proved exactly"
 ],
 "C29": [
  "`Plaintext::to_poly`",
  "exact division identity: Q*m - (Q m mod t) over t"
 ],
 "C30": [
  "`SecretKey::generate`, `encrypt`, `decrypt`",
  "phase of a fresh ciphertext + C24 noise bound + C31"
 ],
 "C31": [
  "`decrypt`",
  "exact rounding of t*phase/Q by C13, followed by the two reductions; budget stated on t*f = Q*m + E"
 ],
 "C32": [
  "`Add`, `Sub` on ciphertexts",
  "phases add; noise adds"
 ],
 "C33": [
  "`Mul<&Plaintext>`, `Mul<&Poly>`, `Mul<&BigUint>`",
  "phases multiply in the ring; noise times the l1 norm"
 ],
 "C34": [
  "`Add<&Poly>`",
  "actual effect proved (h + h*s); intended effect refuted"
 ],
 "C35": [
  "`Mul<&BfvCipherText>`",
  "refuted with a witness run by the kernel; the actual result for all component counts by induction over the rows of the table of products"
 ],
 "C36": [
  "`multiply_with_strategy`",
  "base extension (C14), tensor product over Z[X]/(X^n+1) with `ring`, scaling (C13), relinearisation (C39); explicit noise bound"
 ],
 "C37": [
  "`Ksk::new`, `new_with_pt`, `key_switch`",
  "gadget identity sum_i [p]_qi * g_i = p; noise bound k*n*q*B"
 ],
 "C38": [
  "`GaliosKey::new`, `relinearize`",
  "C19 + C37"
 ],
 "C39": [
  "`RelinearizationKey`",
  "C37 for s^2"
 ],
 "C40": [
  "`RgswCt::encrypt`, `encrypt_poly`, `external_product`",
  "two key switches; noise bound"
 ],
 "C41": [
  "`try_from_decomposed_rlwes`, `external_product`",
  "the assembled key satisfies the gadget identity"
 ],
 "C42": [
  "`gen_x_pows`, `unpack`",
  "refuted: panics for every parameter set; with the intended monomials the expansion is proved by induction on the levels"
 ],
 "C43": [
  "`Client::encode`",
  "list algebra; refuted size check"
 ],
 "C44": [
  "`Server::decode` (fold)",
  "induction over the dimensions with noise bound"
 ],
 "C45": [
  "whole pipeline",
  "refuted as written (C42); proved end to end with only `gen_x_pows` repaired"
 ],
 "C46": [
  "`encrypt`, `decrypt`",
  "refuted: decrypting a fresh ciphertext of level >= 1 panics"
 ],
 "C47": [
  "`measure_noise`",
  "bit length of the centred difference to the ideal plaintext"
 ],
 "C48": [
  "`PvwSk::gen_pk`, `PvwPk::encrypt`, `PvwSk::decrypt`",
  "exact phase q/2*m + sum of errors; exact rounding interval"
 ],
 "C49": [
  "`PvwParams::default`",
  "refuted by worst-case randomness; correct below 4096 selected rows"
 ],
 "C50": [
  "`ilog2`, `div_ceil`, `mod_inverse`",
  "direct; extended Euclid"
 ],
 "C51": [
  "`ctx_level`, `switch_iterations`",
  "induction over the chain"
 ],
 "C52": [
  "`BfvParameters::new`",
  "every construction step succeeds under stated conditions; the extended basis has the required size"
 ],
 "C53": [
  "`inner_product` (omr.rs)",
  "induction over the list"
 ],
 "C54": [
  "`Poly::inverse`",
  "Fermat per evaluation"
 ],
 "C55": [
  "`no_of_cts`, dimension count of `decode`",
  "loop invariant with checked arithmetic; the count is computed in closed form and is right iff `countable`; refuted for dim = 3"
 ],
 "C56": [
  "`RnsScaler::scale`",
  "refuted: kernel-checked run with twelve moduli; proved when N*product/D is an integer (theta_gamma is then zero), which covers every scaler the BFV code builds, so C29-C45 allow up to 64 moduli of 62 bits"
 ],
 "C57": [
  "`RqContext::new`",
  "structure of the chain; success conditions"
 ],
 "C58": [
  "`Add`, `Sub`",
  "refuted: third component dropped"
 ],
 "C59": [
  "every modelled function, driven by the programs of `MApi.v`",
  "agreement lemma per function, composed over the program"
 ],
 "C60": [
  "every modelled function, driven by the programs of `MApi.v`; `RnsScaler::scale`",
  "shape invariant of every value in the store, safety triple per function; refuted for direct `scale` calls in release"
 ],
 "C61": [
  "`Ksk::new`, `Ksk::key_switch` at two levels",
  "CRT lift between the chains, then the single-level argument; refuted for deeper keys"
 ],
 "C62": [
  "`AddAssign`, `SubAssign`, `MulAssign` of `Poly`",
  "row-wise argument over a prefix of the basis; refuted when the larger operand is on the left"
 ],
 "C63": [
  "`process` (omr.rs)",
  "loop invariant of the fill loop, inverse and evaluation form of the NTT"
 ],
 "C64": [
  "`Add`, `Sub`, `multiply_with_strategy`, `Mul<&Plaintext>`, `Mul<&BigUint>`, `GaliosKey::relinearize`, `external_product`, `encrypt`, `decrypt`, composed by `run_circ` (MCirc.v)",
  "induction over the circuit with the invariant that each intermediate ciphertext carries the intermediate value with bounded noise"
 ],
 "C65": [
  "`sample_vec_cbd`",
  "counting over bit lists (`SpecProb.v`): products over disjoint bits, Pascal's rule"
 ],
 "C66": [
  "`Plaintext::decode`, `set_encoding`, slot map of `BfvParameters::new`, `GaliosKey::new`, `relinearize`, `decrypt`",
  "evaluation points of the slots from the transform theorem, substitution moves evaluation points, order of 3 modulo 2n; refuted for row two and the row exchange by the order of psi"
 ],
 "C67": [
  "client code of the tests in rgsw.rs (`ksk_transform`, `full_from_half`), a synthetic `rgsw_product`",
  "each row stays a gadget multiple of m*u up to m times the old row error plus the external-product error; then the key-switching theorem applies to the new key"
 ],
 "C68": [
  "`BfvParameters::default`, `generate_moduli`, `new`; circuits over the whole scheme API (MCirc)",
  "Pocklington certificates for the 13 largest primes of each degree and a divisor for every other candidate above them; noise bound k*2^(58+27h) by induction over programs of height h, then the circuit theorem C64; refuted for degrees >= 128 by the guard of the transform (C11)"
 ],
 "C69": [
  "`Poly::mod_switch_to` / `mod_switch_down_next` on ciphertexts (MSwitch), circuits per stage (MCirc)",
  "one division by q with rounding error at most q/2 per component gives 2q|E'| <= 2|E| + qt(1+|s|); induction along the chain of contexts with R|E'| <= B + (R-1)t(1+|s|); stages by induction with the circuit invariant of C64"
 ],
 "C70": [
  "`encrypt`, `encrypt_poly`, `Ksk::new`, `GaliosKey::new`, `RelinearizationKey::new`, `RgswCt::encrypt`, the query construction of the test `query`",
  "SpecRlwe states samples over Z[X]/(X^n+1); the samples are chosen before the message in the quantifier order; each constructor is computed symbolically on `rep`"
 ],
 "C71": [
  "the whole retrieval pipeline of C45, `switch_to` on the answer",
  "bound on retrieval_noise by powers of two, K^2 <= 2^K for K >= 4, then C45 and C69"
 ],
 "C72": [
  "the test modules of bfv.rs, rq.rs, ntt.rs, ksk.rs, rgsw.rs, evaluations.rs, utils.rs (MTests.v, MTests2.v)",
  "each step by the theorems on that operation, noise bounds instantiated for the default parameters; exact error term of key switching for the 70/71-bit limit; uniqueness of the gadget for the printed bit lengths"
 ],
 "C73": [
  "`Modulus` scalar and vector operations, `reduce_4p`, `U256` shift and conversion",
  "bit-level evaluation of the branch-free subtraction on all words; square-and-multiply invariant for unreduced bases; wrap-around arithmetic mod 2^128 then 2^64"
 ],
 "C74": [
  "`Modulus::random`, `random_vec`, `Poly::random`, `gen_range` (MRand.v)",
  "interval of accepted words per value; counting over bit strings; induction over the words, one step either accepting or rejecting"
 ],
 "C75": [
  "`ChaCha8Rng::seed_from_u64`, `random_from_seed` with SHA-256 (MChaCha.v)",
  "non-residuosity of the first draws by Euler's criterion, evaluated by the kernel for the 41 primes concerned; prefix stability of the samplers by induction"
 ],
 "C76": [
  "`PartialEq` of `RqContext`, `Poly`, `BfvParameters` (ctx_eqb, poly_eqb, params_eqb)",
  "inversion of the constructors; agreement of the two build profiles (C59) gives determinism in the inputs"
 ],
 "C77": [
  "pvw_gen_pk, pvw_encrypt, pvw_decrypt, sample_vec_cbd",
  "counting over generator bits: exponential weights (Chernoff bound in integers), union over the slots, then C48"
 ],
 "C78": [
  "client_encode, server_new, server_decode_with; the division documented in client.rs as spec (`address`)",
  "induction on the dimensions; one-hot segments are injective; C45_retrieve at the address"
 ],
 "C79": [
  "ntt_new, primitive_root on draws read off generator words (`word_env`, `gen_range`)",
  "Lagrange's root bound by division by x - r, applied to x^h - 1 and x^h + 1; counting of accepted words by recursion on their number; C11"
 ],
 "C80": [
  "server_new, server_decode_with, unpack_core, eval_build, client_query",
  "the retrieval proof of C45 with the query noise as a parameter; any ciphertexts carry any message with some noise, which gives totality"
 ],
 "C81": [
  "sample_vec_cbd, Ksk::new, key_switch, RelinearizationKey::new, relinearize_poly, GaliosKey::new, relinearize, decrypt, the test ksk",
  "twice the noise is a sum of signs with weights; moments of such sums by induction on the number of signs from 2(u-v)(u^m-v^m) <= m (u-v)^2 (u^(m-1)+v^(m-1)); Markov's inequality for the 2k-th power; each weight is at most q_i; union over the coefficients"
 ],
 "C82": [
  "the slot map of BfvParameters::new with the shift restored, Plaintext::new, decode, encrypt, decrypt, all homomorphic operators, keys",
  "order of 3 modulo 2^(L+1) and 3^a <> -3^b modulo 8 make the map injective; every function commutes with replacing the slot map, so the circuit theorem (C64) applies; evaluation at the slot points is a ring homomorphism that turns substitutions into permutations of slots"
 ],
 "C83": [
  "repaired Add, Sub, Add<&Poly>, Mul<&BfvCipherText>, encrypt; decrypt and the scalers as in the code",
  "the accumulation loop is the convolution of the lifted components, whose phase is the product of the phases; the noise identity of C36 for lifted phases bounded by powers of the l1 norm of the secret; encryption from C46_actual"
 ],
 "C84": [
  "reduce_vec_u64, reduce_vec_biguint, reduce_i64, shoup_vec, inv_vec, Poly::zero, Poly::random_small, decrypt_trial, try_from_decomposed_rlwes, key_switch",
  "entry by entry from the scalar theorems; the phase from the ring laws; key_switch runs over the shorter of rows and key, the partial gadget sum has the residues stated by the gadget equations"
 ],
 "C85": [
  "gen_x_pows, unpack, Client::encode, Server::decode with three repairs (MFix3.v); the rest as in C45",
  "the retrieval proof of C45 with the dimension count as a parameter (`decode_body_ok`); encode by inversion; the budget of C71"
 ],
 "C86": [
  "client_encode, client_query (the query of the test), encrypt_poly, pt_to_poly; sample vectors and counting as spec (`SpecHide`)",
  "split of client_query by the ring laws; adding a difference of encodings is a bijection of the sample vectors, hence a permutation of their list; triangle inequality"
 ],
 "C87": [
  "scalar_mul_vec, bits, apply_bit_decomposition, RnsScaler::scale, RqScaler, the polynomial operators and key_switch with one repair each (MFix4.v)",
  "the section of C16 redone under the weaker bound `wide_room` (PFix4.v), whose wide accumulator cannot overflow; digits by induction; prefix of moduli compared, then the cross-level theorems of C61/C62"
 ],
 "C88": [
  "BfvParameters::default with t as an argument, PvwParams::default with another modulus (MFix5.v); generate_moduli, bfv_new, encryption, circuits, retrieval as in C68, C64, C85",
  "the proofs of C68 with 2n | t-1 instead of the list of degrees; prime tables for 2^7..2^12 walked candidate by candidate (PDef2.v), Pocklington certificates; noise growth 2^45 per level; budget of C71"
 ],
 "C89": [
  "the failing tests of bfv.rs and evaluations.rs over the repaired functions (MFixTests.v)",
  "facts about the test parameters from the prime search (C26); expansion and retrieval by C85, circuits over slots by C82, noise instantiated; the printed error lengths by the range of the centred error"
 ],
 "C90": [
  "Poly operators, substitute, ciphertext operators, multiply_with_strategy",
  "every polynomial is `rep` of an integer polynomial (C17), each operator acts on those (C17-C19), the laws of Z[X]/(X^n+1) (PRing.v) and uniqueness of the representation give equality of the rows"
 ],
 "C91": [
  "RgswCt::encrypt, external_product, decrypt; chain of d steps as a client program (SpecChain.v)",
  "the noise of one product is a weighted sum of 2Kn samples (moment bound of C81); steps are combined by splitting the generator's outcomes into those of the first step and the rest, with a union bound over coefficients and steps"
 ],
 "C92": [
  "client_query, Evaluation::build, server_decode (expansion repaired), mod_switch_down on ciphertexts",
  "shapes of the returned structures from C70, C80, C69 and the key-switching keys; counting of rows"
 ],
 "C93": [
  "the functions of modulus.rs and ntt.rs once more with every word operation, decision, array access and division recorded (MTrace.v)",
  "equality of the values with MModulus.v/MNtt.v; a relation between two runs kept by sequencing, loops and array accesses; the exponent of pow read off the recorded decisions bit by bit"
 ],
 "C94": [
  "the operators of BfvCipherText, multiply_with_strategy, GaliosKey::relinearize, RgswCt, Ksk::key_switch",
  "inversion of successful runs step by step; the assertions stand before everything else"
 ],
 "C95": [
  "the functions once more with their steps recorded (MTrace2.v, on top of MTrace.v)",
  "equality of the values with the model; the relation between two runs of C93 carried through rows, polynomials, ciphertexts and keys"
 ],
 "C96": [
  "RnsScaler::scale, RqScaler::scale and decrypt once more with their steps recorded (MTrace3.v); modulus switching, negation and the operations on ciphertexts (MTrace8.v)",
  "equality of the values with the model; the relation of C93 up to the decision on w_sign, and reading that decision off the recorded steps for the converse; for products of ciphertexts the factor of the scaling up is one in every parameter set of the constructor"
 ],
 "C97": [
  "substitution, GaliosKey::new, Ksk::new_with_pt and RGSW encryption once more with their steps recorded (MTrace4.v)",
  "equality of the values with the model; the relation between two runs of C93 and C95"
 ],
 "C98": [
  "Client::encode, PVW key generation, encryption and decryption once more with their steps recorded (MTrace5.v)",
  "equality of the values with the model; the relation between two runs of C93; for decryption the value of the slots before rounding, read off the recorded divisions"
 ],
 "C99": [
  "key switching, external products, rotations, expansion, Server::decode (MTrace6.v), plaintexts, query ciphertexts, evaluation keys, Server::new and a whole retrieval (MTrace7.v) once more with their steps recorded; the expansion also with the powers of X given, because the code panics there (C42)",
  "equality of the values with the model; the relation between two runs of C93, for lists of ciphertexts and keys of the same shape; composition of the parts for the retrieval; C45 for the claim that the retrievals go through"
 ]
}