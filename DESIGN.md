# Formal model of Onion-PIR in Rocq (Coq 8.16.1)

## 1. Shape of the development (`/verif/rocq/theories`)

| files | content |
|---|---|
| `Base.v` | execution model: `outcome` monad, build profiles, checked machine arithmetic, arrays, loops |
| `M*.v` | **the model**: one file per source module, function by function, each definition citing its `/repo` lines; no proofs |
| `MFix.v`, `MFix2.v`, ..., `MFix5.v`, `MFixTests.v` | **not the code**: variants of a few functions (and of the tests calling them) with their defects repaired, for the claims (C82, C83, C85, C87, C88, C89) that say what the repair achieves |
| `MTrace.v` | the Release-build functions of `modulus.rs` and `ntt.rs` once more, with their steps recorded (C93) |
| `MTrace2.v` | the same for sampling, polynomials, encryption, the phase of decryption and key generation (C95) |
| `MTrace3.v` | the same for the scaling of residues and polynomials and for decryption (C96) |
| `MTrace4.v` | the same for substitution, Galois keys and RGSW encryption (C97) |
| `MTrace5.v` | the same for making a query and for PVW encryption (C98) |
| `MTrace6.v` | the same for the work of the server (C99) |
| `MTrace7.v` | the same for a whole retrieval (C99) |
| `MTrace8.v` | the same for modulus switching and operations on ciphertexts (C96) |
| `Spec*.v` | the independent specification: finite sums, the ring Z[X]/(X^n+1) on coefficient functions, centred rounding, what a `Poly`/ciphertext stands for, noise budgets, one-hot queries |
| `P*.v`, `NT.v` | proofs (number theory, CRT, NTT mathematics, error analyses, refinement lemmas) |
| `Test*.v` | concrete environments and parameter sets used by the examples |
| `Q*.v` | the property lemmas `Cnn_name_lem` |
| `T*.v` | theorem files: each property theorem closed by `exact`, its non-vacuity `Example`s and `Print Assumptions` (generated from `Q*.v` by `tools/gen_t.py`, and committed) |

`tools/gen_manifest.py` writes MANIFEST.json from the theorem names, `tools/gen_design.py` the table in section 2,
`tools/mutate.py` runs the seeded-bug tests of `seeded/mutations.jsonl` (section 6).

### Execution model
* Every Rust function that can panic returns `outcome A = Ok a | Panic | UB | NoFuel`:
  `Panic` = any Rust panic (assert, unwrap, index, slice, `todo!`, overflow in a debug build, division by zero, capacity overflow);
  `UB` = an out-of-bounds access in an `unsafe` block (`get_unchecked`, raw pointer);
  `NoFuel` = the bound on a `while` loop ran out (never equal to a normal value; the theorems show it does not happen).
* Everything is parameterised by `profile = Debug | Release`.  `+ - *` on u64/u128 go through `chk`: inside the
  range the exact result; outside it `Debug` panics, `Release` wraps modulo 2^w.  `debug_assert!` is active in `Debug` only.
  Theorems are proved for both profiles, so they include absence of overflow.
* u64/u128/i64/BigUint values are `Z`; lengths and loop indices are `nat` (usize overflow of lengths is not modelled).
  Vectors and `Array2` rows are `list Z` / `list (list Z)`.
* `izip!` stops at the shortest sequence, and in-place loops leave the tail untouched; the model does the same.
* Equality of contexts and of parameter sets is compared on the constructor's inputs, from which all other fields are computed.

### Randomness and external crates
Random choices are explicit inputs, and the theorems quantify over all of them:
the words of `RngCore::next_u64` (for the binomial sampler), the sampled uniform rows, the bits `e` of PVW,
the candidate draws of `primitive_root`.  External code is modelled by its contract:
`num_bigint` = exact integers; `mod_inverse` = executable extended Euclid; `probably_prime(.,0)` and the draws of the seeded
ChaCha generator = the record `Env`, about which theorems that need it assume `env_ok` (numbers passing the test are prime, draws are below
their bound) and, where a construction is claimed to succeed, `ntt_possible` (one of the hundred draws is a non-residue), stated as hypotheses
(C75 discharges the latter for the real generator: `MChaCha.v` transcribes ChaCha8, its seeding and SHA-256; `MRand.v` the samplers of rand 0.8.5); `HashMap` = association list; `U192` = integers mod 2^192.

### How statements about polynomials and ciphertexts are made
`SpecRq.v` says when a `Poly` of the model stands for an integer polynomial `f : nat -> Z` (`denotes`): the rows hold
`f` modulo each modulus, as coefficients or as evaluations at the odd powers of the root of unity.  `SpecBfv.v` gives the phase
`c0 + c1 s + c2 s^2 ...` in Z[X]/(X^n+1), says when a phase carries a message with noise `E` (`t*f = Q*m + E mod t*Q`), and when a noise is within the budget.
Theorems on the BFV layer then say: the operation succeeds, and the resulting ciphertext carries this message with this noise; the `_decrypt` theorems add that
`decrypt` returns the message when the noise is within the budget.

### Programs over the API
`MApi.v` is a small machine whose commands are calls of the modelled functions, applied to literal arguments and to results of earlier calls
(kept in a store of typed values; the fields of ciphertexts and keys can be taken apart and reassembled as the public fields of the structs allow).
C59 and C60 quantify over all programs of this machine.  It leaves out `no_of_cts` (which need not terminate, C55) and direct calls of `RnsScaler::scale` (treated separately in C60).

`MCirc.v` is the client code of C64: circuits (expression trees) over the homomorphic operations, run by composing the modelled functions. `SpecCirc.v` gives their value over Z[X]/(X^n+1) and their noise bound without reference to the model.

## 2. Properties: what is modelled and how it is proved
(C-numbers as in properties.jsonl.  Status `partial` means that the claim as stated in English is false of the code: a `_refuted` theorem gives the witness,
and the other theorems of the row say what does hold.)

<!-- TABLE -->
| id | property | modelled code | how it is proved | theorems |
|----|----|----|----|----|
| C01 | Modulus construction accepts exactly [2, 2^62) | `modulus_new` (modulus.rs) | case analysis on the guards, bounds of the quotient 2^128/p | `C01_modulus_new` (proved) |
| C02 | Barrett reduction of 64- and 128-bit words is exact | `lazy_reduce_ct`, `lazy_reduce_u128`, `reduce_ct`, `reduce`, `reduce_u128`, `reduce_biguint` | Barrett error bound as an integer inequality; overflow freedom of every u128 intermediate; the xor selection trick proved at bit level | `C02_reduce`, `C02_reduce_u128`, `C02_lazy_reduce`, `C02_reduce_ct`, `C02_reduce_biguint` (proved) |
| C03 | Signed reduction is exact | `reduce_i64`, `reduce_vec_i64` | reduction to C02 after the shift by p*2^64 | `C03_reduce_i64` (proved) |
| C04 | Modular add/sub/neg/mul are exact and closed | `add`, `sub`, `neg`, `mul` and their vector forms | range of the sum, then C02; the debug guards are characterised exactly | `C04_ops`, `C04_vec`, `C04_debug_guard` (proved) |
| C05 | Modular exponentiation and inversion | `pow`, `inv` | loop invariant of square-and-multiply; Fermat's little theorem proved from scratch (NT.v) | `C05_pow`, `C05_inv` (proved) |
| C06 | Shoup multiplication works for every 64-bit multiplicand | `shoup`, `lazy_mul_shoup`, `mul_shoup` | integer division bounds, for every u64 multiplicand | `C06_shoup` (proved) |
| C07 | Scalar-vector product returns reduced residues | `scalar_mul_vec` | refuted by a witness (result >= p); the lazy range and the congruence are proved | `C07_scalar_mul_vec_refuted`, `C07_scalar_mul_vec_partial`, `C07_scalar_mul_vec_actual`, `C07_small_modulus` (partial) |
| C08 | Forward NTT evaluates the polynomial at the odd powers of a primitive 2n-th root, bit-reversed | `NttOperator::new`, `forward` | layer invariant: after t layers block i holds the polynomial modulo X^(n/2^t) - root(t,i); bit reversal by induction | `C08_forward` (proved) |
| C09 | NTT forward and backward are mutually inverse | `forward`, `backward` | each backward layer undoes a forward layer up to a factor 2; final multiplication by n^-1 | `C09_inverse`, `C09_length_guard` (proved) |
| C10 | Pointwise product in NTT form is the negacyclic product | `forward`, `backward`, `mul_vec` | evaluation at the odd powers of psi is a ring homomorphism from Z_q[X]/(X^n+1); injectivity by C09 | `C10_negacyclic` (proved) |
| C11 | NTT operator construction: guard and primitive root | `NttOperator::new`, `supports_ntt`, `primitive_root` | guard equivalence; success if some draw is a non-residue; order of the root | `C11_guard`, `C11_construct` (proved) |
| C12 | RNS representation is a bijection (CRT) | `RnsContext::new`, `project`, `lift` | Chinese remainder theorem over lists of moduli (PCrt.v) | `C12_construct`, `C12_lift_project`, `C12_project_lift` (proved) |
| C13 | RNS scaling rounds the centred value | `RnsScaler::new`, `scale` | exact integer error analysis of the 127-bit fixed point sums; sign handling of the U256 accumulator; absence of overflow in both profiles | `C13_scale`, `C13_exact` (proved) |
| C14 | Base extension (unit factor) preserves the centred value | `RnsScaler::scale` with factor one | same analysis without the theta_omega part | `C14_extend` (proved) |
| C15 | 256-bit accumulator arithmetic | `U256` (utils.rs) | limb arithmetic against integers mod 2^256 | `C15_add_sub_not`, `C15_shr`, `C15_conversions` (proved) |
| C16 | Polynomial scaling is coefficientwise for any pair of contexts | `RqScaler::new`, `scale` | columnwise use of C13/C14; the copied rows are right iff the agreeing positions form a prefix, otherwise refuted; every row characterised for arbitrary contexts | `C16_position_count_refuted`, `C16_scale`, `C16_actual`, `C16_exact`, `C16_guard`, `C16_context_guard` (partial) |
| C17 | Polynomial operators implement the ring Z_Q[X]/(X^n+1) | `Poly` operators | `denotes`: a Poly stands for the integer polynomial with these residues (coefficients or evaluations); each operator commutes with it; every well-formed Poly denotes something, uniquely mod Q | `C17_denotes`, `C17_denotes_unique`, `C17_denotes_complete`, `C17_ring_ops`, `C17_guard` (proved) |
| C18 | Changing representation never changes the polynomial | `change_representation` | C08/C09 per row | `C18_change`, `C18_round_trip`, `C18_guard` (proved) |
| C19 | Substitution is the automorphism X -> X^k in both representations | `Substitution::new`, `substitute` | power basis: loop invariant over columns; NTT basis: permutation of the evaluation points; both shown to be the ring automorphism | `C19_substitute`, `C19_counter`, `C19_even_panics`, `C19_automorphism` (proved) |
| C20 | Modulus switching rounds to nearest | `mod_switch_down_next`, `mod_switch_to` | rounded division identity per residue; induction over the chain of contexts | `C20_switch_down`, `C20_switch_to`, `C20_chain`, `C20_guard`, `C20_repr_guard` (proved) |
| C21 | Building polynomials from and exporting to integers | `try_from_vec_*`, `From<&Poly>` | residues plus C12 | `C21_from_integers`, `C21_too_long`, `C21_to_integers`, `C21_to_u64_guard` (proved) |
| C22 | Bit decomposition round-trips | `bit_vector`, `decompose_bits` | induction over the bits | `C22_bit_vector`, `C22_decompose_bits`, `C22_zero_digit` (proved) |
| C23 | Modulus::bits is the bit length and bit decomposition of a polynomial succeeds | `Modulus::bits`, `apply_bit_decomposition` | refuted: closed form of `bits`; the allocation panics on every well-formed polynomial | `C23_bits_refuted`, `C23_apply_bit_decomposition_refuted` (partial) |
| C24 | Centred binomial sampler: range and bit usage | `sample_vec_cbd` | stream invariant: the pool is a window of the concatenated words; popcounts as sums of bits | `C24_sample_vec_cbd`, `C24_variance_guard` (proved) |
| C25 | Prime generation returns the largest admissible prime | `generate_prime` | loop invariant of both walks; maximality; binary fuel suffices for every u64 | `C25_generate_prime`, `C25_bits_guard` (proved) |
| C26 | Generated ciphertext moduli are distinct NTT primes of the requested sizes | `generate_moduli` | induction over the sizes with the set of moduli found | `C26_generate_moduli`, `C26_size_guard` (proved) |
| C27 | Polynomial plaintext encoding round-trips | `Plaintext::new`, `decode` (Poly) | direct | `C27_poly_round_trip`, `C27_guards`, `C27_set_encoding` (proved) |
| C28 | SIMD plaintext encoding round-trips | `Plaintext::new`, `decode` (SIMD) | refuted for every degree: two slots share a position; the last-writer semantics is proved exactly | `C28_simd_refuted`, `C28_simd_actual`, `C28_short_panics` (partial) |
| C29 | Plaintext scaling encodes floor(Q*m/t) | `Plaintext::to_poly` | exact division identity: Q*m - (Q m mod t) over t | `C29_scaled_plaintext` (proved) |
| C30 | Fresh encryption decrypts to the message | `SecretKey::generate`, `encrypt`, `decrypt` | phase of a fresh ciphertext + C24 noise bound + C31 | `C30_keygen`, `C30_encrypt_decrypt` (proved) |
| C31 | Decryption tolerates every noise within the budget | `decrypt` | exact rounding of t*phase/Q by C13, followed by the two reductions; budget stated on t*f = Q*m + E | `C31_decrypt`, `C31_budget` (proved) |
| C32 | Homomorphic addition and subtraction | `Add`, `Sub` on ciphertexts | phases add; noise adds | `C32_add_sub`, `C32_decrypt`, `C32_mismatch` (proved) |
| C33 | Multiplication by a plaintext, polynomial or integer | `Mul<&Plaintext>`, `Mul<&Poly>`, `Mul<&BigUint>` | phases multiply in the ring; noise times the l1 norm | `C33_multiply`, `C33_decrypt` (proved) |
| C34 | Adding a polynomial to a ciphertext adds it to the phase | `Add<&Poly>` | actual effect proved (h + h*s); intended effect refuted | `C34_add_poly_actual`, `C34_add_poly_refuted` (partial) |
| C35 | Ciphertext product by * denotes the product | `Mul<&BfvCipherText>` | refuted with a witness run by the kernel; the actual result for all component counts by induction over the rows of the table of products | `C35_product_refuted`, `C35_actual`, `C35_one_component`, `C35_empty` (partial) |
| C36 | Multiplication with relinearisation | `multiply_with_strategy` | base extension (C14), tensor product over Z[X]/(X^n+1) with `ring`, scaling (C13), relinearisation (C39); explicit noise bound | `C36_multiply`, `C36_decrypt`, `C36_basis` (proved) |
| C37 | Key switching identity | `Ksk::new`, `new_with_pt`, `key_switch` | gadget identity sum_i [p]_qi * g_i = p; noise bound k*n*q*B | `C37_key_switch`, `C37_from_plaintext`, `C37_guard` (proved) |
| C38 | Galois key switching applies the automorphism to the message | `GaliosKey::new`, `relinearize` | C19 + C37 | `C38_galois`, `C38_decrypt`, `C38_one_modulus` (proved) |
| C39 | Relinearisation removes the s^2 component | `RelinearizationKey` | C37 for s^2 | `C39_relinearize` (proved) |
| C40 | RGSW external product multiplies the encrypted message | `RgswCt::encrypt`, `encrypt_poly`, `external_product` | two key switches; noise bound | `C40_external`, `C40_external_poly`, `C40_decrypt` (proved) |
| C41 | RGSW assembled from encrypted digits | `try_from_decomposed_rlwes`, `external_product` | the assembled key satisfies the gadget identity | `C41_assembled` (proved) |
| C42 | Oblivious expansion returns one ciphertext per coefficient | `gen_x_pows`, `unpack` | refuted: panics for every parameter set; with the intended monomials the expansion is proved by induction on the levels | `C42_unpack_refuted`, `C42_expand`, `C42_x_pows_exist` (partial) |
| C43 | Client query encoding is one-hot per dimension | `Client::encode` | list algebra; refuted size check | `C43_encode`, `C43_accepted`, `C43_panics`, `C43_size_refuted`, `C43_wrap_refuted` (partial) |
| C44 | Server folding selects the queried row | `Server::decode` (fold) | induction over the dimensions with noise bound | `C44_fold`, `C44_decrypt` (proved) |
| C45 | End-to-end private retrieval | whole pipeline | refuted as written (C42); proved end to end with only `gen_x_pows` repaired | `C45_decode_refuted`, `C45_retrieve` (partial) |
| C46 | Encryption works at every level | `encrypt`, `decrypt` | refuted: decrypting a fresh ciphertext of level >= 1 panics | `C46_level_refuted`, `C46_actual` (partial) |
| C47 | Noise measurement | `measure_noise` | bit length of the centred difference to the ideal plaintext | `C47_measure_noise` (proved) |
| C48 | PVW encryption decrypts under bounded noise | `PvwSk::gen_pk`, `PvwPk::encrypt`, `PvwSk::decrypt` | exact phase q/2*m + sum of errors; exact rounding interval | `C48_exact`, `C48_decrypt`, `C48_safe`, `C48_panics` (proved) |
| C49 | PVW default parameters always decrypt correctly | `PvwParams::default` | refuted by worst-case randomness; correct below 4096 selected rows | `C49_default_refuted`, `C49_default_partial`, `C49_test` (partial) |
| C50 | Integer helpers | `ilog2`, `div_ceil`, `mod_inverse` | direct; extended Euclid | `C50_ilog2`, `C50_div_ceil`, `C50_div_ceil_zero`, `C50_mod_inverse` (proved) |
| C51 | Level lookup and chain distance | `ctx_level`, `switch_iterations` | induction over the chain | `C51_ctx_level`, `C51_switch_iterations` (proved) |
| C52 | Parameter construction succeeds and produces a valid extended basis | `BfvParameters::new` | every construction step succeeds under stated conditions; the extended basis has the required size | `C52_construct` (proved) |
| C53 | Ciphertext inner product | `inner_product` (omr.rs) | induction over the list | `C53_inner_product`, `C53_decrypt`, `C53_panics` (proved) |
| C54 | Pointwise inverse of an NTT polynomial | `Poly::inverse` | Fermat per evaluation | `C54_inverse` (proved) |
| C55 | Server ciphertext bookkeeping | `no_of_cts`, dimension count of `decode` | loop invariant with checked arithmetic; the count is computed in closed form and is right iff `countable`; refuted for dim = 3 | `C55_no_of_cts`, `C55_agree`, `C55_dims`, `C55_dims_refuted`, `C55_degenerate`, `C55_overflow` (partial) |
| C56 | RNS scaling with more than 8 source moduli | `RnsScaler::scale` | refuted: kernel-checked run with twelve moduli; proved when N*product/D is an integer (theta_gamma is then zero), which covers every scaler the BFV code builds, so C29-C45 allow up to 64 moduli of 62 bits | `C56_twelve_moduli_refuted`, `C56_integral_partial` (partial) |
| C57 | Polynomial context construction is complete and guarded | `RqContext::new` | structure of the chain; success conditions | `C57_structure`, `C57_construct` (proved) |
| C58 | Addition of ciphertexts with more than two components | `Add`, `Sub` | refuted: third component dropped | `C58_add_three_refuted`, `C58_actual` (partial) |
| C59 | Debug and release builds compute the same results | every modelled function, driven by the programs of `MApi.v` | agreement lemma per function, composed over the program | `C59_profiles_agree`, `C59_panic_or_same` (proved) |
| C60 | No undefined behaviour and no non-termination through the API | every modelled function, driven by the programs of `MApi.v`; `RnsScaler::scale` | shape invariant of every value in the store, safety triple per function; refuted for direct `scale` calls in release | `C60_no_undefined_behaviour`, `C60_calls_words`, `C60_calls_polys`, `C60_calls_bfv`, `C60_calls_keys`, `C60_calls_pir`, `C60_scaler_debug`, `C60_scaler`, `C60_scaler_release_refuted` (partial) |
| C61 | Key switching between levels | `Ksk::new`, `Ksk::key_switch` at two levels | CRT lift between the chains, then the single-level argument; refuted for deeper keys | `C61_cross_level`, `C61_higher_level_actual`, `C61_higher_level_refuted`, `C61_from_plaintext`, `C61_contexts` (partial) |
| C62 | Operators on polynomials of different levels of one chain | `AddAssign`, `SubAssign`, `MulAssign` of `Poly` | row-wise argument over a prefix of the basis; refuted when the larger operand is on the left | `C62_smaller_left`, `C62_larger_left_actual`, `C62_larger_left_refuted` (partial) |
| C63 | Clue encoding of the detection server | `process` (omr.rs) | loop invariant of the fill loop, inverse and evaluation form of the NTT | `C63_encode`, `C63_too_many`, `C63_process` (proved) |
| C64 | Circuits of homomorphic operations | `Add`, `Sub`, `multiply_with_strategy`, `Mul<&Plaintext>`, `Mul<&BigUint>`, `GaliosKey::relinearize`, `external_product`, `encrypt`, `decrypt`, composed by `run_circ` (MCirc.v) | induction over the circuit with the invariant that each intermediate ciphertext carries the intermediate value with bounded noise | `C64_circuit`, `C64_program`, `C64_keys_exist` (proved) |
| C65 | Exact distribution of the error and secret sampler | `sample_vec_cbd` | counting over bit lists (`SpecProb.v`): products over disjoint bits, Pascal's rule | `C65_distribution`, `C65_moments` (proved) |
| C66 | Galois automorphisms rotate the SIMD slots | `Plaintext::decode`, `set_encoding`, slot map of `BfvParameters::new`, `GaliosKey::new`, `relinearize`, `decrypt` | evaluation points of the slots from the transform theorem, substitution moves evaluation points, order of 3 modulo 2n; refuted for row two and the row exchange by the order of psi | `C66_decode`, `C66_first_row`, `C66_second_row_refuted`, `C66_swap_refuted` (partial) |
| C67 | Keys made from keys with the external product | client code of the tests in rgsw.rs (`ksk_transform`, `full_from_half`), a synthetic `rgsw_product` | each row stays a gadget multiple of m*u up to m times the old row error plus the external-product error; then the key-switching theorem applies to the new key | `C67_transform`, `C67_product`, `C67_full_from_half` (proved) |
| C68 | BfvParameters::default gives working parameters | `BfvParameters::default`, `generate_moduli`, `new`; circuits over the whole scheme API (MCirc) | Pocklington certificates for the 13 largest primes of each degree and a divisor for every other candidate above them; noise bound k*2^(58+27h) by induction over programs of height h, then the circuit theorem C64; refuted for degrees >= 128 by the guard of the transform (C11) | `C68_large_degree_refuted`, `C68_encrypt`, `C68_circuit`, `C68_default`, `C68_moduli`, `C68_primes` (partial) |
| C69 | Ciphertexts survive modulus switching | `Poly::mod_switch_to` / `mod_switch_down_next` on ciphertexts (MSwitch), circuits per stage (MCirc) | one division by q with rounding error at most q/2 per component gives 2q|E'| <= 2|E| + qt(1+|s|); induction along the chain of contexts with R|E'| <= B + (R-1)t(1+|s|); stages by induction with the circuit invariant of C64 | `C69_switch`, `C69_decrypt`, `C69_stages`, `C69_stages_decrypt`, `C69_guard`, `C69_default` (proved) |
| C70 | Published objects are Ring-LWE samples plus the encoded message | `encrypt`, `encrypt_poly`, `Ksk::new`, `GaliosKey::new`, `RelinearizationKey::new`, `RgswCt::encrypt`, the query construction of the test `query` | SpecRlwe states samples over Z[X]/(X^n+1); the samples are chosen before the message in the quantifier order; each constructor is computed symbolically on `rep` | `C70_encrypt`, `C70_ksk`, `C70_galois`, `C70_rgsw`, `C70_query`, `C70_pad` (proved) |
| C71 | Four 62-bit moduli always suffice for retrieval | the whole retrieval pipeline of C45, `switch_to` on the answer | bound on retrieval_noise by powers of two, K^2 <= 2^K for K >= 4, then C45 and C69 | `C71_compressed`, `C71_retrieve`, `C71_default` (proved) |
| C72 | The crate's own tests pass whatever randomness they draw | the test modules of bfv.rs, rq.rs, ntt.rs, ksk.rs, rgsw.rs, evaluations.rs, utils.rs (MTests.v, MTests2.v) | each step by the theorems on that operation, noise bounds instantiated for the default parameters; exact error term of key switching for the 70/71-bit limit; uniqueness of the gadget for the printed bit lengths | `C72_bijection`, `C72_change_representation`, `C72_substitute`, `C72_mod_switch`, `C72_encrypt_decrypt_poly`, `C72_encrypt_decrypt_simd`, `C72_encrypt_decrypt`, `C72_galois_key`, `C72_external_product`, `C72_mul_op`, `C72_ksk_71`, `C72_ksk_refuted`, `C72_ksk_with_pt`, `C72_ksk_from_rgsw`, `C72_full_from_half`, `C72_evaluation_refuted`, `C72_utils`, `C72_construct_ntt_operator`, `C72_trial`, `C72_simd_slot_rotations`, `C72_rgsw_encrypt_poly` (partial) |
| C73 | Word operations outside their documented ranges | `Modulus` scalar and vector operations, `reduce_4p`, `U256` shift and conversion | bit-level evaluation of the branch-free subtraction on all words; square-and-multiply invariant for unreduced bases; wrap-around arithmetic mod 2^128 then 2^64 | `C73_release`, `C73_congruent`, `C73_lazy_mul`, `C73_debug`, `C73_vec_lengths`, `C73_u256` (proved) |
| C74 | Uniform sampling is exactly uniform | `Modulus::random`, `random_vec`, `Poly::random`, `gen_range` (MRand.v) | interval of accepted words per value; counting over bit strings; induction over the words, one step either accepting or rejecting | `C74_random`, `C74_gen_range`, `C74_vec`, `C74_vec_range`, `C74_poly`, `C74_poly_wf` (proved) |
| C75 | The generators the crate seeds itself | `ChaCha8Rng::seed_from_u64`, `random_from_seed` with SHA-256 (MChaCha.v) | non-residuosity of the first draws by Euler's criterion, evaluated by the kernel for the 41 primes concerned; prefix stability of the samplers by induction | `C75_draws`, `C75_default`, `C75_contexts`, `C75_process`, `C75_construct_ntt_operator`, `C75_seed`, `C75_seed_prefix` (proved) |
| C76 | Equality of contexts and parameters is decided by their inputs | `PartialEq` of `RqContext`, `Poly`, `BfvParameters` (ctx_eqb, poly_eqb, params_eqb) | inversion of the constructors; agreement of the two build profiles (C59) gives determinism in the inputs | `C76_context`, `C76_next`, `C76_poly`, `C76_contexts`, `C76_params` (proved) |
| C77 | How likely PVW decryption fails | pvw_gen_pk, pvw_encrypt, pvw_decrypt, sample_vec_cbd | counting over generator bits: exponential weights (Chernoff bound in integers), union over the slots, then C48 | `C77_failure`, `C77_default`, `C77_test` (proved) |
| C78 | Every database entry has exactly one query | client_encode, server_new, server_decode_with; the division documented in client.rs as spec (`address`) | induction on the dimensions; one-hot segments are injective; C45_retrieve at the address | `C78_address`, `C78_injective`, `C78_every_entry` (proved) |
| C79 | How likely the search for a root of unity fails | ntt_new, primitive_root on draws read off generator words (`word_env`, `gen_range`) | Lagrange's root bound by division by x - r, applied to x^h - 1 and x^h + 1; counting of accepted words by recursion on their number; C11 | `C79_half`, `C79_failure`, `C79_bound` (proved) |
| C80 | The server and queries of any content | server_new, server_decode_with, unpack_core, eval_build, client_query | the retrieval proof of C45 with the query noise as a parameter; any ciphertexts carry any message with some noise, which gives totality | `C80_total`, `C80_refuse`, `C80_shape`, `C80_noise`, `C80_client` (proved) |
| C81 | How large key-switching noise typically is | sample_vec_cbd, Ksk::new, key_switch, RelinearizationKey::new, relinearize_poly, GaliosKey::new, relinearize, decrypt, the test ksk | twice the noise is a sum of signs with weights; moments of such sums by induction on the number of signs from 2(u-v)(u^m-v^m) <= m (u-v)^2 (u^(m-1)+v^(m-1)); Markov's inequality for the 2k-th power; each weight is at most q_i; union over the coefficients | `C81_sampler`, `C81_key_switch`, `C81_relinearize`, `C81_rotate`, `C81_ksk_test` (proved) |
| C82 | SIMD circuits with the slot map repaired | the slot map of BfvParameters::new with the shift restored, Plaintext::new, decode, encrypt, decrypt, all homomorphic operators, keys | order of 3 modulo 2^(L+1) and 3^a <> -3^b modulo 8 make the map injective; every function commutes with replacing the slot map, so the circuit theorem (C64) applies; evaluation at the slot points is a ring homomorphism that turns substitutions into permutations of slots | `C82_permutation`, `C82_map`, `C82_round_trip`, `C82_decode`, `C82_circuit`, `C82_exist` (proved) |
| C83 | Ciphertext operators with their defects repaired | repaired Add, Sub, Add<&Poly>, Mul<&BfvCipherText>, encrypt; decrypt and the scalers as in the code | the accumulation loop is the convolution of the lifted components, whose phase is the product of the phases; the noise identity of C36 for lifted phases bounded by powers of the l1 norm of the secret; encryption from C46_actual | `C83_sum`, `C83_add_poly`, `C83_encrypt`, `C83_product`, `C83_decrypts`, `C83_noise`, `C83_agree` (proved) |
| C84 | Vector helpers, small polynomials, trial decryption and assembled keys | reduce_vec_u64, reduce_vec_biguint, reduce_i64, shoup_vec, inv_vec, Poly::zero, Poly::random_small, decrypt_trial, try_from_decomposed_rlwes, key_switch | entry by entry from the scalar theorems; the phase from the ring laws; key_switch runs over the shorter of rows and key, the partial gadget sum has the residues stated by the gadget equations | `C84_vectors`, `C84_polys`, `C84_trial`, `C84_assemble`, `C84_switch` (proved) |
| C85 | Private retrieval with its defects repaired | gen_x_pows, unpack, Client::encode, Server::decode with three repairs (MFix3.v); the rest as in C45 | the retrieval proof of C45 with the dimension count as a parameter (`decode_body_ok`); encode by inversion; the budget of C71 | `C85_x_pows`, `C85_encode`, `C85_encode_agree`, `C85_dims`, `C85_retrieve`, `C85_default` (proved) |
| C86 | Queries hide the position, up to Ring-LWE | client_encode, client_query (the query of the test), encrypt_poly, pt_to_poly; sample vectors and counting as spec (`SpecHide`) | split of client_query by the ring laws; adding a difference of encodings is a bijection of the sample vectors, hence a permutation of their list; triangle inequality | `C86_finite`, `C86_uniform`, `C86_split`, `C86_privacy`, `C86_index` (proved) |
| C87 | Word, RNS and polynomial arithmetic with its defects repaired | scalar_mul_vec, bits, apply_bit_decomposition, RnsScaler::scale, RqScaler, the polynomial operators and key_switch with one repair each (MFix4.v) | the section of C16 redone under the weaker bound `wide_room` (PFix4.v), whose wide accumulator cannot overflow; digits by induction; prefix of moduli compared, then the cross-level theorems of C61/C62 | `C87_scalar_mul_vec`, `C87_bits`, `C87_decompose`, `C87_scale`, `C87_scale_agree`, `C87_scale_guard`, `C87_poly`, `C87_operators`, `C87_key_switch` (proved) |
| C88 | The default parameters with larger moduli serve all practical degrees | BfvParameters::default with t as an argument, PvwParams::default with another modulus (MFix5.v); generate_moduli, bfv_new, encryption, circuits, retrieval as in C68, C64, C85 | the proofs of C68 with 2n | t-1 instead of the list of degrees; prime tables for 2^7..2^12 walked candidate by candidate (PDef2.v), Pocklington certificates; noise growth 2^45 per level; budget of C71 | `C88_degree`, `C88_encrypt`, `C88_circuit`, `C88_default`, `C88_retrieve`, `C88_primes`, `C88_fixed`, `C88_agree`, `C88_pvw` (proved) |
| C89 | The failing tests of the crate pass with the repaired functions | the failing tests of bfv.rs and evaluations.rs over the repaired functions (MFixTests.v) | facts about the test parameters from the prime search (C26); expansion and retrieval by C85, circuits over slots by C82, noise instantiated; the printed error lengths by the range of the centred error | `C89_unpack`, `C89_client_encode`, `C89_query`, `C89_pack_and_construct`, `C89_unpack_decomp`, `C89_unpack_decomp_noise`, `C89_encrypt_decrypt`, `C89_simd_slot_rotations` (proved) |
| C90 | Algebraic laws of polynomials and ciphertexts | Poly operators, substitute, ciphertext operators, multiply_with_strategy | every polynomial is `rep` of an integer polynomial (C17), each operator acts on those (C17-C19), the laws of Z[X]/(X^n+1) (PRing.v) and uniqueness of the representation give equality of the rows | `C90_group`, `C90_ring`, `C90_scalar`, `C90_substitute`, `C90_ciphertext`, `C90_multiply` (proved) |
| C91 | Typical noise of external products and of chains of them | RgswCt::encrypt, external_product, decrypt; chain of d steps as a client program (SpecChain.v) | the noise of one product is a weighted sum of 2Kn samples (moment bound of C81); steps are combined by splitting the generator's outcomes into those of the first step and the rest, with a union bound over coefficients and steps | `C91_external`, `C91_chain`, `C91_noise` (proved) |
| C92 | How much is sent between client and server | client_query, Evaluation::build, server_decode (expansion repaired), mod_switch_down on ciphertexts | shapes of the returned structures from C70, C80, C69 and the key-switching keys; counting of rows | `C92_query`, `C92_keys`, `C92_answer` (proved) |
| C93 | What the word arithmetic and the transforms give away through their steps | the functions of modulus.rs and ntt.rs once more with every word operation, decision, array access and division recorded (MTrace.v) | equality of the values with MModulus.v/MNtt.v; a relation between two runs kept by sequencing, loops and array accesses; the exponent of pow read off the recorded decisions bit by bit | `C93_values`, `C93_words`, `C93_vectors`, `C93_transforms`, `C93_pow` (proved) |
| C94 | Which operands the homomorphic operations accept | the operators of BfvCipherText, multiply_with_strategy, GaliosKey::relinearize, RgswCt, Ksk::key_switch | inversion of successful runs step by step; the assertions stand before everything else | `C94_accepted`, `C94_rejected`, `C94_ignored` (proved) |
| C95 | What sampling, encryption and key generation give away through their steps | the functions once more with their steps recorded (MTrace2.v, on top of MTrace.v) | equality of the values with the model; the relation between two runs of C93 carried through rows, polynomials, ciphertexts and keys | `C95_values`, `C95_sampling`, `C95_encryption`, `C95_phase`, `C95_keys` (proved) |
| C96 | What scaling, decryption, modulus switching and multiplication give away through their steps | RnsScaler::scale, RqScaler::scale and decrypt once more with their steps recorded (MTrace3.v); modulus switching, negation and the operations on ciphertexts (MTrace8.v) | equality of the values with the model; the relation of C93 up to the decision on w_sign, and reading that decision off the recorded steps for the converse; for products of ciphertexts the factor of the scaling up is one in every parameter set of the constructor | `C96_values`, `C96_scale`, `C96_switch`, `C96_poly`, `C96_decrypt`, `C96_more_values`, `C96_mod_switch`, `C96_multiply`, `C96_strategy` (proved) |
| C97 | What Galois keys and RGSW encryption give away through their steps | substitution, GaliosKey::new, Ksk::new_with_pt and RGSW encryption once more with their steps recorded (MTrace4.v) | equality of the values with the model; the relation between two runs of C93 and C95 | `C97_values`, `C97_galois`, `C97_rgsw` (proved) |
| C98 | What making a query and PVW encryption give away through their steps | Client::encode, PVW key generation, encryption and decryption once more with their steps recorded (MTrace5.v) | equality of the values with the model; the relation between two runs of C93; for decryption the value of the slots before rounding, read off the recorded divisions | `C98_values`, `C98_query`, `C98_pvw`, `C98_pvw_decrypt` (proved) |
| C99 | What the work of the server and a whole retrieval give away through their steps | key switching, external products, rotations, expansion, Server::decode (MTrace6.v), plaintexts, query ciphertexts, evaluation keys, Server::new and a whole retrieval (MTrace7.v) once more with their steps recorded; the expansion also with the powers of X given, because the code panics there (C42) | equality of the values with the model; the relation between two runs of C93, for lists of ciphertexts and keys of the same shape; composition of the parts for the retrieval; C45 for the claim that the retrievals go through | `C99_values`, `C99_products`, `C99_server`, `C99_retrieve_values`, `C99_parts`, `C99_retrieve`, `C99_complete` (proved) |
<!-- /TABLE -->

## 3. Defects of the code established by `_refuted` theorems
* C07 `scalar_mul_vec` returns unreduced residues (repaired in C87).
* C16 `RqScaler` counts equal positions of the moduli lists instead of the common prefix, and then copies the wrong row (repaired in C87).
* C23 `Modulus::bits` is 2^64-65 too large, so `apply_bit_decomposition` panics on every polynomial (repaired in C87).
* C28 the SIMD slot map is not a permutation for any degree (missing `>> 1`).  With the shift restored every SIMD circuit is correct (C82).
* C34 `ciphertext + polynomial` adds the polynomial to both components (repaired in C83).
* C35 `ciphertext * ciphertext` overwrites instead of accumulating the middle component (repaired in C83).
* C42/C45 `gen_x_pows` asks for even substitutions, so `unpack` and `Server::decode` panic on every input (repaired in C85).
* C43 the row count check of `Client::encode` is a truncated division (and wraps in release builds) (repaired in C85).
* C46 `encrypt` labels every ciphertext with level 0 (repaired in C83).
* C49 the PVW default parameters can decrypt wrongly (for a fraction of at most 2^-5900 of the outcomes, C77) (repaired in C88).
* C55 the dimension count of `decode` is wrong when log2(dim^k) >= (k+1) log2(dim), e.g. dim = 3 with k = 2 (right for powers of two and for k <= 1); `no_of_cts` loops forever for `dim = 1` (repaired in C85).
* C56 with twelve source moduli the scaler loses a carry (not for the factors 1 and t/product used by the scheme) (repaired in C87).
* C58 addition drops the components beyond the second (repaired in C83).
* C60 `RnsScaler::scale` is a safe function guarded only by debug assertions: a release build reads out of bounds when called with too many residues (repaired in C87).
* C61 `Ksk::key_switch` never compares the key's level with the ciphertext's: a key of a deeper level leaves the top residue rows zero and silently returns a wrong pair (repaired in C87).
* C62 the polynomial operators never compare contexts: with the larger context on the left the extra rows keep the left operand's residues (repaired in C87).
* C66 because of the same missing `>> 1` the second row of slots neither rotates under X -> X^(3^k) nor exchanges with the first one under X -> X^(2n-1).
* C67 (test code only) the sequence of the test `construct_full_from_half` decrypts to b*(m + e), e the encryption error of m: the lower half made by `new_with_pt` carries the scaled b and `encrypt_poly` the unscaled m. The test asserts nothing.
* C68 `BfvParameters::default` panics for every degree of 128 or more: its plaintext modulus 1153 is 1 modulo 2n only for n <= 64 (repaired in C88).
* C72 (test code) the SIMD half of the test `encrypt_decrypt` fails unless three pairs of its random values agree (from C28); the test `ksk` asserts a noise of at most 70 bits, but 71 bits occur for extreme draws (at most a fraction 2^-291 of them, C81); all five evaluation tests panic (from C42); `simd_slot_rotations` prints two of its values among zeros instead of a rotation (from C28); `construct_ntt_operator` panics when 100 draws contain no generator; the PVW test fails for extreme draws (from C49). With repaired functions the SIMD and evaluation tests pass (C89).

## 4. Trusted base
* Coq's kernel (and `coqchk`, which re-checks the compiled files).
* The axioms listed by `Print Assumptions` under each theorem: for all <!-- N -->373<!-- /N --> theorems the answer is
  "Closed under the global context", so **no axioms at all**, neither of the standard library nor others.
  (`coqchk -o` also lists seven constants of `Coq.ssr.ssrunder`, loaded with the standard library; no theorem depends on them.)
* The reading of the Rust code by which `M*.v` was written (each definition cites its lines; simplifications are named there).
* The contracts of the external crates listed above.
* The English-to-Coq reading of the statements and of `Spec*.v`.

No kernel check is switched off; there are no `Admitted`, functors, module types or plugins.

## 5. Not modelled
Timing beyond the recorded steps of C93 and C95 to C99 (what the compiler and the processor make of them), memory use and performance, cryptographic security of the random generators (their words are
inputs; that ChaCha or `thread_rng` words are uniform is not claimed), `Debug` formatting, trivial accessors,
the unfinished stubs (`PvwParams::new`, `todo!()`), the unused struct types (`RGSW`, `BfvCiphertext`, `KskType`), `client.rs`
(not part of the crate; only documentation, whose address computation is the spec of C78). The tests
are modelled in `MTests.v`, `MTests2.v` (C72) and `MPvw.v` (C49).

## 6. Testing the theorems against wrong programs
`seeded/mutations.jsonl` holds edits of the model that imitate realistic bugs; `tools/mutate.py` applies each in a scratch copy, rebuilds, replaces
broken proofs by `Admitted` to continue, and reports through `Print Assumptions` which property theorems no longer hold.  Results are in `seeded/LOG.jsonl`.
A mutation that breaks no theorem although its claim becomes false leads to a tightened theorem, recorded in the same line.
Mutations of `seeded/mutations.jsonl` without a line in the log (some of M123 to M235 and M322 to M328) are prepared but have not been run.

The `Example`s beside the theorems are evaluated by the kernel.  A full retrieval (build keys, query, fold, decrypt) on the parameter set of `TestEval.v` also runs
in `vm_compute` (about ten seconds); it is left out of the build because `coqchk` re-evaluates without the VM.
