{
 "claims": [
  {
   "property": "C01",
   "status": "proved",
   "theorems": [
    "C01_add_reduce",
    "C01_sub_reduce",
    "C01_neg_reduce",
    "C01_add_reduce_overflow",
    "C01_unit"
   ],
   "note": "All widths; overflow for a full-width modulus shown separately."
  },
  {
   "property": "C02",
   "status": "proved",
   "theorems": [
    "C02_barrett_new",
    "C02_bit_count"
   ],
   "note": "Iff characterisation of acceptance and exact reciprocal."
  },
  {
   "property": "C03",
   "status": "proved",
   "theorems": [
    "C03_reduce_one_word",
    "C03_reduce_two_words"
   ],
   "note": "Exact and lazy ranges for one- and two-word inputs."
  },
  {
   "property": "C04",
   "status": "proved",
   "theorems": [
    "C04_reduce_slice",
    "C04_empty_slice_panics"
   ],
   "note": "Any non-empty slice of words, any length."
  },
  {
   "property": "C05",
   "status": "proved",
   "theorems": [
    "C05_mul_reduce",
    "C05_exp_reduce",
    "C05_exp_power_of_2"
   ],
   "note": "Any exponent width and exponent."
  },
  {
   "property": "C06",
   "status": "proved",
   "theorems": [
    "C06_inverse",
    "C06_below_half",
    "C06_above_half"
   ],
   "note": "Success iff unit. C06_below_half: up to half the word a returned value is the inverse; C06_above_half: beyond it a wrong value is returned silently."
  },
  {
   "property": "C07",
   "status": "proved",
   "theorems": [
    "C07_gcd",
    "C07_coprime",
    "C07_coprime_zero"
   ],
   "note": "All words; coprime(0,0) reported true is stated separately."
  },
  {
   "property": "C08",
   "status": "partial",
   "theorems": [
    "C08_extended_gcd_partial",
    "C08_shifted_partial",
    "C08_half_words_partial",
    "C08_gcd_partial",
    "C08_zero_refuted",
    "C08_overflow_refuted",
    "C08_coefficients_refuted"
   ],
   "note": "Full statement (all pairs of words) is false of the code. Proved: the right triple for nonzero operands below 2^(BITS-2); for nonzero operands below 2^(BITS-1) a panic or the right triple; for all nonzero words a panic or the right gcd. Powers of two common to both operands do not count towards the first bound. Refuted: a zero operand yields (0,0,0) in every width, wide words may panic, silently wrong coefficients for a word above 2^(BITS-1)."
  },
  {
   "property": "C09",
   "status": "proved",
   "theorems": [
    "C09_shoup_new",
    "C09_shoup_mul",
    "C09_shoup_new_panics",
    "C09_shoup_set",
    "C09_shoup_set_modulus"
   ],
   "note": "Any multiplicand word."
  },
  {
   "property": "C10",
   "status": "proved",
   "theorems": [
    "C10_new",
    "C10_ring_ops",
    "C10_exp",
    "C10_exp_power_of_2",
    "C10_dot_product"
   ],
   "note": "Any power of two modulus up to the word width, arbitrary words."
  },
  {
   "property": "C11",
   "status": "partial",
   "theorems": [
    "C11_dot_product_partial",
    "C11_dot_product_prefix",
    "C11_dot_product_refuted"
   ],
   "note": "Full statement false: tail of an incomplete 16-chunk is dropped; exact returned value proved for every length."
  },
  {
   "property": "C12",
   "status": "partial",
   "theorems": [
    "C12_prime",
    "C12_bijection",
    "C12_ring_ops",
    "C12_constants",
    "C12_conversions",
    "C12_inverse",
    "C12_div",
    "C12_exp_partial",
    "C12_exp_power_of_2",
    "C12_exp_zero_refuted",
    "C12_dot_product"
   ],
   "note": "exponent 0 returns the wrong word (refuted); everything else proved."
  },
  {
   "property": "C13",
   "status": "partial",
   "theorems": [
    "C13_prime",
    "C13_add_sub_mul",
    "C13_reduce128",
    "C13_reduce96",
    "C13_assembly",
    "C13_to_canonical",
    "C13_reduce_partial",
    "C13_reduce_refuted",
    "C13_neg_partial",
    "C13_canonical_refuted",
    "C13_exp",
    "C13_inverse",
    "C13_div",
    "C13_inverse_of_zero_refuted",
    "C13_dot_product"
   ],
   "note": "congruences proved for all words; canonicity of reduce/mul and negation of results refuted; the x86-64 assembly of the word addition equals the portable version."
  },
  {
   "property": "C14",
   "status": "proved",
   "theorems": [
    "C14_prime_accepted",
    "C14_small_exact"
   ],
   "note": "Every prime, round count and draw; below 64 the answer is exact."
  },
  {
   "property": "C15",
   "status": "partial",
   "theorems": [
    "C15_composite_refuted",
    "C15_accepted_partial",
    "C15_exact",
    "C15_bases",
    "C15_quarter_partial",
    "C15_floor"
   ],
   "note": "The 4^-rounds bound is false of the code: some composites are accepted for every draw. Acceptance is characterised exactly for every value from 64 on; at most a quarter of the residues of a composite pass one round (Rabin's bound, proved in full); hence at most a quarter of the draws are accepted unless 2 itself passes after a squaring; and a floor shows further rounds add nothing in general."
  },
  {
   "property": "C16",
   "status": "proved",
   "theorems": [
    "C16_derive",
    "C16_new",
    "C16_ring_ops",
    "C16_pow",
    "C16_inv",
    "C16_div",
    "C16_add_mul",
    "C16_from_usize"
   ],
   "note": "Every accepted modulus and word width; prime only where inverses are claimed."
  },
  {
   "property": "C17",
   "status": "partial",
   "theorems": [
    "C17_div_by_zero_partial",
    "C17_inv_zero_refuted"
   ],
   "note": "Division by zero panics for every accepted modulus; inv() of 0 returns 0 for every modulus >= 3, so the full statement is refuted."
  },
  {
   "property": "C18",
   "status": "proved",
   "theorems": [
    "C18_basis_new",
    "C18_decompose",
    "C18_poly_decompose"
   ],
   "note": "Every accepted modulus, basis width and value."
  },
  {
   "property": "C19",
   "status": "partial",
   "theorems": [
    "C19_decompose_at_partial",
    "C19_decompose_at_exact",
    "C19_decompose_at_refuted"
   ],
   "note": "Full statement false for stale destinations; exact result proved for every destination."
  },
  {
   "property": "C20",
   "status": "proved",
   "theorems": [
    "C20_root",
    "C20_transform"
   ],
   "note": "Every word width, prime, size, table built by generate_ntt_table and (lazily reduced) input."
  },
  {
   "property": "C21",
   "status": "proved",
   "theorems": [
    "C21_inverse_of_transform",
    "C21_transform_of_inverse",
    "C21_inverse_lazy"
   ],
   "note": "k>=1 as stated; lazily reduced inputs of the inverse covered too."
  },
  {
   "property": "C22",
   "status": "partial",
   "theorems": [
    "C22_mul",
    "C22_mul_mixed",
    "C22_ntt_ops",
    "C22_multiply_accumulate",
    "C22_bad_length",
    "C22_length_one",
    "C22_length_one_refuted"
   ],
   "note": "All polynomials for every n>=2; with n=1 every product and inverse over the in-repo table panics (C22_length_one, refuted), so partial."
  },
  {
   "property": "C23",
   "status": "partial",
   "theorems": [
    "C23_monomial_partial",
    "C23_monomial_one_partial",
    "C23_monomial_neg_one_partial",
    "C23_wide_degree_partial",
    "C23_every_degree_refuted"
   ],
   "note": "Proved whenever (2n-1)*d fits a usize; beyond that a checked build panics for every nonzero coefficient (C23_wide_degree_partial), so the full statement is refuted. C71 covers the optimised build."
  },
  {
   "property": "C24",
   "status": "proved",
   "theorems": [
    "C24_minimal_root",
    "C24_same_table",
    "C24_table_exists"
   ],
   "note": "Every random stream; least primitive root and equality of the whole table."
  },
  {
   "property": "C25",
   "status": "proved",
   "theorems": [
    "C25_right_table",
    "C25_same_everywhere",
    "C25_never_replaced",
    "C25_init",
    "C25_no_panic",
    "C25_serves"
   ],
   "note": "Every finite history of calls from the fresh process, any iteration order of the hash sets and any random stream, including failing/panicking calls and mutex poisoning."
  },
  {
   "property": "C26",
   "status": "partial",
   "theorems": [
    "C26_race_refuted",
    "C26_writers_exclusive_partial",
    "C26_initialised_partial",
    "C26_single_size_partial"
   ],
   "note": "Full statement false: the lookup takes no lock (race witness). Proved for every thread count and schedule: mutations exclude each other; no race when all sizes are initialised or a single size is used."
  },
  {
   "property": "C27",
   "status": "proved",
   "theorems": [
    "C27_encode",
    "C27_decode_iff",
    "C27_decode_type"
   ],
   "note": "Every t=2^i<q=2^j of a B-bit word, every message type; decode of every residue."
  },
  {
   "property": "C28",
   "status": "proved",
   "theorems": [
    "C28_roundtrip",
    "C28_budget_tight",
    "C28_any_ciphertext",
    "C28_rejects"
   ],
   "note": "Every key, mask, message and noise within the budget; tightness and the value on arbitrary ciphertexts included."
  },
  {
   "property": "C29",
   "status": "proved",
   "theorems": [
    "C29_add",
    "C29_sub",
    "C29_neg",
    "C29_scalar_mul",
    "C29_add_scaled",
    "C29_dimension_mismatch"
   ],
   "note": "Every dimension, key and ciphertext pair, all operation forms."
  },
  {
   "property": "C30",
   "status": "proved",
   "theorems": [
    "C30_extract",
    "C30_partial_extract",
    "C30_reverse",
    "C30_partial_reverse"
   ],
   "note": "Every dimension n>0, ciphertext and key; partial and reverse forms with explicit padded/reversed keys."
  },
  {
   "property": "C31",
   "status": "proved",
   "theorems": [
    "C31_sub_one",
    "C31_add_mul",
    "C31_out_of_range"
   ],
   "note": "Every n>0, ciphertext and exponent 0..2n; larger exponents panic."
  },
  {
   "property": "C32",
   "status": "proved",
   "theorems": [
    "C32_gadget_mul",
    "C32_gadget_add",
    "C32_gadget_sub",
    "C32_noise_bound",
    "C32_workspace"
   ],
   "note": "Every prime field, size 2^k>=2, accepted basis, rows and polynomial; exact phase identity plus noise bound; mul/add/sub, coefficient, transform, in-place and lazy forms; workspaces of the wrong length are refused."
  },
  {
   "property": "C33",
   "status": "proved",
   "theorems": [
    "C33_external_product",
    "C33_noise_bound",
    "C33_internal_product",
    "C33_workspace"
   ],
   "note": "Every ciphertext and RGSW ciphertext; all variants return the same ciphertext; internal product row by row; workspaces of the wrong length are refused."
  },
  {
   "property": "C34",
   "status": "partial",
   "theorems": [
    "C34_rlwe_zero",
    "C34_gadget_zero",
    "C34_gadget_one",
    "C34_gadget_neg_secret",
    "C34_ntt_gadget_zero",
    "C34_ntt_gadget_one",
    "C34_ntt_gadget_neg_secret",
    "C34_rgsw_zero",
    "C34_rgsw_one",
    "C34_ntt_rgsw_zero",
    "C34_ntt_rgsw_one",
    "C34_overflow",
    "C34_no_panic_refuted"
   ],
   "note": "Phases are exact for every draw and every accepted basis in transform form; the coefficient form panics (checked arithmetic) exactly when bits*len >= word width (refuted), so partial."
  },
  {
   "property": "C35",
   "status": "proved",
   "theorems": [
    "C35_blind_rotate",
    "C35_generate"
   ],
   "note": "Every table, key, LWE ciphertext mod 2n and randomness: exact phase identity with an explicit noise bound, by induction over the key; generation from any binary secret and small noise is proved to give such a key."
  },
  {
   "property": "C36",
   "status": "proved",
   "theorems": [
    "C36_blind_rotate",
    "C36_generate"
   ],
   "note": "As C35 for ternary secrets (n <= 2^31); the combined evaluation key s0 - X^-a s1 doubles the noise."
  },
  {
   "property": "C37",
   "status": "proved",
   "theorems": [
    "C37_key_switch",
    "C37_bound",
    "C37_generate",
    "C37_basis_refused"
   ],
   "note": "Key switching with a power-of-two LWE key: phase preserved up to the sum of the noises selected by the digits (with explicit bound), canonical output, for every key that encrypts the gadget multiples; generation from any secret/draws yields such a key; a basis that does not divide the width makes generation panic."
  },
  {
   "property": "C38",
   "status": "proved",
   "theorems": [
    "C38_from_rlwe",
    "C38_from_lwe",
    "C38_generate"
   ],
   "note": "Both entry points (ring ciphertext and LWE ciphertext) for N equal to or a multiple of the padded LWE dimension; the phase is preserved up to len(zs)*l*2^k*(2^bits-1)*E; generation from any canonical ring secret and ternary LWE secret yields a key meeting the hypothesis."
  },
  {
   "property": "C39",
   "status": "proved",
   "theorems": [
    "C39_value",
    "C39_ciphertext",
    "C39_any_modulus",
    "C39_beyond_range"
   ],
   "note": "Exact for the f64 arithmetic of the code (binary64 rounding from the standard library's SpecFloat): the switched value is the nearest integer to after*v/before whenever (before-1)*after < 2^52, and for every larger modulus (before < 2^64, after < 2^49) the ciphertext theorem holds with an explicit slack. C39_beyond_range gives a modulus where exact rounding fails, showing why the range hypothesis is needed."
  },
  {
   "property": "C40",
   "status": "proved",
   "theorems": [
    "C40_tables",
    "C40_smallest_modulus"
   ],
   "note": "Every N=2^k with 2<=k<63, q=2^j with j>=3, every field and every grid phase. C40_smallest_modulus shows that q=4 is not covered by the tables."
  },
  {
   "property": "C41",
   "status": "proved",
   "theorems": [
    "C41_not",
    "C41_two_inputs",
    "C41_xor",
    "C41_majority",
    "C41_mux",
    "C41_any_ciphertext",
    "C41_decrypts",
    "C41_circuits"
   ],
   "note": "All nine gates, both blind-rotation key types, all three processing orders, worst-case noise bounds, decryption, and circuits of any size and depth. Keys are any that meet gate_setting (bounded noise)."
  },
  {
   "property": "C42",
   "status": "partial",
   "theorems": [
    "C42_accepted",
    "C42_error",
    "C42_record",
    "C42_safe_partial",
    "C42_shipped",
    "C42_needed_partial",
    "C42_equal_moduli_refuted",
    "C42_gaussian_refuted",
    "C42_dimension_refuted",
    "C42_switch_basis_refuted",
    "C42_word_refuted",
    "C42_ring_modulus_refuted"
   ],
   "note": "Acceptance, error and record characterised exactly; accepted + usable parameters never panic (C42_safe_partial); where one of the main conditions of usable fails the step in question panics on every input (C42_needed_partial); the full claim is refuted because Parameters::new does not check usable (six witnesses)."
  },
  {
   "property": "C43",
   "status": "proved",
   "theorems": [
    "C43_uniform",
    "C43_acceptance",
    "C43_sample",
    "C43_fair"
   ],
   "note": "Lemire rejection loop of FieldUniformSampler / Field::random: exact preimage counts, acceptance rate, first accepted word decides, and fairness over any number of words."
  },
  {
   "property": "C44",
   "status": "proved",
   "theorems": [
    "C44_binary_outputs",
    "C44_binary",
    "C44_ternary_outputs",
    "C44_ternary",
    "C44_single",
    "C44_cbd_outputs",
    "C44_cbd",
    "C44_binomial",
    "C44_small_modulus_panics"
   ],
   "note": "Exact counts over all raw words/bytes for binary, ternary (2:1:1) and cbd (binomial(42,21+d)) vectors of every length; the cbd weights need modulus > 42, outputs need modulus >= 21, below that C44_small_modulus_panics shows the underflow."
  },
  {
   "property": "C45",
   "status": "proved",
   "theorems": [
    "C45_mirror",
    "C45_bijective"
   ],
   "note": "Every word width and bit count."
  },
  {
   "property": "C46",
   "status": "proved",
   "theorems": [
    "C46_evaluate",
    "C46_add",
    "C46_sub",
    "C46_neg_scale",
    "C46_length_mismatch"
   ],
   "note": "Every length, including in-place forms; mismatched lengths rejected. Multiplication is C22 (the owned and in-place forms share one body)."
  },
  {
   "property": "C47",
   "status": "proved",
   "theorems": [
    "C47_shrink",
    "C47_decode"
   ],
   "note": "Every message type and word."
  },
  {
   "property": "C48",
   "status": "partial",
   "theorems": [
    "C48_inverse_partial",
    "C48_every_operand_partial",
    "C48_no_inverse_refuted"
   ],
   "note": "Correct for every invertible polynomial; a non-invertible one silently yields a non-inverse (refuted). What is returned for every operand is characterised: a pseudo-inverse r with r a a = a and a r r = r, whose product with the operand is 1 exactly when an inverse exists."
  },
  {
   "property": "C49",
   "status": "proved",
   "theorems": [
    "C49_keys",
    "C49_end_to_end",
    "C49_any_key"
   ],
   "note": "All orders and key kinds. Worst-case noise: the budget is deterministic (every draw at most E / Ek), not probabilistic; C49_end_to_end uses the actual key weights, C49_any_key only the parameters."
  },
  {
   "property": "C50",
   "status": "proved",
   "theorems": [
    "C50_from_block",
    "C50_to_block",
    "C50_bitwise",
    "C50_slice_eq"
   ],
   "note": "Both architectures' lane operations are modelled byte-wise."
  },
  {
   "property": "C51",
   "status": "proved",
   "theorems": [
    "C51_key_schedule",
    "C51_encrypt"
   ],
   "note": "CPU instructions are modelled from their documentation; sse2neon's emulated key assist is modelled lane by lane."
  },
  {
   "property": "C52",
   "status": "proved",
   "theorems": [
    "C52_many",
    "C52_slice"
   ],
   "note": ""
  },
  {
   "property": "C53",
   "status": "proved",
   "theorems": [
    "C53_decrypt",
    "C53_permutation"
   ],
   "note": ""
  },
  {
   "property": "C54",
   "status": "proved",
   "theorems": [
    "C54_history",
    "C54_no_repeat",
    "C54_from_rng"
   ],
   "note": "rand_core's BlockRng and rand's gen for u8/bool/u128 are external: modelled from their documentation."
  },
  {
   "property": "C55",
   "status": "partial",
   "theorems": [
    "C55_new",
    "C55_bound",
    "C55_new_with_max",
    "C55_reject",
    "C55_accept",
    "C55_vector",
    "C55_mean_reject",
    "C55_mean_accept",
    "C55_mean_vector",
    "C55_any_modulus",
    "C55_mean_not_finite_refuted",
    "C55_zero_dev_refuted",
    "C55_small_modulus_refuted"
   ],
   "note": "Proved for mean 0 and a modulus above the bound, as the library uses it, and for any finite mean (a draw at or beyond the bound from the mean is rejected, one inside it by a relative 2^-53 is accepted) and any modulus; refuted in general: deviation 0 or a non-finite mean is accepted but never returns, and a modulus below six deviations panics or yields a non-canonical word. The normal draws themselves (rand_distr) are inputs."
  },
  {
   "property": "C56",
   "status": "proved",
   "theorems": [
    "C56_add",
    "C56_sub",
    "C56_mul",
    "C56_wide"
   ],
   "note": "The x86 add-with-carry intrinsics have the meaning of the portable code by their documentation."
  },
  {
   "property": "C57",
   "status": "proved",
   "theorems": [
    "C57_compare",
    "C57_serde",
    "C57_display"
   ],
   "note": "Display of the inner word is std's; serde tokens are integers of its data model."
  },
  {
   "property": "C58",
   "status": "proved",
   "theorems": [
    "C58_schedule",
    "C58_off",
    "C58_alone"
   ],
   "note": "Sequentially consistent interleavings; reordering of Relaxed accesses to different statics is not modelled."
  },
  {
   "property": "C59",
   "status": "proved",
   "theorems": [
    "C59_decompose_inplace",
    "C59_lsb_inplace",
    "C59_bad_buffers"
   ],
   "note": "Length checks that are debug assertions count as panics."
  },
  {
   "property": "C60",
   "status": "proved",
   "theorems": [
    "C60_binary",
    "C60_binary_tail",
    "C60_ternary",
    "C60_ternary_tail",
    "C60_default_set"
   ],
   "note": "The distribution of the noise is any finitely supported one; that the sampler realises a given deviation is not claimed (rand_distr). The ciphertext is fixed before the key noise is drawn."
  },
  {
   "property": "C61",
   "status": "proved",
   "theorems": [
    "C61_always",
    "C61_returns"
   ],
   "note": "Each sample has a source of its own (mask, bytes, normal draws); the order in which one generator stream feeds them is immaterial to the statement. The normal draws themselves (rand_distr) are arbitrary floats. 32-bit words of the uniform key samplers as in C44."
  },
  {
   "property": "C62",
   "status": "proved",
   "theorems": [
    "C62_binary",
    "C62_binary_tail",
    "C62_ternary",
    "C62_ternary_tail",
    "C62_default_set",
    "C62_binomial",
    "C62_sampler"
   ],
   "note": "The distribution of the noise is any finitely supported one with Gaussian-dominated moments; shown for the library's binomial sampler and for binomials of any width. That rand_distr's rounded normal draws have such moments is not claimed. The ciphertext is fixed before the key noise is drawn."
  },
  {
   "property": "C63",
   "status": "proved",
   "theorems": [
    "C63_gates",
    "C63_default_set"
   ],
   "note": "single-bootstrap gates (not mux) for ternary LWE keys, order BrKsMs, one switching block; inputs independent of the evaluation key's randomness"
  },
  {
   "property": "C64",
   "status": "proved",
   "theorems": [
    "C64_rlwe_add",
    "C64_rlwe_sub",
    "C64_gadget_add",
    "C64_rgsw_add",
    "C64_gadget_sub",
    "C64_rgsw_sub",
    "C64_rlwe_scale",
    "C64_rgsw_scale",
    "C64_basis_mismatch",
    "C64_dimension_mismatch"
   ],
   "note": ""
  },
  {
   "property": "C65",
   "status": "proved",
   "theorems": [
    "C65_gates",
    "C65_custom_set"
   ],
   "note": "single-bootstrap gates (not mux) for ternary LWE keys, orders BrMsKs and BrMs; inputs independent of the evaluation key's randomness. The masks of the switching key are arbitrary"
  },
  {
   "property": "C66",
   "status": "proved",
   "theorems": [
    "C66_table",
    "C66_values",
    "C66_products",
    "C66_roots",
    "C66_contract_met"
   ],
   "note": "The external crate is universally quantified subject to the contract in Spec/ConcreteNtt.v; that the published crate meets it is not claimed (its source is not in the repository)."
  },
  {
   "property": "C67",
   "status": "proved",
   "theorems": [
    "C67_layer",
    "C67_lwe_layer",
    "C67_default_set",
    "C67_custom_set",
    "C67_key_weight",
    "C67_custom_run"
   ],
   "note": "one layer of single-bootstrap gates (not mux) on fresh ciphertexts; gates fed with gate outputs are outside, because their inputs are not independent of the evaluation key. Ternary LWE keys."
  },
  {
   "property": "C68",
   "status": "partial",
   "theorems": [
    "C68_polynomials_partial",
    "C68_ring_partial",
    "C68_destinations_partial",
    "C68_decryption_partial",
    "C68_gates_partial",
    "C68_common_part",
    "C68_common_lwe",
    "C68_refuted"
   ],
   "note": "Refuted in full: the into-destination sums and products of polynomials, multiply-accumulate, modulus switching into a destination and the blind rotation zip their operands without a check. The theorems ending in _partial list where a mismatch is refused; C68_common_part and C68_common_lwe say exactly what comes out otherwise (beyond C46 and C29). The checks on operands are debug assertions: a release build computes the common part there too."
  },
  {
   "property": "C69",
   "status": "proved",
   "theorems": [
    "C69_gates",
    "C69_lwe_gates",
    "C69_default_binary"
   ],
   "note": "single-bootstrap gates (not mux) for binary LWE keys, all three orders; inputs independent of the evaluation key's randomness. No shipped set uses a binary key"
  },
  {
   "property": "C70",
   "status": "proved",
   "theorems": [
    "C70_accepts",
    "C70_modulus",
    "C70_macros",
    "C70_digits"
   ],
   "note": "syn's tree is the input (external crate); error texts are not modelled"
  },
  {
   "property": "C71",
   "status": "proved",
   "theorems": [
    "C71_monomial",
    "C71_units",
    "C71_every_degree",
    "C71_agrees"
   ],
   "note": "optimised (release) profile of the three monomial transforms, whose reads are the only unchecked ones in the repository's own transform; complements the partial C23"
  },
  {
   "property": "C72",
   "status": "proved",
   "theorems": [
    "C72_root",
    "C72_table"
   ],
   "note": "the draws are taken uniform on 2..p-1 (rand's Uniform is external); the table of this repository (the external crate draws nothing)"
  },
  {
   "property": "C73",
   "status": "proved",
   "theorems": [
    "C73_right",
    "C73_schedule_independent",
    "C73_stable",
    "C73_no_deadlock",
    "C73_ends"
   ],
   "note": "each access to the statics is one atomic step (an execution without data race; C26 says when there is one). Right answers, stability and schedule independence for a prime field and sizes that fit; deadlock freedom and termination for all requests and moduli, with panics and poisoning."
  },
  {
   "property": "C74",
   "status": "proved",
   "theorems": [
    "C74_same_function",
    "C74_product",
    "C74_keygen",
    "C74_bootstrap",
    "C74_mask",
    "C74_oblivious",
    "C74_gates",
    "C74_mux",
    "C74_counters",
    "C74_external"
   ],
   "note": "calls made before a panic are not kept; the mask is public; the two halves of mux's rayon::join are listed one after the other (C58 gives the sum for any interleaving); timing and memory traces are not modelled"
  },
  {
   "property": "C75",
   "status": "proved",
   "theorems": [
    "C75_hiding",
    "C75_bound",
    "C75_received",
    "C75_pad",
    "C75_reuse"
   ],
   "note": "a reduction: that LWE samples look uniform is an assumption about the parameters and is not proved; chosen plaintexts only (no decryption oracle); masks and noises are draws handed to encrypt"
  },
  {
   "property": "C76",
   "status": "proved",
   "theorems": [
    "C76_words",
    "C76_signed",
    "C76_moduli",
    "C76_fields",
    "C76_special_fields",
    "C76_transforms",
    "C76_polynomials",
    "C76_lwe",
    "C76_rlwe",
    "C76_gadget",
    "C76_switching",
    "C76_keys",
    "C76_gates",
    "C76_ciphertext_moduli",
    "C76_linear",
    "C76_circuits",
    "C76_end_to_end"
   ],
   "note": "inputs on which the checked build panics are outside the statement (C76_ex_differ shows they exist); off the checked path some optimised definitions are simplified, as their comments say; C71 gives the exact optimised panics of monomial transforms"
  },
  {
   "property": "C77",
   "status": "proved",
   "theorems": [
    "C77_gadget_samples",
    "C77_barrett_power",
    "C77_power_of_two_power",
    "C77_goldilocks_power",
    "C77_goldilocks_negation",
    "C77_lengths",
    "C77_bases",
    "C77_decrypt_lengths",
    "C77_equal_moduli",
    "C77_extended_gcd",
    "C77_units",
    "C77_inverse_wrong"
   ],
   "note": "the silently wrong values are stated as exact values: Goldilocks negation above the modulus, equal moduli, operands of different lengths or bases; C77_inverse_wrong: inverse modulo a wide plain word"
  },
  {
   "property": "C78",
   "status": "proved",
   "theorems": [
    "C78_rotation",
    "C78_rotation_bound",
    "C78_rotation_key",
    "C78_rotation_pad",
    "C78_switch",
    "C78_switch_key",
    "C78_ring_switch",
    "C78_ring_switch_key"
   ],
   "note": "a reduction: that encryptions of zero look uniform is an assumption about the parameters and is not proved; each key separately: the rotation key encrypts the LWE secret under the ring secret and the switching key the converse, so hiding of both together needs a circular-security assumption and is not claimed"
  },
  {
   "property": "C79",
   "status": "proved",
   "theorems": [
    "C79_total",
    "C79_read",
    "C79_measured",
    "C79_off",
    "C79_interleavings",
    "C79_reordering"
   ],
   "note": "executions are finite sets of complete calls with a happens-before order; values out of thin air cannot arise as writes do not depend on values except the flag test; C79_reordering shows the model is wider than interleavings"
  },
  {
   "property": "C80",
   "status": "proved",
   "theorems": [
    "C80_keys",
    "C80_encrypt",
    "C80_local",
    "C80_always",
    "C80_returns"
   ],
   "note": "a draw of rand_distr::Normal or Uniform counts as one request; C81 opens them up for the seeded generator"
  },
  {
   "property": "C81",
   "status": "proved",
   "theorems": [
    "C81_generator",
    "C81_always",
    "C81_seeded",
    "C81_portable",
    "C81_segments",
    "C81_circuits"
   ],
   "note": "rand_distr::Normal and rand::Uniform are arbitrary programs that read the generator by next_u32 and next_u64; Rust's other generators (thread_rng, StdRng) are covered by the statements for every type of generator"
  },
  {
   "property": "C82",
   "status": "proved",
   "theorems": [
    "C82_bfhe",
    "C82_completes",
    "C82_seeded",
    "C82_bound",
    "C82_count",
    "C82_encode",
    "C82_field",
    "C82_asserted",
    "C82_encode_asserted"
   ],
   "note": "for parameters within the worst-case noise budget (as C49, C61, C80); the shipped default parameters rely on typical noise, see C69; rayon's threads and the printed timings are not modelled"
  },
  {
   "property": "C83",
   "status": "proved",
   "theorems": [
    "C83_blocks",
    "C83_history",
    "C83_session"
   ],
   "note": "that AES-128 is hard to tell from a random permutation is the usual assumption, not proved; seeds are uniform over all 16-byte strings"
  },
  {
   "property": "C84",
   "status": "partial",
   "theorems": [
    "C84_assertions",
    "C84_barrett",
    "C84_pow2",
    "C84_pow2_panic",
    "C84_gcd",
    "C84_blocks",
    "C84_prg",
    "C84_baby_bear",
    "C84_decompose",
    "C84_inverse_partial",
    "C84_inverse_refuted",
    "C84_trial_division",
    "C84_prime_partial",
    "C84_prime_refuted",
    "C84_goldilocks_partial",
    "C84_goldilocks_refuted",
    "C84_field_partial",
    "C84_field_refuted"
   ],
   "note": "four tests can fail: the test of inversion (a draw sharing a factor with an accepted composite), the test of primality (2, or an accepted composite), the Goldilocks test (a product or inner product that comes out unreduced) and the test of a derived field (a zero drawn as divisor or to invert); the failing draws are characterised exactly, all other tests pass on every draw"
  },
  {
   "property": "C85",
   "status": "partial",
   "theorems": [
    "C85_assertions",
    "C85_polynomials",
    "C85_monomials",
    "C85_lwe",
    "C85_rlwe",
    "C85_rlwe_he",
    "C85_lwe_he_partial",
    "C85_lwe_he_refuted",
    "C85_rgsw_rlwe_partial",
    "C85_rgsw_rlwe_refuted",
    "C85_rgsw_rgsw_partial",
    "C85_rgsw_rgsw_refuted",
    "C85_gadget_partial",
    "C85_gadget_refuted"
   ],
   "note": "four tests can fail: decryption of an LWE sum (the second mask is drawn from all words and the addition is unreduced: it fails exactly when a sum overflows the word) and the products with gadget and RGSW ciphertexts (the messages are drawn from the whole ring, so a product may lie within the noise of a decoding boundary; the gadget test also asserts that one noise has a smaller norm than another); products away from the boundaries are proved to pass, failing draws are exhibited in every field; all other tests pass on every draw, the monomial one with the in-repo table or, with the external one, unless the degree is twice the length"
  },
  {
   "property": "C86",
   "status": "proved",
   "theorems": [
    "C86_phases",
    "C86_decrypts",
    "C86_weights"
   ],
   "note": "by induction over the program; phases for the three kinds of modulus, decryption for powers of two"
  },
  {
   "property": "C87",
   "status": "proved",
   "theorems": [
    "C87_program",
    "C87_cmux",
    "C87_lookup",
    "C87_extract",
    "C87_unambiguous"
   ],
   "note": "by induction over programs and over the list of selectors; noises are worst-case bounds"
  },
  {
   "property": "C88",
   "status": "proved",
   "theorems": [
    "C88_product",
    "C88_conjunction",
    "C88_select"
   ],
   "note": "by induction over the factors; noises are worst-case bounds"
  }
 ]
}