{"id": "C01", "title": "Word-modulus addition, subtraction and negation are exact", "statement": "For a word modulus m and canonical operands (each < m), add_reduce, sub_reduce and neg_reduce return the unique value in [0,m) congruent to the sum, difference, negation; sub and neg never overflow for any m, and add does not overflow when 2(m-1) fits in the word.", "quantifier": "every word width (u8, u16, u32, u64), every modulus m, every pair of canonical operands", "why_tests_cant": "The failing inputs, if any, sit on the m-1 / 2^BITS boundary for one width; there are 2^192 (m,a,b) triples for u64.", "anchors": ["algebra/src/reduce/macros.rs: add_reduce, sub_reduce, neg_reduce and *_assign"]}
{"id": "C02", "title": "BarrettModulus::new accepts exactly 2 <= m < 2^(BITS-2) and precomputes the exact reciprocal", "statement": "BarrettModulus::new(m) panics exactly when m < 2 or m >= 2^(BITS-2); otherwise ratio[0] + ratio[1]*2^BITS = floor(2^(2*BITS) / m), through both internal division paths.", "quantifier": "every word width (u8, u16, u32, u64), every word m", "why_tests_cant": "Off-by-one in the reciprocal only shows for particular (x,m) pairs, which random tests hit with negligible probability.", "anchors": ["algebra/src/modulus/barrett/internal_macros.rs: BarrettModulus::new"]}
{"id": "C03", "title": "Barrett reduction of one- and two-word values is exact", "statement": "For every accepted modulus m and every word x (or double word (lo,hi)), reduce returns x mod m, lazy_reduce returns a value in [0,2m) congruent to x, and no intermediate addition overflows.", "quantifier": "every word width (u8, u16, u32, u64), every accepted m, every x in [0,2^BITS) or [0,2^(2*BITS))", "why_tests_cant": "A 128-bit input space and the carry corner cases (bch sum) are unreachable by sampling.", "anchors": ["algebra/src/modulus/barrett/internal_macros.rs: lazy_reduce, reduce (word, [T;2], (T,T))"]}
{"id": "C04", "title": "Barrett reduction of word slices of any length is exact", "statement": "Reducing a non-empty little-endian slice of words returns (sum x_i 2^(BITS*i)) mod m for every length; the lazy version returns a congruent value (< 2m whenever it reduces at least once or the word was canonical); the empty slice panics.", "quantifier": "every non-empty list of words, every accepted m, every width", "why_tests_cant": "The length is unbounded.", "anchors": ["algebra/src/modulus/barrett/internal_macros.rs: LazyReduce/Reduce for &[T]"]}
{"id": "C05", "title": "Modular multiplication and exponentiation are exact for every exponent", "statement": "mul_reduce(a,b) = a*b mod m; exp_reduce(a,e) = a^e mod m for every canonical a and every exponent e of any bit length (with a^0 = 1); exp_power_of_2_reduce(a,k) = a^(2^k) mod m.", "quantifier": "every accepted m, every canonical a, every exponent e and k", "why_tests_cant": "The loop structure (trailing zeros stripped, then square-and-multiply) depends on the bit pattern of e; all 2^64 patterns cannot be run.", "anchors": ["algebra/src/modulus/barrett/ops.rs: mul_reduce, exp_reduce, exp_power_of_2_reduce, lazy_mul_reduce"]}
{"id": "C06", "title": "Modular inversion succeeds exactly on units and returns the inverse", "statement": "For 0 < a < m < 2^(BITS-2) try_inv_reduce returns Ok(x) with x in [0,m), a*x = 1 mod m when gcd(a,m)=1 and Err otherwise; inv_reduce returns the same value or panics; signed intermediates never overflow and the loop terminates. For m < 2^(BITS-1) a value that is returned is still the inverse; above that a wrong value can be returned.", "quantifier": "every word width (u8, u16, u32, u64), every modulus m < 2^(BITS-2), every 0 < a < m", "why_tests_cant": "Overflow of the signed Bezout coefficients depends on the whole run of the binary GCD; only an invariant bounds it.", "anchors": ["algebra/src/utils/gcd.rs: extended_gcd", "algebra/src/reduce/macros.rs: inv_reduce, try_inv_reduce"]}
{"id": "C07", "title": "Binary GCD computes the gcd of any two words", "statement": "gcd(x,y) terminates and returns the greatest common divisor for every pair of words including zero; coprime(x,y) holds exactly when that gcd is at most 1.", "quantifier": "every pair of words, every width", "why_tests_cant": "Termination and correctness over 2^128 pairs.", "anchors": ["algebra/src/utils/gcd.rs: gcd, coprime, not_coprime"]}
{"id": "C08", "title": "extended_gcd returns a Bezout identity for every pair of words", "statement": "For every x,y (also zero, also full-width) extended_gcd(x,y) returns (a,b,v) with a*x+b*y = v = gcd(x,y) and does not overflow.", "quantifier": "every pair of words, every width", "why_tests_cant": "As documented it must hold for all pairs; failing pairs are zero arguments and full-width words.", "anchors": ["algebra/src/utils/gcd.rs: extended_gcd"]}
{"id": "C09", "title": "Shoup multiplication is exact for every multiplicand word", "statement": "For a factor w < m with m <= 2^(BITS-1), mul_reduce of ANY word x (not only canonical ones) returns w*x mod m and the lazy form returns a congruent value < 2m; the quotient stored is floor(w*2^BITS/m).", "quantifier": "every word width (u8, u16, u32, u64), every m, every w < m, every word x", "why_tests_cant": "Error of the approximate quotient is input dependent.", "anchors": ["algebra/src/modulus/shoup/internal_macros.rs: ShoupFactor::new, mul_reduce_lazy, mul_reduce, set"]}
{"id": "C10", "title": "Power-of-two modulus arithmetic is exact on arbitrary words", "statement": "For q = 2^k > 1, reduce/add/sub/neg/mul/exp/dot_product on arbitrary (not necessarily reduced) words return the exact result modulo q although intermediates wrap modulo 2^BITS; dot products of any length; new panics exactly on 0, 1 and non powers of two.", "quantifier": "every width, every power-of-two modulus, every operand word, every vector length", "why_tests_cant": "Unbounded vector length and all words.", "anchors": ["algebra/src/modulus/powof2/internal_macros.rs", "algebra/src/modulus/powof2/mod.rs"]}
{"id": "C11", "title": "dot_product_reduce with a Barrett modulus equals the dot product", "statement": "For canonical vectors of the same length, dot_product_reduce(a,b) = sum a_i*b_i mod m for every length.", "quantifier": "every length, every pair of canonical vectors, every accepted m", "why_tests_cant": "Depends on the vector length modulo the chunk size and on accumulated carries over 16 products.", "anchors": ["algebra/src/modulus/barrett/internal_macros.rs: dot_product_reduce"]}
{"id": "C12", "title": "Baby Bear Montgomery arithmetic is a faithful field", "statement": "to_monty/from_monty are inverse bijections on [0,P); add, sub, neg, mul, square on Montgomery words correspond to the field operations modulo P=2^31-2^27+1, never overflow; try_inverse returns the inverse for every non-zero word; exp_reduce is the power for every exponent.", "quantifier": "every pair of canonical 32-bit words, every exponent", "why_tests_cant": "2^62 operand pairs; the addition chain of the inverse is only right if its exponent is P-2 for all inputs.", "anchors": ["algebra/src/modulus/baby_bear/mod.rs", "algebra/src/modulus/baby_bear/ops.rs"]}
{"id": "C13", "title": "Goldilocks arithmetic is exact modulo 2^64-2^32+1", "statement": "reduce of a word or of a 128-bit value, add, sub, neg, mul are congruent to the exact result modulo P for all (also non-canonical) operands where the code documents so, try_inverse inverts every non-zero residue and exp_reduce is the power; canonical results for canonical inputs.", "quantifier": "every 64-bit operand, every 128-bit value", "why_tests_cant": "Carries around the epsilon trick happen with probability 2^-32.", "anchors": ["algebra/src/modulus/goldilocks/mod.rs", "algebra/src/modulus/goldilocks/ops.rs"]}
{"id": "C14", "title": "The primality test never rejects a prime", "statement": "For every prime modulus, every number of rounds and every outcome of the random bases, probably_prime returns true.", "quantifier": "every prime accepted by BarrettModulus, every round count, every sequence of random bases", "why_tests_cant": "Ranges over random choices and all primes.", "anchors": ["algebra/src/utils/prime.rs: probably_prime"]}
{"id": "C15", "title": "The primality test rejects composites with error at most 4^-rounds", "statement": "For every composite modulus the fraction of random-base sequences for which probably_prime(rounds) answers true is at most (1/4)^rounds (in particular not 1).", "quantifier": "every composite modulus, every number of rounds >= 2", "why_tests_cant": "Statement about a probability over all bases; failing composites are rare (base-2 strong pseudoprimes).", "anchors": ["algebra/src/utils/prime.rs: probably_prime"]}
{"id": "C16", "title": "Derived field operations form the prime field F_p", "statement": "For every type derived with a prime modulus p: new(v) = v mod p; +,-,unary -,* and pow return canonical representatives of the exact result; inv is the multiplicative inverse on non-zero elements; a/b*b = a for b<>0; add_mul = a + b*c; the lazy ('fast') forms are congruent and < 2p.", "quantifier": "every prime p accepted by the derive macro, every canonical element", "why_tests_cant": "All elements and moduli.", "anchors": ["algebra_derive/src/field.rs", "algebra_derive/src/ops.rs", "algebra_derive/src/fhe_field.rs", "algebra_derive/src/attr.rs: check_leading_zeros"]}
{"id": "C17", "title": "inv() and division agree on zero", "statement": "Inverting or dividing by zero is rejected by both inv() and / (both panic).", "quantifier": "zero divisor, every modulus", "why_tests_cant": "Two code paths (Fermat power vs extended gcd) must agree on the one non-invertible element of every field.", "anchors": ["algebra_derive/src/ops.rs: inv_reduce_ops, div_reduce_ops"]}
{"id": "C18", "title": "Gadget decomposition is exact", "statement": "For every basis Basis::new(bits) accepts, decompose(v) returns decompose_len digits, each < 2^bits, with sum digit_i * 2^(bits*i) = v over the integers; iterating decompose_lsb_bits gives the same digits; the coefficient-wise polynomial versions agree with the scalar one; the dimension covers the modulus.", "quantifier": "every modulus, every admissible bits, every canonical value/polynomial of any length", "why_tests_cant": "All (value, basis) pairs; the digit count formula must cover the top digit.", "anchors": ["algebra/src/decompose_basis.rs: Basis::new", "algebra_derive/src/decomposable_field.rs: decompose, decompose_at, decompose_lsb_bits", "algebra/src/polynomial/native_polynomial.rs: decompose, decompose_inplace, decompose_lsb_bits_inplace"]}
{"id": "C19", "title": "decompose_at overwrites its destination with the decomposition", "statement": "After decompose_at(basis, dest) dest holds exactly the digits decompose(basis) returns, whatever dest held before.", "quantifier": "every value and every previous content of dest", "why_tests_cant": "Depends on stale buffer contents.", "anchors": ["algebra_derive/src/decomposable_field.rs: decompose_at"]}
{"id": "C20", "title": "Forward NTT evaluates the polynomial at the odd powers of the root", "statement": "For a table built for degree n=2^k, prime p with 4p <= 2^BITS and primitive 2n-th root psi, transform of canonical coefficients a returns, at index i, sum_j a_j psi^((2*bitrev(i)+1) j) mod p, canonical, with no overflow in the lazy butterflies.", "quantifier": "every k, every prime p with 4p <= 2^BITS and every primitive 2n-th root, every coefficient vector", "why_tests_cant": "All vectors and all sizes; lazy ranges (4p) only overflow at extremes.", "anchors": ["algebra/src/transformation/ntt_table.rs: NTTTable::new, transform_slice"]}
{"id": "C21", "title": "Inverse NTT undoes the forward NTT and vice versa", "statement": "inverse_transform(transform(a)) = a and transform(inverse_transform(v)) = v for all canonical vectors of length n = 2^k, k>=1.", "quantifier": "every k>=1, every prime/root, every vector", "why_tests_cant": "Bijectivity on p^n vectors.", "anchors": ["algebra/src/transformation/ntt_table.rs: inverse_transform_slice"]}
{"id": "C22", "title": "Polynomial multiplication is negacyclic convolution", "statement": "Polynomial * Polynomial (through NTT, pointwise product and inverse NTT) equals the product in Z_p[X]/(X^n+1); NTT-domain add/sub/neg/mul/multiply-accumulate (plain and lazy) correspond to the coefficient-domain operations.", "quantifier": "every pair of polynomials, every n", "why_tests_cant": "All pairs of vectors.", "anchors": ["algebra/src/polynomial/native_polynomial.rs: Mul", "algebra/src/polynomial/ntt_polynomial.rs: add_mul_assign*, mul_inplace"]}
{"id": "C23", "title": "The monomial transforms agree with the general transform", "statement": "transform_monomial(c,d), transform_coeff_one_monomial(d) and transform_coeff_neg_one_monomial(d) produce exactly the NTT of c*X^d, X^d, -X^d in Z_p[X]/(X^n+1), for every degree d (also d >= n).", "quantifier": "every coefficient, every degree, every n", "why_tests_cant": "Index arithmetic modulo 2n with bit reversal, all degrees.", "anchors": ["algebra/src/transformation/ntt_table.rs: transform_monomial, transform_coeff_one_monomial, transform_coeff_neg_one_monomial"]}
{"id": "C24", "title": "The minimal primitive root does not depend on randomness", "statement": "Whatever random bases try_primitive_root draws, if it succeeds try_minimal_primitive_root(degree) returns the smallest primitive degree-th root of unity, so two processes build identical NTT tables.", "quantifier": "every prime p, every power-of-two degree dividing p-1, every random stream", "why_tests_cant": "Must hold for all random outcomes; needs counting roots of X^n+1.", "anchors": ["algebra_derive/src/ntt.rs: try_primitive_root, try_minimal_primitive_root, is_primitive_root"]}
{"id": "C25", "title": "The lazily filled NTT-table cache always serves the right table", "statement": "Under every sequence of get_ntt_table/init_ntt_table calls executed one at a time, each successful get_ntt_table(k) returns the table for exactly k and cached tables are never replaced or dropped.", "quantifier": "every finite history of calls", "why_tests_cant": "All call histories.", "anchors": ["algebra_derive/src/ntt.rs: get_ntt_table, init_ntt_table"]}
{"id": "C26", "title": "Concurrent use of the NTT-table cache is race free", "statement": "No interleaving of threads calling get_ntt_table and init_ntt_table has one thread reading the shared map while another mutates it.", "quantifier": "every number of threads, every schedule", "why_tests_cant": "Schedules.", "anchors": ["algebra_derive/src/ntt.rs: get_ntt_table, init_ntt_table"]}
{"id": "C27", "title": "Plaintext encode/decode round-trips with maximal noise tolerance", "statement": "For powers of two t < q, decode(encode(m)+e mod q) = m for every m<t iff the centred noise e lies in [-q/2t, q/2t); encode panics exactly for m >= t.", "quantifier": "every t<q powers of two, every message, every noise", "why_tests_cant": "All noises including the boundary.", "anchors": ["fhe_core/src/plaintext.rs: encode, decode"]}
{"id": "C28", "title": "LWE decryption inverts encryption exactly within the noise budget", "statement": "decrypt(encrypt(m)) = m for every key, message, mask and noise in [-q/2t, q/2t); decrypt_with_noise also returns the distance between phase and the encoded message.", "quantifier": "every key (binary/ternary/arbitrary), dimension, message, mask and noise draw", "why_tests_cant": "All randomness.", "anchors": ["fhe_core/src/secret_key.rs: encrypt, decrypt, decrypt_with_noise", "lattice/src/lwe.rs: generate_random_zero_sample"]}
{"id": "C29", "title": "LWE linear operations act exactly on phases", "statement": "Component-wise add/sub/neg, scalar multiplication, add-scaled and the in-place variants return canonical ciphertexts whose phase b-<a,s> is the corresponding combination mod q, for every key.", "quantifier": "every modulus, dimension, key, ciphertexts", "why_tests_cant": "All ciphertexts and keys.", "anchors": ["lattice/src/lwe.rs"]}
{"id": "C30", "title": "Sample extraction preserves the constant coefficient", "statement": "For an RLWE ciphertext (a,b) with key s, extract_lwe gives an LWE ciphertext whose phase under the coefficient vector of s is the constant coefficient of b - a*s; the in-place and truncated (partial) forms give the same for correspondingly padded keys.", "quantifier": "every N, every ciphertext, every key", "why_tests_cant": "All ciphertexts.", "anchors": ["lattice/src/rlwe.rs: extract_lwe, extract_lwe_locally, extract_lwe_reverse_locally, extract_partial_lwe*"]}
{"id": "C31", "title": "Monomial rotation of ciphertexts is exact for every exponent 0..2N", "statement": "mul_monic_monomial_sub_one_inplace(r) yields (X^r - 1)*ct and add_assign_rhs_mul_monic_monomial(r) yields ct + X^r * rhs in Z_p[X]/(X^N+1) for all 0 <= r <= 2N; larger r panic.", "quantifier": "every N, every ciphertext, every r", "why_tests_cant": "Boundary exponents r in {0,N,2N} and all vectors.", "anchors": ["lattice/src/rlwe.rs: mul_monic_monomial_sub_one_inplace, add_assign_rhs_mul_monic_monomial"]}
{"id": "C32", "title": "The gadget product multiplies messages with exactly the digit-weighted noise", "statement": "For a gadget ciphertext whose i-th row has phase m*B^i + e_i, multiplying with polynomial f gives phase m*f + sum_i digit_i(f)*e_i exactly (so the noise is bounded by len*N*B*max|e|).", "quantifier": "every basis, key, gadget ciphertext, polynomial", "why_tests_cant": "Universal over all polynomials and noises.", "anchors": ["lattice/src/gadget/rlwe.rs: mul_polynomial*", "lattice/src/rlwe.rs: add_assign_gadget_rlwe_mul_polynomial*"]}
{"id": "C33", "title": "The external product multiplies messages", "statement": "For RGSW(m) with noises e,e' and RLWE ct, mul_rgsw / mul_ntt_rgsw (all variants) return a ciphertext of phase m*phase(ct) + digit-weighted noise, exactly; all variants return the same ciphertext.", "quantifier": "every RGSW and RLWE ciphertext, key, basis", "why_tests_cant": "Universal; three implementations.", "anchors": ["lattice/src/rlwe.rs: mul_rgsw, mul_ntt_rgsw, mul_assign_ntt_rgsw, mul_ntt_rgsw_inplace", "lattice/src/rgsw.rs"]}
{"id": "C34", "title": "Fresh RLWE/RGSW samples encrypt what they say", "statement": "generate_random_zero/one/neg_secret samples have phase 0, B^i, resp. -s*B^i plus exactly the drawn noise; generation does not panic for any accepted basis.", "quantifier": "every key, mask, noise, basis", "why_tests_cant": "Universal over randomness; overflow only for certain (bits, modulus).", "anchors": ["lattice/src/rlwe.rs: generate_random_*", "lattice/src/gadget/rlwe.rs: generate_random_*", "lattice/src/rgsw.rs: generate_random_*"]}
{"id": "C35", "title": "Binary blind rotation rotates the look-up table by the phase", "statement": "For an LWE ciphertext modulo 2N and binary key, blind_rotate returns an RLWE ciphertext of phase X^{-(b-<a,s>)} * LUT plus a noise bounded by the sum of external product noises.", "quantifier": "every LWE ciphertext mod 2N, binary key, LUT, blind rotation key with bounded noise", "why_tests_cant": "Induction over the key length; all ciphertexts.", "anchors": ["fhe_core/src/blind_rotation/binary.rs: blind_rotate, generate"]}
{"id": "C36", "title": "Ternary blind rotation rotates the look-up table by the phase", "statement": "As for the binary one, for keys with entries in {0,1,-1} and the ternary blind rotation key.", "quantifier": "every LWE ciphertext mod 2N, ternary key, LUT, ring dimension up to 2^31", "why_tests_cant": "Induction over the key length; all ciphertexts.", "anchors": ["fhe_core/src/blind_rotation/ternary.rs: blind_rotate, generate"]}
{"id": "C37", "title": "LWE key switching preserves the phase up to key noise", "statement": "key_switch_for_lwe returns a ciphertext under the new key whose phase equals the old phase plus minus the sum of the selected key-entry noises, at most len*n entries.", "quantifier": "every ciphertext, key pair, basis", "why_tests_cant": "All ciphertexts and digits.", "anchors": ["fhe_core/src/key_switch/lwe.rs"]}
{"id": "C38", "title": "RLWE-based key switching preserves the phase up to key noise", "statement": "key_switch_for_rlwe and key_switch_for_lwe (any relation between the LWE dimension and N) preserve the constant-coefficient phase exactly up to the digit-weighted key noise.", "quantifier": "every ciphertext, key pair, basis, dimension", "why_tests_cant": "All ciphertexts; the chunked branch depends on dimension vs N.", "anchors": ["fhe_core/src/key_switch/rlwe.rs"]}
{"id": "C39", "title": "Modulus switching rounds correctly and keeps residues canonical", "statement": "lwe_modulus_switch maps each v < q_before to round(v*q_after/q_before) mod q_after, a canonical value, although it computes in f64; the phase error is at most (1+||s||_1)/2 in the new scale.", "quantifier": "every v, every pair of moduli with v*q_after < 2^52, every ciphertext and key", "why_tests_cant": "Floating-point rounding at half-way points; unbounded values.", "anchors": ["fhe_core/src/modulus_switch.rs"]}
{"id": "C40", "title": "Boolean look-up tables encode the gate for every phase in the slice", "statement": "For each gate, the LUT polynomial has +Q/8 or -Q/8 at each used position such that the rotated constant coefficient plus floor(Q/8) is 2*floor(Q/8) exactly on the phases where the gate is true and 0 elsewhere.", "quantifier": "every power of two N >= 4 and q >= 8 with one of 2N, q dividing the other, every field, every phase on the table's grid", "why_tests_cant": "All phases and parameter sets.", "anchors": ["bool/src/bfhe/evaluate.rs: init_*_lut, lut_step"]}
{"id": "C41", "title": "Bootstrapped boolean gates compute their truth table", "statement": "nand/and/or/nor/xor/xnor/majority/mux/not on ciphertexts whose phase noise is below the stated bound decrypt to the Boolean function of the decryptions, for each processing order of bootstrap; not is exact and adds no noise.", "quantifier": "every key, evaluation key with bounded noise, input ciphertexts within the noise budget", "why_tests_cant": "Composition of all layers over all ciphertexts.", "anchors": ["bool/src/bfhe/evaluate.rs", "fhe_core/src/blind_rotation/{binary,ternary}.rs"]}
{"id": "C42", "title": "Accepted parameters satisfy the invariants evaluation relies on", "statement": "Whenever Parameters::new returns Ok, N is a power of two, 2N divides Q-1, t and q are powers of two with t<=q, both bases are valid, so key generation, encryption, decryption and bootstrapping cannot panic.", "quantifier": "every constant-parameter record", "why_tests_cant": "All parameter combinations.", "anchors": ["fhe_core/src/parameter.rs: Parameters::new"]}
{"id": "C43", "title": "The field uniform sampler is exactly uniform", "statement": "Among the accepted raw words every field element has exactly the same number of preimages, every returned element is canonical and at least half of the raw words are accepted.", "quantifier": "every modulus, every raw word", "why_tests_cant": "A statistical test cannot distinguish bias 2^-32.", "anchors": ["algebra/src/random.rs: FieldUniformSampler", "algebra/src/field/mod.rs: Field::random"]}
{"id": "C44", "title": "Binary, ternary and centred-binomial samplers have the documented distributions", "statement": "Counting over all raw words/bytes: binary vectors get every bit string equally often, ternary entries have weights 2:1:1, and cbd entries have exactly the binomial weights of the difference of two 21-bit popcounts; outputs are canonical and of the requested length.", "quantifier": "every length, every raw random stream; for cbd every field modulus above 42 (below 21 the sampler can panic)", "why_tests_cant": "Counting over all streams.", "anchors": ["algebra/src/utils/sample.rs", "lattice/src/utils/sample.rs", "algebra/src/random.rs"]}
{"id": "C45", "title": "Bit reversal is an involutive permutation of 0..2^k", "statement": "reverse_lsbs(i,k) for i < 2^k is the k-bit mirror image, maps [0,2^k) bijectively onto itself and is its own inverse.", "quantifier": "every k < BITS, every i < 2^k", "why_tests_cant": "All k and i.", "anchors": ["algebra/src/utils/reverse.rs: reverse_lsbs"]}
{"id": "C46", "title": "Polynomial evaluation and ring operations are exact", "statement": "Polynomial evaluate is Horner evaluation sum c_i x^i mod p; add/sub/neg/mul_scalar are coefficient-wise exact; mul_assign in place agrees with Mul.", "quantifier": "every polynomial length, every point", "why_tests_cant": "All lengths and points.", "anchors": ["algebra/src/polynomial/native_polynomial.rs"]}
{"id": "C47", "title": "Plaintext narrowing never silently truncates", "statement": "Decoding into a message type returns the same integer for every message the type can hold and panics (never silently truncates) otherwise; for bool the holdable messages are 0 and 1.", "quantifier": "every message type and message", "why_tests_cant": "All messages and types.", "anchors": ["fhe_core/src/plaintext.rs: Shrink, LWEMsgType"]}
{"id": "C48", "title": "The polynomial inverse is the ring inverse or an error", "statement": "inv() of a polynomial that has an inverse in Z_p[X]/(X^n+1) returns the canonical polynomial whose product with it is 1; for a polynomial without inverse it does not silently return a value.", "quantifier": "every polynomial, every n = 2^k with k>=1", "why_tests_cant": "All polynomials; the failing ones are those vanishing at some root of X^n+1.", "anchors": ["algebra/src/polynomial/native_polynomial.rs: Polynomial::inv", "algebra/src/polynomial/ntt_polynomial.rs: NTTPolynomial::inv"]}
{"id": "C49", "title": "Key generation, encryption, evaluation and decryption compose", "statement": "With keys made by SecretKeyPack::new and EvaluationKey::new from any random draws, encrypting bits, evaluating any circuit of gates and decrypting gives the value of the circuit on the bits, whenever the noise level implied by the parameters, the weights of the secrets and the bound on the noise draws fits the decoding margin.", "quantifier": "every usable parameter set (all three processing orders, all key kinds), every random word, mask and noise draw within the bound, every circuit of any size and depth", "why_tests_cant": "All random draws, inputs and circuits; failures only show on rare draws.", "anchors": ["fhe_core/src/secret_key.rs: SecretKeyPack::new, encrypt, decrypt", "fhe_core/src/blind_rotation/mod.rs: BlindRotationKey::generate", "bool/src/bfhe/evaluate.rs: EvaluationKey::new, gates"]}
{"id": "C50", "title": "128-bit blocks convert without loss and operate bitwise", "statement": "Block converts from and to u128, [u64;2] and [u8;16] without loss and consistently (first half = low half); ^, | and & are the operators of u128; == compares all bytes; try_from_slice succeeds exactly for 16 bytes and never panics; ZERO and default are the integer 0.", "quantifier": "every block, every integer, every slice length", "why_tests_cant": "2^128 blocks and all slice lengths.", "anchors": ["algebra/src/utils/block.rs: Block"]}
{"id": "C51", "title": "Aes is AES-128 on every supported architecture", "statement": "Aes::new followed by encrypt_block returns the FIPS-197 AES-128 ciphertext for every key and block, with the x86 and with the Arm instruction sequences, without panicking; so results do not depend on the machine.", "quantifier": "every 128-bit key and block, both architectures", "why_tests_cant": "2^256 inputs; the Arm path (emulated key assist) is not even compiled on x86 test machines.", "anchors": ["algebra/src/utils/aes.rs: Aes::new, Aes::encrypt_block", "algebra/src/utils/sse2neon.rs"]}
{"id": "C52", "title": "Batch encryption encrypts each block once, in place", "statement": "encrypt_many_blocks and encrypt_block_slice return, for every number of blocks, the encryption of each block in its place.", "quantifier": "every number of blocks (fixed-size batches and slices with any remainder), every key", "why_tests_cant": "All lengths; grouping by eight has a remainder case per length.", "anchors": ["algebra/src/utils/aes.rs: encrypt_many_blocks, encrypt_block_slice"]}
{"id": "C53", "title": "Block encryption is a permutation", "statement": "For every key, each 128-bit block is the encryption of exactly one block, which the inverse cipher recovers.", "quantifier": "every key and block", "why_tests_cant": "Injectivity over 2^128 blocks.", "anchors": ["algebra/src/utils/aes.rs: encrypt_block"]}
{"id": "C54", "title": "The seeded generator reads one deterministic key stream", "statement": "Prg::from_seed: every history of next_u32, next_u64, fill_bytes, random_byte(s), random_bool(s), random_block(s) returns consecutive parts of the counter-mode AES key stream of the seed, independent of the architecture and of how calls are split at buffer boundaries; no block is returned twice; it panics exactly when 2^64-8 blocks are used up; Prg::from_rng on another generator takes the next block of its stream as the seed and leaves it right after that block.", "quantifier": "every seed, every finite history of calls of any sizes", "why_tests_cant": "Unbounded histories, all interleavings with the 32-word buffer, exhaustion after 2^64-8 blocks.", "anchors": ["algebra/src/utils/prg.rs: PrgCore, Prg", "algebra/src/utils/block.rs", "algebra/src/utils/aes.rs"]}
{"id": "C55", "title": "Gaussian noise samples are bounded, rounded and canonical", "statement": "FieldDiscreteGaussianSampler and DiscreteGaussian can be built exactly for finite non-negative deviations; their bound is six deviations; sampling discards every draw not strictly inside the bound around the mean and returns the first one that is, rounded to the nearest integer and reduced mod the modulus, the same for both samplers; error polynomials have coefficients of absolute size at most the bound; sampling terminates and never panics.", "quantifier": "every sequence of underlying normal draws (any floats, including infinities and NaN), every deviation, modulus and length", "why_tests_cant": "Rare draws (ties, near the bound, infinite) decide; the bounds feed every noise budget.", "anchors": ["algebra/src/random.rs: FieldDiscreteGaussianSampler", "lattice/src/utils/sample.rs: DiscreteGaussian", "algebra/src/polynomial/native_polynomial.rs: random_with_gaussian"]}
{"id": "C56", "title": "Word primitives chain to exact multi-word arithmetic", "statement": "Chaining carrying_add / borrowing_sub over the words of two numbers of any length, or carrying_mul over a number and a word, gives the exact sum, difference or product including the final carry, borrow or high word; widening_mul and the _hw variants return the exact halves; the double-width intermediates never overflow.", "quantifier": "every word width, number of words, words and incoming carry", "why_tests_cant": "All widths and lengths; carries meet only on rare operands.", "anchors": ["algebra/src/primitive/widening/*.rs: CarryingAdd, BorrowingSub, CarryingMul, WideningMul"]}
{"id": "C57", "title": "Field elements compare, print and serialise as their residue", "statement": "Elements built from words are equal exactly when the words are congruent, order by residue, and is_zero/is_one/is_neg_one recognise 0, 1, -1; deserialising what was serialised gives the element back; any integer of the word type deserialises to the canonical element of its class and any other integer is an error; Display is the decimal numeral of the residue.", "quantifier": "every derivable field, every word and integer token", "why_tests_cant": "All words, including non-canonical and out-of-range untrusted input.", "anchors": ["algebra_derive/src/basic.rs", "algebra_derive/src/field.rs: Field::new"]}
{"id": "C58", "title": "The transform counters lose no transform", "statement": "With the count_ntt feature on: under every schedule of any number of threads the counters equal the transforms counted so far, and all transforms once the threads are done; while disabled nothing is counted; a single thread reads exactly the transforms performed while enabled since its last clear (mod 2^32).", "quantifier": "every number of threads, every program of calls, every interleaving", "why_tests_cant": "All interleavings of unboundedly many threads and calls.", "anchors": ["algebra/src/transformation/ntt_table.rs: count, transform_slice, inverse_transform_slice"]}
{"id": "C59", "title": "Decomposition into caller buffers is exact and ignores their content", "statement": "decompose_inplace overwrites any previous content of its buffers with digits below the basis that recompose to the polynomial, equal to those of decompose, and leaves the polynomial zero; decompose_lsb_bits_inplace splits off the lowest digit; buffers of wrong number or size are refused.", "quantifier": "every field, basis, polynomial and buffer content", "why_tests_cant": "All polynomials and stale contents.", "anchors": ["algebra/src/polynomial/native_polynomial.rs: decompose_inplace, decompose_lsb_bits_inplace"]}
{"id": "C60", "title": "Blind rotation noise has the mean square the parameters were chosen for", "statement": "When every noise coefficient of a binary or ternary blind rotation key is drawn independently with mean zero and mean square at most V, blind rotation of any table by any LWE ciphertext never panics, and over the draws of the noise the error of each output coefficient has mean square at most 2*len*N*(base-1)^2*V (twice that for ternary keys) per nonzero mask entry; so the fraction of draws whose error reaches T is at most that over T^2. For the default parameter set fewer than one draw in 877 reaches p/16.", "quantifier": "every noise distribution with finite support, field, ring dimension, basis, secrets, uniform rows, table, ciphertext and output coefficient", "why_tests_cant": "A statement about averages over all draws of a key with thousands of coefficients; statistical tests only sample it, and the worst-case bound is useless for real parameters.", "anchors": ["fhe_core/src/blind_rotation/{mod,binary,ternary}.rs: BlindRotationKey::{generate, blind_rotate}", "lattice/src/rgsw.rs", "bool/src/bfhe/parameters.rs"]}
{"id": "C61", "title": "From the configured deviations to the value of a circuit", "statement": "With the three standard deviations configured and budget to spare for six of each, generating a secret key and an evaluation key and encrypting bits never panics whatever random words, masks, bytes and normal draws arrive, and every circuit of gates on ciphertexts so obtained decrypts to the value of the circuit; when enough normal draws fall within five deviations every call returns.", "quantifier": "every parameter set within the noise budget, all random streams, messages and circuits", "why_tests_cant": "All streams of randomness and all circuits; a rejected or extreme draw is far too rare to be met in a test.", "anchors": ["fhe_core/src/secret_key.rs: SecretKeyPack::{new, encrypt, decrypt}", "bool/src/bfhe/evaluate.rs: EvaluationKey::new", "fhe_core/src/parameter.rs: *_noise_distribution", "algebra/src/random.rs", "lattice/src/{lwe,rlwe,rgsw}.rs: generate_random_*"]}
{"id": "C62", "title": "Blind rotation noise has Gaussian tails", "statement": "When every noise coefficient of a binary or ternary blind rotation key is drawn independently from a distribution whose moments are at most those of a Gaussian of variance V, then over the draws every even moment of the error of each output coefficient is at most that of a Gaussian whose variance W is the bound of the mean square; the fraction of draws whose error reaches T is at most (2m-1)!!(W/T^2)^m for every m. For the default parameter set fewer than one draw in 2^160 reaches p/16. The library's centred binomial sampler is such a distribution with V = 11.", "quantifier": "every such noise distribution, field, ring dimension, basis, secrets, uniform rows, table, ciphertext, output coefficient, threshold and moment order", "why_tests_cant": "Events of probability 2^-160 never occur in a test; the statement is about all draws of a key with thousands of coefficients.", "anchors": ["fhe_core/src/blind_rotation/{mod,binary,ternary}.rs: BlindRotationKey::{generate, blind_rotate}", "algebra/src/utils/sample.rs: sample_cbd_field_vec", "bool/src/bfhe/parameters.rs"]}
{"id": "C63", "title": "A bootstrapped gate fails with negligible probability", "statement": "For every secret key generated under a ternary LWE key, the order rotation - key switching - modulus switching and an LWE dimension that rounds up to the ring dimension: when the masks of the evaluation key are uniform and its noise has at most the moments of a Gaussian, then for any inputs whose noise is within the input radius, the chance over the evaluation key that key generation, a two-input gate or majority, or decryption panics or gives a wrong bit is at most (2i-1)!!(W/T^2)^i + (Nn/p)^(r+1) for every order i, threshold T and count r that fit the decryption radius. For the default parameter set and two freshly encrypted bits less than one evaluation key in 2^113 fails.", "quantifier": "every such parameter set, secret key, message, encryption randomness, noise distribution, gate, order, threshold and count", "why_tests_cant": "Failures of probability 2^-113 never occur in a test; the worst-case bounds of the noise do not cover the shipped parameters, so only a statement over all evaluation keys does.", "anchors": ["bool/src/bfhe/evaluate.rs: EvaluationKey::new, Evaluator::{nand, and, or, nor, xor, xnor, majority}, bootstrap", "bool/src/bfhe/parameters.rs: DEFAULT_TERNARY_128_BITS_PARAMETERS", "fhe_core/src/key_switch/rlwe.rs", "fhe_core/src/modulus_switch.rs", "fhe_core/src/secret_key.rs"]}
{"id": "C64", "title": "Adding, subtracting and scaling ring, gadget and RGSW ciphertexts acts on phases and messages", "statement": "Every by-reference, by-value, in-place and into-destination form of adding or subtracting two RLWE ciphertexts returns the same ciphertext, whose phase under every key is the sum or difference of the phases; adding or subtracting gadget or RGSW ciphertexts gives an encryption of the sum or difference of the messages with noise the sum or difference of the noises; multiplying by a polynomial in NTT form multiplies phases, messages and noises by it; doing any of this in the NTT form commutes with the transform; destinations' old contents do not matter; different bases or dimensions are refused.", "quantifier": "every field, ring dimension, basis, key, messages, noises, ciphertexts and destination contents", "why_tests_cant": "All ciphertexts, keys and stale destination contents.", "anchors": ["lattice/src/rlwe.rs: {add,sub}_element_wise*, {add,sub}_assign_element_wise, {add,sub}_inplace, mul_ntt_polynomial_{assign,inplace}", "lattice/src/gadget/rlwe.rs: add_inplace, sub_inplace", "lattice/src/rgsw.rs: add_inplace, sub_inplace, mul_ntt_polynomial_assign"]}
{"id": "C65", "title": "A gate that switches the modulus right after the rotation fails with small probability", "statement": "For every secret key generated under a ternary LWE key and the order rotation - modulus switching - LWE key switching, or rotation - modulus switching alone: when the masks of the rotation key are uniform and the noise of the evaluation key has at most the moments of Gaussians, then whatever the masks of the switching key and for any inputs whose noise is within the input radius, the chance that evaluation key generation, a two-input gate or majority, or decryption panics or gives a wrong bit is at most the tail of the key noise beyond T plus the tail of the rounding noise beyond T' plus (Nn/p)^(r+1), for all thresholds and counts that fit the decryption radius. For the shipped custom parameter set fewer than one evaluation key in 2^16 fails on inputs that leave room for the first modulus switch.", "quantifier": "every such parameter set, secret key, message, encryption randomness, switching-key mask, noise distribution, gate, order, thresholds and count", "why_tests_cant": "A probability over all evaluation keys; worst-case noise bounds do not cover the shipped parameters and a test samples a handful of keys.", "anchors": ["bool/src/bfhe/evaluate.rs: EvaluationKey::new, Evaluator::{nand, and, or, nor, xor, xnor, majority}, bootstrap", "bool/src/bfhe/parameters.rs", "fhe_core/src/key_switch/lwe.rs", "fhe_core/src/modulus_switch.rs", "fhe_core/src/secret_key.rs"]}
{"id": "C66", "title": "The default build and the build without the external transform crate compute the same polynomials", "statement": "With the default feature, 32- and 64-bit fields take their transforms from an external crate. If the crate evaluates, inverts and transforms monomials as documented, then in both builds a generated table transforms to the values at the odd powers of its root in bit-reversed order, the inverse undoes it, and monomials transform as if written out; two builds give the same values up to order, equal ones if their roots agree; products of polynomials are equal in both builds; root arithmetic and the search for the least primitive root give the same results; and the contract is one the repository's own tables meet.", "quantifier": "every field, size, crate meeting the contract, drawn candidates and polynomials", "why_tests_cant": "The crate is chosen by a feature flag and a word width; tests run one build on some polynomials.", "anchors": ["algebra/src/transformation/concrete.rs: ConcreteTable", "algebra/src/transformation/mod.rs: AbstractNTT, MonomialNTT", "algebra_derive/src/ntt.rs", "algebra/src/polynomial"]}
{"id": "C67", "title": "Running many gates under one key pair", "statement": "Take any bits, encrypt them under one secret key with any masks and noise in the sampler's range, and evaluate any list of gates (nand, and, or, nor, xor, xnor, majority, each on inputs or negated inputs) with one evaluation key. The chance over the evaluation key's randomness that anything panics or any result decrypts to the wrong bit is at most the number of gates times the bound for one gate: G/2^113 for the shipped default set and every secret key. For the shipped custom set the room left for noise shrinks with the weight of the secret key; a sampled secret key is too heavy with chance below 2^-400, so over both keys a whole run fails with chance at most G/2^16 + 2^-400.", "quantifier": "all parameter sets meeting the stated inequalities, all random words, all bits, masks, noises within the bound, all lists of gates", "why_tests_cant": "The chance is far too small to observe, and the gates share one evaluation key, so their failures are not independent and cannot be sampled one by one.", "anchors": ["bool/src/bfhe/evaluate.rs: EvaluationKey::new, nand, and, or, nor, xor, xnor, majority, not", "fhe_core/src/secret_key.rs: SecretKeyPack::new", "bool/src/encrypt.rs", "bool/src/decrypt.rs", "bool/src/bfhe/parameters.rs"]}
{"id": "C68", "title": "Operands of mismatched sizes are refused, never silently truncated", "statement": "Adding, subtracting, multiplying or converting polynomials, ring ciphertexts or LWE ciphertexts of different sizes, writing into a destination of another size, decrypting under a key of another dimension and evaluating a gate on ciphertexts of different dimensions is refused, so that no result ever silently leaves out part of an operand.", "quantifier": "every pair of operands and destinations, of any two lengths, in every operation that combines them", "why_tests_cant": "Tests pass operands of the right size; whether every entry point checks the size, and what exactly comes out of those that do not, ranges over all lengths and contents.", "anchors": ["algebra/src/polynomial/{native_polynomial,ntt_polynomial}.rs", "lattice/src/rlwe.rs", "lattice/src/lwe.rs", "fhe_core/src/modulus_switch.rs", "fhe_core/src/blind_rotation/ternary.rs", "bool/src/bfhe/evaluate.rs"]}
{"id": "C69", "title": "Gates under a binary secret key fail with small probability", "statement": "For every secret key generated under a binary LWE key, in each of the three orders of the steps after the rotation: when the masks of the evaluation key are uniform (those of an LWE switching key arbitrary) and its noise has at most the moments of Gaussians, then for any inputs whose noise is within the input radius the chance that evaluation key generation, a two-input gate or majority, or decryption panics or gives a wrong bit is at most the bound for ternary keys with half the variance in the rotation. The default parameter set with its key made binary fails with a chance below 2^-115.", "quantifier": "every such parameter set, secret key, message, encryption randomness, noise distribution, gate, order, thresholds and count", "why_tests_cant": "A probability over all evaluation keys, too small to observe; no shipped set uses binary keys, so no test runs a gate under one.", "anchors": ["fhe_core/src/blind_rotation/binary.rs", "fhe_core/src/blind_rotation/mod.rs: BlindRotationKey::generate", "bool/src/bfhe/evaluate.rs: EvaluationKey::new, Evaluator::{nand, and, or, nor, xor, xnor, majority}, bootstrap", "fhe_core/src/secret_key.rs: SecretKeyPack::new"]}
{"id": "C70", "title": "A field declaration is accepted exactly when its modulus is usable, and keeps it", "statement": "#[derive(Field)] accepts an item exactly when it is a struct with one unnamed field of type u8, u16, u32 or u64 whose first #[modulus = <integer>] attribute is at least 2 and below a quarter of the range of the word; the resulting type has exactly that modulus, never a truncated one, and the Prime, NTT, DecomposableField and FheField derives read the same width and value.", "quantifier": "every item: any fields, any attributes in any order, any integer literal", "why_tests_cant": "The literals and declarations are infinitely many; rejected ones are compile errors that the test suite does not exercise.", "anchors": ["algebra_derive/src/ast.rs: Input::from_syn, Field::from_syn", "algebra_derive/src/attr.rs: get, parse_modulus_value, ModulusValue::check_leading_zeros", "algebra_derive/src/field.rs: derive"]}
{"id": "C71", "title": "Unchecked table reads stay in bounds and monomials transform exactly in an optimised build", "statement": "The monomial transforms read the table of powers without a bounds check. In a build without overflow checks and debug assertions they still never read outside the table, whatever the exponent (any usize) and the length of the destination: the entries covered by the transform size are those of the general transform of c*X^d, a longer destination keeps its remaining entries unless it is filled with a constant, and on a destination of the right length the result is exact for every exponent, also where the products wrap and a checked build panics. Where a checked build returns, the optimised build returns the same.", "quantifier": "every field, generated table, coefficient, usize exponent and destination of any length and contents", "why_tests_cant": "Memory safety of an unchecked read over 2^64 exponents and all lengths; tests run the checked profile on small exponents.", "anchors": ["algebra/src/transformation/ntt_table.rs: MonomialNTT::{transform_monomial, transform_coeff_one_monomial, transform_coeff_neg_one_monomial}", "algebra/src/transformation/ntt_table.rs: generate_ntt_table"]}
{"id": "C72", "title": "The search for a root of unity practically never fails", "statement": "For every prime field and every transform size dividing p-1, over the hundred uniform draws from 2..p-1 the search for a primitive root and the generation of a transform table fail on exactly ((p-3)/2)^100 of the (p-2)^100 vectors of draws, the ones that are all squares: a chance below 2^-100.", "quantifier": "every prime modulus accepted by the field, every size dividing p-1, all vectors of draws", "why_tests_cant": "An exact count over (p-2)^100 outcomes, far too rare to observe, for every prime.", "anchors": ["algebra_derive/src/ntt.rs: try_primitive_root, try_minimal_primitive_root, generate_ntt_table"]}
{"id": "C73", "title": "Threads asking for transform tables: right answers, no deadlock, schedule-independent results", "statement": "Any number of threads may ask for transform tables or initialise them at any time in a fresh process. Under every interleaving of their accesses, for a prime field and sizes that fit: each thread gets only right answers (the table of the size it asked for, an error only if its own search failed on a size it had not been told is there, never a panic), a table in the cache is never replaced, and if the searches succeed each thread's result is the one it has running alone, whatever the schedule. With any modulus and any sizes, also after panics: while a thread is unfinished some thread can move, all can be brought to their ends, and no schedule goes on for ever.", "quantifier": "every number of threads, every program of requests and continuations, every schedule, every enumeration order and random draw", "why_tests_cant": "A test observes a few schedules of one process; the claim is about all interleavings and all programs.", "anchors": ["algebra_derive/src/ntt.rs: get_ntt_table, init_ntt_table, NTT_TABLE, NTT_MUTEX", "bool/src/bfhe/evaluate.rs: mux (rayon::join)"]}
{"id": "C74", "title": "The transforms a gate or key generation performs reveal nothing secret", "statement": "With the transform counters on, generating keys makes forward transforms only, as many as the parameters prescribe, and evaluating a gate makes, in order, 2l forward and two inverse transforms for every mask entry that does not round to zero and then those of the ring key switch if there is one: the sequence is a function of the parameters and of the ciphertext's mask alone, the same for all secrets, noises and messages; under any schedule of threads the counters read the sum of these numbers modulo 2^32; with the external crate's tables they never move.", "quantifier": "every parameter set, secret, noise, ciphertext, look-up table and thread schedule", "why_tests_cant": "A test compares counters for a few keys; independence from the secret is a statement about all pairs of keys and messages.", "anchors": ["algebra/src/transformation/ntt_table.rs: count_ntt", "bool/src/bfhe/evaluate.rs: bootstrap, gates, EvaluationKey::new", "fhe_core/src/blind_rotation/*", "fhe_core/src/key_switch/rlwe.rs", "fhe_core/src/secret_key.rs"]}
{"id": "C75", "title": "Encryptions hide adaptively chosen messages as well as LWE samples look uniform", "statement": "Whatever has been published (an evaluation key included) and however keys, masks and noises are distributed: an adversary who chooses each message from the ciphertexts already received and then runs any test distinguishes two ways of choosing by exactly the difference of the advantages of two explicit tests at telling LWE samples of the key from samples with uniform bodies; those tests only add the scaled messages and run the given one. With uniform bodies nothing at all is revealed. No encryption panics. With repeated randomness two ciphertexts are equal exactly when their messages are.", "quantifier": "every finite distribution of keys, published data, masks and noises, every number of ciphertexts, every adaptive choice of messages and every test", "why_tests_cant": "A statement about all adversaries; a test runs none.", "anchors": ["fhe_core/src/secret_key.rs: SecretKeyPack::encrypt", "lattice/src/lwe.rs: generate_random_zero_sample", "fhe_core/src/plaintext.rs: encode", "bool/src/encrypt.rs: Encryptor::encrypt"]}
{"id": "C76", "title": "An optimised build returns what a checked build returns", "statement": "For every public operation of the library (moduli, fields, transforms, polynomials, LWE, RLWE, gadget and RGSW ciphertexts, blind rotation, key switching, parameters, key generation, encryption, decryption, gates and circuits of gates): whenever the build with overflow checks and debug assertions returns a value, the build without them, in which arithmetic wraps, shift amounts are reduced and debug assertions vanish, returns the same value. So generating keys, encrypting, evaluating any circuit and decrypting in the optimised build gives the value of the circuit.", "quantifier": "every argument of every operation; every parameter set, key, noise within the budget and circuit for the end-to-end statement", "why_tests_cant": "Tests run in one profile at a time on some inputs; that wrapping never changes an answer is a statement about all of them.", "anchors": ["algebra/src/**", "lattice/src/**", "fhe_core/src/**", "bool/src/**", "Cargo.toml: profiles"]}
{"id": "C77", "title": "Where a checked build stops, an optimised build returns a known value", "statement": "In a build without overflow checks and debug assertions: gadget and RGSW encryptions of one in coefficient form are right for every accepted basis; powers of unreduced words are right, only the first power being returned as it came; the negation of a Goldilocks word is right exactly up to the modulus and off by 2^32 - 1 above it, which products of reduced elements reach; polynomial operations on different lengths keep the shorter length (or, when assigning, the rest of the left operand); decryption with a key of another length ignores the excess; with equal plaintext and ciphertext moduli, which the parameter check accepts, everything decrypts to zero; the extended gcd of any two non-zero words ends with the right divisor, so inversion tells units from non-units for every modulus, but modulo a plain word of 2^(BITS-2) or more the inverse may be wrong.", "quantifier": "every modulus, word, exponent, pair of polynomials, key, ciphertext, basis and noise", "why_tests_cant": "Tests run with debug assertions and never reach these values; that the wrong ones are returned silently is seen by no test.", "anchors": ["lattice/src/gadget/*: generate_random_one_sample, generate_random_neg_secret_sample", "lattice/src/rgsw.rs: generate_random_one_sample", "algebra/src/modulus/*: pow", "algebra/src/modulus/goldilocks/*: neg_reduce", "algebra/src/polynomial/*: add, sub, mul", "fhe_core/src/secret_key.rs: decrypt", "fhe_core/src/plaintext.rs: decode"]}
{"id": "C78", "title": "The published keys hide the secrets they encrypt as well as encryptions of zero look uniform", "statement": "Whatever else has been published and however the remaining keys and noises are distributed: a test of the published blind-rotation key tells two LWE secrets apart by exactly the difference of the advantages of two explicit tests at telling encryptions of zero under the ring secret from uniform rows; a test of the LWE switching key tells two ring secrets apart by exactly the difference of two advantages at telling LWE samples from uniform bodies; a test of the ring switching key likewise for encryptions of zero under the LWE secret. The explicit tests add public multiples of the guessed secret to the rows they are given and run the given test. With uniform rows the keys reveal nothing. Generation does not panic.", "quantifier": "every finite distribution of the other data, every pair of secrets of the right length (binary and ternary LWE keys), every parameter set the field, table and basis serve, every test", "why_tests_cant": "A statement about all adversaries and all secrets; a test runs none.", "anchors": ["fhe_core/src/blind_rotation/mod.rs: BlindRotationKey::generate", "fhe_core/src/blind_rotation/binary.rs: BinaryBlindRotationKey::generate", "fhe_core/src/blind_rotation/ternary.rs: TernaryBlindRotationKey::generate", "fhe_core/src/key_switch/lwe.rs: KeySwitchingLWEKey::generate", "fhe_core/src/key_switch/rlwe.rs: KeySwitchingRLWEKey::generate", "lattice/src/rgsw.rs: generate_random_zero_sample, generate_random_one_sample"]}
{"id": "C79", "title": "The transform counters are exact under the language's memory model", "statement": "With counting on and nobody switching it or clearing, the counter ends having grown by exactly the number of transforms of its kind (mod 2^32) in every execution the Rust memory model allows for the relaxed accesses; a read sees at least the transforms that happen before it and none that happen after it; switching on, clearing, letting threads transform, waiting for them, switching off and reading returns exactly the number of transforms in between; while counting is off the counter keeps its value. Every interleaving is such an execution. Reads not ordered with the transforms may see them out of order, as no interleaving does.", "quantifier": "every finite set of calls by any number of threads, every happens-before order containing program order, every modification order and reads-from choice coherent with it", "why_tests_cant": "The hardware a test runs on shows few of the reorderings the language permits, and schedules are not under the test's control.", "anchors": ["algebra/src/transformation/ntt_table.rs: COUNT_ENABLE, NTT_COUNT, INTT_COUNT", "algebra/src/transformation/ntt_table.rs: enable_count_ntt_and_intt, disable_count_ntt_and_intt, get_ntt_count, clear_ntt_count, transform_slice, inverse_transform_slice"]}
{"id": "C80", "title": "Keys and ciphertexts never share randomness", "statement": "A key pack, its evaluation key and ciphertexts drawn from one random generator take their secrets, masks and errors from consecutive, disjoint stretches of requests to it: the two secrets, then every row of the rotation key (mask, then error), then every row of the switching key, then each ciphertext. Nothing else of the generator matters to a call than the answers in its own stretch. Whatever the generator answers, key generation and encryption never panic and the ciphertexts go through any circuit to the value of the circuit; if within a bounded number of requests it gives an acceptable word and an acceptable normal draw, every call returns.", "quantifier": "every generator and every position in its stream, every parameter set in the noise budget (all three step orders, binary and ternary LWE keys, the three kinds of ring key), every circuit, every deviation", "why_tests_cant": "Reuse of a draw between two samples breaks security without changing any decrypted value, so no functional test sees it; it must not happen at any position of any stream.", "anchors": ["bool/src/bfhe/evaluate.rs: EvaluationKey::new", "fhe_core/src/secret_key.rs: SecretKeyPack::new, encrypt", "fhe_core/src/blind_rotation/mod.rs: BlindRotationKey::generate", "fhe_core/src/key_switch/lwe.rs: KeySwitchingLWEKey::generate", "fhe_core/src/key_switch/rlwe.rs: KeySwitchingRLWEKey::generate", "lattice/src/rlwe.rs: generate_random_zero_sample", "lattice/src/lwe.rs: generate_random_zero_sample", "algebra/src/random.rs: DiscreteGaussian, UniformSampler"]}
{"id": "C81", "title": "A seed determines keys and ciphertexts, from separate parts of its stream, on every machine", "statement": "Key generation and encryption depend on a random generator only through its answers in the states they bring it through; whatever the generator, they panic only if it does and the ciphertexts go through any circuit to the value of the circuit. With the library's seeded generator, after any history of calls: the keys and ciphertexts are those read from the AES counter-mode stream of the seed, each from the words between where the previous call stopped and where it stops; no other word matters; both architectures give the same keys and ciphertexts; the only panic is the end of the stream.", "quantifier": "every type of generator and state, every seed, history of calls and position, every pair of external distributions that read words of the generator, every parameter set in the noise budget, every circuit", "why_tests_cant": "Tests use one random seed per run on one architecture; reuse of part of the stream or a different key on another machine would change no decrypted value.", "anchors": ["algebra/src/utils/prg.rs: Prg", "bool/examples/bfhe.rs", "bool/examples/count_ntt.rs", "bool/src/bfhe/evaluate.rs: EvaluationKey::new", "fhe_core/src/secret_key.rs: SecretKeyPack::new, encrypt", "lattice/src/lwe.rs: generate_random_zero_sample", "algebra/src/random.rs: DiscreteGaussian"]}
{"id": "C82", "title": "The example programs never fail an assertion", "statement": "bool/examples/bfhe.rs, run for any number of passes with any starting bits and any generators, panics only if a generator does: every gate output decrypts to the right bit with noise below a sixteenth of the modulus, so the passes compute in the clear what they compute encrypted; if the generators keep giving acceptable draws the program ends; with the seeded generator only the end of a stream stops it. The same for bool/examples/count_ntt.rs. bool/examples/encode.rs succeeds for all powers of two t < q, decoding every message with noise of plus and minus q/(2t) - 1. algebra/examples/field.rs returns the inverse of the fifth power of minus the drawn element and the negacyclic product of the drawn polynomials, for all drawn values; only drawing zeros for ever keeps it from ending.", "quantifier": "every number of passes, all bits, every generator and seed, every parameter set in the worst-case noise budget; every pair of powers of two; every prime field and table, all elements and polynomials", "why_tests_cant": "An example runs one random choice of keys and noises per run; that no assertion can fail is a statement about all of them.", "anchors": ["bool/examples/bfhe.rs: main, bfhe", "bool/examples/count_ntt.rs: main", "bool/examples/encode.rs: main", "algebra/examples/field.rs: main", "fhe_core/src/secret_key.rs: decrypt_with_noise", "bool/src/bfhe/evaluate.rs: Evaluator"]}
{"id": "C83", "title": "What is drawn from a random seed is as random as the cipher", "statement": "For every test: the chance that it accepts the answers of any history of calls of the seeded generator, or the keys, evaluation key and ciphertexts of a session, over a uniformly random seed, differs from its chance over uniformly random blocks by at most its advantage (computing the answers or the session from blocks first) at telling AES-128 under a random key from a random permutation on the blocks 0..n-1, plus n(n-1)/2^129 for the difference between a random permutation and uniform blocks; for a session, whose rejection sampling has no fixed length, the second advantage, the second birthday term and the chance that n uniform blocks do not suffice are added.", "quantifier": "every test of all that is returned (secrets included), every history of calls, every parameter set, list of messages and pair of external distributions, every number n of blocks up to 2^128, both architectures", "why_tests_cant": "A statement about all adversaries and the uniform distribution over 2^128 seeds; a test samples a few.", "anchors": ["algebra/src/utils/prg.rs: Prg", "algebra/src/utils/aes.rs: Aes", "bool/examples/bfhe.rs", "fhe_core/src/secret_key.rs: SecretKeyPack::new, encrypt", "bool/src/bfhe/evaluate.rs: EvaluationKey::new"]}
{"id": "C84", "title": "Every randomised unit test of the algebra crate passes on every draw", "statement": "Whatever the random generator draws, the unit tests of the algebra crate (construction and reduction modulo plain, Barrett and power-of-two moduli, powers, inverses, precomputed factors, extended gcd, primality, the two hard-coded fields, blocks, the seeded generator, a derived field and its decomposition) pass, so that a failing run means a defect in the code.", "quantifier": "every value each test can draw: all moduli and words of the ranges it names, all field elements, all seeds, all bases drawn by the primality test", "why_tests_cant": "A run of a test settles one draw; that it cannot fail on another one is a statement about all draws.", "anchors": ["algebra/src/modulus/barrett/mod.rs: tests", "algebra/src/modulus/barrett/ops.rs: tests", "algebra/src/modulus/powof2/mod.rs: tests", "algebra/src/modulus/shoup/mod.rs: tests", "algebra/src/modulus/baby_bear/mod.rs: tests", "algebra/src/modulus/goldilocks/mod.rs: tests", "algebra/src/utils/gcd.rs: tests", "algebra/src/utils/prime.rs: tests", "algebra/src/utils/block.rs: tests", "algebra/src/utils/prg.rs: tests", "algebra/tests/derive_test.rs"]}
{"id": "C85", "title": "Every randomised test of polynomials and ciphertexts passes on every draw", "statement": "Whatever the random generator draws, the tests of polynomials (round trip of the transform, transform of monomials, product against the schoolbook product, decomposition, evaluation) and of ciphertexts (addition and subtraction of LWE and RLWE ciphertexts, decryption of sums, sample extraction, products with gadget and RGSW ciphertexts) pass, so that a failing run means a defect in the code.", "quantifier": "every value each test can draw: all polynomials, keys, masks and messages, all noises up to a bound, every degree of a monomial", "why_tests_cant": "A run of a test settles one draw; that it cannot fail on another one is a statement about all draws.", "anchors": ["algebra/tests/polynomial_test.rs", "lattice/tests/lattice_test.rs"]}
{"id": "C86", "title": "Any program of linear operations on LWE ciphertexts computes on the messages", "statement": "A sequence of additions, subtractions, negations, scalings and scaled additions, by value or in place and with any sharing of intermediate ciphertexts, runs without panic on fresh encryptions; each resulting ciphertext decrypts to what the same sequence computes on the messages modulo t, and reports as noise what it computes on the errors, if that stays within q/(2t); beyond it the decryption is wrong. If all errors are at most E, weight times E below q/(2t) suffices, the weight being computed from the program alone.", "quantifier": "every program of any length, every key, mask, message, error and constant (negative ones included), all powers of two t < q of a word; the phases for every kind of modulus", "why_tests_cant": "Programs are unboundedly many and the errors add up along them; tests run a single addition on a few draws.", "anchors": ["lattice/src/lwe.rs: LWE::add_reduce_component_wise, add_reduce_component_wise_ref, add_reduce_inplace_component_wise, sub_reduce_component_wise, sub_reduce_component_wise_ref, sub_reduce_inplace_component_wise, neg_reduce, scalar_mul_reduce_inplace, add_assign_rhs_mul_scalar_reduce", "fhe_core/src/secret_key.rs: encrypt, decrypt, decrypt_with_noise"]}
{"id": "C87", "title": "Programs on ring ciphertexts, multiplexers and encrypted table lookup compute on the plaintexts", "statement": "A sequence of additions, subtractions, external products with RGSW ciphertexts, multiplications by X^r - 1 and additions of a rotated ciphertext, by value or in place and with any sharing, runs without panic on well-formed ciphertexts; every result encrypts the same sequence computed on the plaintext polynomials modulo X^n + 1, with noise at most a bound computed from the sequence. A multiplexer x + R(y - x) returns the phase of the operand chosen by the encrypted bit up to the noise of one external product, so that a tree of them looks up a table of 2^d ciphertexts by d encrypted bits with noise growing by d external products only; the constant coefficient can be extracted as an LWE ciphertext with no more noise, and with messages scaled by delta and noise below delta/2 a ciphertext encrypts one list of messages only.", "quantifier": "every program of any length, every number of selectors and table, every prime field and table of the transform, every accepted basis, every key and all noises below a bound", "why_tests_cant": "Programs and tables are unboundedly many and the bound must hold for all noises; tests run one product on a few draws.", "anchors": ["lattice/src/rlwe.rs: RLWE::add_element_wise_ref, add_assign_element_wise, sub_element_wise_ref, sub_assign_element_wise, mul_monic_monomial_sub_one_inplace, add_assign_rhs_mul_monic_monomial, mul_ntt_rgsw, mul_assign_ntt_rgsw, extract_lwe", "lattice/src/rgsw.rs: NTTRGSW"]}
{"id": "C88", "title": "A product of RGSW ciphertexts encrypts the product of the messages", "statement": "Multiplying any number of RGSW ciphertexts never panics and gives an RGSW encryption of the product of their messages modulo X^n + 1; each factor multiplies the noise accumulated so far by the norm of its message and adds the noise of one external product. For encrypted bits the result encrypts their conjunction with noise growing linearly in their number, and drives a multiplexer that returns the second operand exactly if all bits are set.", "quantifier": "every number of factors, every prime field and table of the transform, every accepted basis, every key, all messages and all noises below a bound", "why_tests_cant": "The number of factors is unbounded and the bound must hold for all noises; tests multiply two ciphertexts on a few draws.", "anchors": ["lattice/src/rgsw.rs: RGSW::mul_small_rgsw, mul_small_ntt_rgsw, NTTRGSW", "lattice/src/rlwe.rs: RLWE::mul_ntt_rgsw, mul_assign_ntt_rgsw"]}
