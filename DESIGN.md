# Formal model of primus-fhe in Rocq

Everything below is about `/repo` read as text; no Rust is built or run.

Layout of `rocq/theories`:

* `Spec/`: vocabulary of the statements, independent of the model (residues, negacyclic products,
  phases, noise, gate truth tables, counting).
* `Model/`: the code, function by function; every definition cites the lines it models.  No proofs.
* `Proofs/`: lemmas.
* `Props/Cxx.v`: the theorems of property Cxx, each followed by `Print Assumptions`, and examples
  (`Example Cxx_...`) that run a concrete, non-trivial instance meeting the hypotheses.

`MANIFEST.json` maps properties to theorems, `seeded/LOG.jsonl` records the wrong programs tried.

## 1. Modelling conventions

* A machine word of width `B` is a `Z` in `[0, 2^B)`.  `B` is a parameter wherever the code is a macro or
  a generic over the width, so those theorems hold for every even width >= 4, including 8, 16, 32, 64.
  `usize` is 64 bits.
* Every Rust function is a total Gallina function in the `option` monad.  `None` is *any* panic:
  debug-profile arithmetic overflow, shift overflow, failed `assert!`/`debug_assert!`, index out of
  bounds, `unwrap` on `None`/`Err`, `unreachable!`.  A theorem concluding `f x = Some y` says that
  neither the debug nor the release build panics.  Wrap-around happens only through the explicit
  `wrapping_*`/`overflowing_*` operations, modelled modulo `2^B`, so the release build computes the
  same value.  This is proved, not only argued: `Model/OptArith.v`, `OptRing.v` and `OptScheme.v` are the
  same functions in the release profile, and C76 shows they return what the checked ones return whenever
  those return.  `Model/Release.v` (C71) models the unchecked table reads of the monomial transforms.
* Functions that return `Result` return `option (res _)` or `option (option _)`: the outer layer is the panic.
* Loops over a range are structural recursion on the range.  `while`/`loop` are recursion on explicit
  fuel, together with a proof that the fuel suffices (termination).
* Slices and vectors are lists.  In-place functions return the new contents; the old contents of a
  destination are an argument whenever the code can leave part of it in place.
* Random draws are explicit arguments (streams or lists); theorems quantify over all of them.
* `f64` is IEEE-754 binary64 as defined by the standard library's `SpecFloat` (pure integer definitions,
  no axioms): correctly rounded `*`, `/`, conversions, then `round`, saturating casts.
* Polynomials modulo `X^N+1` are coefficient lists of length `N`.
* Noise is worst case in most theorems about homomorphic operations: they take a bound on every noise
  coefficient and give a bound on the result.  C60, C62, C63 and C65 are about probabilities: there the
  draws are finitely supported weighted lists, and the bounds are exact rational inequalities.
* The transform tables behind polynomial, ring, gadget and bootstrapping operations are those of either
  build: the in-repo `NTTTable`, or, for 32- and 64-bit fields with the default feature `concrete-ntt`,
  plans of that external crate (C66).  What is assumed of the crate is `Spec/ConcreteNtt.v`.
* A property whose full statement is false of the code stays in the list with its full statement.  The
  theorem that shows it false ends in `_refuted`; the strongest true restriction ends in `_partial`.

## 2. Per property: what is modelled, how it is proved

| Property | Model | Proof |
|---|---|---|
| C01 | `Reduce.v`: `add/sub/neg_reduce` on checked words | case analysis, lia (`ReduceProofs`) |
| C02, C03, C04 | `Barrett.v`: `new` with both division paths, lazy and strict reduction of one word, two words and slices, carry by carry | floor-division algebra, a no-overflow lemma for the carries, induction on the slice (`BarrettProofs`) |
| C05 | `Barrett.v`: the three exponentiation loops | invariant intermediate * power^rest (`BarrettProofs`) |
| C06, C07, C08 | `Gcd.v`: binary gcd, extended gcd and the modular inverse loops | loop invariants (Bezout identity, sign and size bounds), fuel sufficiency by a decreasing measure (`GcdProofs`, `GcdMore`, `GcdWide`). C08 refuted for zero and for large operands; on wide words shown to panic or give the right gcd |
| C09 | `Shoup.v` | quotient estimate off by at most one (`ShoupProofs`) |
| C10 | `PowOf2.v` | masking is `mod 2^k`; congruences (`PowOf2Proofs`) |
| C11 | `Barrett.v`: the 16-way chunked dot product | exact returned value; refuted for an incomplete last chunk |
| C12 | `BabyBear.v`: Montgomery form, inverse addition chain | congruences modulo p; primality of the modulus by a Pratt certificate (`BabyBearProofs`) |
| C13 | `Goldilocks.v`: 96/128-bit reductions, the x86-64 assembly of the word addition, inverse chain | word-level case analysis; Pratt certificate (`GoldilocksProofs`) |
| C14, C15 | `Prime.v`: small-prime sieve, Miller-Rabin rounds with the draws as a stream | Fermat and square roots of one modulo a prime (`PrimeProofs`); C15 refuted by a composite accepted for every draw; exact acceptance condition (`PrimeChanceProofs`), and Rabin's quarter bound on the bases that pass, by counting square roots of one over the Chinese remainder factors (`LiarProofs`) |
| C16, C17 | `Field.v`: what `#[derive(Field, Prime, ...)]` generates, over any accepted modulus | on top of C01-C06 (`FieldProofs`) |
| C18, C19 | `Field.v`: `decompose*`, `Basis::new` | induction on the digits (`FieldProofs`) |
| C20, C21, C24, C45 | `NTT.v`: root search, table generation, bit reversal, butterflies with lazy ranges, monomial shortcuts | a divide-and-conquer specification of evaluation at the odd powers; invariants of the layers; lazy-range bounds; order arguments in F_p (`NTTProofs`, `NTTTableProofs`) |
| C22, C23, C46, C48 | `Poly.v`, `NTT.v` | evaluation homomorphism and inverse transform; schoolbook negacyclic product as specification (`PolyProofs`, `PolyMain`, `MonomialProofs`); C48 also gives the pseudo-inverse returned for every operand (`PolyInvProofs`), C22 and C23 the exact panics (`MonomialMore`) |
| C25 | `Cache.v`, part 1: histories of calls on the lazily filled map with errors, panics and poisoning | induction on the history (`CacheProofs`) |
| C26 | `Cache.v`, part 2: interleavings of threads at the granularity of map accesses and the mutex | invariant over schedules; race witness (`CacheProofs`) |
| C27, C47 | `Plaintext.v` | shift/round algebra (`LweProofs`) |
| C28, C29 | `Lwe.v` (generic over the modulus operations) | phases modulo q (`LweProofs`) |
| C30, C31 | `Rlwe.v`: extractions, monomial rotations | coefficient extensionality modulo X^n+1 (`RingProofs`, `RlweProofs`) |
| C32, C33, C34 | `Gadget.v`: gadget products (five in-place/lazy variants), external and internal products, fresh samples | induction on the rows, digit bounds from C18, convolution bounds (`GadgetProofs`, `GadgetMain`, `RgswProofs`, `SampleProofs`) |
| C35, C36 | `BlindRotation.v`: accumulator loops and key generation | induction on the key, one external product per step (`BlindProofs`, `BlindKeyProofs`) |
| C37 | `KeySwitch.v`, word decomposition and LWE switching keys | induction on levels and digits (`LweSwitchProofs`) |
| C38 | `KeySwitch.v`, ring switching keys (chunks, padding, partial extraction) | sum over chunks of gadget products (`RingSwitchProofs`, `RingSwitchKeyProofs`) |
| C39 | `ModSwitch.v` over `SpecFloat` binary64 | error analysis of one rounded division (`FloatProofs`, `ModSwitchProofs`) |
| C40, C41 | `Boolean.v`: tables, bootstrapping, all gates | table lookup by phase, then noise composition through C35-C39; induction on circuits (`LutProofs`, `GateProofs`) |
| C42 | `Params.v` | case analysis; totality through C41/C49 (`ParamsProofs`); refuted witnesses for the missing checks |
| C43, C44 | `Sample.v`: samplers as functions of the raw random words | exact counting of preimages (`RandomProofs`) |
| C49 | `SecretKey.v`: key packs, evaluation keys, encrypt/decrypt | composition of C28, C34-C38, C41 (`KeyGenProofs`) |
| C50 | Model/Block | little-endian byte strings; bit-by-bit for the operators |
| C51 | Model/Aes against Spec/Aes (FIPS-197, own S-box from field inversion) | schedule by words; Arm path reduced to x86 path; rounds by folding; S-box table by computation over 256 bytes |
| C52 | Model/Aes | loop invariant over groups of eight, remainder by cases |
| C53 | Spec/Aes inverse cipher | each layer inverted; MixColumns by linearity |
| C54 | Model/Prg against Spec/Stream | refinement: generator state stands for a stream position; induction over histories |
| C55 | Model/Gaussian on the standard library's executable binary64, values read as rationals in Spec/Gauss | comparison = order of exact values; rounding spec; loop induction over draws; correct rounding of subtraction over the full exponent range for arbitrary means; refuted for deviation 0, non-finite means and small moduli |
| C56 | Model/Base word primitives, chains in Spec/Limbs | single step exactness, induction over the words |
| C57 | Model/FieldText against Spec/Decimal | residue arithmetic; digit induction |
| C58 | Model/Count: threads over three atomics | invariant counted + pending + to come, over all schedules; simulation for one thread |
| C59 | Model/DecomposeAt | zip loop = digit split; induction over the buffers |
| C60 | existing blind rotation model; Spec/Moment (finite weighted distributions), Spec/Noise | exact noise of the run as a linear form in the drawn noise given the earlier draws; second moments add up along the loop because each step is centred given the past; Chebyshev |
| C61 | Model/Sampled: the draws of key generation and encryption from the samplers of Model/Gaussian | a panic/loop-aware composition rule; sampler bounds of C55 give the draws C49 assumes |
| C62 | Spec/SubGauss; the noise of C60 for every notion of size closed under the rules of [calculus] | moments of s + Gaussian as polynomials in s obeying a binomial convolution; even ones are monotone; the noise of a step can be traded for Gaussian noise one draw at a time; Markov; the binomial weights by Pascal's rule |
| C63 | Spec/Boot: the randomness of a whole evaluation key (masks included) as a weighted list; Model/SecretKey, Boolean, KeySwitch, ModSwitch as in C41; Model/Shipped | exact error of a bootstrap by expansion of rotation, extraction, switching and rounding; the rounding errors of the mask are uniform because the switched mask is uniform wherever the rotated mask has a nonzero slot; zero slots are counted by the potential argument of the C60 family; the moment calculus of C62 bounds the sum; Markov; a union bound. mux is left out: its last bootstrap takes inputs that depend on the key |
| C64 | Model/Rlwe, Gadget: the linear operations | coefficient-wise exactness, the transform is linear and multiplicative, phases compared by evaluation at the roots; gadget rows one by one |
| C65 | Spec/BootLwe: the randomness of an evaluation key with an LWE switching key as a weighted list; models as in C63 | exact error of rotation, extraction, modulus switching and LWE key switching; the error of rounding the mask is independent of the key noise, each part has its own Gaussian tail; zero slots counted as in C63; union bound of three events. mux is left out as in C63 |
| C66 | Model/Concrete: the wrapper around the external crate and the choice of table by the derive macro; the crate by its contract in Spec/ConcreteNtt | the proofs about polynomials go through a predicate both kinds of table meet; the odd powers of any two primitive roots are permutations of each other; the in-repo table is shown to meet the contract |
| C67 | Spec/Layer: gates over literals, encryption of a list of bits, one failure event for all gates, a whole run from the random words of the secret key; Model/SecretKey, Sample, Boolean as in C63 and C65 | negation is exact, so a literal is a ciphertext with the same noise; each gate by C63 or C65; union bound over the shared evaluation key; the weight of a sampled ternary key by Chernoff's method, the values counted exactly (C44); the two kinds of randomness as a product. Gates on outputs of gates are left out: their inputs depend on the evaluation key's randomness |
| C68 | existing models of the polynomial, ciphertext and gate operations; lengths are those of the lists | case analysis on the checks; loops over zipped slices equal the loop on the common prefix followed by the rest of the destination. Refuted in full by operations without a check, down to a gate fed with ciphertexts longer than the key |
| C69 | Spec/BootBin: the randomness of an evaluation key with a binary rotation key as a weighted list; models as in C63 and C65 | as C63 and C65 with one ciphertext per key entry: exact output of the binary rotation, law of its mask and noise, the rest of the bootstrap unchanged |
| C70 | Model/Derive: the syntax tree handed over by syn (Spec/Declare), reading of the struct, the attributes and the integer literal, the size check | induction on attributes and on digits |
| C71 | Model/Release: the monomial transforms with wrapping index products, without the length assertion, writing into an existing destination; an out-of-bounds unchecked read is None | twice the size divides 2^64, so masking the wrapped product is reduction modulo twice the size; then as C23; induction over the zip |
| C72 | existing Model/NTT; the hundred draws as vectors of numbers below p-2 | Euler's criterion by Fermat and the bound on the roots of x^h = c; the search succeeds exactly when some draw is a non-square; counting over vectors is multiplicative |
| C73 | Model/Threads: threads as programs of requests; one step per access to the cell or the mutex; generation with tables, errors, panics and poisoning | invariant of the shared state (mutual exclusion, what the holder has still to fill, sizes each thread knows) with a backward relation on results; termination by accessibility, thread by thread |
| C74 | Model/Tally: the functions of a gate and of key generation repeated in a monad that also returns the counted transforms | erasing the calls gives back the original functions, one lemma each; a rule for sequences of calls with what the earlier code returned; shapes of generated keys by induction; counters by C58 |
| C75 | existing Model/SecretKey.kp_encrypt; worlds, adaptive choices and acceptance counts in Spec/Hiding | an encryption is the LWE sample with the scaled message added to its body; adding a constant permutes the residues, one body after the other (induction on the number of ciphertexts); counting over all bodies |
| C76 | Model/OptArith, OptRing, OptScheme: 296 copies of the definitions of the other model files with wrapping arithmetic and without debug assertions (hard assertions, indexing, unwrap kept); Spec/Profiles | refinement: agreement where the checked computation returns is preserved by sequencing, loops, maps and folds (Proofs/Refine), then one lemma per definition in program order; the end-to-end statement from C49 |
| C77 | Model/OptArith, OptRing as for C76 | rows added up to the shortest list (`OptBases`); the exponentiation loops with the accumulator congruent to the power; the gadget loop without the last unused power; the operations on zipped lists by induction; exact values of decoding and negation; the two working numbers of the extended gcd do not depend on the coefficients (`OptGcd`) |
| C78 | existing Model/BlindRotation, KeySwitch, SecretKey; worlds, planting and acceptance counts in Spec/HidingKeys | each generated row is an encryption of zero with a known amount added to mask or body (transform of a constant is a constant vector; powers of the basis by induction over rows and levels); adding known amounts entry by entry permutes the finite set of all rows (Proofs/Shuffle); counting over it |
| C79 | Model/CountRelaxed: the calls with a happens-before order, a modification order per static and reads-from, coherent as the language demands; the interleavings of Model/Count | the modification order of a counter consists of the counted transforms, once each; coherence places clears and reads in it; an invariant over schedules with a log of the accesses gives the execution of an interleaving; the reordering by enumerating a closed finite set of states |
| C80 | Model/Stream: key generation and encryption as computations that thread one generator and count the requests made; Spec/OneStream | locality by composition over every definition; each generating function refines the per-sample model (Model/Sampled) on the sources read off its stretch, by induction over rows, levels and secret entries; then C61 and C49 |
| C81 | Model/Stream over any type of generator states; Model/Seeded: the seeded generator (Model/Prg) with the external distributions as arbitrary programs that read words; Spec/Machine: generators with a state, the states visited, reading a stream | every generating function is a tree of requests (`Reify`, one lemma per definition); by induction over trees: the answers in the states visited determine the result, generators related by a simulation give the same, reading a stream uses its own segment only; the seeded generator is related to its stream by the invariant of C54; then C80 |
| C82 | Model/Example: the four example programs as functions of their parameters, bits, elements and generators, with every assertion a panic; Spec/Example: one pass in the clear | the invariant that each ciphertext of a pass holds its bit with a small error, kept by every gate (C49) and checked against the noise bound computed in f64; key generation and encryption from C80 and C81; the encoding program by C27; the converse (a run that ends has decrypted the right bits) from the assertions alone, under no hypothesis; the field program from the field, transform and inverse theorems |
| C83 | existing Model/Prg, Aes, Stream, Seeded; chances, permutations and uniform blocks in Spec/Cipher | prefixes of permutations are arrangements, equally often each; arrangements are among the lists of blocks, as are their complements; falling factorials against powers by induction on n; the generator answers from the encryptions of the counters (C54), a program from the words it reads only (C81) |
| C84 | Model/UnitTests: the unit tests of the algebra crate as functions of what they draw, with every assertion a panic and the reference computations written in the tests (powers, trial division up to a root computed in f64) | each assertion from the theorem about the operation tested (C01-C12, C52-C55 and others); trial division against primality with the f64 root bounded (`UnitTestPrime`); for the four that can fail, the exact set of failing draws and a witness |
| C85 | Model/RingTests: the randomised tests of polynomials and of lattice ciphertexts as functions of what they draw, with the schoolbook product, the hand-made encryptions and the f64 encoding, decoding and norms written in the tests | each assertion from the theorems about products, decomposition, gadget and RGSW products (C22-C33); decoding of f64 values exact below 2^52, so a noise below the distance to the decoding boundary changes nothing; failing draws at a boundary in every field, and exactly for LWE sums; a norm of zero is not above any other, by cases on the float |
| C86 | existing Model/Lwe and Model/Plaintext; Spec/LinProg: straight-line programs over registers, run with the library's operations, on integers and on weights | a relation between the registers of two runs kept by every step (one lemma for any two runs), instantiated with phases (C29), with pairs of message and error, and with bounds; decryption depends on the phase only (C28) |
| C87 | existing Model/Rlwe and Model/Gadget; Spec/RingProg: straight-line programs over ring registers and RGSW ciphertexts, run with the library's operations and on pairs of a polynomial and a noise bound, the multiplexer and its tree | a relation between registers and pairs kept by every step: C64 for sums, C33 for external products with the norm of the RGSW message, C31 for rotations; the multiplexer as a program started from the phases themselves; the tree by induction over the selectors |
| C88 | existing Model/Gadget; Spec/RingProg: products of lists of RGSW ciphertexts and of messages with noise bounds | each row of a product is the external product of a row with the second factor (C33), whose phase is that of the row times the message plus noise; both halves by induction over the rows, the list by induction over the factors; bits as constant polynomials; then C87 |

## 3. What is modelled and what is not

Modelled (with the lines cited in each definition):

* `algebra/src`: `reduce`, `modulus/{barrett,shoup,powof2,baby_bear,goldilocks}`, `utils/{gcd,prime,reverse}`,
  the derive macros of `algebra_derive` as the functions they generate and the items they accept, `field`, `decompose_basis`,
  `transformation/{ntt_table,concrete}`, `polynomial`, `random`, `utils/sample`, `random.rs` Gaussian samplers (normal draws as input), `utils/{block,aes,sse2neon,prg}` (CPU instructions and the `rand_core::block::BlockRng` buffer from their documentation).
* `lattice/src`: `lwe`, `rlwe`, `gadget/rlwe`, `rgsw`, `utils/{decompose_basis,sample}`.
* `fhe_core/src`: `plaintext`, `secret_key`, `blind_rotation`, `key_switch`, `modulus_switch`, `parameter`.
* `bool/src`: `bfhe/evaluate`; the thin wrappers `encrypt`, `decrypt`, `key_gen` are the functions they call.

Simplifications, each noted at its definition:

* By-value, by-reference and assigning forms that run the same loop body share one definition.
* Interleavings (C26) keep only the accesses to the shared map and the mutex; hash-map internals, weak
  memory and allocation are not modelled.  `rayon::join` is sequential composition; the
  closures share only the table cache, and C73 shows the order of their accesses does not matter.
* Pre-allocated workspaces (`lattice/src/utils/space.rs`) appear through their lengths and their stale contents.

Not modelled:

* External crates: `rand`/`rand_distr` generators (their output is a universally quantified input), `serde`
  encodings, `rayon` scheduling, and `concrete-ntt`.  The last one is behind the default feature of the
  same name and transforms for 32- and 64-bit fields.  Its wrapper (`transformation/concrete.rs`) is
  modelled; its plans are universally quantified, and `Spec/ConcreteNtt.v` states what is assumed of
  them: a primitive root, forward transforms of canonical input are evaluations in bit-reversed order,
  inverse followed by normalisation undoes them on values below `2p` (the range the repository's trait
  documentation asks of every implementation; the crate is not here to be read), monomials likewise.
  C66 shows that the in-repo tables meet this contract and that results do not depend on the build.
  C20 and C21 are about the in-repo table alone.
* `Debug` formatting, `Clone`/`AsRef`/`Hash` boilerplate, iterators and getters, error texts, benches,
  and tests that draw nothing (the example programs are modelled, C82, without their printing and
  threads, and so are the randomised tests, C84 and C85).  The
  counters of the `count_ntt` feature are modelled as interleavings (C58) and
  under the relaxed memory model of the language (C79).
* Hardness of LWE and RLWE: C75 and C78 reduce the hiding of messages and of the published keys to the
  uniformity of LWE samples and of encryptions of zero, which is assumed, not proved.  So is the
  pseudo-randomness of AES in C83.  Timing and memory
  layout.

## 4. Trusted base

* The Coq 8.16.1 kernel, including its `vm_compute` machine (used by examples, witnesses of `_refuted`
  theorems and a few closed computations).
* `Print Assumptions` answers `Closed under the global context` for every theorem listed in
  `MANIFEST.json`: no axiom is used, neither of the standard library nor of another one.
* Library files loaded transitively contain axioms that no theorem here depends on
  (`coqchk -o` lists them because it lists the whole context): `ssr.ssrunder`'s `Under_rel.*`, reached
  through standard-library modules.
* No `Axiom`, `Parameter`, `Conjecture`, section-less `Variable`/`Hypothesis`, `Admitted`, functor or
  module type; no kernel check is switched off; no plugin is used.
* The reading of Rust recorded in section 1, and the fidelity of each definition to the cited lines.
